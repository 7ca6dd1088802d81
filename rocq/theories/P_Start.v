(** Property C126: from the command line and the files on the disk to the first configuration.  Puts together the grammars of command lines (SpecArgs.v)
    and of configuration files (SpecToml.v). *)
From Coq Require Import Strings.Byte.
From Verif Require Import GoBase Cli SpecCli CliProofs Kingpin SpecArgs ArgsProofs P_Args Toml SpecToml TomlProofs TomlMeaning P_Toml SpecFile.

(** * C126 The program runs with what the file named on its command line says *)

(** Reading the file [p] gives what the model of readServerConfig (Toml.v) gives for its content, where that says anything. *)
Definition reads_from (file : bytes -> res bytes) (read : bytes -> res config) (p : bytes) : Prop :=
  exists order, map_order order /\ forall r, readServerConfig order (file p) = Some r -> read p = r.
(** The command line asks for the server to be run with the file [p], for a program started as [argv0]. *)
Definition run_with (argv0 : bytes) (args : list bytes) (p : bytes) : Prop :=
  exists l d, command_line args l /\ once l /\ ~ wants_info l /\ beside argv0 d /\ asked_for l d p.

(** If the file asked for holds a document with one meaning and can be watched, the server is run, once, with that configuration; the program ends with exit code 0 if and only if the server ends without an error. *)
Theorem C126_started : forall file read watch server argv0 args p t cfg, run_with argv0 args p -> reads_from file read p ->
  file p = Ok t -> names t cfg -> watch p = None ->
  exists fx code, main read watch server argv0 args = Some (fx, code) /\ served fx = [cfg] /\ (code = Some 0 <-> server cfg = None) /\ (code = Some 1 <-> server cfg <> None).
Proof.
  intros file read watch server argv0 args p t cfg (l & d & C & O & W & B & A) (order & MO & R) F (e & D & N & WT & UA & SA) Wt.
  destruct (decode_document _ _ _ MO D N WT) as (cfg' & H & S'). assert (cfg' = cfg) as -> by exact (says_unique e cfg' cfg N UA S' SA).
  assert (read p = Ok cfg) as Rp by (apply R; rewrite F; exact H).
  unfold main. rewrite (proj2 (Parse_accepts args _) (ex_intro _ l (conj C (conj O eq_refl)))). rewrite run_unfold. cbn [e_parsed e_default e_read e_watch e_server].
  rewrite (default_beside argv0 d B). assert (path_of d (flat_map setting_of l) = p) as -> by exact (asked_unique l d _ _ O (path_asked l d O) A).
  destruct (asks_info (flat_map setting_of l)) eqn:I; [destruct W; now apply info_wanted|]. cbv zeta. rewrite Rp, Wt.
  destruct (server cfg) as [x|] eqn:Sv; (eexists _, _; split; [reflexivity|split; [reflexivity|]]); split; split; congruence.
Qed.
Print Assumptions C126_started.
(** If it cannot be read, or holds no document, gives a key twice or a field a value that is no string, the server is not run: an error is printed, exit code 1. *)
Theorem C126_broken : forall file read watch server argv0 args p, run_with argv0 args p -> reads_from file read p ->
  (forall x, file p <> Panic x) -> (forall order, map_order order -> readServerConfig order (file p) <> None) ->
  (forall t l, file p = Ok t -> document t l -> NoDup (map fst l) -> ~ well_typed l) ->
  exists b e, main read watch server argv0 args = Some ([ConfigureLogger b; ReadConfig p; PrintConfigError e], Some 1).
Proof.
  intros file read watch server argv0 args p (l & d & C & O & W & B & A) (order & MO & R) NP S0 F.
  destruct (C122_refused order (file p) MO (S0 order MO) NP) as [(t & e & Ft & D & N & WT)|(x & E)]; [now destruct (F t e Ft D N)|]. apply R in E.
  unfold main. rewrite (proj2 (Parse_accepts args _) (ex_intro _ l (conj C (conj O eq_refl)))). rewrite run_unfold. cbn [e_parsed e_default e_read e_watch e_server].
  rewrite (default_beside argv0 d B). assert (path_of d (flat_map setting_of l) = p) as -> by exact (asked_unique l d _ _ O (path_asked l d O) A).
  destruct (asks_info (flat_map setting_of l)) eqn:I; [destruct W; now apply info_wanted|]. cbv zeta. rewrite E. eauto.
Qed.
Print Assumptions C126_broken.
(** If the file asked for holds a document as far as it has been written, the program ends with an error, or it runs the server once, each of the two fields being
    that of the finished document or empty. *)
Theorem C126_half_written : forall file read watch server argv0 args p written missing cfg, run_with argv0 args p -> reads_from file read p ->
  file p = Ok written -> names (written ++ missing) cfg ->
  exists fx code, main read watch server argv0 args = Some (fx, code) /\
    (served fx = [] /\ code = Some 1 \/
     exists cfg', served fx = [cfg'] /\ (Listen cfg' = Listen cfg \/ Listen cfg' = []) /\ (DatabaseURL cfg' = DatabaseURL cfg \/ DatabaseURL cfg' = [])).
Proof.
  intros file read watch server argv0 args p w m cfg (l & d & C & O & W & B & A) (order & MO & R) F (e & D & N & WT & UA & SA).
  assert (forall o, map_order o -> readServerConfig o (Ok (w ++ m)) = Some (Ok cfg)) as H.
  { intros o Ho. destruct (decode_document _ _ _ Ho D N WT) as (cfg' & H & S'). rewrite <- (says_unique e cfg' cfg N UA S' SA). exact H. }
  unfold main. rewrite (proj2 (Parse_accepts args _) (ex_intro _ l (conj C (conj O eq_refl)))). rewrite run_unfold. cbn [e_parsed e_default e_read e_watch e_server].
  rewrite (default_beside argv0 d B). assert (path_of d (flat_map setting_of l) = p) as -> by exact (asked_unique l d _ _ O (path_asked l d O) A).
  destruct (asks_info (flat_map setting_of l)) eqn:I; [destruct W; now apply info_wanted|]. cbv zeta.
  destruct (C123_half_written w m cfg H order MO) as [(x & E)|(cfg' & E & X)]; rewrite <- F in E; apply R in E; rewrite E; [eexists _, _; split; [reflexivity|left; split; reflexivity]|].
  destruct (watch p) as [x|]; [eexists _, _; split; [reflexivity|left; split; reflexivity]|]. destruct (server cfg') as [x|]; (eexists _, _; split; [reflexivity|right; exists cfg'; split; [reflexivity|exact X]]).
Qed.
Print Assumptions C126_half_written.
(** No other file matters. *)
Theorem C126_only_that_file : forall read read' watch watch' server argv0 args p, run_with argv0 args p -> read p = read' p -> watch p = watch' p ->
  main read watch server argv0 args = main read' watch' server argv0 args.
Proof.
  intros read read' watch watch' server argv0 args p (l & d & C & O & W & B & A) R Wt.
  unfold main. rewrite (proj2 (Parse_accepts args _) (ex_intro _ l (conj C (conj O eq_refl)))). rewrite !run_unfold. cbn [e_parsed e_default e_read e_watch e_server].
  rewrite (default_beside argv0 d B). assert (path_of d (flat_map setting_of l) = p) as -> by exact (asked_unique l d _ _ O (path_asked l d O) A). cbv zeta. now rewrite R, Wt.
Qed.
Print Assumptions C126_only_that_file.
(** README.md calls both fields mandatory, but the empty file starts the server, with both of them empty. *)
Theorem C126_empty_refuted : forall file read watch server argv0 args p, run_with argv0 args p -> reads_from file read p -> file p = Ok [] -> watch p = None ->
  exists fx code, main read watch server argv0 args = Some (fx, code) /\ served fx = [Config [] []].
Proof.
  intros file read watch server argv0 args p RW RF F Wt. destruct (C126_started file read watch server argv0 args p [] (Config [] []) RW RF F) as (fx & code & M & S0 & _); [|exact Wt|eauto].
  exists []. split; [constructor|]. split; [constructor|]. split; [intros ? ? _ (k & [] & _)|]. split; [intros ? ? ? ? ? _ []|]. split; right; (split; [reflexivity|intros v (k & [] & _)]).
Qed.
Print Assumptions C126_empty_refuted.

(** The example of README.md:62-65, started as in README.md:25; and a file that ends inside a string. *)
Definition readme_file : bytes := str "listen = ""0.0.0.0:4242""" ++ [x0a] ++ str "database-url = ""postgres://localhost/hired_dev""" ++ [x0a].
Definition readme_keys : list (bytes * value) := [(listen, VString (str "0.0.0.0:4242")); (database_url, VString (str "postgres://localhost/hired_dev"))].
Definition disk (p : bytes) : res bytes := if bytes_eqb p (str "/path/to/config.toml") then Ok readme_file else if bytes_eqb p (str "cut.toml") then Ok (str "listen = "":42") else Err (ErrExternal 1).
Definition disk_read (p : bytes) : res config := match readServerConfig (fun l => l) (disk p) with Some r => r | None => Panic PanicIndex end.
Definition readme_config : config := Config (str "0.0.0.0:4242") (str "postgres://localhost/hired_dev").
Lemma disk_reads p : reads_from disk disk_read p.
Proof. exists (fun l => l). split; [intros l; reflexivity|]. intros r H. unfold disk_read. now rewrite H. Qed.
Lemma run_with_config p : run_with (str "gevulot") [str "--config=" ++ p] p.
Proof.
  exists [Path p], (str "gevulot.toml"). split; [apply cl_config_is; constructor|]. split; [repeat constructor|]. split; [intros H; apply info_wanted in H; discriminate|].
  split; [left; split; [cbn; intuition discriminate|reflexivity]|left; now left].
Qed.
Lemma readme_names : names readme_file readme_config.
Proof.
  assert (document readme_file readme_keys /\ NoDup (map fst readme_keys)) as [D N] by (apply (TomlProofs.parse_spec readme_file); vm_compute; reflexivity).
  exists readme_keys. split; [exact D|]. split; [exact N|]. split; [|split].
  - apply typed_fields. intros k f v [[= <- <-]|[[= <- <-]|[]]]; vm_compute; intros [= <-]; eauto.
  - intros n k k' v v' [->| ->] I I' K K'; [apply (field_spec k FListen) in K; apply (field_spec k' FListen) in K'|apply (field_spec k FDatabaseURL) in K; apply (field_spec k' FDatabaseURL) in K'];
      destruct I as [[= <- <-]|[[= <- <-]|[]]]; vm_compute in K; try discriminate; destruct I' as [[= <- <-]|[[= <- <-]|[]]]; vm_compute in K'; try discriminate; reflexivity.
  - split; left; [exists listen; split; [now left|apply (field_spec listen FListen); vm_compute; reflexivity]|exists database_url; split; [right; now left|apply (field_spec database_url FDatabaseURL); vm_compute; reflexivity]].
Qed.
Example C126_instance : forall watch server, watch (str "/path/to/config.toml") = None ->
  (exists fx code, main disk_read watch server (str "gevulot") [str "--config=/path/to/config.toml"] = Some (fx, code) /\
    served fx = [readme_config] /\ (code = Some 0 <-> server readme_config = None)) /\
  (forall p, In p [str "cut.toml"; str "absent"] -> exists b e, main disk_read watch server (str "gevulot") [str "--config=" ++ p] = Some ([ConfigureLogger b; ReadConfig p; PrintConfigError e], Some 1)).
Proof.
  intros watch server W. split.
  - destruct (C126_started disk disk_read watch server (str "gevulot") [str "--config=/path/to/config.toml"] _ readme_file _ (run_with_config _) (disk_reads _) eq_refl readme_names W) as (fx & code & M & S0 & E & _). eauto 6.
  - intros p I. apply (C126_broken disk disk_read watch server _ _ p (run_with_config p) (disk_reads p)).
    + destruct I as [<-|[<-|[]]]; discriminate.
    + intros order _. destruct I as [<-|[<-|[]]]; [|discriminate]. assert (readServerConfig order (disk (str "cut.toml")) = Some (Err (ErrExternal 2))) as -> by (vm_compute; reflexivity). discriminate.
    + intros t l F D N _. destruct I as [<-|[<-|[]]]; [|discriminate]. injection F as <-. pose proof (proj2 (TomlProofs.parse_spec _ l) (conj D N)) as P. vm_compute in P. discriminate.
Qed.
(** The same file cut after its first line: the server is run without a connection string. *)
Definition half_disk (p : bytes) : res bytes := Ok (firstn 24 readme_file).
Definition half_read (p : bytes) : res config := match readServerConfig (fun l => l) (half_disk p) with Some r => r | None => Panic PanicIndex end.
Example C126_instance_half : forall p, half_disk p = Ok (firstn 24 readme_file) /\ names (firstn 24 readme_file ++ skipn 24 readme_file) readme_config /\ reads_from half_disk half_read p /\
  run_with (str "gevulot") [str "--config=" ++ p] p /\
  main half_read (fun _ => None) (fun _ => None) (str "gevulot") [str "--config=h"] =
    Some ([ConfigureLogger false; ReadConfig (str "h"); WatchConfig (str "h"); RunServer (Config (str "0.0.0.0:4242") [])], Some 0).
Proof.
  intros p. split; [reflexivity|]. split; [rewrite firstn_skipn; exact readme_names|]. split; [exists (fun l => l); split; [intros l; reflexivity|intros r H; unfold half_read; now rewrite H]|].
  split; [apply run_with_config|]. vm_compute. reflexivity.
Qed.
