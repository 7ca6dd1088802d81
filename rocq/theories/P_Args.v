(** Property C125: from the words of the command line to the configuration file.  The grammar of command lines is in SpecArgs.v; kingpin and
    path/filepath are those of Kingpin.v. *)
From Coq Require Import Strings.Byte.
From Verif Require Import GoBase Cli SpecCli CliProofs Kingpin SpecArgs ArgsProofs PathProofs.

(** * C125 What the command line says *)

(** Words without "@" in front and without "completion-" inside are covered. *)
Theorem C125_covered : forall read watch server argv0 args, (forall w, In w args -> ~ uncovered w) -> exists r, main read watch server argv0 args = Some r.
Proof.
  intros read watch server argv0 args H. unfold main. destruct (Parse args) eqn:P; [eauto|]. destruct (Parse_none args P) as (w & I & U). destruct (H w I U).
Qed.
Print Assumptions C125_covered.
(** A command line says one thing at most. *)
Theorem C125_one_meaning : forall args l l', command_line args l -> command_line args l' -> l = l'.
Proof. intros args l l' A B. apply parse_spec in A, B. congruence. Qed.
Print Assumptions C125_one_meaning.
(** A command line that is not in the grammar, or gives a flag twice, is turned down: an error is printed, nothing is read, exit code 1. *)
Theorem C125_refused : forall read watch server argv0 args fx code, main read watch server argv0 args = Some (fx, code) ->
  ~ (exists l, command_line args l /\ once l) -> (exists e, fx = [PrintParseError e]) /\ code = Some 1.
Proof.
  intros read watch server argv0 args fx code H N. unfold main in H. destruct (Parse_refuses args) as [X|X]; [destruct (Parse args); congruence|destruct (N X)|].
  rewrite X in H. injection H as <- <-. eauto.
Qed.
Print Assumptions C125_refused.
(** A command line of the grammar that gives no flag twice: the error of C125_refused does not occur.  If help or the version is wanted nothing is
    done, exit code 0. *)
Theorem C125_info : forall read watch server argv0 args l, command_line args l -> once l -> wants_info l ->
  main read watch server argv0 args = Some ([], Some 0).
Proof.
  intros read watch server argv0 args l C O W. unfold main. rewrite (proj2 (Parse_accepts args _) (ex_intro _ l (conj C (conj O eq_refl)))). rewrite run_unfold. cbn [e_parsed].
  now rewrite (proj2 (info_wanted l) W).
Qed.
Print Assumptions C125_info.
(** Otherwise the file asked for, or else the one beside the program, is read, and it alone; it is watched and the server run if reading it
    succeeds; debug output is on if and only if --verbose or -v was given (and not --no-verbose). *)
Theorem C125_path : forall read watch server argv0 args l d p, command_line args l -> once l -> ~ wants_info l -> beside argv0 d -> asked_for l d p ->
  exists b fx code, main read watch server argv0 args = Some (ConfigureLogger b :: ReadConfig p :: fx, code) /\
    (b = true <-> In (Switch FVerbose true) l) /\ (forall q, ~ In (ReadConfig q) fx) /\ (forall q, In (WatchConfig q) fx -> q = p) /\
    (forall e, ~ In (PrintParseError e) fx) /\ (forall c, In (RunServer c) fx <-> read p = Ok c /\ watch p = None) /\
    (forall c, read p = Ok c -> watch p = None -> server c = None -> code = Some 0).
Proof.
  intros read watch server argv0 args l d p C O W B A. unfold main. rewrite (proj2 (Parse_accepts args _) (ex_intro _ l (conj C (conj O eq_refl)))). rewrite run_unfold. cbn [e_parsed e_default e_read e_watch e_server].
  rewrite (default_beside argv0 d B). assert (path_of d (flat_map setting_of l) = p) as -> by exact (asked_unique l d _ _ O (path_asked l d O) A).
  destruct (asks_info (flat_map setting_of l)) eqn:I; [destruct W; now apply info_wanted|]. cbv zeta.
  assert (verbose (flat_map setting_of l) = true <-> In (Switch FVerbose true) l) as V by exact (verbose_wanted l O).
  destruct (read p) as [c|x|x] eqn:R; [destruct (watch p) as [x|] eqn:Wt; [|destruct (server c) as [x|] eqn:Sv]|..]; (eexists _, _, _; split; [reflexivity|split; [exact V|]]); cbn [In];
    (split; [intuition discriminate|]); (split; [intros q; intuition congruence|]); (split; [intuition discriminate|]); (split; [intros c'; intuition congruence|]); intros; congruence.
Qed.
Print Assumptions C125_path.
(** For every word that may have started the program, tidy or not: if no file is named, the file read is the gevulot.toml in the directory to which that
    word, up to its last slash, leads (in a tree without symbolic links). *)
Theorem C125_default : forall read watch server argv0 args l cwd d place, command_line args l -> once l -> ~ wants_info l -> (forall q, ~ In (Path q) l) ->
  directory_part argv0 d -> leads_to cwd d place ->
  exists b p fx code, main read watch server argv0 args = Some (ConfigureLogger b :: ReadConfig p :: fx, code) /\ leads_to cwd p (str "gevulot.toml" :: place) /\
    (forall q, In (ReadConfig q) fx \/ In (WatchConfig q) fx -> q = p).
Proof.
  intros read watch server argv0 args l cwd d place C O W N D L. unfold main. rewrite (proj2 (Parse_accepts args _) (ex_intro _ l (conj C (conj O eq_refl)))). rewrite run_unfold. cbn [e_parsed e_default e_read e_watch e_server].
  assert (path_of (default_path argv0) (flat_map setting_of l) = default_path argv0) as -> by exact (asked_unique l _ _ _ O (path_asked l _ O) (or_intror (conj eq_refl N))).
  destruct (asks_info (flat_map setting_of l)) eqn:I; [destruct W; now apply info_wanted|]. cbv zeta. pose proof (default_leads cwd argv0 d place D L) as P.
  destruct (read (default_path argv0)) as [c|x|x]; [destruct (watch (default_path argv0)) as [x|]; [|destruct (server c) as [x|]]|..]; (eexists _, _, _, _; split; [reflexivity|split; [exact P|]]); cbn [In]; intros q; intuition congruence.
Qed.
Print Assumptions C125_default.
(** The four ways to name a file come to the same, for a name that is plain and not empty. *)
Theorem C125_spellings : forall read watch server argv0 p args, plain p -> p <> [] ->
  In args [[str "-c"; p]; [str "-c" ++ p]; [str "--config"; p]; [str "--config=" ++ p]; [str "-c"; str "--"; p]; [str "--config"; str "--"; p]] ->
  main read watch server argv0 args = main read watch server argv0 [str "--config=" ++ p].
Proof.
  intros read watch server argv0 p args P N I. assert (forall a, command_line a [Path p] -> Parse a = Some (Ok [SetConfig p])) as E.
  { intros a C. apply Parse_accepts. exists [Path p]. split; [exact C|]. split; [repeat constructor|reflexivity]. }
  unfold main. rewrite (E [str "--config=" ++ p]) by repeat constructor. rewrite E; [reflexivity|]. cbn [In] in I. destruct I as [<-|[<-|[<-|[<-|[<-|[<-|[]]]]]]].
  - apply cl_config; [now right|exact P|constructor].
  - apply cl_c; [exact N|constructor].
  - apply cl_config; [now left|exact P|constructor].
  - apply cl_config_is. constructor.
  - apply cl_config_any. now right.
  - apply cl_config_any. now left.
Qed.
Print Assumptions C125_spellings.

(** ** Expectations that fail *)
(** README: "by default it will load gevulot.toml from the current directory".  It loads it from the directory of the program. *)
Theorem C125_default_refuted : forall read watch server, exists argv0 fx code p, main read watch server argv0 [] = Some (fx, code) /\ In (ReadConfig p) fx /\ p <> str "gevulot.toml" /\
  (forall q, In (ReadConfig q) fx -> q = str "/usr/bin/gevulot.toml").
Proof.
  intros read watch server. exists (str "/usr/bin/gevulot").
  assert (component (str "usr") /\ component (str "bin")) as [U B] by (split; (split; [discriminate|split; [cbn; intuition discriminate|split; discriminate]])).
  destruct (C125_path read watch server (str "/usr/bin/gevulot") [] [] (str "/usr/bin/gevulot.toml") (str "/usr/bin/gevulot.toml")) as (b & fx & code & M & _ & R & _).
  - constructor.
  - constructor.
  - intros (a & ? & ? & X & _). now destruct a.
  - right. exists (str "/usr/bin"), (str "gevulot"). split; [reflexivity|]. split; [cbn; intuition discriminate|]. split; [|reflexivity]. right. right. exists (str "usr/bin"). split; [reflexivity|]. exact (tidy_more (str "usr") (str "bin") U (tidy_one _ B)).
  - right. split; [reflexivity|]. intros q [].
  - eexists _, code, (str "/usr/bin/gevulot.toml"). split; [exact M|]. split; [right; now left|]. split; [discriminate|]. intros q [X|[X|X]]; [discriminate|congruence|now destruct (R q)].
Qed.
Print Assumptions C125_default_refuted.
(** --help-long and --help-man ask for help, but the server is started all the same: as kingpin may not end the program (cli.go:58) and their
    values are not looked at, they have the effects of no flag at all. *)
Theorem C125_help_long_refuted : forall read watch server argv0 w, w = str "--help-long" \/ w = str "--help-man" ->
  main read watch server argv0 [w] = main read watch server argv0 [].
Proof. intros read watch server argv0 w [->| ->]; reflexivity. Qed.
Print Assumptions C125_help_long_refuted.
(** --help and --version share one variable (cli.go:79-80), so --no-version takes back a --help in front of it (and --no-help a --version), while one
    behind it stands: the order of different flags matters. *)
Theorem C125_help_refuted : forall read watch server argv0, main read watch server argv0 [str "--help"; str "--no-version"] = main read watch server argv0 [] /\
  main read watch server argv0 [str "--no-version"; str "--help"] = Some ([], Some 0).
Proof. split; reflexivity. Qed.
Print Assumptions C125_help_refuted.

(** The words -vc and /etc/g.toml: debug output is on and /etc/g.toml is read; with --no-verbose as well, -v was given twice, and the program ends. -c=x names the file "=x". *)
Example C125_instance : forall read watch server argv0 c, read (str "/etc/g.toml") = Ok c -> watch (str "/etc/g.toml") = None -> server c = None ->
  main read watch server argv0 [str "-vc"; str "/etc/g.toml"] = Some ([ConfigureLogger true; ReadConfig (str "/etc/g.toml"); WatchConfig (str "/etc/g.toml"); RunServer c], Some 0) /\
  (exists e, main read watch server argv0 [str "-vc"; str "/etc/g.toml"; str "--no-verbose"] = Some ([PrintParseError e], Some 1)) /\
  command_line [str "-c=x"] [Path (str "=x")] /\ command_line [str "-vc"; str "/etc/g.toml"] [Switch FVerbose true; Path (str "/etc/g.toml")] /\
  once [Switch FVerbose true; Path (str "/etc/g.toml")] /\ ~ wants_info [Switch FVerbose true; Path (str "/etc/g.toml")] /\
  asked_for [Switch FVerbose true; Path (str "/etc/g.toml")] (str "gevulot.toml") (str "/etc/g.toml") /\ beside (str "gevulot") (str "gevulot.toml").
Proof.
  intros read watch server argv0 c R W S0.
  assert (main read watch server argv0 [str "-vc"; str "/etc/g.toml"] = Some (Run (Env (default_path argv0) (Ok [SetVerbose true; SetConfig (str "/etc/g.toml")]) read watch server))) as M by reflexivity.
  rewrite run_unfold in M. cbn [e_parsed e_default e_read e_watch e_server] in M. change (path_of _ [SetVerbose true; SetConfig (str "/etc/g.toml")]) with (str "/etc/g.toml") in M. cbv zeta in M. rewrite R, W, S0 in M.
  split; [exact M|]. split; [eexists; reflexivity|]. split; [apply (cl_c (str "=x")); [discriminate|constructor]|].
  split; [apply (cl_v_more (str "c")); [discriminate|]; apply cl_config; [now right|intros r; split; discriminate|constructor]|].
  split; [repeat constructor; cbn; intuition discriminate|]. split; [intros H; apply info_wanted in H; discriminate|].
  split; [left; right; now left|left; split; [cbn; intuition discriminate|reflexivity]].
Qed.
(** A command line that is refused: a word that is no flag, a flag that is not known, --config without a file. *)
Example C125_instance_refused : forall args, In args [[str "x"]; [str "--port=1"]; [str "-c"]; [str "--verbose=true"]; [str "-v"; str "-v"]; [str "--no-config"]; [str ""]] ->
  ~ (exists l, command_line args l /\ once l) /\ (forall w, In w args -> ~ uncovered w).
Proof.
  intros args I. split.
  - intros H. assert (exists ss, Parse args = Some (Ok ss)) as (ss & E) by (destruct H as (l & C & O); eexists; apply Parse_accepts; eauto). cbn [In] in I. decompose [or] I; subst; vm_compute in E; try discriminate; contradiction.
  - intros w J U. assert (~ In "m"%byte w /\ forall r, w <> "@"%byte :: r) as [M A].
    { cbn [In] in I. decompose [or] I; subst; try contradiction; cbn [In] in J; decompose [or] J; subst; try contradiction; (split; [cbn; intuition discriminate|discriminate]). }
    destruct U as [(r & E)|(a & b & ->)]; [exact (A r E)|]. apply M. apply in_or_app. right. apply in_or_app. left. cbn. tauto.
Qed.
(** ../bin//./gevulot, started in /home/x: the file is /home/bin/gevulot.toml.  And every word has a directory part that leads somewhere. *)
Example C125_instance_default : (directory_part (str "../bin//./gevulot") (str "../bin//./") /\ leads_to [str "x"; str "home"] (str "../bin//./") [str "bin"; str "home"] /\
    default_path (str "../bin//./gevulot") = str "../bin/gevulot.toml") /\
  forall cwd argv0, exists d place, directory_part argv0 d /\ leads_to cwd d place.
Proof.
  split; [split; [|split]|].
  - right. exists (str "../bin//."), (str "gevulot"). split; [reflexivity|]. split; [cbn; intuition discriminate|reflexivity].
  - apply leads_spec. reflexivity.
  - reflexivity.
  - intros cwd argv0. destruct (NetUrl.cut_last "/" argv0) as [[a b]|] eqn:E.
    + apply NetUrlProofs.cut_last_some in E. destruct E as [-> N]. exists (a ++ str "/"). eexists. split; [right; eauto|now apply leads_spec].
    + apply NetUrlProofs.cut_last_none in E. exists []. eexists. split; [now left|now apply leads_spec].
Qed.
