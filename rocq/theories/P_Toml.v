(** Properties C122 and C123: the configuration file as text (pkg/cli/read_server_config.go with
    BurntSushi/toml).  [order]: the iteration order of Go maps.  The model says nothing ([None]) about texts with
    tables, arrays, dates, floats, signed integers or multi-line strings. *)
From Coq Require Import Permutation.
From Verif Require Import GoBase Config BufferProofs NetUrl Dsn Toml SpecToml TomlProofs TomlMeaning.

(** * C122 What the configuration file says *)

(** A file is accepted exactly if it is a document of the grammar that sets no key twice and sets listen and
    database-url, if at all, to strings. *)
Theorem C122_accepted : forall order s, map_order order ->
  ((exists cfg, readServerConfig order (Ok s) = Some (Ok cfg)) <-> exists l, document s l /\ NoDup (map fst l) /\ well_typed l).
Proof.
  intros order s O. split.
  - intros (cfg & H). destruct (decode_accepts _ _ _ O H) as (l & D & N & W & _). eauto.
  - intros (l & D & N & W). destruct (decode_document _ _ _ O D N W) as (cfg & H & _). eauto.
Qed.
Print Assumptions C122_accepted.
(** The configuration is what the file says. *)
Theorem C122_meaning : forall order s l cfg, map_order order -> document s l -> NoDup (map fst l) ->
  readServerConfig order (Ok s) = Some (Ok cfg) -> says l cfg.
Proof.
  intros order s l cfg O D N H. cbn [readServerConfig] in H. unfold Decode in H. rewrite (proj2 (parse_spec s l)) in H by auto. injection H as H.
  now apply (decode_says order l cfg O H).
Qed.
Print Assumptions C122_meaning.
(** Unless a field is set under two names, a file has one meaning. *)
Theorem C122_one_meaning : forall order order' s l cfg cfg', map_order order -> map_order order' -> document s l -> NoDup (map fst l) -> unambiguous l ->
  readServerConfig order (Ok s) = Some (Ok cfg) -> readServerConfig order' (Ok s) = Some (Ok cfg') -> cfg = cfg'.
Proof.
  intros order order' s l cfg cfg' O O' D N U H H'.
  exact (says_unique l cfg cfg' N U (C122_meaning order s l cfg O D N H) (C122_meaning order' s l cfg' O' D N H')).
Qed.
Print Assumptions C122_one_meaning.
(** Every other text that contains nothing but comments, keys, strings, booleans and decimal integers is refused, and
    so is a file that cannot be read; nothing panics. *)
Theorem C122_refused : forall order file, map_order order -> readServerConfig order file <> None -> (forall p, file <> Panic p) ->
  (exists s l, file = Ok s /\ document s l /\ NoDup (map fst l) /\ well_typed l) \/ exists e, readServerConfig order file = Some (Err e).
Proof.
  intros order [s|e|p] O S NP; [|right; eexists; reflexivity|now destruct (NP p)]. cbn [readServerConfig] in *. unfold Decode in *. destruct (parse s) as [| l| |] eqn:P; try congruence; [|right; eauto].
  apply parse_spec in P. destruct P as [D N]. destruct (unify_fails (order l) (Config [] [])) as [(cfg & E)|E]; [|right; rewrite E; eauto].
  left. exists s, l. repeat split; auto. now apply (decode_says _ _ _ O E).
Qed.
Print Assumptions C122_refused.
(** Every address and connection string that can be put between quotation marks can be configured in the way of
    README.md. *)
Theorem C122_writable : forall order ta a tu u, map_order order -> quoted ta a -> quoted tu u ->
  readServerConfig order (Ok (str "listen = " ++ ta ++ [x0a] ++ str "database-url = " ++ tu ++ [x0a])) = Some (Ok (Config a u)).
Proof.
  intros order ta a tu u O A U. set (s := str "listen = " ++ _). set (l := [(listen, VString a); (database_url, VString u)]).
  assert (forall w k, w = listen \/ w = database_url -> k = w -> key w k) as KEY.
  { intros w k W ->. apply key_bare; [destruct W as [->| ->]; discriminate|]. destruct W as [->| ->]; apply Forall_forall; intros c I; apply bare_spec; revert c I; apply Forall_forall; repeat (apply Forall_cons; [reflexivity|]); apply Forall_nil. }
  assert (document s l) as D.
  { change s with (listen ++ [" "%byte] ++ "="%byte :: [" "%byte] ++ ta ++ ([x0a] ++ (database_url ++ [" "%byte] ++ "="%byte :: [" "%byte] ++ tu ++ [x0a]))).
    apply doc_set; [apply KEY; auto|repeat constructor..|now constructor|]. apply rol_newline; [now left|]. apply doc_set; [apply KEY; auto|repeat constructor..|now constructor|]. apply rol_newline; [now left|constructor]. }
  assert (NoDup (map fst l)) as N by (repeat constructor; cbn; intuition discriminate).
  assert (forall k v, In (k, v) l -> exists f, field_of k = Some f /\ v = VString (get_field f (Config a u))) as F.
  { intros k v [[= <- <-]|[[= <- <-]|[]]]; [exists FListen|exists FDatabaseURL]; split; reflexivity. }
  assert (well_typed l) as W. { apply typed_fields. intros k f v I _. destruct (F k v I) as (f' & _ & ->). eauto. }
  destruct (decode_document order s l O D N W) as (cfg & H & S). cbn [readServerConfig]. rewrite H. do 2 f_equal. apply field_ext. intros f. apply (proj1 (says_fields l cfg)) with (f := f) in S.
  destruct S as [(k & I & K)|[_ X]].
  - destruct (F _ _ I) as (f' & E & V). injection V as V. apply field_spec in K. rewrite K in E. injection E as <-. exact V.
  - exfalso. destruct f; [apply (X (VString a)); exists listen|apply (X (VString u)); exists database_url]; (split; [cbn; auto|apply field_spec; reflexivity]).
Qed.
Print Assumptions C122_writable.
(** README.md calls both fields mandatory; a file that leaves one out is accepted, and the field is empty. *)
Theorem C122_mandatory_refuted : forall order s l, map_order order -> document s l -> NoDup (map fst l) -> well_typed l ->
  exists cfg, readServerConfig order (Ok s) = Some (Ok cfg) /\
    ((forall v, ~ sets l listen v) -> Listen cfg = []) /\ ((forall v, ~ sets l database_url v) -> DatabaseURL cfg = []).
Proof.
  intros order s l O D N W. destruct (decode_document _ _ _ O D N W) as (cfg & H & A & B). exists cfg. split; [exact H|]. split; intros X.
  - destruct A as [A|[A _]]; [now destruct (X _ A)|exact A].
  - destruct B as [B|[B _]]; [now destruct (X _ B)|exact B].
Qed.
Print Assumptions C122_mandatory_refuted.
(** With an empty connection string no session gets to the database. *)
Theorem C122_no_database : forall legacy os order, exists e, ParseDatabaseURI (url_Parse legacy) os order [] = Err e.
Proof. intros. vm_compute. eauto. Qed.
Print Assumptions C122_no_database.
(** A file that sets a field under two names is read now this way, now that. *)
Definition two_names : bytes := str "listen = ':1'" ++ [x0a] ++ str "Listen = ':2'" ++ [x0a].
Theorem C122_names_refuted : exists order order', map_order order /\ map_order order' /\
  readServerConfig order (Ok two_names) = Some (Ok (Config (str ":1") [])) /\ readServerConfig order' (Ok two_names) = Some (Ok (Config (str ":2") [])).
Proof. exists (@rev _), (fun l => l). split; [intros l; symmetry; apply Permutation_rev|]. split; [intros l; reflexivity|]. split; vm_compute; reflexivity. Qed.
Print Assumptions C122_names_refuted.
(** comments, carriage returns, quoted and capital keys, escapes, an unknown key *)
Definition odd_file : bytes := str "# proxy" ++ [x0d; x0a; x09] ++ str """Listen"" = ""[::1]:4242""  # here" ++ [x0d; x0a] ++ str "retries=007" ++ [x0a; x0a] ++
  str "DATABASE-url = 'postgres://localhost/a\b' #" ++ [xff].
Example C122_instance : exists l, document odd_file l /\ NoDup (map fst l) /\ well_typed l /\ unambiguous l /\
  l = [(str "Listen", VString (str "[::1]:4242")); (str "retries", VInt 7); (str "DATABASE-url", VString (str "postgres://localhost/a\b"))].
Proof.
  eexists. split; [|split; [|split; [|split; [|reflexivity]]]].
  - apply (parse_spec odd_file). vm_compute. reflexivity.
  - apply (parse_spec odd_file). vm_compute. reflexivity.
  - apply typed_fields. intros k f v [[= <- <-]|[[= <- <-]|[[= <- <-]|[]]]]; vm_compute; intros [= <-]; eauto.
  - intros n k k' v v' [->| ->] I I' K K'; [apply (field_spec k FListen) in K; apply (field_spec k' FListen) in K'|apply (field_spec k FDatabaseURL) in K; apply (field_spec k' FDatabaseURL) in K'];
      destruct I as [[= <- <-]|[[= <- <-]|[[= <- <-]|[]]]]; vm_compute in K; try discriminate; destruct I' as [[= <- <-]|[[= <- <-]|[[= <- <-]|[]]]]; vm_compute in K'; try discriminate; reflexivity.
Qed.
Example C122_instance_read : readServerConfig (fun l => l) (Ok odd_file) = Some (Ok (Config (str "[::1]:4242") (str "postgres://localhost/a\b"))).
Proof. vm_compute. reflexivity. Qed.
(** a port without quotation marks, a key twice, an open string, a document cut in a key: refused *)
Example C122_instance_refused : map (fun s => readServerConfig (fun l => l) (Ok s))
  [str "listen = 4242"; str "listen = ':1'" ++ [x0a] ++ str "listen = ':1'"; str "listen = "":1"; str "list"; str "listen ':1'"; str "listen = ""\x"""] =
  repeat (Some (Err (ErrExternal 2))) 6.
Proof. vm_compute. reflexivity. Qed.

(** * C123 Half-written configuration files *)

(** Whatever part of a file has been written when it is read, the result is an error or each field is what the
    finished file says or empty: no address or connection string is ever taken that the file does not name. *)
Theorem C123_half_written : forall written missing cfg,
  (forall order, map_order order -> readServerConfig order (Ok (written ++ missing)) = Some (Ok cfg)) ->
  forall order, map_order order -> (exists e, readServerConfig order (Ok written) = Some (Err e)) \/
    exists cfg', readServerConfig order (Ok written) = Some (Ok cfg') /\
      (Listen cfg' = Listen cfg \/ Listen cfg' = []) /\ (DatabaseURL cfg' = DatabaseURL cfg \/ DatabaseURL cfg' = []).
Proof. intros w m cfg H order O. destruct (half_written w m cfg H order O) as [E|E]; [left; eauto|right; exact E]. Qed.
Print Assumptions C123_half_written.
(** That such a file is refused is not so: cut at the end of its first line, a file with both fields is accepted in
    every order, without a connection string. *)
Definition first_line : bytes := str "listen = ':1'" ++ [x0a].
Definition second_line : bytes := str "database-url = 'postgres://localhost/db'" ++ [x0a].
Theorem C123_accepted_refuted : forall order, map_order order ->
  readServerConfig order (Ok (first_line ++ second_line)) = Some (Ok (Config (str ":1") (str "postgres://localhost/db"))) /\
  readServerConfig order (Ok first_line) = Some (Ok (Config (str ":1") [])).
Proof.
  intros order O. split.
  - apply (C122_writable order (str "':1'") (str ":1") (str "'postgres://localhost/db'") (str "postgres://localhost/db") O).
    + apply (q_literal (str ":1")); [repeat (constructor; [split; [intros [[=]|[=]]|discriminate]|]); constructor|cbn; intuition discriminate].
    + apply (q_literal (str "postgres://localhost/db")); [repeat (constructor; [split; [intros [[=]|[=]]|discriminate]|]); constructor|cbn; intuition discriminate].
  - cbn [readServerConfig]. unfold Decode. assert (parse first_line = Ended [(listen, VString (str ":1"))]) as -> by (vm_compute; reflexivity).
    pose proof (Permutation_length_1_inv (Permutation_sym (O [(listen, VString (str ":1"))]))) as E. cbv iota beta. rewrite E. reflexivity.
Qed.
Print Assumptions C123_accepted_refuted.
(** the same file cut inside its second line is refused *)
Example C123_instance : (exists order, map_order order) /\
  map (fun n => readServerConfig (fun l => l) (Ok (first_line ++ firstn n second_line))) (seq 1 39) = repeat (Some (Err (ErrExternal 2))) 39.
Proof. split; [exists (fun l => l); intros l; reflexivity|]. vm_compute. reflexivity. Qed.
