(** Property C124: from the text of the configuration file to the addresses in use.  The file holds text (SpecFile.v), which the
    model of BurntSushi/toml reads; connection strings are parsed by the model of url.Parse. *)
From Coq Require Import Permutation.
From Verif Require Import SpecServing SpecReload SpecAttend SpecSettle SpecConnect SystemProofs SystemRuns SystemFacts SystemServing P_Serving P_Reload P_Cancel P_Connect.
From Verif Require SystemConnect SystemTrace SystemReloadLive.
From Verif Require Import SystemQuiet SystemReload NetUrl SpecDsn Toml SpecToml TomlProofs TomlMeaning SpecFile FileProofs.
From Verif Require SpecUri UriProofs NetUrlProofs.
Import SpecReload SpecAttend SpecSettle SpecConnect System.
Require Import Lia.

(** * C124 Nothing is used that no finished version of the file names *)

(** Let the file, whenever it is there, hold a text of [T] as far as it has been written, each finished text being a document with one meaning. Every address
    dialled is then the one the connection string of a finished text gives, by the grammar of connection strings. *)
Theorem C124_dials : forall (T : bytes -> Prop) legacy f ls s c, (forall t, T t -> exists cfg, names t cfg) -> file_is (partly T) f ls -> go_urls legacy ls ->
  run step (Run f) ls = Some s -> SpecSession.dials (Session.hist (sess s c)) <> [] ->
  exists t cfg p, T t /\ names t cfg /\ conn_settings legacy (DatabaseURL cfg) p /\ SpecSession.dials (Session.hist (sess s c)) = [SpecSession.address p].
Proof. exact dialled_named. Qed.
Print Assumptions C124_dials.
(** Every address listened on is that of a finished text, or empty. *)
Theorem C124_listens : forall (T : bytes -> Prop) f ls s l a, (forall t, T t -> exists cfg, names t cfg) -> file_is (partly T) f ls -> run step (Run f) ls = Some s ->
  In (l, a) (SpecServer.listened (Server.hist (srv s))) -> exists t cfg, T t /\ names t cfg /\ (a = Listen cfg \/ a = []).
Proof. exact listened_named. Qed.
Print Assumptions C124_listens.
(** In an infinite execution, fair as in C120, with a file that holds the text [t] from first to last (or is missing): a client that asks for the database named
    there is connected to the host and port named there, whatever else happens; provided no write and no net.Dial of its session fails and its connection is not reset. *)
Theorem C124_connected : forall st lb c legacy t a conn u db f, execution step st lb -> st 0%nat = Run f -> fair_roles st lb -> writers_first st lb -> fair_goroutines st lb -> fair_peers c st lb ->
  names t (Config a conn) -> SpecUri.uri legacy conn u -> Dsn.u_scheme u = str "postgres" \/ Dsn.u_scheme u = str "postgresql" -> (forall os, setting os u (str "database") db) ->
  (forall k, file_is (wholly (eq t)) f (before lb k) /\ go_urls legacy (before lb k)) ->
  forall i, In c (accepted (Server.hist (srv (st i)))) -> negotiating (sess (st i) c) -> asks_for_db db (sess (st i) c) ->
  (forall k l, (i <= k)%nat -> lb k = Some l -> ~ goes_wrong c l) ->
  exists j, (i <= j)%nat /\ (panicked (st j) <> None \/ established (sess (st j) c) /\
    exists os p, (forall k v, p k = Some v <-> setting os u k v) /\ SpecSession.dials (Session.hist (sess (st j) c)) = [SpecSession.address p]).
Proof.
  intros st lb c legacy t a conn u db f EX I0 FR WF FG FP N U S DB FI i A NG AS GW.
  assert (forall k, run step (Run f) (before lb k) = Some (st k)) as B by (intros k; rewrite <- I0; exact (SystemReloadLive.before_run st lb EX k)).
  assert (reachable step init (st 0%nat)) as R by (exists (Run f), []; split; [eexists; reflexivity|rewrite I0; reflexivity]).
  destruct (C120_connected st lb c db EX R FR WF FG FP i A NG AS GW) as (j & Hj & X).
  { intros k _. destruct (FI k) as [F G]. exact (suited legacy t a conn u db f _ _ c N U S DB F G (B k)). }
  exists j. split; [exact Hj|]. destruct X as [X|(E & p & ps & (_ & (E0 & cfg & Hc & Hp) & _) & D)]; [left; exact X|right]. split; [exact E|].
  destruct (FI j) as [F G]. assert (In (E0, Ok cfg) (SpecSession.configs (Session.hist (sess (st j) c)))) as I by (rewrite Hc; now left).
  destruct (envs_run _ _ _ _ (B j) _ _ I) as (t0 & G0). destruct (G _ _ G0) as [G1 G2]. destruct (config_had _ _ _ _ _ _ (B j) I) as (cfg' & X & Y). injection X as <-.
  destruct (wholly_config (eq t) (Some cfg)) with (c := cfg) as (t' & <- & N'); auto; [intros ? <-; eauto|exact (had_run _ _ _ _ _ F (B j) Y)|].
  assert (cfg = Config a conn) as ->.
  { pose proof (names_read _ _ N (fun l => l) (fun l => Permutation_refl l)) as P1. pose proof (names_read _ _ N' (fun l => l) (fun l => Permutation_refl l)) as P2. congruence. }
  destruct (parses legacy E0 conn u G1 G2 U S) as (p' & P & Q). cbn [DatabaseURL] in Hp. rewrite Hp in P. injection P as <-. exists (Session.env_user E0), p. split; [exact Q|exact D].
Qed.
Print Assumptions C124_connected.
(** A text written into the file while the watcher lives becomes, and then remains, what new sessions are configured by, unless the file changes again or fsnotify fails. *)
Theorem C124_takes_effect : forall st lb, execution step st lb -> reachable step init (st 0%nat) -> fair_roles st lb -> writers_first st lb ->
  forall i t cfg x, main (st i) = RServe -> FileWatcher.handler (watcher (st i)) <> FileWatcher.H_None -> FileWatcher.handler (watcher (st i)) <> FileWatcher.H_End ->
  names t cfg -> reads_as t x -> lb i = Some (YWatcher (FileWatcher.LFile x [FileWatcher.OpWrite])) -> (forall k l, (i < k)%nat -> lb k = Some l -> undisturbed l) ->
  exists j, (i < j)%nat /\ (panicked (st j) <> None \/ forall k, (j <= k)%nat -> SpecDistributor.current (Distributor.hist (dist (st k))) = Some cfg).
Proof.
  intros st lb EX R FR WF i t cfg x M H1 H2 N (order & O & RD) L UD. rewrite (names_read _ _ N order O) in RD. subst x.
  destruct (C116_takes_effect st lb EX R FR WF i cfg M H1 H2 L UD) as [(j & Hj & P)|(j & h & Hj & P)]; exists j; (split; [exact Hj|]); [left; exact P|right]. intros k Hk. exact (proj1 (P k Hk)).
Qed.
Print Assumptions C124_takes_effect.

(** A file in the manner of README.md *)
Definition textA : bytes := str "listen = "":5432""" ++ [x0a] ++ str "database-url = ""postgres://bob@db.internal:5433/app""" ++ [x0a].
Definition urlA : Dsn.url := Dsn.URL (str "postgres") (Some (Dsn.Userinfo (str "bob") None)) (str "db.internal") (str "5433") (str "/app") [].
Lemma namesA : names textA cfgA.
Proof.
  assert (parse textA = Ended [(str "listen", VString (Listen cfgA)); (str "database-url", VString (DatabaseURL cfgA))]) as P by (vm_compute; reflexivity).
  apply parse_spec in P. destruct P as [D N]. eexists. split; [exact D|]. split; [exact N|].
  assert (forall k f v, In (k, v) [(str "listen", VString (Listen cfgA)); (str "database-url", VString (DatabaseURL cfgA))] -> field_of k = Some f -> k = field_name f /\ v = VString (get_field f cfgA)) as F.
  { intros k f v [X|[X|[]]] K; injection X as <- <-; vm_compute in K; injection K as <-; split; reflexivity. }
  split; [|split].
  - apply typed_fields. intros k f v I K. destruct (F _ _ _ I K) as [_ ->]. eauto.
  - intros n k k' v v' H I I' K K'. assert (exists f, n = field_name f) as [f ->] by (destruct H as [->| ->]; [exists FListen|exists FDatabaseURL]; reflexivity).
    apply field_spec in K, K'. destruct (F _ _ _ I K) as [-> _]. destruct (F _ _ _ I' K') as [-> _]. reflexivity.
  - split; left; [exists (str "listen")|exists (str "database-url")]; (split; [cbn; auto|]); [apply (field_spec _ FListen)|apply (field_spec _ FDatabaseURL)]; reflexivity.
Qed.
Lemma uriA : SpecUri.uri true (DatabaseURL cfgA) urlA.
Proof. apply NetUrlProofs.url_Parse_exact. split; [vm_compute; reflexivity|discriminate]. Qed.
Lemma databaseA os : setting os urlA (str "database") (str "app").
Proof. apply s_database; [intros [v []]|exists 1%nat; split; [reflexivity|discriminate]|discriminate]. Qed.
(** Go's url.Parse *)
Definition go_env : Session.dsn_env := Session.DsnEnv (url_Parse true) None (fun m => m).
Definition asking_go (v : nat) : list label := YGet v :: repeat (YDist (Distributor.LGo v)) 3 ++ [YGot v go_env].
(** A client sends an SSLRequest and a StartupMessage, as in C120_instance. *)
Definition texted : list label :=
  listening_on_A ++ accepting 2 3 ++ [YSession 0 (Session.LArrive Session.Client (SessionRuns.ex_ssl ++ SessionRuns.ex_startup)); YSession 0 Session.LStart; YSession 0 (Session.LStartWrite 1);
    YSession 0 Session.LStart] ++ asking_go 3 ++
  [YSession 0 Session.LStart; YSession 0 Session.LStart; YSession 0 (Session.LDial None); YSession 0 (Session.LStartWrite (length SessionRuns.ex_startup))].
Lemma file_labels ls x ops : In (YWatcher (FileWatcher.LFile x ops)) ls -> In x (flat_map (fun l => match l with YWatcher (FileWatcher.LFile x _) => [x] | _ => [] end) ls).
Proof. intros H. apply in_flat_map. eexists. split; [exact H|]. now left. Qed.
Lemma env_labels ls t E : In (YGot t E) ls -> In E (flat_map (fun l => match l with YGot _ E => [E] | _ => [] end) ls).
Proof. intros H. apply in_flat_map. eexists. split; [exact H|]. now left. Qed.
Definition texted_at (i : nat) : state := final (firstn i texted).
Definition texted_label (i : nat) : option label := nth_error texted i.
Lemma texted_prefix i : run step (Run (Some cfgA)) (firstn i texted) = Some (texted_at i).
Proof.
  apply final_run. assert (run step (Run (Some cfgA)) texted = Some (final texted)) as X by (apply final_run; computed).
  rewrite <- (firstn_skipn i texted), run_app in X. destruct (run step (Run (Some cfgA)) (firstn i texted)); [reflexivity|discriminate X].
Qed.
Lemma texted_execution : execution step texted_at texted_label.
Proof.
  intros i. unfold texted_label. pose proof (texted_prefix (S i)) as X. destruct (nth_error texted i) as [l|] eqn:N.
  - rewrite (firstn_next i _ _ N), run_app, texted_prefix in X. apply run_one in X. exact X.
  - apply nth_error_None in N. unfold texted_at. rewrite !firstn_all2 by lia. reflexivity.
Qed.
Lemma texted_rest : at_rest (final texted).
Proof.
  assert (run step (Run (Some cfgA)) texted = Some (final texted)) as R by (apply final_run; computed). apply rest_intro; [eapply run_reachable; exact R|computed|..].
  - intros t. destruct t as [|[|[|[|[|t]]]]]; vm_compute; exact I.
  - intros t. destruct t as [|[|[|[|[|t]]]]]; first [left; computed|right; computed].
  - intros x E. vm_compute in E. injection E as <-. reflexivity.
  - computed.
  - intros l L. destruct l; try contradiction; computed.
  - intros c l C L. destruct c as [|c]; [|vm_compute in C; lia]; clear C; destruct l; try contradiction; try destruct d; try (destruct t as [|[|t]]); computed.
Qed.
Example C124_instance : execution step texted_at texted_label /\ reachable step init (texted_at 0) /\ fair_roles texted_at texted_label /\ writers_first texted_at texted_label /\
  fair_goroutines texted_at texted_label /\ fair_peers 0 texted_at texted_label /\ (forall k, panicked (texted_at k) = None) /\
  accepted (Server.hist (srv (texted_at 42))) = [0%nat] /\ negotiating (sess (texted_at 42) 0) /\ asks_for_db (str "app") (sess (texted_at 42) 0) /\
  (forall k l, (42 <= k)%nat -> texted_label k = Some l -> ~ goes_wrong 0 l) /\ (texted_at 0 = Run (Some cfgA) /\ names textA cfgA /\ forall k, file_is (wholly (eq textA)) (Some cfgA) (before texted_label k) /\ go_urls true (before texted_label k)) /\
  Session.start_pc (sess (texted_at 42) 0) = Session.SRecv /\ SpecSession.sent Session.Client (Session.hist (sess (texted_at 44) 0)) = ["N"%byte] /\
  established (sess (texted_at 54) 0) /\ SpecSession.dials (Session.hist (sess (texted_at 54) 0)) = [str "db.internal:5433"].
Proof.
  assert (forall k, (54 <= k)%nat -> texted_at k = final texted) as LATE by (intros k Hk; unfold texted_at; rewrite firstn_all2; [reflexivity|vm_compute; exact Hk]).
  pose proof texted_rest as REST.
  split; [exact texted_execution|]. split; [eapply run_reachable; exact (texted_prefix 0)|]. split; [|split; [|split; [|split; [|split; [|split; [computed|split; [vm_compute; exact I|split; [|split; [|split]]]]]]]]].
  - intros r i. exists (i + 54)%nat. split; [lia|]. left. intros l A. rewrite LATE by lia. apply REST. destruct r, l; try contradiction A; try exact I; destruct l; try contradiction A; exact I.
  - intros i t L G t'. assert (i < 54)%nat as Hi by (unfold texted_label in L; apply (nth_error_Some texted i); rewrite L; discriminate).
    assert (i = 47%nat) as ->.
    { revert L G. do 47 (destruct i as [|i]; [intros L G; cbn in L; try discriminate L; injection L as <-; vm_compute in G; discriminate G|]).
      destruct i as [|i]; [reflexivity|]. do 6 (destruct i as [|i]; [intros L G; cbn in L; try discriminate L; injection L as <-; vm_compute in G; discriminate G|]). lia. }
    destruct t' as [|[|[|[|[|t']]]]]; vm_compute; intros [].
  - intros t i. right. exists (i + 54)%nat. split; [lia|]. intros k Hk l A. rewrite (LATE k) by lia. apply REST. clear - A. destruct A as [A|A].
    + destruct l; try contradiction A; try exact I; destruct l; try contradiction A; exact I.
    + destruct l; try contradiction A; try exact I; destruct l; try contradiction A; exact I.
  - intros i. exists (i + 54)%nat. split; [lia|]. left. intros l O. rewrite LATE by lia. destruct l; try contradiction O. assert (c = 0%nat) as -> by (destruct l; try contradiction O; exact O).
    destruct l; try contradiction O; computed.
  - intros k. destruct (panicked (texted_at k)) as [p|] eqn:P; [exfalso|reflexivity]. assert (k < 54 \/ 54 <= k)%nat as [H|H] by lia; [|rewrite (LATE k H) in P; vm_compute in P; discriminate P].
    do 54 (destruct k as [|k]; [vm_compute in P; discriminate P|]). lia.
  - exists (Frames.Reader [SessionRuns.ex_ssl ++ SessionRuns.ex_startup] None), [SessionRuns.ex_ssl], SessionRuns.ex_startup, [], (SessionRuns.ex_params (str "app")).
    split; [computed|]. split; [computed|]. split; [constructor; [exact SessionRuns.wire_ssl|constructor]|]. split; [apply SessionRuns.wire_startup|]. apply SessionMore.asks_for_get. computed.
  - intros k l _ L. assert (k < 54)%nat as Hk by (unfold texted_label in L; apply (nth_error_Some texted k); rewrite L; discriminate).
    do 54 (destruct k as [|k]; [cbn in L; injection L as <-; intros []|]). lia.
  - split; [vm_compute; reflexivity|]. split; [exact namesA|]. intros k. assert (forall l, In l (before texted_label k) -> In l texted) as SUB.
    { intros l H. unfold before in H. apply in_flat_map in H. destruct H as (n & _ & H). unfold texted_label in H. destruct (nth_error texted n) as [l'|] eqn:Q; [|destruct H]. destruct H as [<-|[]]. eapply nth_error_In; exact Q. }
    split; [split|].
    + right. exists textA. split; [reflexivity|]. exists (fun l => l). split; [intros l; apply Permutation_refl|]. vm_compute. reflexivity.
    + intros x ops H. apply SUB, file_labels in H. destruct H.
    + intros t E H. apply SUB, env_labels in H. cbn in H. destruct H as [<-|[]]. split; [reflexivity|intros l; apply Permutation_refl].
  - do 3 (split; [computed|]). computed.
Qed.
(** The file is being written over: first it ends with its first line, then it is complete; the listener's address stays. A client that connects
    while the connection string is missing gets no database, a later one does. *)
Definition rewriting : list label :=
  listening_on_A ++ reloading (Config (str ":5432") []) ++ distributing_same ++ accepting 2 3 ++
    [YSession 0 (Session.LArrive Session.Client SessionRuns.ex_startup); YSession 0 Session.LStart] ++ asking_go 3 ++
  reloading cfgA ++ distributing_same ++ accepting 2 4 ++
    [YSession 1 (Session.LArrive Session.Client SessionRuns.ex_startup); YSession 1 Session.LStart] ++ asking_go 4 ++ [YSession 1 Session.LStart; YSession 1 Session.LStart; YSession 1 (Session.LDial None)].
Example C124_instance_half : file_is (partly (eq textA)) (Some cfgA) rewriting /\ go_urls true rewriting /\
  option_map (fun s => (SpecSession.dials (Session.hist (sess s 0)), SpecSession.dials (Session.hist (sess s 1)), SpecServer.listened (Server.hist (srv s)))) (run step (Run (Some cfgA)) rewriting) =
  Some ([], [str "db.internal:5433"], [(0%nat, str ":5432")]).
Proof.
  assert (partly (eq textA) (Some cfgA)) as W.
  { right. exists textA, []. split; [rewrite app_nil_r; reflexivity|]. exists (fun l => l). split; [intros l; apply Permutation_refl|]. vm_compute. reflexivity. }
  split; [split; [exact W|]|split; [|vm_compute; reflexivity]].
  - intros x ops H. apply (file_labels rewriting) in H. cbn in H. destruct H as [<-|[<-|[]]].
    + right. exists (firstn 17 textA), (skipn 17 textA). split; [symmetry; apply firstn_skipn|]. exists (fun l => l). split; [intros l; apply Permutation_refl|]. vm_compute. reflexivity.
    + exact W.
  - intros t E H. apply (env_labels rewriting) in H. cbn in H. destruct H as [<-|[<-|[]]]; (split; [reflexivity|intros l; apply Permutation_refl]).
Qed.
