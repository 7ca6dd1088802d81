(** Property C120: a client that asks for the configured database is connected to it, in executions that never end. *)
From Verif Require Import SpecServing SpecReload SpecAttend SpecSettle SpecConnect SystemProofs SystemRuns SystemFacts SystemServing P_Serving P_Reload P_Cancel.
From Verif Require SystemConnect SystemTrace.
From Verif Require Import SystemQuiet SystemReload.
Import SpecReload SpecAttend SpecSettle SpecConnect System.
Require Import Lia.

(** * C120 Whoever asks for the configured database is connected to it, however busy the program is *)

(** In an infinite execution of the whole program, fair as in C119: a client whose session.Start hasn't asked for the configuration yet and has, unread, any number of SSLRequests and a
    StartupMessage of protocol 3.0 for [db] comes to be connected, and to the address of the configuration its session got, whatever the other clients, the databases and the file do;
    provided no write and no net.Dial of its session fails, the client's connection isn't reset, and the configuration the session gets is for [db]. *)
Theorem C120_connected : forall st lb c db, execution step st lb -> reachable step init (st 0%nat) -> fair_roles st lb -> writers_first st lb -> fair_goroutines st lb -> fair_peers c st lb ->
  forall i, In c (accepted (Server.hist (srv (st i)))) -> negotiating (sess (st i) c) -> asks_for_db db (sess (st i) c) ->
  (forall k l, (i <= k)%nat -> lb k = Some l -> ~ goes_wrong c l) -> (forall k, (i <= k)%nat -> suits db (sess (st k) c)) ->
  exists j, (i <= j)%nat /\ (panicked (st j) <> None \/ established (sess (st j) c) /\
    exists p ps, SpecSession.accepted (Session.hist (sess (st j) c)) p ps /\ SpecSession.dials (Session.hist (sess (st j) c)) = [SpecSession.address p]).
Proof. intros st lb c db EX R FR WF FG FP i A N AS NG SU. exact (SystemConnect.connects st lb c db EX R FR WF FG FP i A N AS NG SU). Qed.
Print Assumptions C120_connected.

(** A client sends an SSLRequest and, without waiting for the answer, a StartupMessage. *)
Definition greeting : list label :=
  listening_on_A ++ accepting 2 3 ++ [YSession 0 (Session.LArrive Session.Client (SessionRuns.ex_ssl ++ SessionRuns.ex_startup)); YSession 0 Session.LStart; YSession 0 (Session.LStartWrite 1);
    YSession 0 Session.LStart] ++ asking 3 ++
  [YSession 0 Session.LStart; YSession 0 Session.LStart; YSession 0 (Session.LDial None); YSession 0 (Session.LStartWrite (length SessionRuns.ex_startup))].
Definition greeting_at (i : nat) : state := final (firstn i greeting).
Definition greeting_label (i : nat) : option label := nth_error greeting i.
Lemma greeting_prefix i : run step (Run (Some cfgA)) (firstn i greeting) = Some (greeting_at i).
Proof.
  apply final_run. assert (run step (Run (Some cfgA)) greeting = Some (final greeting)) as X by (apply final_run; computed).
  rewrite <- (firstn_skipn i greeting), run_app in X. destruct (run step (Run (Some cfgA)) (firstn i greeting)); [reflexivity|discriminate X].
Qed.
Lemma greeting_execution : execution step greeting_at greeting_label.
Proof.
  intros i. unfold greeting_label. pose proof (greeting_prefix (S i)) as X. destruct (nth_error greeting i) as [l|] eqn:N.
  - rewrite (firstn_next i _ _ N), run_app, greeting_prefix in X. apply run_one in X. exact X.
  - apply nth_error_None in N. unfold greeting_at. rewrite !firstn_all2 by lia. reflexivity.
Qed.
Lemma greeting_rest : at_rest (final greeting).
Proof.
  assert (run step (Run (Some cfgA)) greeting = Some (final greeting)) as R by (apply final_run; computed). apply rest_intro; [eapply run_reachable; exact R|computed|..].
  - intros t. destruct t as [|[|[|[|[|t]]]]]; vm_compute; exact I.
  - intros t. destruct t as [|[|[|[|[|t]]]]]; first [left; computed|right; computed].
  - intros x E. vm_compute in E. injection E as <-. reflexivity.
  - computed.
  - intros l L. destruct l; try contradiction; computed.
  - intros c l C L. destruct c as [|c]; [|vm_compute in C; lia]; clear C; destruct l; try contradiction; try destruct d; try (destruct t as [|[|t]]); computed.
Qed.
Example C120_instance : execution step greeting_at greeting_label /\ reachable step init (greeting_at 0) /\ fair_roles greeting_at greeting_label /\ writers_first greeting_at greeting_label /\
  fair_goroutines greeting_at greeting_label /\ fair_peers 0 greeting_at greeting_label /\ (forall k, panicked (greeting_at k) = None) /\
  accepted (Server.hist (srv (greeting_at 42))) = [0%nat] /\ negotiating (sess (greeting_at 42) 0) /\ asks_for_db (str "app") (sess (greeting_at 42) 0) /\
  (forall k l, (42 <= k)%nat -> greeting_label k = Some l -> ~ goes_wrong 0 l) /\ (forall k, (42 <= k)%nat -> suits (str "app") (sess (greeting_at k) 0)) /\
  Session.start_pc (sess (greeting_at 42) 0) = Session.SRecv /\ SpecSession.sent Session.Client (Session.hist (sess (greeting_at 44) 0)) = ["N"%byte] /\
  established (sess (greeting_at 54) 0) /\ SpecSession.dials (Session.hist (sess (greeting_at 54) 0)) = [str "db.internal:5433"].
Proof.
  assert (forall k, (54 <= k)%nat -> greeting_at k = final greeting) as LATE by (intros k Hk; unfold greeting_at; rewrite firstn_all2; [reflexivity|vm_compute; exact Hk]).
  pose proof greeting_rest as REST.
  split; [exact greeting_execution|]. split; [eapply run_reachable; exact (greeting_prefix 0)|]. split; [|split; [|split; [|split; [|split; [|split; [computed|split; [vm_compute; exact I|split; [|split; [|split]]]]]]]]].
  - intros r i. exists (i + 54)%nat. split; [lia|]. left. intros l A. rewrite LATE by lia. apply REST. destruct r, l; try contradiction A; try exact I; destruct l; try contradiction A; exact I.
  - intros i t L G t'. assert (i < 54)%nat as Hi by (unfold greeting_label in L; apply (nth_error_Some greeting i); rewrite L; discriminate).
    assert (i = 47%nat) as ->.
    { revert L G. do 47 (destruct i as [|i]; [intros L G; vm_compute in L; try discriminate L; injection L as <-; vm_compute in G; discriminate G|]).
      destruct i as [|i]; [reflexivity|]. do 6 (destruct i as [|i]; [intros L G; vm_compute in L; try discriminate L; injection L as <-; vm_compute in G; discriminate G|]). lia. }
    destruct t' as [|[|[|[|[|t']]]]]; vm_compute; intros [].
  - intros t i. right. exists (i + 54)%nat. split; [lia|]. intros k Hk l A. rewrite (LATE k) by lia. apply REST. clear - A. destruct A as [A|A].
    + destruct l; try contradiction A; try exact I; destruct l; try contradiction A; exact I.
    + destruct l; try contradiction A; try exact I; destruct l; try contradiction A; exact I.
  - intros i. exists (i + 54)%nat. split; [lia|]. left. intros l O. rewrite LATE by lia. destruct l; try contradiction O. assert (c = 0%nat) as -> by (destruct l; try contradiction O; exact O).
    destruct l; try contradiction O; computed.
  - intros k. destruct (panicked (greeting_at k)) as [p|] eqn:P; [exfalso|reflexivity]. assert (k < 54 \/ 54 <= k)%nat as [H|H] by lia; [|rewrite (LATE k H) in P; vm_compute in P; discriminate P].
    do 54 (destruct k as [|k]; [vm_compute in P; discriminate P|]). lia.
  - exists (Frames.Reader [SessionRuns.ex_ssl ++ SessionRuns.ex_startup] None), [SessionRuns.ex_ssl], SessionRuns.ex_startup, [], (SessionRuns.ex_params (str "app")).
    split; [computed|]. split; [computed|]. split; [constructor; [exact SessionRuns.wire_ssl|constructor]|]. split; [apply SessionRuns.wire_startup|]. apply SessionMore.asks_for_get. computed.
  - intros k l _ L. assert (k < 54)%nat as Hk by (unfold greeting_label in L; apply (nth_error_Some greeting k); rewrite L; discriminate).
    do 54 (destruct k as [|k]; [vm_compute in L; injection L as <-; intros []|]). lia.
  - intros k Hk. assert (SpecSession.configs (Session.hist (sess (greeting_at k) 0)) = [] \/ SpecSession.configs (Session.hist (sess (greeting_at k) 0)) = [(envAB, Ok cfgA)]) as [X|X].
    { assert (k < 54 \/ 54 <= k)%nat as [H|H] by lia; [|rewrite (LATE k H); right; computed]. do 54 (destruct k as [|k]; [first [left; computed|right; computed]|]). lia. }
    + intros E cfg. rewrite X. intros [].
    + intros E cfg. rewrite X. intros [Y|[]]. injection Y as <- <-. destruct (Session.parse_uri envAB (DatabaseURL cfgA)) as [p|e|q] eqn:PA; [|vm_compute in PA; discriminate PA|vm_compute in PA; discriminate PA].
      exists p. split; [reflexivity|]. vm_compute in PA. injection PA as <-. computed.
  - do 3 (split; [computed|]). computed.
Qed.
