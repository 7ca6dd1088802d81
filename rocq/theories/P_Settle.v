(** Property C119: a client that has said what it wants is connected or turned away, in executions that never end. *)
From Verif Require Import SpecServing SpecReload SpecAttend SpecSettle SystemProofs SystemRuns SystemFacts SystemServing P_Serving P_Reload P_Cancel.
From Verif Require SystemSettle SystemTrace.
From Verif Require Import SystemQuiet SystemReload.
Import SpecReload SpecAttend SpecSettle System.
Require Import Lia.

(** * C119 A client that has said what it wants is connected or turned away, however busy the program is *)

(** In an infinite execution of the whole program, fair as in C118, in which no write of session.Start to the peers of connection [c] and no net.Dial of it hang for ever: if the
    client has sent any number of SSLRequests and another complete packet, or has closed or lost its connection, then its session comes to be established, or ServeConn returns
    with everything closed, whatever the other clients, the databases and the file do. *)
Theorem C119_settled : forall st lb c, execution step st lb -> reachable step init (st 0%nat) -> fair_roles st lb -> writers_first st lb -> fair_goroutines st lb -> fair_peers c st lb ->
  forall i, In c (accepted (Server.hist (srv (st i)))) -> spoke (sess (st i) c) ->
  exists j, (i <= j)%nat /\ (panicked (st j) <> None \/ over (st j) c \/ established (sess (st j) c)).
Proof. intros st lb c EX R FR WF FG FP i A X. exact (SystemSettle.spoken st lb c EX R FR WF FG FP i A X). Qed.
Print Assumptions C119_settled.
(** A client whose packet is of another kind than a StartupMessage of protocol 3.0 is turned away: ServeConn returns with everything closed. *)
Theorem C119_turned_away : forall st lb c, execution step st lb -> reachable step init (st 0%nat) -> fair_roles st lb -> writers_first st lb -> fair_goroutines st lb -> fair_peers c st lb ->
  forall i n v, In c (accepted (Server.hist (srv (st i)))) -> client_began (Session.hist (sess (st i) c)) n v -> v <> ssl_request_code -> v <> 196608 ->
  exists j, (i <= j)%nat /\ (panicked (st j) <> None \/ over (st j) c).
Proof. intros st lb c EX R FR WF FG FP i n v A X V V'. exact (SystemSettle.refused st lb c EX R FR WF FG FP i n v A X V V'). Qed.
Print Assumptions C119_turned_away.

(** C114's execution: the first client is connected and sends a query, the second sends an SSLRequest and a CancelRequest. *)
Definition cancel_at (i : nat) : state := final (firstn i cancelling).
Definition cancel_label (i : nat) : option label := nth_error cancelling i.
Lemma cancel_prefix i : run step (Run (Some cfgA)) (firstn i cancelling) = Some (cancel_at i).
Proof.
  apply final_run. assert (run step (Run (Some cfgA)) cancelling = Some (final cancelling)) as X by (apply final_run; computed).
  rewrite <- (firstn_skipn i cancelling), run_app in X. destruct (run step (Run (Some cfgA)) (firstn i cancelling)); [reflexivity|discriminate X].
Qed.
Lemma cancel_execution : execution step cancel_at cancel_label.
Proof.
  intros i. unfold cancel_label. pose proof (cancel_prefix (S i)) as X. destruct (nth_error cancelling i) as [l|] eqn:N.
  - rewrite (firstn_next i _ _ N), run_app, cancel_prefix in X. apply run_one in X. exact X.
  - apply nth_error_None in N. unfold cancel_at. rewrite !firstn_all2 by lia. reflexivity.
Qed.
Example C119_instance : execution step cancel_at cancel_label /\ reachable step init (cancel_at 0) /\ fair_roles cancel_at cancel_label /\ writers_first cancel_at cancel_label /\
  fair_goroutines cancel_at cancel_label /\ fair_peers 0 cancel_at cancel_label /\ fair_peers 1 cancel_at cancel_label /\ (forall k, panicked (cancel_at k) = None) /\
  (** the first client's StartupMessage came: it is connected *)
  accepted (Server.hist (srv (cancel_at 42))) = [0%nat] /\ client_began (Session.hist (sess (cancel_at 42) 0)) 0 196608 /\ Session.start_pc (sess (cancel_at 42) 0) = Session.SRecv /\
  established (sess (cancel_at 52) 0) /\
  (** the second client's SSLRequest was answered, and its CancelRequest came: it is turned away *)
  accepted (Server.hist (srv (cancel_at 71))) = [0; 1]%nat /\ client_began (Session.hist (sess (cancel_at 71) 1)) 1 cancel_request_code /\ Session.start_pc (sess (cancel_at 71) 1) = Session.SRecv /\
  serve_results 1 (Server.hist (srv (cancel_at 71))) = [] /\ serve_results 1 (Server.hist (srv (cancel_at 86))) = [Some (ErrUnsupportedVersion cancel_request_code)].
Proof.
  assert (forall k, (86 <= k)%nat -> cancel_at k = final cancelling) as LATE by (intros k Hk; unfold cancel_at; rewrite firstn_all2; [reflexivity|vm_compute; exact Hk]).
  destruct C114_instance as (_ & _ & REST & _).
  assert (forall c, (c <= 1)%nat -> fair_peers c cancel_at cancel_label) as PEERS.
  { intros c Hc i. exists (i + 86)%nat. split; [lia|]. left. intros l O. rewrite LATE by lia. destruct l; try contradiction O. assert (c0 = c) as -> by (destruct l; try contradiction O; exact O).
    assert (c = 0 \/ c = 1)%nat as [->| ->] by lia; destruct l; try contradiction O; computed. }
  split; [exact cancel_execution|]. split; [eapply run_reachable; exact (cancel_prefix 0)|]. split; [|split; [|split; [|split; [apply PEERS; lia|split; [apply PEERS; lia|split]]]]].
  - intros r i. exists (i + 86)%nat. split; [lia|]. left. intros l A. rewrite LATE by lia. apply REST. destruct r, l; try contradiction A; try exact I; destruct l; try contradiction A; exact I.
  - intros i t L G t'. assert (i < 86)%nat as Hi by (unfold cancel_label in L; apply (nth_error_Some cancelling i); rewrite L; discriminate).
    assert (i = 45%nat) as ->.
    { revert L G. do 45 (destruct i as [|i]; [intros L G; vm_compute in L; try discriminate L; injection L as <-; vm_compute in G; discriminate G|]).
      destruct i as [|i]; [reflexivity|]. do 40 (destruct i as [|i]; [intros L G; vm_compute in L; try discriminate L; injection L as <-; vm_compute in G; discriminate G|]). lia. }
    destruct t' as [|[|[|[|[|t']]]]]; vm_compute; intros [].
  - intros t i. right. exists (i + 86)%nat. split; [lia|]. intros k Hk l A. rewrite (LATE k) by lia. apply REST. clear - A. destruct A as [A|A].
    + destruct l; try contradiction A; try exact I; destruct l; try contradiction A; exact I.
    + destruct l; try contradiction A; try exact I; destruct l; try contradiction A; exact I.
  - intros k. destruct (panicked (cancel_at k)) as [p|] eqn:P; [exfalso|reflexivity]. assert (k < 86 \/ 86 <= k)%nat as [H|H] by lia; [|rewrite (LATE k H) in P; vm_compute in P; discriminate P].
    do 86 (destruct k as [|k]; [vm_compute in P; discriminate P|]). lia.
  - split; [computed|]. split.
    { exists [], SessionRuns.ex_startup, []. split; [reflexivity|]. split; [constructor|]. split; [|computed].
      exists (firstn 4 (skipn 4 SessionRuns.ex_startup)), (skipn 8 SessionRuns.ex_startup). split; [repeat split; vm_compute; congruence|].
      exists (firstn 4 SessionRuns.ex_startup). split; [repeat split; vm_compute; congruence|reflexivity]. }
    do 3 (split; [computed|]). split.
    { exists [SessionRuns.ex_ssl], ex_cancel, []. split; [reflexivity|]. split; [constructor; [exact SessionRuns.wire_ssl|constructor]|]. split; [|computed].
      exists [x04; xd2; x16; x2e], [x00; x00; x00; x2a; x00; x12; xd6; x87]. split; [repeat split; vm_compute; congruence|].
      exists [x00; x00; x00; x10]. split; [repeat split; vm_compute; congruence|reflexivity]. }
    do 2 (split; [computed|]). computed.
Qed.
