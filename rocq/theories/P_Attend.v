(** Property C118: every client is attended to, in executions that never end. *)
From Verif Require Import SpecServing SpecReload SpecAttend SystemProofs SystemRuns SystemFacts SystemServing P_Serving P_Reload.
From Verif Require SystemAttendLive SystemTrace.
From Verif Require Import SystemQuiet SystemReload.
Import SpecReload SpecAttend System.
Require Import Lia.

(** * C118 Every client is attended to, however busy the program is *)

(** In an infinite execution of the whole program, in which no goroutine of the server that is again and again able to act is passed over for ever, the goroutines that carry
    configurations are treated fairly, and an RWMutex does not let new readers pass a waiting writer: every connection Accept returned comes to a point where it is over, or
    its session.Start waits for its peers, for net.Dial or for its session's goroutines, whatever the other clients, the databases and the file do
    meanwhile. The mutex of the table of sessions and the lock of the distributor are obtained in the end. *)
Theorem C118_attended : forall st lb, execution step st lb -> reachable step init (st 0%nat) -> fair_roles st lb -> writers_first st lb -> fair_goroutines st lb ->
  forall i c, In c (accepted (Server.hist (srv (st i)))) ->
  exists j, (i <= j)%nat /\ (panicked (st j) <> None \/ over (st j) c \/ on_hold (st j) c).
Proof. intros st lb EX R FR WF FG i c A. exact (SystemAttendLive.ev_attended st lb EX R FR WF FG c i A). Qed.
Print Assumptions C118_attended.
(** A client's packet that came while session.Start is waiting for it is read, and a client that hung up is let go. *)
Theorem C118_startup : forall st lb, execution step st lb -> reachable step init (st 0%nat) -> fair_roles st lb -> writers_first st lb -> fair_goroutines st lb ->
  forall i c, In c (accepted (Server.hist (srv (st i)))) -> Session.start_pc (sess (st i) c) = Session.SRecv -> asked (sess (st i) c) ->
  exists j, (i <= j)%nat /\ (panicked (st j) <> None \/
    (length (SpecSession.startups (Session.hist (sess (st i) c))) < length (SpecSession.startups (Session.hist (sess (st j) c))))%nat \/
    exists r, Session.start_pc (sess (st j) c) = Session.SDefer r \/ Session.start_pc (sess (st j) c) = Session.SDone r).
Proof.
  intros st lb EX R FR WF FG i c A X Y.
  apply (SystemAttendLive.ev_read st lb EX R FR WF FG c i (length (SpecSession.startups (Session.hist (sess (st i) c))))); [|exact A]. right. right. auto.
Qed.
Print Assumptions C118_startup.
(** Once session.Start asks for the configuration, it gets it: it comes to call net.Dial, or returns an error. *)
Theorem C118_configuration : forall st lb, execution step st lb -> reachable step init (st 0%nat) -> fair_roles st lb -> writers_first st lb -> fair_goroutines st lb ->
  forall i c w, In c (accepted (Server.hist (srv (st i)))) -> Session.start_pc (sess (st i) c) = Session.SGet w ->
  exists j, (i <= j)%nat /\ (panicked (st j) <> None \/ answered (sess (st j) c)).
Proof.
  intros st lb EX R FR WF FG i c w A X. apply (SystemAttendLive.ev_got st lb EX R FR WF FG c i); [|exact A]. unfold SystemAttendLive.determined. rewrite X. exact I.
Qed.
Print Assumptions C118_configuration.
(** Once session.Start is returning, ServeConn returns: the connections are closed and the table forgets the session. *)
Theorem C118_leaves : forall st lb, execution step st lb -> reachable step init (st 0%nat) -> fair_roles st lb -> writers_first st lb -> fair_goroutines st lb ->
  forall i c r, In c (accepted (Server.hist (srv (st i)))) -> Session.start_pc (sess (st i) c) = Session.SDefer r ->
  exists j, (i <= j)%nat /\ (panicked (st j) <> None \/ over (st j) c /\ serve_results c (Server.hist (srv (st j))) = [r]).
Proof. intros st lb EX R FR WF FG i c r A X. apply (SystemAttendLive.ev_left st lb EX R FR WF FG c r i); [left; exact X|exact A]. Qed.
Print Assumptions C118_leaves.

(** Three clients: relaying; hung up; half a startup packet (C94). *)
Definition three_at (i : nat) : state := final (firstn i three_fates).
Definition three_label (i : nat) : option label := nth_error three_fates i.
Lemma three_prefix i : run step (Run (Some cfgA)) (firstn i three_fates) = Some (three_at i).
Proof.
  apply final_run. assert (run step (Run (Some cfgA)) three_fates = Some (final three_fates)) as X by (apply final_run; computed).
  rewrite <- (firstn_skipn i three_fates), run_app in X. destruct (run step (Run (Some cfgA)) (firstn i three_fates)); [reflexivity|discriminate X].
Qed.
Lemma three_execution : execution step three_at three_label.
Proof.
  intros i. unfold three_label. pose proof (three_prefix (S i)) as X. destruct (nth_error three_fates i) as [l|] eqn:N.
  - rewrite (firstn_next i _ _ N), run_app, three_prefix in X. apply run_one in X. exact X.
  - apply nth_error_None in N. unfold three_at. rewrite !firstn_all2 by lia. reflexivity.
Qed.
Lemma is_get x : match Session.start_pc x with Session.SGet _ => true | _ => false end = true -> exists w, Session.start_pc x = Session.SGet w.
Proof. destruct (Session.start_pc x); try discriminate. eauto. Qed.
Lemma is_conn b x d : option_map Session.is_open (Session.conns x d) = Some b -> conn_is b x d.
Proof. unfold conn_is. destruct (Session.conns x d) as [[r o]|]; [|discriminate]. intros H. injection H as ->. eauto. Qed.
Example C118_instance : execution step three_at three_label /\ reachable step init (three_at 0) /\ fair_roles three_at three_label /\ writers_first three_at three_label /\
  fair_goroutines three_at three_label /\ (forall k, panicked (three_at k) = None) /\
  (** the first client's packet came; session.Start asks for the configuration; in the end it relays *)
  accepted (Server.hist (srv (three_at 42))) = [0%nat] /\ Session.start_pc (sess (three_at 42) 0) = Session.SRecv /\ asked (sess (three_at 42) 0) /\
  (exists w, Session.start_pc (sess (three_at 43) 0) = Session.SGet w) /\
  on_hold (three_at 85) 0 /\ Session.start_pc (sess (three_at 85) 0) = Session.SWait /\
  (** the second client hung up: it is let go *)
  accepted (Server.hist (srv (three_at 62))) = [0; 1]%nat /\ Session.start_pc (sess (three_at 62) 1) = Session.SDefer (Some EOF) /\
  serve_results 1 (Server.hist (srv (three_at 62))) = [] /\ serve_results 1 (Server.hist (srv (three_at 85))) = [Some EOF] /\
  (** the third has sent three bytes *)
  accepted (Server.hist (srv (three_at 85))) = [0; 1; 2]%nat /\ on_hold (three_at 85) 2 /\ Session.start_pc (sess (three_at 85) 2) = Session.SRecv.
Proof.
  assert (forall k, (85 <= k)%nat -> three_at k = final three_fates) as LATE by (intros k Hk; unfold three_at; rewrite firstn_all2; [reflexivity|vm_compute; exact Hk]).
  destruct C95_instance as [_ REST].
  split; [exact three_execution|]. split; [eapply run_reachable; exact (three_prefix 0)|]. split; [|split; [|split; [|split]]].
  - intros r i. exists (i + 85)%nat. split; [lia|]. left. intros l A. rewrite LATE by lia. apply REST. destruct r, l; try contradiction A; try exact I; destruct l; try contradiction A; exact I.
  - intros i t L G t'. assert (i < 85)%nat as Hi by (unfold three_label in L; apply (nth_error_Some three_fates i); rewrite L; discriminate).
    assert (i = 45%nat) as ->.
    { revert L G. do 45 (destruct i as [|i]; [intros L G; vm_compute in L; try discriminate L; injection L as <-; vm_compute in G; discriminate G|]).
      destruct i as [|i]; [reflexivity|]. do 39 (destruct i as [|i]; [intros L G; vm_compute in L; try discriminate L; injection L as <-; vm_compute in G; discriminate G|]). lia. }
    destruct t' as [|[|[|[|[|t']]]]]; vm_compute; intros [].
  - intros t i. right. exists (i + 85)%nat. split; [lia|]. intros k Hk l A. rewrite (LATE k) by lia. apply REST. clear - A. destruct A as [A|A].
    + destruct l; try contradiction A; try exact I; destruct l; try contradiction A; exact I.
    + destruct l; try contradiction A; try exact I; destruct l; try contradiction A; exact I.
  - intros k. destruct (panicked (three_at k)) as [p|] eqn:P; [exfalso|reflexivity]. assert (k < 85 \/ 85 <= k)%nat as [H|H] by lia; [|rewrite (LATE k H) in P; vm_compute in P; discriminate P].
    do 85 (destruct k as [|k]; [vm_compute in P; discriminate P|]). lia.
  - split; [computed|]. split; [computed|]. split.
    { assert (option_map (fun x => concat (Frames.chunks (Session.rd x))) (Session.conns (sess (three_at 42) 0) Session.Client) = Some SessionRuns.ex_startup) as X by computed.
      unfold asked. destruct (Session.conns (sess (three_at 42) 0) Session.Client) as [[rd b]|]; [|discriminate X]. exists rd, b. split; [reflexivity|]. right.
      cbn [option_map Session.rd] in X. assert (concat (Frames.chunks rd) = SessionRuns.ex_startup) as -> by congruence. exists SessionRuns.ex_startup, [].
      exists [], (firstn 4 SessionRuns.ex_startup), (skipn 4 SessionRuns.ex_startup), 31. vm_compute. intuition congruence. }
    split; [apply is_get; computed|].
    split; [split; [apply waits_traffic; [computed|apply is_conn; computed]|computed]|].
    do 6 (split; [computed|]). split; [|computed]. split; [|computed].
    assert (option_map (fun x => (Frames.fin (Session.rd x), concat (Frames.chunks (Session.rd x)), Session.is_open x)) (Session.conns (sess (three_at 85) 2) Session.Client) =
      Some (None, [x00; x00; x00], true)) as X by computed.
    destruct (Session.conns (sess (three_at 85) 2) Session.Client) as [[rd b]|] eqn:Y; [|discriminate X]. cbn [option_map Session.rd Session.is_open] in X. injection X as X1 X2 X3.
    rewrite X3 in Y. apply (waits_startup _ rd); [computed|exact Y|exact X1|rewrite X2; left; vm_compute; lia].
Qed.
