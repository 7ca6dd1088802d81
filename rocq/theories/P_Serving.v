(** Properties C94, C95: what becomes of the accepted connections in the whole program. *)
From Verif Require Import SpecServing SystemProofs SystemTrace SystemFacts SystemRuns SystemQuiet SystemBusy SystemServing.
From Verif Require SpecWire SpecFrames SpecProtocol.
Require Import Lia.

Ltac computed := vm_compute; reflexivity.
Lemma run_reachable f ls s : run step (Run f) ls = Some s -> reachable step init s.
Proof. intros H. exists (Run f), ls. split; [exists f; reflexivity|exact H]. Qed.

(** * C94 No accepted connection is lost *)

(** Every connection Accept returned: either exactly one goroutine has it, and ServeConn has not returned,
    or it is over ([over]: ServeConn returned once, with session.Start's error, everything closed). *)
Theorem C94_no_connection_lost : forall s c, reachable step init s -> In c (accepted (Server.hist (srv s))) ->
  ((exists t, has_conn (srv s) t c /\ forall t', has_conn (srv s) t' c -> t' = t) /\ serve_results c (Server.hist (srv s)) = []) \/ over s c.
Proof. exact fate. Qed.
Print Assumptions C94_no_connection_lost.
(** Accept's connections are told apart, and nothing else is served. *)
Theorem C94_accepted : forall s, reachable step init s -> accepted (Server.hist (srv s)) = seq 0 (Server.next_conn (srv s)).
Proof. exact accepted_all. Qed.
Print Assumptions C94_accepted.

(** three connections: relaying; its client hung up before saying anything; half a startup packet *)
Definition refusing (v c : nat) : list label :=
  [YSession c (Session.LHangup Session.Client EOF); YSession c Session.LStart; YEnd v; YFire v] ++ repeat (YSession c (Session.LClose 0 None)) 7 ++
  [YClosed v] ++ repeat (YServer (Server.LGo v)) 4.
Definition three_fates : list label :=
  one_session ++ accepting 2 4 ++ refusing 4 1 ++ accepting 2 5 ++ [YSession 2 (Session.LArrive Session.Client [x00; x00; x00])].
Example C94_instance : run step (Run (Some cfgA)) three_fates = Some (final three_fates) /\ accepted (Server.hist (srv (final three_fates))) = [0; 1; 2]%nat /\
  has_conn (srv (final three_fates)) 3 0 /\ has_conn (srv (final three_fates)) 5 2 /\
  serve_results 1 (Server.hist (srv (final three_fates))) = [Some EOF] /\ Server.sessions (srv (final three_fates)) = [2; 0]%nat /\
  option_map Session.is_open (Session.conns (sess (final three_fates) 1) Session.Client) = Some false.
Proof. split; [apply final_run; computed|]. do 5 (split; [computed|]). computed. Qed.

(** * C95 What the accepted connections wait for *)

(** Left alone - no file changes, nobody connects, no peer sends, reads or hangs up, no net.Dial returns -
    the program performs boundedly many actions. *)
Theorem C95_own_actions_bounded : forall s, reachable step init s -> exists n, forall ls s', run step s ls = Some s' -> Forall own ls -> (length ls <= n)%nat.
Proof. exact own_bounded. Qed.
Print Assumptions C95_own_actions_bounded.
(** When it has nothing left to do, every accepted connection is over, or its session.Start runs and waits for
    the client's startup packet, a peer's reading, net.Dial, or relays; a relaying session has forwarded all
    there is, unless a peer does not read or one of its goroutines ended. *)
Theorem C95_at_rest : forall s c, reachable step init s -> panicked s = None -> at_rest s -> In c (accepted (Server.hist (srv s))) ->
  over s c \/
  (exists t, Server.pcs (srv s) t = Server.C6 c) /\ In c (Server.sessions (srv s)) /\ waits (sess s c) /\ (Session.start_pc (sess s c) = Session.SWait -> traffic_waits (sess s c)).
Proof.
  intros s c R P Q A. destruct (fate _ _ R A) as [[(t & H & _) _]|O]; [right|left; exact O]. apply has_own in H. apply (rest_owner _ R P Q) in H.
  split; [eauto|]. split; [eapply in_table; eassumption|]. split; [eapply rest_waits; eassumption|eapply rest_traffic; eassumption].
Qed.
Print Assumptions C95_at_rest.
(** the three above *)
Example C95_instance : panicked (final three_fates) = None /\ at_rest (final three_fates).
Proof.
  split; [computed|]. assert (run step (Run (Some cfgA)) three_fates = Some (final three_fates)) as R by (apply final_run; computed).
  apply rest_intro; [eapply run_reachable; exact R|computed|..].
  - intros t. destruct t as [|[|[|[|[|[|[|t]]]]]]]; vm_compute; exact I.
  - intros t. destruct t as [|[|[|[|[|[|[|t]]]]]]]; first [left; computed|right; computed].
  - intros x E. vm_compute in E. injection E as <-. reflexivity.
  - computed.
  - intros l L. destruct l; try contradiction; computed.
  - intros c l C L. destruct c as [|[|[|c]]]; [| | |vm_compute in C; lia]; clear C; destruct l; try contradiction; try destruct d; try (destruct t as [|[|t]]); computed.
Qed.
