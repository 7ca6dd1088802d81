(** Property C115: messages are delivered, in executions that never end. *)
From Verif Require Import SpecExecution SystemProofs SystemRuns SystemFacts P_Serving.
From Verif Require SystemLive SessionLive SessionRuns.
Import System.
Require Import Lia.
Ltac computed := vm_compute; reflexivity.

(** * C115 Every message is delivered in the end *)

(** In an infinite execution of the whole program, in which the goroutines of session [c] are treated fairly, its select statement is fair, and
    its peers keep reading: when the messages [ms] have arrived from one peer, then in the end all of them have been handed to the other peer, unless the
    session fails; whatever else arrives meanwhile, and whatever the clients, the database, the file and all other goroutines do. *)
Theorem C115_delivered : forall st lb c, execution step st lb -> reachable step init (st 0%nat) ->
  fair_goroutines (of_session c st) (lb_session c lb) -> fair_select (of_session c st) (lb_session c lb) ->
  forall i d ms rest, complete d (Session.hist (sess (st i) c)) ms rest ->
  exists j, (i <= j)%nat /\ (~ healthy (sess (st j) c) \/ delivered d (Session.hist (sess (st j) c)) ms).
Proof. intros st lb c EX R FG FS i d ms rest. exact (SystemLive.sys_delivered c st lb EX R FG FS d ms i rest). Qed.
Print Assumptions C115_delivered.
(** The session fails only when one of its own in pumps cannot receive a message from its peer, or a write of one of its own
    out pumps fails. *)
Theorem C115_fails : forall s l s' c, reachable step init s -> step s l = Some s' -> healthy (sess s c) -> ~ healthy (sess s' c) ->
  (exists d r, l = YSession c (Session.LRecv d) /\ Session.conns (sess s c) d = Some (Session.NetConn r true) /\ forall m r', Conn.RecvMessage r <> Frames.Done (Ok m) r') \/
  (exists d e, l = YSession c (Session.LWriteErr d e)).
Proof. exact SystemLive.sys_unhealthy. Qed.
Print Assumptions C115_fails.
(** The same for a session used on its own, which others may Close. *)
Theorem C115_session : forall st lb, execution Session.step st lb -> reachable Session.step Session.init (st 0%nat) -> fair_goroutines st lb -> fair_select st lb ->
  forall i d ms rest, complete d (Session.hist (st i)) ms rest -> exists j, (i <= j)%nat /\ (~ healthy (st j) \/ delivered d (Session.hist (st j)) ms).
Proof.
  intros st lb EX R FG FS i d ms rest. exact (SessionLive.ev_delivered st lb (SessionLive.execution_reach st lb EX R) (fun j _ _ => EX j) FG FS d ms i rest).
Qed.
Print Assumptions C115_session.

(** The client of [one_session] and its database exchange messages forever: a query, an answer, a query, ... *)
Definition lap : list label := map (YSession 0) (SystemLive.passes Session.Client SessionRuns.ex_query ++ SystemLive.passes Session.DB SessionRuns.ex_ready).
Definition forever : nat -> state := SystemLive.moment step lap (final one_session).
Lemma lap_again : forall s, SystemLive.at_ease 0 s -> exists s', run step s lap = Some s' /\ SystemLive.at_ease 0 s'.
Proof.
  intros s H. unfold lap. rewrite map_app.
  destruct (SystemLive.ease_pass 0 s Session.Client SessionRuns.ex_query _ H eq_refl eq_refl ltac:(discriminate)) as (s1 & E1 & H1).
  destruct (SystemLive.ease_pass 0 s1 Session.DB SessionRuns.ex_ready _ H1 eq_refl eq_refl ltac:(discriminate)) as (s2 & E2 & H2).
  exists s2. split; [|exact H2]. rewrite run_app, E1. exact E2.
Qed.
Lemma at_ease_first : SystemLive.at_ease 0 (final one_session).
Proof.
  split; [eapply run_reachable; apply final_run; computed|]. split; [computed|]. split; [vm_compute; lia|].
  constructor; try (intros []); try computed. repeat split; vm_compute; intuition congruence.
Qed.
Example C115_instance : execution step forever (SystemLive.action lap) /\ reachable step init (forever 0%nat) /\
  fair_goroutines (of_session 0 forever) (lb_session 0 (SystemLive.action lap)) /\ fair_select (of_session 0 forever) (lb_session 0 (SystemLive.action lap)) /\
  complete Session.Client (Session.hist (sess (forever 1%nat) 0)) [Messages.Query (str "SELECT 1")] [] /\
  sent Session.DB (Session.hist (sess (forever 1%nat) 0)) = base Session.DB (Session.hist (sess (forever 1%nat) 0)) /\
  delivered Session.Client (Session.hist (sess (forever 7%nat) 0)) [Messages.Query (str "SELECT 1")] /\
  forall i, healthy (sess (forever (i * 14)) 0).
Proof.
  pose proof at_ease_first as A. assert (lap <> []) as NE by discriminate.
  assert (forall i, SystemLive.at_ease 0 (forever (i * 14))) as EA.
  { intros i. unfold forever. change 14%nat with (length lap). rewrite (SystemLive.cycle_at step (SystemLive.at_ease 0) lap NE lap_again) by exact A. apply (SystemLive.laps_ok step _ lap lap_again _ i A). }
  split; [apply (SystemLive.cycle_execution step _ lap NE lap_again), A|]. split; [exact (proj1 (EA 0%nat))|]. split; [|split].
  - intros g i. exists (i * 14)%nat. split; [lia|]. left. intros l L. destruct (EA i) as (_ & _ & _ & X). exact (SystemLive.resting_idle _ g l X L).
  - intros d i. exists (i * 14 + match d with Session.Client => 3 | Session.DB => 10 end)%nat. split; [lia|]. left. unfold lb_session.
    change 14%nat with (length lap). rewrite (proj2 (SystemLive.cycle_in step _ lap NE lap_again (final one_session) i (match d with Session.Client => 3 | Session.DB => 10 end)%nat ltac:(destruct d; vm_compute; lia))). destruct d; reflexivity.
  - split; [|split; [computed|split]].
    + exists SessionRuns.ex_query.
      replace (arrived Session.Client (Session.hist (sess (forever 1%nat) 0))) with (SessionRuns.ex_startup ++ SessionRuns.ex_query) by computed.
      replace (startups (Session.hist (sess (forever 1%nat) 0))) with [Messages.StartupMessage 196608 (SessionRuns.ex_params (str "app"))] by computed. split.
      * eapply decodes_cons with (f := SessionRuns.ex_startup); [|computed|apply decodes_nil]. exists [], (firstn 4 SessionRuns.ex_startup), (skipn 4 SessionRuns.ex_startup), 31. split; [reflexivity|]. split; [reflexivity|]. repeat split; vm_compute; intuition congruence.
      * eapply decodes_cons with (f := SessionRuns.ex_query); [|computed|apply decodes_nil]. exists [x51], [x00; x00; x00; x0d], (str "SELECT 1" ++ [x00]), 13. split; [symmetry; apply app_nil_r|]. repeat split; vm_compute; intuition congruence.
    + exists []. computed.
    + intros i. apply (SystemLive.rs_healthy _ (proj2 (proj2 (proj2 (EA i))))).
Qed.
