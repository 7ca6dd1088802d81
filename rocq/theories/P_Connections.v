(** Property C117: what ServeConn returns, and how often connections are closed. *)
From Verif Require Import SpecConnections ServerProofs ServerSessions ServerMore ServerHistory.
Require Import Lia.
Ltac computed := vm_compute; reflexivity.

(** * C117 Each connection is closed at most once, and ServeConn says why it ended *)

(** The server closes each session and each client connection at most once, closes connections only of sessions it has closed, and
    closes only sessions it has registered; a connection it did not close is open. *)
Theorem C117_closed_once : forall s, reachable step init s ->
  NoDup (fired (hist s)) /\ NoDup (conns_closed (hist s)) /\ incl (conns_closed (hist s)) (fired (hist s)) /\ incl (fired (hist s)) (registered (hist s)) /\
  (forall c, (c < next_conn s)%nat -> (conn_open s c = false <-> In c (conns_closed (hist s)))) /\
  (forall c, s_fired s c = true <-> In c (fired (hist s))).
Proof.
  intros s R. pose proof (reachable_once _ R) as O. split; [apply (on_nodup _ O)|]. split; [apply (on_nodup' _ O)|]. split; [intros c X; apply (on_closed _ O _ X)|]. split.
  - intros c X. apply (sn_fired _ (reachable_ses _ R)), (on_fired _ O), X.
  - split; [|apply (on_fired _ O)]. intros c L. split; [apply (on_open _ O _ L)|apply (on_closed _ O)].
Qed.
Print Assumptions C117_closed_once.
(** ServeConn returns ErrServerClosed, without having registered the session; or ErrSessionClosed, when Close closed the session before its Start began; or what session.Start returned. *)
Theorem C117_results : forall ls s t c r, run step NewServer ls = Some s -> In (HRet t (CServeConn c) r) (hist s) ->
  r = Some ErrServerClosed /\ ~ In c (registered (hist s)) \/ r = Some ErrSessionClosed /\ In c (fired (hist s)) \/ start_ended ls c r.
Proof. intros ls s t c r H. apply (run_results ls s H). Qed.
Print Assumptions C117_results.
(** The session table consists of the sessions registered and neither removed nor cleared since. *)
Theorem C117_table : forall s, reachable step init s -> sessions s = table (hist s).
Proof. exact reachable_table. Qed.
Print Assumptions C117_table.
(** Every result answers one call or one [do]: a goroutine is in the server exactly while a call of it, or the function it was created for, has not returned. *)
Theorem C117_calls_answered : forall s t, reachable step init s -> (inside t (hist s) = true <-> pcs s t <> Idle).
Proof. intros s t R. rewrite (reachable_inside _ R t). destruct (pcs s t); split; congruence. Qed.
Print Assumptions C117_calls_answered.
(** Connection 0 is served until its session ends with EOF; Close closes session 1 before its Start begins; connection 2 comes too late. *)
Definition go (t n : nat) : list label := repeat (LGo t) n.
Definition three_results : list label :=
  [LServe 1] ++ go 1 5 ++ [LAccept 1 AConn; LSpawn 1 2] ++ go 2 6 ++ [LEnd 2 (Some EOF)] ++ go 2 6 ++ [LAccept 1 AConn; LSpawn 1 3] ++ go 3 5 ++
  [LClose 4] ++ go 4 3 ++ [LCloseListener 4 None; LPick 4 1] ++ go 4 1 ++ go 4 2 ++ go 3 5 ++ [LServeConn 5] ++ go 5 2.
Example C117_instance : exists s, run step NewServer three_results = Some s /\
  results (hist s) = [(2%nat, CServeConn 0, Some EOF); (3%nat, CServeConn 1, Some ErrSessionClosed); (5%nat, CServeConn 2, Some ErrServerClosed)] /\
  fired (hist s) = [1%nat; 0%nat] /\ conns_closed (hist s) = [1%nat; 0%nat] /\ registered (hist s) = [0%nat; 1%nat] /\ map (conn_open s) [0%nat; 1%nat; 2%nat] = [false; false; true] /\
  table (hist s) = [] /\ map (fun t => inside t (hist s)) [1%nat; 2%nat; 3%nat; 4%nat; 5%nat] = [true; false; false; true; false].
Proof.
  destruct (run step NewServer three_results) as [s|] eqn:E; [|vm_compute in E; discriminate E]. exists s. split; [reflexivity|]. vm_compute in E. injection E as <-. repeat (split; [computed|]). computed.
Qed.
