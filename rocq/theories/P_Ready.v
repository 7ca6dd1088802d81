(** Properties C101, C102: the program comes back to Accept, whoever connects; silent clients. *)
From Verif Require Import SpecReady SystemProofs SystemTrace SystemFacts SystemRuns SystemQuiet SystemBusy SystemServing SystemReady.
From Verif Require SpecServer SpecFrames.
Require Import Lia.

Ltac computed := vm_compute; reflexivity.
Lemma run_reachable f ls s : run step (Run f) ls = Some s -> reachable step init s.
Proof. intros H. exists (Run f), ls. split; [exists f; reflexivity|exact H]. Qed.

(** * C101 The program always gets back to accepting connections *)

(** From every state its own actions suffice to bring the program to rest (or to the panic of C85). *)
Theorem C101_comes_to_rest : forall s, reachable step init s -> exists ls s', Forall own ls /\ run step s ls = Some s' /\ at_rest s'.
Proof. exact comes_to_rest. Qed.
Print Assumptions C101_comes_to_rest.
(** At rest, if net.Listen ever succeeded: exactly one of the listeners is open, the server's; a goroutine
    waits in Accept on it, unless Serve of that very listener has returned. *)
Theorem C101_listens_at_rest : forall s l a, reachable step init s -> panicked s = None -> at_rest s -> In (l, a) (SpecServer.listened (Server.hist (srv s))) ->
  unlocked s /\
  exists l1 a1, In (l1, a1) (SpecServer.listened (Server.hist (srv s))) /\ Server.listener (srv s) = Some l1 /\
    (forall l2 a2, In (l2, a2) (SpecServer.listened (Server.hist (srv s))) -> (Server.lis_open (srv s) l2 = true <-> l2 = l1)) /\
    ((exists t, in_accept s t l1) \/ exists t r, In (Server.HRet t (Server.CServe l1) r) (Server.hist (srv s)) /\ r <> None).
Proof.
  intros s l a R P Q H. split; [apply rest_mutex; assumption|]. destruct (rest_listens s R P Q l a H) as (l1 & a1 & A & B & C & D). exists l1, a1. split; [exact A|]. split; [exact B|]. split; [exact C|].
  destruct D as [[t D]|(t & r & D)]; [left; exists t; split; [exact D|]; apply (C _ _ A); reflexivity|right; exists t, r]. split; [exact D|].
  destruct (ServerActs.reachable_serves _ (pt_srv _ (reachable_parts _ R))) as [_ X]. apply (X _ _ _ D).
Qed.
Print Assumptions C101_listens_at_rest.
(** There, whatever the other clients, the databases and the file have done so far: a client that connects is
    accepted, and by seven actions of the program has a session that waits for its startup packet. The
    goroutine is back in Accept; no other session is touched. *)
Theorem C101_client_served : forall s t l, reachable step init s -> panicked s = None -> unlocked s -> in_accept s t l ->
  exists ls s', run step s (YServer (Server.LAccept t Server.AConn) :: ls) = Some s' /\ Forall own ls /\ length ls = 7%nat /\
    panicked s' = None /\ unlocked s' /\ in_accept s' t l /\
    accepted (Server.hist (srv s')) = accepted (Server.hist (srv s)) ++ [Server.next_conn (srv s)] /\
    Server.sessions (srv s') = Server.next_conn (srv s) :: Server.sessions (srv s) /\ (exists v, has_conn (srv s') v (Server.next_conn (srv s))) /\
    unanswered (sess s' (Server.next_conn (srv s))) /\ (forall c, c <> Server.next_conn (srv s) -> sess s' c = sess s c) /\ dist s' = dist s /\ watcher s' = watcher s.
Proof.
  intros s t l R P M [A O]. destruct (one_more s t l R P M A O) as (v & s' & H & P' & M' & A' & O' & V & N & T & _ & Z1 & Z2 & Z3 & D & W & _).
  pose proof (reachable_run _ _ _ _ _ R H) as R'.
  eexists; exists s'. split; [exact H|]. split; [cbn; repeat (constructor; [exact I|]); constructor|]. split; [reflexivity|]. split; [exact P'|]. split; [exact M'|]. split; [split; assumption|].
  split. { rewrite (accepted_all _ R), (accepted_all _ R'), N. apply seq_S. }
  split; [exact T|]. split; [exists v; unfold has_conn; rewrite V; reflexivity|]. split; [|auto].
  exists (Frames.Reader [] None). split; [exact Z1|]. split; [exact Z2|]. split; [reflexivity|]. left. cbn. lia.
Qed.
Print Assumptions C101_client_served.

(** three connections - one relaying, one over, one with half a startup packet -: a fourth *)
Definition refusing (v c : nat) : list label :=
  [YSession c (Session.LHangup Session.Client EOF); YSession c Session.LStart; YEnd v; YFire v] ++ repeat (YSession c (Session.LClose 0 None)) 7 ++
  [YClosed v] ++ repeat (YServer (Server.LGo v)) 4.
Definition three : list label :=
  one_session ++ accepting 2 4 ++ refusing 4 1 ++ accepting 2 5 ++ [YSession 2 (Session.LArrive Session.Client [x00; x00; x00])].
Example C101_instance : run step (Run (Some cfgA)) three = Some (final three) /\ panicked (final three) = None /\ unlocked (final three) /\ in_accept (final three) 2 0 /\
  map fst (SpecServer.listened (Server.hist (srv (final three)))) = [0%nat] /\
  option_map (fun s => (accepted (Server.hist (srv s)), Server.sessions (srv s))) (run step (Run (Some cfgA)) (three ++ accepting 2 6)) = Some ([0; 1; 2; 3], [3; 2; 0])%nat.
Proof. split; [apply final_run; computed|]. split; [computed|]. split; [computed|]. split; [split; computed|]. split; computed. Qed.
(** The listener can be left without anybody to accept: Accept failed for good. *)
Definition deserted : list label := listening_on_A ++ [YServer (Server.LAccept 2 (Server.AError (ErrExternal 7))); YServer (Server.LGo 2)].
Theorem C101_always_accepting_refuted : exists s, run step (Run (Some cfgA)) deserted = Some s /\ panicked s = None /\ Server.listener (srv s) = Some 0%nat /\ Server.lis_open (srv s) 0 = true /\ forall t l, ~ in_accept s t l.
Proof.
  exists (final deserted). split; [apply final_run; computed|]. split; [computed|]. split; [computed|]. split; [computed|]. intros t l [A _]. revert A. destruct t as [|[|[|t]]]; vm_compute; discriminate.
Qed.
Print Assumptions C101_always_accepting_refuted.

(** * C102 Silent clients stay *)

(** A client that does not complete its startup packet keeps its session, its connection and a goroutine of the
    program, unchanged, whatever else happens and however long, until it sends something or hangs up. *)
Theorem C102_silent_client_stays : forall s1 c ls s2, reachable step init s1 -> unanswered (sess s1 c) -> run step s1 ls = Some s2 -> Forall (fun l => ~ client_acts c l) ls ->
  sess s2 c = sess s1 c /\ In c (Server.sessions (srv s2)) /\ (exists t, has_conn (srv s2) t c) /\ serve_results c (Server.hist (srv s2)) = [].
Proof.
  intros s1 c ls s2 R U H F. pose proof (silent_stays c ls s1 s2 R U H F) as E. split; [exact E|]. pose proof (reachable_run _ _ _ _ _ R H) as R2.
  rewrite <- E in U. destruct (unanswered_session s2 c R2 U) as (L & T & t & V). split; [exact T|]. split; [exists t; unfold has_conn; rewrite V; reflexivity|].
  destruct (fate s2 c R2) as [[_ X]|(r & X & _)]; [rewrite (accepted_all _ R2); apply in_seq; lia|exact X|]. exfalso. apply (X t). unfold has_conn. rewrite V. reflexivity.
Qed.
Print Assumptions C102_silent_client_stays.
(** Nothing limits their number: wherever a goroutine waits in Accept, for every [k] there is a continuation after which
    [k] more such clients are in the table and the goroutine waits in Accept again. *)
Theorem C102_number_limited_refuted : forall s t l k, reachable step init s -> panicked s = None -> unlocked s -> in_accept s t l -> exists ls s',
  run step s ls = Some s' /\ panicked s' = None /\ unlocked s' /\ in_accept s' t l /\
  Server.sessions (srv s') = rev (seq (Server.next_conn (srv s)) k) ++ Server.sessions (srv s) /\
  (forall c, (Server.next_conn (srv s) <= c < Server.next_conn (srv s) + k)%nat -> unanswered (sess s' c)) /\ Forall (fun x => own x \/ x = YServer (Server.LAccept t Server.AConn)) ls.
Proof. intros s t l k R P M A. destruct (silent_crowd s t l k R P M A) as (ls & s' & H & P' & M' & A' & _ & T & S & F). exists ls, s'. auto 10. Qed.
Print Assumptions C102_number_limited_refuted.
(** the third client of [three]; in the end the proxy is still waiting for it though another client came, asked and went *)
Example C102_instance : run step (Run (Some cfgA)) three = Some (final three) /\ unanswered (sess (final three) 2) /\
  option_map (fun s => (Server.sessions (srv s), serve_results 3 (Server.hist (srv s)))) (run step (final three) (accepting 2 6 ++ refusing 6 3)) = Some ([2; 0]%nat, [Some EOF]) /\
  Forall (fun l => ~ client_acts 2 l) (accepting 2 6 ++ refusing 6 3).
Proof.
  split; [apply final_run; computed|]. split.
  - exists (Frames.Reader [[x00; x00; x00]] None). split; [computed|]. split; [computed|]. split; [reflexivity|]. left. cbn. lia.
  - split; [computed|]. cbn. repeat (constructor; [cbn; try (intros []; fail); try discriminate; auto|]). constructor.
Qed.
