(** Properties C83-C90: the whole program as the command line runs it - configuration file, watcher,
    distributor, server and sessions together (pkg/cli/cli.go:139-147, pkg/server/run.go).
    Every theorem is about every execution: any interleaving of the goroutines, any file changes and
    fsnotify events, any results of net.Listen, Accept and net.Dial, any bytes from clients and databases. *)
From Verif Require Import SpecSystem SystemProofs SystemTrace SystemFacts SystemRuns SystemQuiet.
From Verif Require SpecWire SpecFrames SpecProtocol SessionMore.
Require Import Lia.

Ltac computed := vm_compute; reflexivity.
Lemma run_reachable f ls s : run step (Run f) ls = Some s -> reachable step init s.
Proof. intros H. exists (Run f), ls. split; [exists f; reflexivity|exact H]. Qed.

(** * C83 Run serves until the process ends *)

(** Start never returns, so Run does not, and nothing is ever closed: neither deferred Close runs. *)
Theorem C83_run_never_returns : forall s, reachable step init s ->
  (main s = RPrepare \/ main s = RServe) /\
  Server.shut_ev (srv s) = EvInit /\ Distributor.closed (dist s) = EvInit /\
  (forall t r, ~ In (Server.HRet t Server.CStart r) (Server.hist (srv s))) /\ (forall t, ~ In (Server.HCall t Server.CClose) (Server.hist (srv s))).
Proof.
  intros s R. destruct (reachable_calm _ R) as [V D M]. split; [destruct M as [[M _]|[M _]]; auto|].
  split; [apply (cv_shut _ V)|]. split; [apply (cd_closed _ D)|]. apply reachable_unclosed, R.
Qed.
Print Assumptions C83_run_never_returns.
(** Serving is the last thing it does. *)
Theorem C83_serves_from_then_on : forall s1 ls s2, reachable step init s1 -> main s1 = RServe -> run step s1 ls = Some s2 -> main s2 = RServe.
Proof.
  intros s1 ls. revert s1. induction ls as [|l ls IH]; cbn; intros s1 s2 R M H; [injection H as <-; exact M|].
  destruct (step s1 l) as [s|] eqn:E; [|discriminate]. assert (reachable step init s) as R' by (eapply reachable_step; eassumption).
  eapply IH; [exact R'| |exact H]. destruct (step_moves _ _ _ E) as (_ & m & P & _ & _ & _ & _ & _ & E6). rewrite E6.
  destruct (C83_run_never_returns _ R') as [[X|X] _]; rewrite E6 in X; [|exact X]. exfalso. clear - P M X. dplan P; congruence.
Qed.
Print Assumptions C83_serves_from_then_on.
(** It does so only after the file was read, its configuration sent to the distributor, and the watcher reported success. *)
Theorem C83_serves_after_watching : forall s, reachable step init s -> main s = RServe ->
  FileWatcher.main (watcher s) = FileWatcher.M_Returned None /\ exists c rest, SpecWatcher.loaded (FileWatcher.hist (watcher s)) = [c] /\ SpecWatcher.sent (FileWatcher.hist (watcher s)) = c :: rest.
Proof.
  intros s R M. pose proof (fw_main _ _ (reachable_fine _ R) M) as W. split; [exact W|].
  pose proof (pt_watcher _ (reachable_parts _ R)) as RW. destruct (WatcherProofs.reachable_traffic _ (WatcherProofs.reachable_from_cli _ RW)) as [_ T2 _ _].
  destruct (WatcherProofs.reachable_cli _ RW) as [_ CL]. rewrite W in CL.
  destruct CL as [c CL]. exists c. rewrite CL in T2. pose proof (WatcherProofs.cli_sent _ RW) as N. rewrite W in N.
  destruct (SpecWatcher.sent (FileWatcher.hist (watcher s))) as [|c' rest]; [congruence|]. injection T2 as -> _. exists rest. auto.
Qed.
Print Assumptions C83_serves_after_watching.
(** Whatever was proved of the components on their own holds of them in the program. *)
Theorem C83_components : forall s, reachable step init s ->
  reachable FileWatcher.step FileWatcher.from_cli (watcher s) /\ reachable Distributor.step Distributor.init (dist s) /\
  reachable Server.step Server.init (srv s) /\ forall c, reachable Session.step Session.init (sess s c).
Proof. intros s R. destruct (reachable_parts _ R) as [A B C D]. auto. Qed.
Print Assumptions C83_components.

(** From the file to a query and its answer: the file is read, its address listened on, a connection
    accepted, its startup message checked against the configuration and forwarded, then a query and the
    database's answer. *)
Example C83_instance :
  option_map (fun s => (main s, SpecServer.listened (Server.hist (srv s)), SpecSession.dials (Session.hist (sess s 0)),
      SpecSession.sent Session.DB (Session.hist (sess s 0)), SpecSession.sent Session.Client (Session.hist (sess s 0)))) (run step (Run (Some cfgA)) whole)
  = Some (RServe, [(0%nat, str ":5432")], [str "db.internal:5433"], SessionRuns.ex_startup ++ SessionRuns.ex_query, SessionRuns.ex_ready).
Proof. computed. Qed.

(** * C84 A session never waits for a configuration *)

(** A session's Get: some configuration is installed, and the call is past no point where it could wait
    for one; it makes no subscription. *)
Theorem C84_get_never_waits : forall s t h, reachable step init s ->
  SpecDistributor.open_call t (Distributor.hist (dist s)) = Some (Distributor.CGet, h) ->
  SpecDistributor.current (Distributor.hist (dist s)) <> None /\
  match Distributor.pcs (dist s) t with Distributor.G0 | Distributor.G1 | Distributor.G2 | Distributor.G3 (Some _) => True | _ => False end.
Proof.
  intros s t h R H. destruct (get_state _ _ _ R H) as (A & _ & B). split; [|exact A].
  unfold SpecDistributor.current. destruct (SpecDistributor.installed (Distributor.hist (dist s))); [contradiction|discriminate].
Qed.
Print Assumptions C84_get_never_waits.
(** The only subscription ever made is the server's; nothing is closed; the deadlocks of C38 cannot happen. *)
Theorem C84_only_the_server_subscribes : forall s, reachable step init s ->
  (forall ch cs, In (Distributor.HSub ch cs) (Distributor.hist (dist s)) -> ch = 0%nat /\ cs = [listen_changed]) /\
  (forall ch, ch <> 0%nat -> Distributor.chans (dist s) ch = None) /\
  ~ In Distributor.HFire (Distributor.hist (dist s)) /\ SpecDistributor.safe (dist s).
Proof.
  intros s R. destruct (reachable_single _ R) as [A B _]. split; [exact B|]. split; [exact A|]. split; [apply no_fire, R|apply reachable_safe, R].
Qed.
Print Assumptions C84_only_the_server_subscribes.
(** Every answer a session gets is a configuration. *)
Theorem C84_get_answers_a_configuration : forall s t r, reachable step init s -> In (Distributor.HRet t r) (Distributor.hist (dist s)) ->
  r = Distributor.RNil \/ exists c, r = Distributor.RConfig c.
Proof.
  intros s t r R H. destruct r; eauto. exfalso. apply in_split in H. destruct H as (h2 & h1 & E).
  destruct (DistributorGet.ga_rets _ (DistributorGet.reachable_get_all _ (pt_dist _ (reachable_parts _ R))) _ _ _ _ E) as (k & h0 & _ & _ & F).
  apply (no_fire _ R). rewrite E. apply in_or_app. right. right. exact F.
Qed.
Print Assumptions C84_get_answers_a_configuration.
(** ... nor does a session ever see an error from it *)
Theorem C84_session_gets_configuration : forall s c E r, reachable step init s -> In (E, r) (SpecSession.configs (Session.hist (sess s c))) -> exists cfg, r = Ok cfg.
Proof.
  intros s c E r (s0 & ls & [f ->] & H) X. pose proof (run_late (Run f) c ls s) as L.
  destruct (lt_got _ _ _ (L (run_reachable f [] _ eq_refl) (Nat.le_0_l _) H) _ _ X) as (cfg & _ & _ & _ & Y & _). eauto.
Qed.
Print Assumptions C84_session_gets_configuration.

Example C84_instance :
  option_map (fun s => (SpecDistributor.open_call 3 (Distributor.hist (dist s)), Distributor.pcs (dist s) 3%nat, SpecDistributor.current (Distributor.hist (dist s))))
    (run step (Run (Some cfgA)) (listening_on_A ++ accepting 2 3 ++ [YSession 0 (Session.LArrive Session.Client SessionRuns.ex_startup); YSession 0 Session.LStart; YGet 3; YDist (Distributor.LGo 3)]))
  = Some (Some (Distributor.CGet, Distributor.hist (dist (final (listening_on_A ++ accepting 2 3)))), Distributor.G1, Some cfgA).
Proof. computed. Qed.

(** * C85 What crashes the program *)

Theorem C85_only_sessions_panic : forall s, reachable step init s ->
  FileWatcher.crashed (watcher s) = None /\ Distributor.crashed (dist s) = None /\ Server.crashed (srv s) = None.
Proof.
  intros s R. split; [apply (fw_crash _ _ (reachable_fine _ R))|]. split; [apply dist_no_crash, R|]. apply (cv_crash _ (ca_srv _ (reachable_calm _ R))).
Qed.
Print Assumptions C85_only_sessions_panic.
(** Only one thing crashes it: a message from a client or a database that the decoder cannot survive
    (C23), at the head of what is unread.  In particular no send on a closed channel (C55). *)
Theorem C85_panic_cause : forall f ls s p, run step (Run f) ls = Some s -> Forall sane ls -> panicked s = Some p ->
  exists c, (c < Server.next_conn (srv s))%nat /\ Session.crashed (sess s c) = Some p /\
  exists d mid t len L body rest,
    SpecSession.decodes_startup (SpecSession.arrived d (Session.hist (sess s c))) (match d with Session.Client => SpecSession.startups (Session.hist (sess s c)) | Session.DB => [] end) mid /\
    SpecSession.decodes_standard mid (SpecSession.msgs d (Session.hist (sess s c))) (t :: len ++ body ++ rest) /\
    SpecWire.int32_repr L len /\ Z.of_nat (length body) = SpecFrames.announced_body L /\ SpecProtocol.crashing t body.
Proof.
  intros f ls s p H F Hp. pose proof (run_reachable _ _ _ H) as R. destruct (panicked_session _ _ R Hp) as (c & Hc & X).
  exists c. split; [exact Hc|]. split; [exact X|]. destruct (session_traces _ _ _ H c) as (xs & T1 & T2 & T3).
  destruct (SessionMore.crash_causes _ _ _ T1 (T3 F) X) as [[-> Y]|Y]; [|exact Y]. exfalso. apply Y.
  destruct (session_alone_inv s c R) as (A & _ & _). apply (SessionProofs.ki_init _ (SessionPipe.pp_close _ (SessionLife.al_pipes _ A))).
  eapply SessionAlone.no_send_crash; eassumption.
Qed.
Print Assumptions C85_panic_cause.
(** One client's message of eleven bytes stops the whole program, another client's session with it. *)
Definition killed : list label := two_sessions ++ [YSession 1 (Session.LArrive Session.Client [x44; x00; x00; x00; x0a; x00; x01; xff; xff; xff; xfe]); YSession 1 (Session.LRecv Session.Client)].
Theorem C85_sessions_are_isolated_refuted : exists s, run step (Run (Some cfgA)) killed = Some s /\ Forall sane killed /\
  Session.start_pc (sess s 0) = Session.SWait /\ Session.crashed (sess s 0) = None /\ panicked s = Some PanicSliceBounds /\ forall l, step s l = None.
Proof.
  exists (final killed). split; [apply final_run; computed|]. split.
  { apply Forall_forall. intros l H. destruct l; try exact I. assert (E = envAB) as ->.
    { repeat (destruct H as [H|H]; [first [discriminate H|injection H as _ <-; reflexivity]|]). destruct H. }
    split; [intros m; apply Permutation.Permutation_refl|]. intros u q. cbn. destruct (bytes_eqb u urlB); discriminate. }
  split; [computed|]. split; [computed|]. assert (panicked (final killed) = Some PanicSliceBounds) as P by computed. split; [exact P|]. intros l. unfold step. rewrite P. reflexivity.
Qed.
Print Assumptions C85_sessions_are_isolated_refuted.

(** * C86 The order in which configurations take effect *)

(** Once Run serves: the distributor has installed the configuration read first and then every one read
    after a write event, in order, up to three under way (configChan, its sender, the monitor); the
    server has received, in order, those that change the listen address, up to two under way. *)
Theorem C86_configurations_in_order : forall s, reachable step init s -> main s = RServe ->
  exists c0 under_way rest,
    SpecWatcher.loaded (FileWatcher.hist (watcher s)) = [c0] /\
    rev (SpecDistributor.installed (Distributor.hist (dist s))) ++ under_way = c0 :: SpecWatcher.good_reloads (FileWatcher.hist (watcher s)) /\
    (length under_way <= 3)%nat /\
    SpecDistributor.received 0 (Distributor.hist (dist s)) ++ rest = address_changes None (rev (SpecDistributor.installed (Distributor.hist (dist s)))) /\
    (length rest <= 2)%nat.
Proof.
  intros s R M. pose proof (fw_main _ _ (reachable_fine _ R) M) as HM. pose proof (reachable_parts _ R) as [RW RD _ _].
  destruct (WatcherProofs.reachable_cli _ RW) as [_ L]. rewrite HM in L. destruct L as [c0 L].
  destruct (WatcherProofs.reachable_traffic _ (WatcherProofs.reachable_from_cli _ RW)) as [_ _ _ T4].
  pose proof (from_cli_sourced _ R) as S. rewrite L in S. cbn [app] in S.
  pose proof (DistributorProofs.reachable_mon _ RD) as MO.
  assert (exists x, rev (SpecDistributor.sourced (Distributor.hist (dist s))) = rev (SpecDistributor.installed (Distributor.hist (dist s))) ++ x /\ (length x <= 1)%nat) as (x & X1 & X2).
  { destruct (DistributorProofs.mi_src' _ MO) as [E|(t & c & E)]; [exists []; rewrite E, app_nil_r; split; [reflexivity|cbn; lia]|].
    exists [c]. rewrite (DistributorProofs.mi_src _ MO _ _ E). split; [reflexivity|cbn; lia]. }
  destruct (DistributorSubs.reachable_fifo _ RD 0%nat) as [Q1 Q2].
  exists c0, (x ++ FileWatcher.chan (watcher s) ++ SpecWatcher.pending (watcher s)), (DistributorSubs.queue (dist s) 0 ++ DistributorSubs.owed (dist s) 0).
  split; [exact L|]. split; [rewrite <- S, X1, <- app_assoc; reflexivity|].
  split; [rewrite !app_length; pose proof (pending_short (watcher s)); lia|]. split.
  - rewrite <- (sb_exp _ _ (or_sub _ (reachable_ordered _ R))), (DistributorSubs.si_sent _ (DistributorSubs.reachable_subs _ RD) 0%nat), Q1, <- app_assoc. reflexivity.
  - rewrite app_length. pose proof (owed_short _ R). assert (DistributorSubs.capacity (dist s) 0 <= 1)%nat; [|lia].
    pose proof (reachable_chan _ R) as C. unfold chan_ok in C. unfold DistributorSubs.capacity.
    destruct (unmade s); [rewrite C; cbn; lia|destruct C as [q ->]; cbn; lia].
Qed.
Print Assumptions C86_configurations_in_order.
(** Each configuration received is tried once, in order; the addresses listened on are those for which
    net.Listen succeeded. A failure ends nothing: the next configuration is tried all the same. *)
Theorem C86_listens_in_order : forall f ls s, run step (Run f) ls = Some s ->
  exists tried untried,
    SpecDistributor.received 0 (Distributor.hist (dist s)) = tried ++ untried /\ (length untried <= 1)%nat /\
    length tried = length (attempts ls) /\ map snd (SpecServer.listened (Server.hist (srv s))) = succeeded (attempts ls) tried.
Proof.
  intros f ls s H. destruct (run_listens _ _ _ H) as (tried & A & B & C). exists tried, (waiting (Server.pcs (srv s) 0%nat)).
  split; [exact A|]. split; [destruct (Server.pcs (srv s) 0%nat); cbn; lia|]. auto.
Qed.
Print Assumptions C86_listens_in_order.

(** a new database, then a new address *)
Example C86_instance :
  option_map (fun s => (rev (SpecDistributor.installed (Distributor.hist (dist s))), SpecDistributor.received 0 (Distributor.hist (dist s)), map snd (SpecServer.listened (Server.hist (srv s)))))
    (run step (Run (Some cfgA)) (listening_on_A ++ reloading cfgC ++ distributing_same ++ reloading cfgB ++ distributing ++ [YUpdate; YServer (Server.LListen 0 false)] ++
       reloading cfgC ++ distributing ++ [YUpdate; YServer (Server.LListen 0 true)]))
  = Some ([cfgA; cfgC; cfgB; cfgC], [cfgA; cfgB; cfgC], [str ":5432"; str ":5432"]).
Proof. computed. Qed.
(** The goroutine serving the first address is slow: it replaces the listener of the second. Nothing is
    under way, and the program listens on the address of the old configuration. *)
Definition overtaken : list label :=
  preparing ++ subscribing ++ distributing ++ [YUpdate; YServer (Server.LListen 0 true); YServer (Server.LSpawn 0 2)] ++
  reloading cfgB ++ distributing ++ listening 3 true ++
  repeat (YServer (Server.LGo 2)) 2 ++ [YServer (Server.LCloseListener 2 None)] ++ repeat (YServer (Server.LGo 2)) 2 ++
  [YServer (Server.LAccept 3 (Server.AError ErrConnClosed)); YServer (Server.LGo 3)].
Theorem C86_newest_address_wins_refuted : exists s, run step (Run (Some cfgA)) overtaken = Some s /\ panicked s = None /\
  SpecDistributor.received 0 (Distributor.hist (dist s)) = [cfgA; cfgB] /\ SpecDistributor.current (Distributor.hist (dist s)) = Some cfgB /\
  SpecServer.listened (Server.hist (srv s)) = [(0%nat, Listen cfgA); (1%nat, Listen cfgB)] /\
  Server.listener (srv s) = Some 0%nat /\ Server.lis_open (srv s) 0 = true /\ Server.lis_open (srv s) 1 = false /\ Server.pcs (srv s) 0%nat = Server.A4.
Proof. exists (final overtaken). split; [apply final_run; computed|]. repeat (split; [computed|]). computed. Qed.
Print Assumptions C86_newest_address_wins_refuted.

(** * C87 Every change of the file takes effect *)

(** The program's own work for a configuration always comes to an end: from every state, whatever the
    interleaving and whatever net.Listen, url.Parse and fsnotify answer, there is a bound on it. *)
Theorem C87_bounded : forall s, reachable step init s ->
  exists n, forall ls s', run step s ls = Some s' -> Forall pipeline ls -> (length ls <= n)%nat.
Proof. exact pipeline_bounded. Qed.
Print Assumptions C87_bounded.
(** It cannot end early. When no such action is left, either the configuration file could not be read or
    watched, or the server is waiting for the next configuration; the handler is waiting for the next event
    (or has ended); no Get is open; everything read is installed, in order, and every change of the
    address was received by the server. *)
Theorem C87_quiet : forall s, reachable step init s -> panicked s = None -> quiet s ->
  (FileWatcher.main (watcher s) = FileWatcher.M_Failed \/ exists e, FileWatcher.main (watcher s) = FileWatcher.M_Returned (Some e)) \/
  main s = RServe /\ Server.pcs (srv s) 0%nat = Server.A4 /\
  (FileWatcher.handler (watcher s) = FileWatcher.H_End \/ FileWatcher.handler (watcher s) = FileWatcher.H_Select /\ FileWatcher.events (watcher s) = []) /\
  (forall t h, SpecDistributor.open_call t (Distributor.hist (dist s)) <> Some (Distributor.CGet, h)) /\
  exists c0, SpecWatcher.loaded (FileWatcher.hist (watcher s)) = [c0] /\
    rev (SpecDistributor.installed (Distributor.hist (dist s))) = c0 :: SpecWatcher.good_reloads (FileWatcher.hist (watcher s)) /\
    SpecDistributor.received 0 (Distributor.hist (dist s)) = address_changes None (rev (SpecDistributor.installed (Distributor.hist (dist s)))).
Proof.
  intros s R P Q. destruct (quiet_prepared s R P Q) as [H|[[e|] H]]; [left; left; exact H|left; right; eauto|right].
  destruct (quiet_serve s R P Q H) as [M L]. pose proof (quiet_loop s R P Q L) as V. split; [exact M|]. split; [exact V|]. split; [apply quiet_handler; assumption|]. split.
  - intros t h X. destruct (get_state _ _ _ R X) as (A & _). destruct (quiet_dist_idle s R P Q V t) as [E|E]; rewrite E in A; destruct A.
  - destruct (quiet_all s R P Q H) as (c0 & A & B & _ & C). exists c0. auto.
Qed.
Print Assumptions C87_quiet.
(** A configuration written into the file while the watcher lives is the one installed as soon as nothing
    is left to do, whatever else happens in between - connections, sessions - unless the file changes
    again or fsnotify fails; and the program's own actions suffice to get there. *)
Theorem C87_change_takes_effect : forall s c s1, reachable step init s -> main s = RServe ->
  FileWatcher.handler (watcher s) <> FileWatcher.H_None -> FileWatcher.handler (watcher s) <> FileWatcher.H_End ->
  step s (YWatcher (FileWatcher.LFile (Some c) [FileWatcher.OpWrite])) = Some s1 ->
  (forall ls s2, Forall undisturbed ls -> run step s1 ls = Some s2 -> panicked s2 = None -> quiet s2 -> SpecDistributor.current (Distributor.hist (dist s2)) = Some c) /\
  exists ls s2, Forall (fun l => pipeline l /\ sane l) ls /\ run step s1 ls = Some s2 /\ panicked s2 = None /\ quiet s2.
Proof.
  intros s c s1 R M H1 H2 E. pose proof (reachable_step _ _ _ _ _ R E) as R1. pose proof (change_coming _ _ _ R M H1 H2 E) as C. split.
  - intros ls s2 F H P Q. apply coming_quiet; auto; [eapply reachable_run; eassumption|]. eapply coming_run; eassumption.
  - apply settles; [exact R1|]. destruct (panicked s1) as [p|] eqn:X; [exfalso|reflexivity].
    destruct (panicked_session _ _ R1 X) as (k & Hk & Y). destruct (step_moves _ _ _ E) as (PN & m & P & _ & _ & E3 & E4 & E5 & _). cbn in P. injection P as <-. cbn [mv mc ms] in *. runs.
    rewrite E3 in Hk. assert (sess s1 k = sess s k) as Z by (destruct (Nat.eq_dec k 0) as [->|D]; [exact E4|apply E5, D]). rewrite Z in Y.
    rewrite (panic_session _ _ PN Hk) in Y. discriminate Y.
Qed.
Print Assumptions C87_change_takes_effect.
(** the address changes: the whole way to the new listener, twelve actions, and nothing is left to do *)
Definition changed : list label := map YWatcher [FileWatcher.LEvent; FileWatcher.LHandler; FileWatcher.LHandler] ++ distributing ++ [YUpdate; YServer (Server.LListen 0 true); YServer (Server.LSpawn 0 3)].
Example C87_instance : Forall pipeline changed /\
  option_map (fun s => (SpecDistributor.current (Distributor.hist (dist s)), SpecDistributor.received 0 (Distributor.hist (dist s)), map snd (SpecServer.listened (Server.hist (srv s))), Server.pcs (srv s) 0%nat))
    (run step (Run (Some cfgA)) (listening_on_A ++ [YWatcher (FileWatcher.LFile (Some cfgB) [FileWatcher.OpWrite])] ++ changed))
  = Some (Some cfgB, [cfgA; cfgB], [str ":5432"; str ":6543"], Server.A4).
Proof. split; [repeat constructor|computed]. Qed.

(** * C88 Established sessions never end *)

(** Once a session relays, it does so as long as the program runs: Start does not return, the session
    stays in the server's table and its connection open. *)
Theorem C88_established_sessions_never_end : forall s1 c ls s2, reachable step init s1 ->
  Session.start_pc (sess s1 c) = Session.SWait -> run step s1 ls = Some s2 ->
  Session.start_pc (sess s2 c) = Session.SWait /\ SpecSession.start_results (Session.hist (sess s2 c)) = [] /\
  In c (Server.sessions (srv s2)) /\ Server.conn_open (srv s2) c = true /\
  option_map Session.is_open (Session.conns (sess s2 c) Session.Client) = Some true.
Proof. exact established. Qed.
Print Assumptions C88_established_sessions_never_end.
(** ... also when client and database are gone *)
Definition gone : list label :=
  one_session ++ map (YSession 0) [Session.LHangup Session.Client EOF; Session.LHangup Session.DB EOF; Session.LRecv Session.Client; Session.LRecv Session.DB].
Theorem C88_hangup_frees_session_refuted : exists s, run step (Run (Some cfgA)) gone = Some s /\ panicked s = None /\
  map fst (SpecSession.exits (Session.hist (sess s 0))) = [Session.GIn Session.Client; Session.GIn Session.DB] /\
  forall ls s', run step s ls = Some s' -> In 0%nat (Server.sessions (srv s')) /\ Server.conn_open (srv s') 0 = true.
Proof.
  exists (final gone). assert (run step (Run (Some cfgA)) gone = Some (final gone)) as H by (apply final_run; computed). split; [exact H|]. split; [computed|]. split; [computed|].
  intros ls s' H'. assert (Session.start_pc (sess (final gone) 0) = Session.SWait) as W by computed.
  destruct (established _ _ _ _ (run_reachable _ _ _ H) W H') as (_ & _ & A & B & _). auto.
Qed.
Print Assumptions C88_hangup_frees_session_refuted.
Example C88_instance :
  option_map (fun s => (Session.start_pc (sess s 0), Session.start_pc (sess s 1), Server.sessions (srv s))) (run step (Run (Some cfgA)) two_sessions)
  = Some (Session.SWait, Session.SWait, [1%nat; 0%nat]).
Proof. computed. Qed.

(** * C89 Only configurations from the file are used *)

(** Every address dialled is the one a configuration the file has contained gives. *)
Theorem C89_dials_configured_database : forall f ls s c, run step (Run f) ls = Some s -> SpecSession.dials (Session.hist (sess s c)) <> [] ->
  exists E cfg p, file_had f (FileWatcher.hist (watcher s)) cfg /\ Session.parse_uri E (DatabaseURL cfg) = Ok p /\
    SpecSession.dials (Session.hist (sess s c)) = [SpecSession.address p].
Proof.
  intros f ls s c H D. pose proof (run_reachable _ _ _ H) as R.
  destruct (SessionMore.dialled _ (pt_sess _ (reachable_parts _ R) c) (or_introl D)) as (p & ps & (_ & (E & cfg & Hc & Hp) & _) & Hd).
  exists E, cfg, p. split; [|auto]. eapply loaded_had; [exact H|]. apply sourced_in; [exact R|].
  pose proof (run_late (Run f) c ls s (run_reachable f [] _ eq_refl) (Nat.le_0_l _) H) as L.
  destruct (lt_got _ _ _ L E (Ok cfg)) as (cfg' & h2 & t & h & X & A & _); [rewrite Hc; left; reflexivity|]. injection X as <-.
  destruct (DistributorGet.ga_rets _ (DistributorGet.reachable_get_all _ (pt_dist _ (reachable_parts _ R))) _ _ _ _ A) as (k & h1 & _ & _ & Hs & _).
  rewrite A. clear - Hs. induction h2 as [|e h2 IH]; cbn; [exact Hs|]. destruct e; auto. right. exact IH.
Qed.
Print Assumptions C89_dials_configured_database.
(** Every address listened on is that of a configuration the file has contained. *)
Theorem C89_listens_configured_address : forall f ls s l a, run step (Run f) ls = Some s -> In (l, a) (SpecServer.listened (Server.hist (srv s))) ->
  exists cfg, file_had f (FileWatcher.hist (watcher s)) cfg /\ a = Listen cfg.
Proof.
  intros f ls s l a H X. pose proof (run_reachable _ _ _ H) as R. destruct (run_listens _ _ _ H) as (tried & A & _ & C).
  assert (In a (succeeded (attempts ls) tried)) as Y by (rewrite <- C; apply (in_map snd) in X; exact X).
  assert (exists cfg, In cfg tried /\ a = Listen cfg) as (cfg & Z & ->).
  { clear - Y. revert tried Y. induction (attempts ls) as [|ok rs IH]; intros [|c cs]; cbn; try tauto.
    intros Y. apply in_app_iff in Y. destruct Y as [Y|Y]; [destruct ok; [destruct Y as [<-|[]]; eauto|destruct Y]|]. destruct (IH _ Y) as (cfg & ? & ?). eauto. }
  exists cfg. split; [|reflexivity]. eapply loaded_had; [exact H|]. apply sourced_in, installed_in, received_in; try exact R. rewrite A. apply in_or_app. auto.
Qed.
Print Assumptions C89_listens_configured_address.
(** the file changes twice, the second time to something unreadable *)
Definition unreadable : list label := map YWatcher [FileWatcher.LFile None [2]; FileWatcher.LEvent; FileWatcher.LHandler].
Example C89_instance :
  option_map (fun s => (SpecSession.dials (Session.hist (sess s 0)), SpecServer.listened (Server.hist (srv s)), FileWatcher.file (watcher s)))
    (run step (Run (Some cfgA)) (listening_on_A ++ reloading cfgC ++ distributing_same ++ unreadable ++ accepting 2 3 ++ negotiated 3 0))
  = Some ([str "other.internal:5433"], [(0%nat, str ":5432")], None).
Proof. computed. Qed.

(** * C90 New connections use new configurations *)

(** A connection accepted after some moment is served with a configuration at least as new as the one
    installed at that moment. *)
Theorem C90_fresh_configuration : forall s1 ls s2 c E r, reachable step init s1 -> run step s1 ls = Some s2 -> (Server.next_conn (srv s1) <= c)%nat ->
  In (E, r) (SpecSession.configs (Session.hist (sess s2 c))) ->
  exists cfg, r = Ok cfg /\
    SpecDistributor.at_least_as_new cfg (SpecDistributor.installed (Distributor.hist (dist s1))) (SpecDistributor.installed (Distributor.hist (dist s2))).
Proof. intros s1 ls s2 c E r R H N X. eapply late_newer; [eapply reachable_run; eassumption| |exact X]. eapply run_late; eassumption. Qed.
Print Assumptions C90_fresh_configuration.
(** the first session keeps its database, the second gets the new one *)
Example C90_instance :
  option_map (fun s => (Server.next_conn (srv (final (one_session ++ reloading cfgC ++ distributing_same))), SpecSession.dials (Session.hist (sess s 0)), SpecSession.dials (Session.hist (sess s 1))))
    (run step (Run (Some cfgA)) (one_session ++ reloading cfgC ++ distributing_same ++ accepting 2 4 ++ negotiated 4 1))
  = Some (1%nat, [str "db.internal:5433"], [str "other.internal:5433"]).
Proof. computed. Qed.
(** The address a client connected to and the database it is connected with need not be of one
    configuration: connected to the only address of the first, it gets the database of the second. *)
Definition mixed : list label := listening_on_A ++ reloading cfgB ++ distributing ++ accepting 2 3 ++ negotiated 3 0.
Theorem C90_address_and_database_match_refuted : exists s, run step (Run (Some cfgA)) mixed = Some s /\
  Listen cfgA <> Listen cfgB /\ SpecServer.listened (Server.hist (srv s)) = [(0%nat, Listen cfgA)] /\ In (Server.HAccept 0 0) (Server.hist (srv s)) /\
  SpecSession.connected (Session.hist (sess s 0)) = true /\ SpecSession.configs (Session.hist (sess s 0)) = [(envAB, Ok cfgB)] /\
  SpecSession.dials (Session.hist (sess s 0)) = [str "other.internal:5433"] /\
  match Session.parse_uri envAB (DatabaseURL cfgA) with Ok p => SpecSession.address p = str "db.internal:5433" | _ => False end.
Proof.
  exists (final mixed). split; [apply final_run; computed|]. split; [discriminate|]. split; [computed|]. split; [vm_compute; tauto|]. repeat (split; [computed|]). computed.
Qed.
Print Assumptions C90_address_and_database_match_refuted.
