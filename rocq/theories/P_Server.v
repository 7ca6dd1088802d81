(** C60-C68, C79-C81, C93: the Server. *)
From Verif Require Import ServerGaps.
Require Import Lia.

Definition cfgA := Config (str ":5432") (str "postgres://a/x").
Definition cfgB := Config (str ":6543") (str "postgres://a/x").
Definition go (t n : nat) : list label := repeat (LGo t) n.
Ltac computed := vm_compute; reflexivity.

(** goroutine 0 runs Start up to its select *)
Definition starting : list label := LStart 0 :: go 0 3 ++ [LSubscribe 0 None].
(** a configuration arrives and goroutine [w] is created to serve a new listener *)
Definition configured (c : config) (w : nat) : list label := [LConfig c; LRecv 0; LListen 0 true; LSpawn 0 w].
(** Serve called by goroutine [w] comes to accept when there is no listener yet *)
Definition serving (w : nat) : list label := go w 5.
(** ... and when there is one *)
Definition replacing (w : nat) : list label := go w 2 ++ [LCloseListener w None] ++ go w 2.
(** [w] accepts a connection, handed to goroutine [v], which comes to run its session *)
Definition accepting (w v : nat) : list label := [LAccept w AConn; LSpawn w v] ++ go v 6.
(** Close called by goroutine [k], up to waiting for the others; with a listener, closing sessions [cs] *)
Definition closing_begins (k : nat) : list label := LClose k :: go k 3.
Definition closing_goes_on (k : nat) (cs : list nat) : list label := LCloseListener k None :: flat_map (fun c => [LPick k c; LGo k]) cs ++ go k 2.

(** *** C60 *)
Theorem C60_start_once : forall s, reachable step init s ->
  (length (started (hist s)) <= 1)%nat /\ (forall t, in_start (pcs s t) -> started (hist s) = [t]).
Proof. intros s R. destruct (reachable_ev s R). split; [assumption|]. intros t H. apply si_start, H. Qed.
Print Assumptions C60_start_once.
Theorem C60_start_results : forall s h1 h2 t r, reachable step init s -> hist s = h1 ++ HRet t CStart r :: h2 ->
  acts t h2 = [] /\ (r = Some ErrServerClosed \/ r = Some ErrServerAlreadyStarted) \/ acts t h2 = [HStarted t] /\ r <> None.
Proof. intros s h1 h2 t r R E. destruct (reachable_acts s R) as (_ & H & _). exact (H _ _ _ _ E). Qed.
Print Assumptions C60_start_results.
Theorem C60_at_most_one_other_result : forall s, reachable step init s -> (length (other_starts (hist s)) <= 1)%nat.
Proof. intros s R. apply (reachable_stres s R). Qed.
Print Assumptions C60_at_most_one_other_result.

(** three Start calls: one runs, one comes too late, one comes after Close *)
Example C60_instance :
  option_map (fun s => (started (hist s), results (hist s)))
    (run step NewServer (starting ++ [LStart 1] ++ go 1 3 ++ closing_begins 2 ++ go 2 1 ++ [LStart 3] ++ go 3 2 ++ [LQuit 0] ++ go 0 2))
  = Some ([0%nat], [(1%nat, CStart, Some ErrServerAlreadyStarted); (3%nat, CStart, Some ErrServerClosed); (0%nat, CStart, Some ErrServerClosed)]).
Proof. computed. Qed.
(** the result of a failed Subscribe is passed on *)
Example C60_instance_other :
  option_map (fun s => (other_starts (hist s), results (hist s)))
    (run step NewServer (LStart 0 :: go 0 3 ++ [LSubscribe 0 (Some ErrConfigDistributorClosed)] ++ go 0 2))
  = Some ([0%nat], [(0%nat, CStart, Some ErrConfigDistributorClosed)]).
Proof. computed. Qed.

(** *** C61 *)
Theorem C61_one_active_listener : forall s x, reachable step init s ->
  In x (installed (hist s)) -> lis_open s x = true -> listener s = Some x.
Proof. intros s x R. apply (la_open _ (reachable_lis s R)). Qed.
Print Assumptions C61_one_active_listener.
Theorem C61_current_listener_open : forall s x, reachable step init s -> mu s = None -> listener s = Some x -> lis_open s x = true.
Proof.
  intros s x R Hm Hl. destruct (lis_open s x) eqn:Ho; [reflexivity|]. exfalso.
  destruct (la_closed _ (reachable_lis s R) x Hl Ho) as [t X]. apply s3_section, (reachable_lock s R) in X. congruence.
Qed.
Print Assumptions C61_current_listener_open.
Theorem C61_no_accept_after_close : forall s h1 h2 x c, reachable step init s -> hist s = h1 ++ HAccept x c :: h2 -> ~ In x (closed_listeners h2).
Proof. intros s h1 h2 x c R. exact (reachable_accept s R h1 h2 x c). Qed.
Print Assumptions C61_no_accept_after_close.
Theorem C61_closed_once : forall s, reachable step init s ->
  NoDup (closed_listeners (hist s)) /\ forall x, In x (installed (hist s)) -> (lis_open s x = false <-> In x (closed_listeners (hist s))).
Proof.
  intros s R. destruct (reachable_cls s R) as [A B C]. split; [exact A|]. intros x H. split; [auto|]. intros X. apply B, X.
Qed.
Print Assumptions C61_closed_once.

Example C61_instance :
  option_map (fun s => (installed (hist s), map (lis_open s) [0%nat; 1%nat; 2%nat], listener s, closed_listeners (hist s)))
    (run step NewServer ([LServe 1] ++ serving 1 ++ [LServe 2] ++ replacing 2 ++ [LServe 3] ++ replacing 3))
  = Some ([0%nat; 1%nat; 2%nat], [false; false; true], Some 2%nat, [1%nat; 0%nat]).
Proof. computed. Qed.

(** *** C62 *)
Theorem C62_current_is_last_installed : forall s x, reachable step init s -> listener s = Some x -> exists before, installed (hist s) = before ++ [x].
Proof. intros s x R. apply (la_last _ (reachable_lis s R)). Qed.
Print Assumptions C62_current_is_last_installed.
Example C62_instance :
  option_map (fun s => (listened (hist s), listener s))
    (run step NewServer (starting ++ configured cfgA 1 ++ serving 1 ++ configured cfgB 2 ++ replacing 2))
  = Some ([(0%nat, Listen cfgA); (1%nat, Listen cfgB)], Some 1%nat).
Proof. computed. Qed.
(** the goroutine serving the first configuration is slow *)
Definition overtaken : list label :=
  starting ++ configured cfgA 1 ++ configured cfgB 2 ++ serving 2 ++ replacing 1 ++ [LAccept 2 (AError ErrConnClosed)] ++ go 2 1.
Theorem C62_newest_configuration_wins_refuted : exists s, reachable step init s /\ crashed s = None /\
  listened (hist s) = [(0%nat, Listen cfgA); (1%nat, Listen cfgB)] /\ listener s = Some 0%nat /\ lis_open s 1 = false /\
  running (hist s) = [1%nat] /\ pcs s 1 = S5 0 /\ pcs s 0 = A4 /\ updates s = [].
Proof.
  assert (X : option_map (fun s => (crashed s, listened (hist s), listener s, lis_open s 1, running (hist s), pcs s 1, pcs s 0, updates s)) (run step NewServer overtaken) =
    Some (None, [(0%nat, Listen cfgA); (1%nat, Listen cfgB)], Some 0%nat, false, [1%nat], S5 0, A4, [])) by computed.
  destruct (run step NewServer overtaken) as [s|] eqn:E; [|discriminate]. cbn [option_map] in X. injection X as X1 X2 X3 X4 X5 X6 X7 X8.
  exists s. split; [exists NewServer, overtaken; split; [reflexivity|exact E]|]. auto 10.
Qed.
Print Assumptions C62_newest_configuration_wins_refuted.

(** *** C63 *)
Theorem C63_close_sweeps : forall s h1 h2, reachable step init s -> hist s = h1 ++ HCleared :: h2 ->
  (forall x, In x (installed h2) -> lis_open s x = false) /\
  (forall c, In c (registered h2) -> s_fired s c = true /\ (conn_open s c = false \/ exists t, (exists r, pcs s t = C8 c r) \/ exists r m, pcs s t = K5 r m c) /\ ~ In c (sessions s)).
Proof.
  intros s h1 h2 R E. destruct (reachable_clear s R _ _ E) as [A B]. split; [intros x H; apply B, H|].
  intros c H. split; [auto|]. split; [|exact (reachable_swept s R _ _ _ E H)]. destruct (sn_open _ (reachable_ses s R) c (A c H)) as [X|[t X]]; [auto|]. right. exists t.
  destruct (pcs s t); try discriminate X; cbn in X; injection X as ->; eauto.
Qed.
Print Assumptions C63_close_sweeps.
Theorem C63_what_close_waits_for : forall s t r t', reachable step init s -> crashed s = None -> quiet s -> pcs s t = K7 r -> In t' (running (hist s)) ->
  (exists x, pcs s t' = S5 x /\ lis_open s x = true /\ In x (installed (hist s)) /\ ~ In x (installed (before_clear (hist s)))) \/
  (exists c, pcs s t' = C6 c /\ s_fired s c = false /\ In c (registered (hist s)) /\ ~ In c (registered (before_clear (hist s)))).
Proof. exact close_waits. Qed.
Print Assumptions C63_what_close_waits_for.
Theorem C63_otherwise_not_stuck : forall s t r, reachable step init s -> crashed s = None -> pcs s t = K7 r ->
  (forall x, In x (installed (hist s)) -> In x (installed (before_clear (hist s)))) ->
  (forall c, In c (registered (hist s)) -> In c (registered (before_clear (hist s)))) -> ~ quiet s.
Proof. exact close_not_stuck. Qed.
Print Assumptions C63_otherwise_not_stuck.
Theorem C63_bounded : forall s, reachable step init s -> exists n, forall ls s', own_run s ls s' -> (length ls <= n)%nat.
Proof. exact own_run_bound. Qed.
Print Assumptions C63_bounded.

(** two connections; Close closes the listener and both sessions, which end, and returns *)
Definition closed_down : list label :=
  [LServe 1] ++ serving 1 ++ accepting 1 2 ++ accepting 1 3 ++ closing_begins 4 ++ closing_goes_on 4 [1%nat; 0%nat] ++
  [LAccept 1 (AError ErrConnClosed)] ++ go 1 1 ++ [LEnd 2 None] ++ go 2 5 ++ [LEnd 3 None] ++ go 3 5 ++ go 4 3.
Example C63_instance :
  option_map (fun s => (lis_open s 0, map (s_fired s) [0%nat; 1%nat], map (conn_open s) [0%nat; 1%nat], sessions s, running (hist s), results (hist s)))
    (run step NewServer closed_down)
  = Some (false, [true; true], [false; false], [], [], [(1%nat, CServe 0, Some ErrConnClosed); (2%nat, CServeConn 0, None); (3%nat, CServeConn 1, None); (4%nat, CClose, None)]).
Proof. computed. Qed.
(** a connection accepted before Close, registered after it *)
Definition late_session : list label :=
  [LServe 1] ++ serving 1 ++ [LAccept 1 AConn; LSpawn 1 2] ++ go 2 2 ++ closing_begins 4 ++ closing_goes_on 4 [] ++ go 2 4 ++
  [LAccept 1 (AError ErrConnClosed)] ++ go 1 1.
Theorem C63_late_session_refuted : exists s, reachable step init s /\ crashed s = None /\ shutdowns (hist s) = [4%nat] /\ pcs s 4 = K7 None /\
  running (hist s) = [2%nat] /\ pcs s 2 = C6 0 /\ s_fired s 0 = false /\ conn_open s 0 = true /\ sessions s = [0%nat] /\
  option_map crashed (step s (LWatchdog 4)) = Some (Some PanicWatchdog).
Proof.
  assert (X : option_map (fun s => (crashed s, shutdowns (hist s), pcs s 4, running (hist s), pcs s 2, s_fired s 0, conn_open s 0, sessions s, option_map crashed (step s (LWatchdog 4)))) (run step NewServer late_session) =
    Some (None, [4%nat], K7 None, [2%nat], C6 0, false, true, [0%nat], Some (Some PanicWatchdog))) by computed.
  destruct (run step NewServer late_session) as [s|] eqn:E; [|discriminate]. cbn [option_map] in X. injection X as X1 X2 X3 X4 X5 X6 X7 X8 X9.
  exists s. split; [exists NewServer, late_session; split; [reflexivity|exact E]|]. auto 10.
Qed.
Print Assumptions C63_late_session_refuted.
(** in that state nothing but the session, which nobody has told to stop, could end the wait *)
Example C63_instance_quiet : match run step NewServer late_session with Some s => quiet s /\ pcs s 4 = K7 None /\ In 2%nat (running (hist s)) | None => False end.
Proof.
  set (q := run step NewServer late_session). vm_compute in q. subst q. split; [|split; [reflexivity|vm_compute; auto]].
  intros l Ha. destruct l as [t|t|t|t|t|t ?|t|t|t ?|t u|t a|t ?|t ?|t ?|t|?]; cbn in Ha; try contradiction.
  all: try destruct u as [|[|[|[|[|u]]]]]; destruct t as [|[|[|[|[|t]]]]]; try reflexivity.
  all: try destruct a; try contradiction; destruct Ha as (x & Hx & Ho); vm_compute in Hx, Ho; try discriminate Hx; injection Hx as <-; discriminate Ho.
Qed.
(** a configuration that came before Close, its listener installed after it *)
Definition late_listener : list label :=
  starting ++ configured cfgA 1 ++ go 1 1 ++ closing_begins 4 ++ go 4 3 ++ go 1 4 ++ [LQuit 0] ++ go 0 2.
Theorem C63_late_listener_refuted : exists s, reachable step init s /\ crashed s = None /\ shutdowns (hist s) = [4%nat] /\ pcs s 4 = K7 None /\
  running (hist s) = [1%nat] /\ pcs s 1 = S5 0 /\ lis_open s 0 = true /\ listener s = Some 0%nat /\ results (hist s) = [(0%nat, CStart, Some ErrServerClosed)] /\
  option_map crashed (step s (LWatchdog 4)) = Some (Some PanicWatchdog).
Proof.
  assert (X : option_map (fun s => (crashed s, shutdowns (hist s), pcs s 4, running (hist s), pcs s 1, lis_open s 0, listener s, results (hist s), option_map crashed (step s (LWatchdog 4)))) (run step NewServer late_listener) =
    Some (None, [4%nat], K7 None, [1%nat], S5 0, true, Some 0%nat, [(0%nat, CStart, Some ErrServerClosed)], Some (Some PanicWatchdog))) by computed.
  destruct (run step NewServer late_listener) as [s|] eqn:E; [|discriminate]. cbn [option_map] in X. injection X as X1 X2 X3 X4 X5 X6 X7 X8 X9.
  exists s. split; [exists NewServer, late_listener; split; [reflexivity|exact E]|]. auto 10.
Qed.
Print Assumptions C63_late_listener_refuted.

(** *** C64 *)
Lemma acts_in t h e : In e (acts t h) -> In e h.
Proof.
  induction h as [|a h IH]; cbn; [tauto|]. destruct a; auto; destruct (Nat.eqb _ _); cbn; tauto.
Qed.
Theorem C64_goroutines_gone : forall s h1 h2 t r, reachable step init s -> hist s = h1 ++ HRet t CClose r :: h2 -> acts t h2 <> [] ->
  exists h3 h4, h2 = h3 ++ HWaited t :: h4 /\ running h4 = [].
Proof.
  intros s h1 h2 t r R E Ha. destruct (reachable_acts s R) as (_ & _ & H). destruct (H _ _ _ _ E) as [[X _]|(m & X & _)]; [contradiction|].
  assert (Y : In (HWaited t) h2) by (apply (acts_in t); rewrite X; left; reflexivity).
  apply in_split in Y. destruct Y as (h3 & h4 & ->). exists h3, h4. split; [reflexivity|].
  eapply (reachable_waited s R (h1 ++ HRet t CClose r :: h3)). rewrite E, <- app_assoc. reflexivity.
Qed.
Print Assumptions C64_goroutines_gone.
Example C64_instance :
  option_map (fun s => (acts 4 (match hist s with _ :: h => h | [] => [] end), match hist s with e :: _ => Some e | [] => None end)) (run step NewServer closed_down)
  = Some ([HWaited 4; HListenerClosed 4 0 None; HShutdown 4], Some (HRet 4 CClose None)).
Proof. computed. Qed.
(** Start is not waited for: it may still take a configuration and start a goroutine after Close has returned; the listener stays open for good *)
Definition late_start : list label :=
  starting ++ closing_begins 4 ++ go 4 6 ++ configured cfgA 1 ++ go 1 2 ++ [LQuit 0] ++ go 0 2.
Theorem C64_nothing_starts_after_close_refuted : exists s h1 h2, reachable step init s /\ crashed s = None /\ hist s = h1 ++ HRet 4 CClose None :: h2 /\
  In (HWaited 4) h2 /\ In (HSpawn 1) h1 /\ In (HListen 0 (Listen cfgA)) h1 /\ lis_open s 0 = true /\ listener s = None /\ running (hist s) = [] /\
  results (hist s) = [(4%nat, CClose, None); (1%nat, CServe 0, Some ErrServerClosed); (0%nat, CStart, Some ErrServerClosed)].
Proof.
  assert (X : option_map (fun s => (crashed s, hist s, lis_open s 0, listener s)) (run step NewServer late_start) =
    Some (None, [HRet 0 CStart (Some ErrServerClosed); HDone 1; HRet 1 (CServe 0) (Some ErrServerClosed); HSpawn 1; HListen 0 (Listen cfgA)] ++ HRet 4 CClose None ::
      [HWaited 4; HCleared; HShutdown 4; HCall 4 CClose; HStarted 0; HCall 0 CStart], true, None)) by computed.
  destruct (run step NewServer late_start) as [s|] eqn:E; [|discriminate]. cbn [option_map] in X. injection X as X1 X2 X3 X4.
  exists s. eexists [_; _; _; _; _], [_; _; _; _; _; _]. split; [exists NewServer, late_start; split; [reflexivity|exact E]|].
  split; [exact X1|]. rewrite X2. split; [reflexivity|]. cbn. auto 20.
Qed.
Print Assumptions C64_nothing_starts_after_close_refuted.

(** *** C65 *)
Lemma mid_serving p c : mid_conn p = Some c <-> serving_conn p c.
Proof. destruct p; cbn; split; congruence || tauto. Qed.
Theorem C65_session_table : forall s, reachable step init s -> NoDup (sessions s) /\
  (forall c, In c (sessions s) -> exists t, serving_conn (pcs s t) c /\ forall t', serving_conn (pcs s t') c -> t' = t) /\
  (cleared (hist s) = false -> forall t c, serving_conn (pcs s t) c -> In c (sessions s)) /\
  (forall t c r, In (HRet t (CServeConn c) r) (hist s) -> ~ In c (sessions s)).
Proof.
  intros s R. pose proof (reachable_ses s R) as HS. pose proof (reachable_own s R) as HO.
  split; [apply (sn_nodup _ HS)|]. split; [|split].
  - intros c Hc. destruct (sn_serv _ HS c Hc) as [t Ht]. exists t. split; [apply mid_serving, Ht|].
    intros t' Ht'. apply mid_serving in Ht'. apply (oi_conn _ HO t' t c); apply mid_conn_own; assumption.
  - intros Hn t c Ht. apply mid_serving in Ht. apply (sn_conv _ HS Hn t c Ht).
  - intros t c r Hr Hc. destruct (sn_serv _ HS c Hc) as [t' Ht]. apply mid_conn_own in Ht.
    destruct (cr_res _ (reachable_cnres s R) _ _ _ Hr) as (_ & _ & X). exact (X t' Ht).
Qed.
Print Assumptions C65_session_table.
Example C65_instance :
  option_map (fun s => (sessions s, pcs s 2, pcs s 3))
    (run step NewServer ([LServe 1] ++ serving 1 ++ accepting 1 2 ++ accepting 1 3 ++ [LEnd 2 None] ++ go 2 6))
  = Some ([1%nat], Idle, C6 1).
Proof. computed. Qed.

(** *** C66 *)
(** the first return of goroutine [t] after a call made in state [s1] *)
Definition first_return (t : tid) (s1 s' : state) (k : call) (r : option error) : Prop :=
  exists h1 h2, hist s' = h1 ++ HRet t k r :: h2 ++ hist s1 /\ forall k' r', ~ In (HRet t k' r') h2.
Theorem C66_late_serve_conn : forall s s1 s' t ls, reachable step init s -> ev_fired (shut_ev s) = true ->
  step s (LServeConn t) = Some s1 -> run step s1 ls = Some s' ->
  ~ In (next_conn s) (registered (hist s')) /\ (forall k r, first_return t s1 s' k r -> k = CServeConn (next_conn s) /\ r = Some ErrServerClosed).
Proof.
  intros s s1 s' t ls R Hf Hs H. pose proof (step_shut _ _ _ Hs Hf) as Hf1.
  pose proof (reachable_own s R) as HO. pose proof Hs as Hs'. unfold step in Hs'. destruct (crashed s); [discriminate|]. destruct (pcs s t) eqn:Ep; try discriminate. cbv zeta in Hs'. injection Hs' as E1.
  assert (Hp : pcs s1 t = C0 (next_conn s)) by (rewrite <- E1; cbn; apply upd_same).
  split.
  - refine (proj1 (outside_conn_run t (next_conn s) ls s1 s' Hf1 _ H)). rewrite <- E1. repeat split; cbn.
    + intros X. apply (oi_reg_lt _ HO) in X. lia.
    + lia.
    + intros t'. unfold upd. eqs; [auto|]. intros X. apply (oi_conn_lt _ HO) in X. lia.
    + intros _. rewrite upd_same. auto.
  - intros k r (h1 & h2 & E & Hn). eapply late_call; eauto. constructor.
Qed.
Print Assumptions C66_late_serve_conn.
Theorem C66_late_serve : forall s s1 s' t ls, reachable step init s -> ev_fired (shut_ev s) = true ->
  step s (LServe t) = Some s1 -> run step s1 ls = Some s' ->
  ~ In (next_lis s) (installed (hist s')) /\ (forall k r, first_return t s1 s' k r -> k = CServe (next_lis s) /\ r = Some ErrServerClosed).
Proof.
  intros s s1 s' t ls R Hf Hs H. pose proof (step_shut _ _ _ Hs Hf) as Hf1.
  pose proof (reachable_own s R) as HO. pose proof Hs as Hs'. unfold step in Hs'. destruct (crashed s); [discriminate|]. destruct (pcs s t) eqn:Ep; try discriminate. cbv zeta in Hs'. injection Hs' as E1.
  assert (Hp : pcs s1 t = S0 (next_lis s)) by (rewrite <- E1; cbn; apply upd_same).
  split.
  - refine (proj1 (outside_lis_run t (next_lis s) ls s1 s' Hf1 _ H)). rewrite <- E1. repeat split; cbn.
    + intros X. apply (oi_inst_lt _ HO) in X. lia.
    + lia.
    + intros t'. unfold upd. eqs; [auto|]. intros X. apply (oi_lis_lt _ HO) in X. lia.
    + intros _. rewrite upd_same. auto.
  - intros k r (h1 & h2 & E & Hn). eapply late_call; eauto. constructor.
Qed.
Print Assumptions C66_late_serve.
Theorem C66_late_start : forall s s1 s' t ls, reachable step init s -> ev_fired (shut_ev s) = true ->
  step s (LStart t) = Some s1 -> run step s1 ls = Some s' ->
  forall k r, first_return t s1 s' k r -> k = CStart /\ r = Some ErrServerClosed.
Proof.
  intros s s1 s' t ls R Hf Hs H k r (h1 & h2 & E & Hn). pose proof (step_shut _ _ _ Hs Hf) as Hf1.
  pose proof Hs as Hs'. unfold step in Hs'. destruct (crashed s); [discriminate|]. destruct (pcs s t) eqn:Ep; try discriminate. injection Hs' as E1.
  assert (Hp : pcs s1 t = A0) by (rewrite <- E1; cbn; apply upd_same).
  eapply late_call; eauto. constructor.
Qed.
Print Assumptions C66_late_start.
(** calls made while Close is still at work *)
Example C66_instance :
  option_map (fun s => (shut_ev s, results (hist s), installed (hist s), registered (hist s)))
    (run step NewServer (closing_begins 4 ++ [LServeConn 1; LServe 2; LStart 3] ++ go 1 2 ++ go 2 2 ++ go 3 2))
  = Some (EvFired, [(1%nat, CServeConn 0, Some ErrServerClosed); (2%nat, CServe 0, Some ErrServerClosed); (3%nat, CStart, Some ErrServerClosed)], [], []).
Proof. computed. Qed.

(** *** C67 *)
Theorem C67_one_close_acts : forall s, reachable step init s ->
  (length (shutdowns (hist s)) <= 1)%nat /\ (forall t, in_close (pcs s t) -> shutdowns (hist s) = [t]) /\ (length (failed_closes (hist s)) <= 1)%nat.
Proof.
  intros s R. destruct (reachable_ev s R). split; [assumption|]. split; [intros t H; apply si_close, H|]. apply (reachable_clres s R).
Qed.
Print Assumptions C67_one_close_acts.
Theorem C67_close_results : forall s h1 h2 t r, reachable step init s -> hist s = h1 ++ HRet t CClose r :: h2 ->
  acts t h2 = [] /\ r = None \/ acts t h2 = [HWaited t; HShutdown t] /\ r = None \/ exists x, acts t h2 = [HWaited t; HListenerClosed t x r; HShutdown t].
Proof.
  intros s h1 h2 t r R E. destruct (reachable_acts s R) as (_ & _ & H). destruct (H _ _ _ _ E) as [X|(m & X & [[-> ->]|[x ->]])]; eauto.
Qed.
Print Assumptions C67_close_results.
Theorem C67_later_close_is_immediate : forall s t, reachable step init s -> crashed s = None -> shut_ev s = EvFired -> pcs s t = K0 ->
  exists s', run step s [LGo t; LGo t] = Some s' /\ pcs s' t = Idle /\ hist s' = HRet t CClose None :: hist s /\ listener s' = listener s /\ sessions s' = sessions s.
Proof.
  intros s t R Hc Hf Hp.
  assert (Hb : bg s t = false) by (destruct (bg s t) eqn:Hb; [apply (wi_pc _ (reachable_wg s R)) in Hb; rewrite Hp in Hb; destruct Hb|reflexivity]).
  assert (E : step s (LGo t) = Some (goto s t (KRet None))) by (unfold step, Server.go; rewrite Hc, Hp, Hf; reflexivity).
  eexists. cbn [run]. rewrite E. unfold step, Server.go, ret. cbn. rewrite Hc, upd_same, Hb. split; [reflexivity|]. cbn. rewrite upd_same. auto.
Qed.
Print Assumptions C67_later_close_is_immediate.
(** two Close calls; the error of closing the listener is returned by the first *)
Example C67_instance :
  option_map (fun s => (results (hist s), shutdowns (hist s), failed_closes (hist s)))
    (run step NewServer ([LServe 1] ++ serving 1 ++ closing_begins 4 ++ [LCloseListener 4 (Some (ErrExternal 7))] ++ [LClose 5] ++ go 5 2 ++ go 4 2 ++ go 4 3))
  = Some ([(5%nat, CClose, None); (4%nat, CClose, Some (ErrExternal 7))], [4%nat], [(4%nat, ErrExternal 7)]).
Proof. computed. Qed.

(** *** C68 *)
Theorem C68_returned_connections : forall s t c r, reachable step init s -> In (HRet t (CServeConn c) r) (hist s) ->
  (s_fired s c = true /\ (conn_open s c = false \/ exists t', (exists r, pcs s t' = C8 c r) \/ exists r m, pcs s t' = K5 r m c)) \/
  (r = Some ErrServerClosed /\ ~ In c (registered (hist s)) /\ conn_open s c = true).
Proof.
  intros s t c r R H. pose proof (reachable_ses s R) as HS. destruct (cr_res _ (reachable_cnres s R) _ _ _ H) as ([X|[X Y]] & L & _).
  - left. split; [exact X|]. destruct (sn_open _ HS c X) as [Z|[t' Z]]; [auto|]. right. exists t'. destruct (pcs s t'); try discriminate Z; cbn in Z; injection Z as ->; eauto.
  - right. repeat split; auto. destruct (conn_open s c) eqn:Ho; [reflexivity|]. exfalso. apply Y, (sn_fired _ HS), (sn_closed _ HS); assumption.
Qed.
Print Assumptions C68_returned_connections.
Example C68_instance :
  option_map (fun s => (results (hist s), conn_open s 0)) (run step NewServer ([LServeConn 1] ++ go 1 6 ++ [LEnd 1 None] ++ go 1 6))
  = Some ([(1%nat, CServeConn 0, None)], false).
Proof. computed. Qed.
(** accepted just before Close, refused just after: nobody closes the connection *)
Definition refused_conn : list label :=
  [LServe 1] ++ serving 1 ++ [LAccept 1 AConn] ++ closing_begins 4 ++ closing_goes_on 4 [] ++ [LSpawn 1 2] ++ go 2 2 ++ [LAccept 1 (AError ErrConnClosed)] ++ go 1 1 ++ go 4 3.
Theorem C68_every_connection_closed_refuted : exists s, reachable step init s /\ crashed s = None /\ conn_open s 0 = true /\ running (hist s) = [] /\ (forall t, pcs s t = Idle) /\
  results (hist s) = [(2%nat, CServeConn 0, Some ErrServerClosed); (1%nat, CServe 0, Some ErrConnClosed); (4%nat, CClose, None)].
Proof.
  assert (X : option_map (fun s => (crashed s, conn_open s 0, running (hist s), results (hist s))) (run step NewServer refused_conn) =
    Some (None, true, [], [(2%nat, CServeConn 0, Some ErrServerClosed); (1%nat, CServe 0, Some ErrConnClosed); (4%nat, CClose, None)])) by computed.
  assert (Y : match run step NewServer refused_conn with Some s => forall t, pcs s t = Idle | None => False end).
  { vm_compute. intros t. repeat (destruct t as [|t]; [reflexivity|]). reflexivity. }
  destruct (run step NewServer refused_conn) as [s|] eqn:E; [|discriminate]. cbn [option_map] in X. injection X as X1 X2 X3 X4.
  exists s. split; [exists NewServer, refused_conn; split; [reflexivity|exact E]|]. auto 10.
Qed.
Print Assumptions C68_every_connection_closed_refuted.

(** *** C79 *)
Theorem C79_serve_results : forall s t x r, reachable step init s -> In (HRet t (CServe x) r) (hist s) ->
  r <> None /\ (In x (installed (hist s)) \/ r = Some ErrServerClosed) /\
  (lis_open s x = true -> In x (installed (hist s)) -> listener s = Some x).
Proof.
  intros s t x r R H. destruct (reachable_serves s R) as [_ X]. destruct (X _ _ _ H) as [A B]. repeat split; auto.
  intros Ho Hi. apply (la_open _ (reachable_lis s R)); assumption.
Qed.
Print Assumptions C79_serve_results.
Example C79_instance :
  option_map (fun s => (results (hist s), lis_open s 0)) (run step NewServer closed_down)
  = Some ([(1%nat, CServe 0, Some ErrConnClosed); (2%nat, CServeConn 0, None); (3%nat, CServeConn 1, None); (4%nat, CClose, None)], false).
Proof. computed. Qed.
(** a permanent Accept error ends Serve but leaves the listener in place, with nobody to accept *)
Definition unattended : list label := starting ++ configured cfgA 1 ++ serving 1 ++ [LAccept 1 (AError (ErrExternal 7))] ++ go 1 1.
Theorem C79_finished_serve_closes_listener_refuted : exists s, reachable step init s /\ crashed s = None /\ results (hist s) = [(1%nat, CServe 0, Some (ErrExternal 7))] /\
  listener s = Some 0%nat /\ lis_open s 0 = true /\ running (hist s) = [] /\ pcs s 0 = A4 /\ updates s = [] /\ (forall t, t <> 0%nat -> pcs s t = Idle).
Proof.
  assert (X : option_map (fun s => (crashed s, results (hist s), listener s, lis_open s 0, running (hist s), pcs s 0, updates s)) (run step NewServer unattended) =
    Some (None, [(1%nat, CServe 0, Some (ErrExternal 7))], Some 0%nat, true, [], A4, [])) by computed.
  assert (Y : match run step NewServer unattended with Some s => forall t, t <> 0%nat -> pcs s t = Idle | None => False end).
  { vm_compute. intros [|[|t]] Ht; [contradiction Ht; reflexivity|reflexivity|reflexivity]. }
  destruct (run step NewServer unattended) as [s|] eqn:E; [|discriminate]. cbn [option_map] in X. injection X as X1 X2 X3 X4 X5 X6 X7.
  exists s. split; [exists NewServer, unattended; split; [reflexivity|exact E]|]. auto 10.
Qed.
Print Assumptions C79_finished_serve_closes_listener_refuted.

(** *** C80 *)
Theorem C80_failed_listen_changes_nothing : forall s t cfg, crashed s = None -> pcs s t = A5 cfg ->
  exists s', step s (LListen t false) = Some s' /\ pcs s' t = A4 /\ (forall t', t' <> t -> pcs s' t' = pcs s t') /\
  listener s' = listener s /\ lis_open s' = lis_open s /\ sessions s' = sessions s /\ mu s' = mu s /\ shut_ev s' = shut_ev s /\ updates s' = updates s /\ wg s' = wg s /\ hist s' = hist s.
Proof.
  intros s t cfg Hc Hp. eexists. unfold step. rewrite Hc, Hp. split; [reflexivity|]. cbn. rewrite upd_same. repeat split.
  intros t' Ht. apply upd_other, Ht.
Qed.
Print Assumptions C80_failed_listen_changes_nothing.
(** an unusable second address, then a third configuration *)
Example C80_instance :
  option_map (fun s => (listened (hist s), listener s, map (lis_open s) [0%nat; 1%nat]))
    (run step NewServer (starting ++ configured cfgA 1 ++ serving 1 ++ [LConfig cfgB; LRecv 0; LListen 0 false] ++ configured cfgA 2 ++ replacing 2))
  = Some ([(0%nat, Listen cfgA); (1%nat, Listen cfgA)], Some 1%nat, [false; true]).
Proof. computed. Qed.

(** *** C81 *)
Theorem C81_critical_sections_exclusive : forall s t t', reachable step init s -> in_section (pcs s t) -> in_section (pcs s t') -> t = t'.
Proof. intros s t t' R H H'. eapply one_section; [apply (reachable_lock s R)|exact H|exact H']. Qed.
Print Assumptions C81_critical_sections_exclusive.
Theorem C81_holder_goes_on : forall s t, reachable step init s -> crashed s = None -> mu s = Some t ->
  exists l s', actor l = Some t /\ own_action s l /\ step s l = Some s'.
Proof. exact holder_progress. Qed.
Print Assumptions C81_holder_goes_on.
Theorem C81_lock_is_released : forall s, reachable step init s -> crashed s = None -> quiet s -> mu s = None.
Proof. exact quiet_free. Qed.
Print Assumptions C81_lock_is_released.
(** two connections want to register while Close holds the lock *)
Example C81_instance :
  option_map (fun s => (mu s, pcs s 2, pcs s 3, match step s (LGo 2) with None => true | _ => false end, match step s (LPick 4 0) with None => true | _ => false end))
    (run step NewServer ([LServe 1] ++ serving 1 ++ accepting 1 5 ++ [LServeConn 2; LServeConn 3] ++ go 2 2 ++ go 3 2 ++ closing_begins 4 ++ [LCloseListener 4 None]))
  = Some (Some 4%nat, C2 1, C2 2, true, false).
Proof. computed. Qed.

(** *** C93 The update channel, and configurations that come when Start is over *)
Theorem C93_update_channel : forall s, reachable step init s ->
  updates_closed s = true <-> exists t, started (hist s) = [t] /\ ~ in_start (pcs s t).
Proof. exact channel_closed. Qed.
Print Assumptions C93_update_channel.
(** the expected property, that a configuration change after Close does no harm, is false: Start does not
    unsubscribe, so each such change crashes the process *)
Theorem C93_update_after_close_refuted : forall s cfg, reachable step init s -> crashed s = None -> subscribed s = true ->
  (forall t, started (hist s) = [t] -> ~ in_start (pcs s t)) ->
  exists s', step s (LConfig cfg) = Some s' /\ crashed s' = Some PanicSendClosed.
Proof. exact late_update. Qed.
Print Assumptions C93_update_after_close_refuted.
(** Start, Close, Start returns ErrServerClosed, then the file changes *)
Example C93_instance :
  option_map (fun s => (crashed s, results (hist s), subscribed s, option_map crashed (step s (LConfig cfgB))))
    (run step NewServer (starting ++ closing_begins 2 ++ go 2 6 ++ [LQuit 0] ++ go 0 2))
  = Some (None, [(2%nat, CClose, None); (0%nat, CStart, Some ErrServerClosed)], true, Some (Some PanicSendClosed)).
Proof. computed. Qed.
