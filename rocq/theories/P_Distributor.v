(** C34-C41: the ConfigDistributor. *)
From Verif Require Import DistributorDead.

Definition cfgA := Config (str ":5432") (str "postgres://a/x").
Definition cfgB := Config (str ":6543") (str "postgres://b/y").
(** a client (goroutine 1) subscribes its channel 0; goroutine 9 becomes the monitor *)
Definition subscribe0 (cap : nat) (checks : list check) : list label :=
  [LNewChan 0 cap; LCall 1 (CSubscribe 0 checks); LGo 1; LGo 1; LGo 1; LFresh 1 9; LGo 1].
(** goroutine 2 calls Get on an empty distributor with a running monitor and waits on channel 5 *)
Definition get_waits : list label :=
  [LCall 2 CGet; LGo 2; LGo 2; LGo 2; LFresh 2 5; LGo 2; LGo 2; LGo 2; LGo 2; LGo 2].
(** the monitor receives [c] and sends it to the client channel 0 *)
Definition update0 (c : config) : list label := [LSource 9 c; LGo 9; LGo 9; LPick 9 0; LGo 9; LGo 9].

(** *** C34 *)
Theorem C34_get_returns_fresh : forall s h2 t c h,
  reachable step init s -> hist s = h2 ++ HRet t (RConfig c) :: h ->
  exists h1, open_call t h = Some (CGet, h1) /\ In c (sourced h) /\ at_least_as_new c (installed h1) (installed h).
Proof.
  intros s h2 t c h R E. destruct (ga_rets _ (reachable_get_all _ R) _ _ _ _ E) as (k & h1 & Ho & -> & Hs & Hn). eauto.
Qed.
Print Assumptions C34_get_returns_fresh.

Example C34_instance :
  option_map (fun s => (sourced (hist s), match hist s with e :: _ => Some e | [] => None end))
    (run step NewConfigDistributor (subscribe0 8 [] ++ update0 cfgA ++ [LCall 2 CGet; LGo 2] ++ update0 cfgB ++ [LGo 2; LGo 2; LGo 2]))
  = Some ([cfgB; cfgA], Some (HRet 2 (RConfig cfgB))).
Proof. vm_compute. reflexivity. Qed.
(** a Get that has to wait gets the next configuration *)
Example C34_instance_wait :
  option_map (fun s => match hist s with e :: _ => Some e | [] => None end)
    (run step NewConfigDistributor (subscribe0 8 [] ++ get_waits ++
       [LSource 9 cfgA; LGo 9; LGo 9; LPick 9 5; LHandoff 9 2; LPick 9 0; LGo 9; LGo 9; LGo 2; LGo 2; LGo 2]))
  = Some (Some (HRet 2 (RConfig cfgA))).
Proof. vm_compute. reflexivity. Qed.

(** *** C35 *)
Theorem C35_refusal_means_closed : forall s h2 t h,
  reachable step init s -> hist s = h2 ++ HRet t RClosed :: h ->
  In HFire h /\ exists k h1, open_call t h = Some (k, h1) /\ (k = CGet \/ exists ch checks, k = CSubscribe ch checks).
Proof.
  intros s h2 t h R E. destruct (ga_rets _ (reachable_get_all _ R) _ _ _ _ E) as (k & h1 & Ho & Hk & Hf). eauto.
Qed.
Print Assumptions C35_refusal_means_closed.
Theorem C35_closed_means_refusal : forall s h2 t r h k h1,
  reachable step init s -> hist s = h2 ++ HRet t r :: h ->
  open_call t h = Some (k, h1) -> k = CGet \/ (exists ch checks, k = CSubscribe ch checks) ->
  close_completed h1 -> r = RClosed.
Proof. intros s h2 t r h k h1 R E Ho Hk Hc. exact (ga_lrets _ (reachable_get_all _ R) _ _ _ _ E _ _ Ho Hk Hc). Qed.
Print Assumptions C35_closed_means_refusal.

Example C35_instance :
  option_map (fun s => hist s)
    (run step NewConfigDistributor [LCall 3 CClose; LGo 3; LGo 3; LGo 3; LGo 3; LCall 2 CGet; LGo 2])
  = Some [HRet 2 RClosed; HCall 2 CGet; HRet 3 RNil; HCancelAll; HFire; HCall 3 CClose].
Proof. vm_compute. reflexivity. Qed.

(** *** C36 *)
Theorem C36_exactly_the_relevant_updates : forall s ch,
  reachable step init s ->
  exists rest, expected ch (hist s) = sent ch (hist s) ++ rest /\ (length rest <= 1)%nat /\ (writer s = None -> rest = []).
Proof.
  intros s ch R. exists (owed s ch). split; [apply (si_sent _ (reachable_subs _ R))|]. unfold owed. split.
  - destruct (writer s) as [w|]; [|auto]. destruct (pcs s w); cbn; auto;
      repeat match goal with |- context [match ?x with _ => _ end] => destruct x; cbn; auto end.
  - intros ->. reflexivity.
Qed.
Print Assumptions C36_exactly_the_relevant_updates.
Theorem C36_delivered_in_order : forall s ch, reachable step init s ->
  exists buffered, sent ch (hist s) = received ch (hist s) ++ buffered /\ (forall x, chans s ch = Some x -> buffered = ch_queue x /\ (length buffered <= ch_cap x)%nat).
Proof.
  intros s ch R. destruct (reachable_fifo _ R ch) as [H1 H2]. exists (queue s ch). split; [exact H1|].
  intros x E. unfold queue, capacity in *. rewrite E in *. auto.
Qed.
Print Assumptions C36_delivered_in_order.

(** a subscriber that only cares about the listen address, as Server.Start does *)
Definition listen_changed : check := fun old new => match old with Some o => if bytes_eqb (Listen o) (Listen new) then false else true | None => true end.
Example C36_instance :
  option_map (fun s => (installed (hist s), sent 0 (hist s), expected 0 (hist s), received 0 (hist s)))
    (run step NewConfigDistributor (subscribe0 8 [listen_changed] ++ update0 cfgA ++
       [LSource 9 cfgA; LGo 9; LGo 9; LPick 9 0; LGo 9] ++ update0 cfgB ++ [LRecv 0]))
  = Some ([cfgB; cfgA; cfgA], [cfgA; cfgB], [cfgA; cfgB], [cfgA]).
Proof. vm_compute. reflexivity. Qed.

(** *** C37 *)
Theorem C37_installed_is_sourced : forall s, reachable step init s ->
  exists pending, sourced (hist s) = pending ++ installed (hist s) /\ (length pending <= 1)%nat /\
    ((forall t c, pcs s t <> M1 c /\ pcs s t <> M2 c) -> pending = []).
Proof.
  intros s R. pose proof (reachable_mon _ R) as HM. destruct (mi_src' _ HM) as [E|(t & c & Hc)].
  - exists []. rewrite E. cbn. auto.
  - exists [c]. cbn. rewrite (mi_src _ HM t c Hc). repeat split; auto. intros H. exfalso. specialize (H t c). destruct Hc; tauto.
Qed.
Print Assumptions C37_installed_is_sourced.
Theorem C37_one_monitor : forall s t t', reachable step init s -> is_monitor (pcs s t) -> is_monitor (pcs s t') -> t = t'.
Proof. intros s t t' R. apply (mi_unique _ (reachable_mon _ R)). Qed.
Print Assumptions C37_one_monitor.
(** The history tells: the monitor is started at most once, and the goroutine that has exited is the one
    recorded. *)
Theorem C37_monitor_history : forall s, reachable step init s ->
  (length (filter (fun e => match e with HMonStart _ => true | _ => false end) (hist s)) <= 1)%nat /\
  (forall t, In (HMonStart t) (hist s) <-> is_monitor (pcs s t)) /\
  (forall t, In (HMonExit t) (hist s) <-> pcs s t = MExit).
Proof.
  intros s R. destruct (reachable_monhist _ R) as [Hs He Hc]. unfold starts in Hc. rewrite Hc. repeat split; try apply Hs; try apply He.
  destruct (started s); auto.
Qed.
Print Assumptions C37_monitor_history.
Theorem C37_current_is_newest : forall s, reachable step init s -> last s = hd_error (installed (hist s)).
Proof. intros s R. apply (mi_last _ (reachable_mon _ R)). Qed.
Print Assumptions C37_current_is_newest.
Example C37_instance :
  option_map (fun s => (sourced (hist s), installed (hist s), last s, pcs s 9))
    (run step NewConfigDistributor (subscribe0 8 [] ++ update0 cfgA ++ [LSource 9 cfgB]))
  = Some ([cfgB; cfgA], [cfgA], Some cfgA, M1 cfgB).
Proof. vm_compute. reflexivity. Qed.

(** *** C38: when the distributor deadlocks, exactly *)
Theorem C38_doom_is_forever : forall s w ch r, reachable step init s -> doomed_at s w ch r ->
  held_forever s w /\ never_returns s r.
Proof. exact doomed_forever. Qed.
Print Assumptions C38_doom_is_forever.
Theorem C38_otherwise_released : forall s, reachable step init s -> safe s -> released s.
Proof. exact safe_released. Qed.
Print Assumptions C38_otherwise_released.
Theorem C38_cached_get_returns : forall s t c, reachable step init s -> crashed s = None ->
  pcs s t = Idle -> last s = Some c -> writer s = None -> closed s = EvInit ->
  exists s', run step s [LCall t CGet; LGo t; LGo t; LGo t; LGo t] = Some s' /\ hist s' = HRet t (RConfig c) :: HCall t CGet :: hist s.
Proof.
  intros s t c _ Hc Hp Hl Hw Hx. cbn [run]. unfold step at 1. rewrite Hc, Hp. unfold step at 1, go at 1. cbn. rewrite Hc, upd_same, Hx. cbn.
  unfold step at 1, go at 1. cbn. rewrite Hc, upd_same, Hw. unfold step at 1, go at 1. cbn. rewrite Hc, upd_same. unfold step at 1, go at 1. cbn. rewrite Hc, upd_same, Hl.
  eexists. split; reflexivity.
Qed.
Print Assumptions C38_cached_get_returns.

Lemma run_witness (P : state -> Prop) ls :
  match run step NewConfigDistributor ls with Some s => P s | None => False end ->
  exists s, run step NewConfigDistributor ls = Some s /\ P s.
Proof. destruct (run step NewConfigDistributor ls) as [s|]; [eauto|tauto]. Qed.
Lemma run_reachable ls s : run step NewConfigDistributor ls = Some s -> reachable step init s.
Proof. intros H. exists NewConfigDistributor, ls. split; [reflexivity|exact H]. Qed.

(** race 1: the configuration arrives between Get's look at the cache and its Subscribe *)
Theorem C38_get_deadlocks_itself_refuted : forall c, exists ls s,
  run step NewConfigDistributor ls = Some s /\ sourced (hist s) = [c] /\ ~ In HFire (hist s) /\
  held_forever s 2 /\ never_returns s 2.
Proof.
  intros c. exists (subscribe0 8 [] ++ [LCall 2 CGet; LGo 2; LGo 2; LGo 2] ++ update0 c ++ [LFresh 2 5; LGo 2; LGo 2; LGo 2]).
  destruct (run_witness (fun s => sourced (hist s) = [c] /\ ~ In HFire (hist s) /\ doomed_at s 2 5 2)
    (subscribe0 8 [] ++ [LCall 2 CGet; LGo 2; LGo 2; LGo 2] ++ update0 c ++ [LFresh 2 5; LGo 2; LGo 2; LGo 2])) as (s & E & H1 & H2 & H3).
  - vm_compute. intuition discriminate.
  - exists s. pose proof (doomed_forever _ _ _ _ (run_reachable _ _ E) H3). tauto.
Qed.
Print Assumptions C38_get_deadlocks_itself_refuted.

(** race 2: Get gives up because of Close while the monitor is about to send to it; the monitor then
    holds the mutex for ever, and the waiting Get never returns *)
Theorem C38_close_deadlocks_refuted : forall c, exists ls s,
  run step NewConfigDistributor ls = Some s /\ sourced (hist s) = [c] /\ In HFire (hist s) /\
  held_forever s 9 /\ never_returns s 2.
Proof.
  intros c. set (ls := subscribe0 8 [] ++ get_waits ++ [LSource 9 c; LCall 3 CClose; LGo 3; LGo 3; LClosedCase 2; LGo 9]).
  exists ls. destruct (run_witness (fun s => sourced (hist s) = [c] /\ In HFire (hist s) /\ doomed_at s 9 5 2) ls) as (s & E & H1 & H2 & H3).
  - vm_compute. repeat split; try discriminate; try tauto. exists []. split; reflexivity.
  - exists s. pose proof (doomed_forever _ _ _ _ (run_reachable _ _ E) H3). tauto.
Qed.
Print Assumptions C38_close_deadlocks_refuted.

(** race 3: a second configuration arrives after Get received the first and before it unsubscribed;
    no Close is involved *)
Theorem C38_two_updates_deadlock_refuted : forall c1 c2, exists ls s,
  run step NewConfigDistributor ls = Some s /\ sourced (hist s) = [c2; c1] /\ ~ In HFire (hist s) /\ In (HRecv 5 c1) (hist s) /\
  held_forever s 9 /\ never_returns s 2.
Proof.
  intros c1 c2. set (ls := subscribe0 8 [] ++ get_waits ++ [LSource 9 c1; LGo 9; LGo 9; LPick 9 5; LHandoff 9 2; LPick 9 0; LGo 9; LGo 9; LSource 9 c2; LGo 9]).
  exists ls. destruct (run_witness (fun s => sourced (hist s) = [c2; c1] /\ ~ In HFire (hist s) /\ In (HRecv 5 c1) (hist s) /\ doomed_at s 9 5 2) ls) as (s & E & H1 & H2 & H3 & H4).
  - vm_compute. repeat split; try discriminate; try tauto; try (intuition discriminate). exists []. split; reflexivity.
  - exists s. pose proof (doomed_forever _ _ _ _ (run_reachable _ _ E) H4). tauto.
Qed.
Print Assumptions C38_two_updates_deadlock_refuted.

(** *** C39 *)
Theorem C39_polite_clients_never_crash : forall s, reachable step init s -> polite (hist s) -> crashed s = None.
Proof. exact polite_no_crash. Qed.
Print Assumptions C39_polite_clients_never_crash.
Theorem C39_only_crash : forall s p, reachable step init s -> crashed s = Some p ->
  p = PanicSendClosed /\ exists t ch c n, sending (pcs s t) = Some (ch, c, n) /\ In (HCloseChan ch) (hist s).
Proof.
  intros s p R E. apply reachable_full in R. destruct (fi_crash _ R p E) as (-> & t & ch & c & n & x & Hs & Hx & Hc).
  split; [reflexivity|]. exists t, ch, c, n. split; [exact Hs|]. apply (fi_closed _ R ch x Hx Hc).
  destruct (ch_owner x) as [r|] eqn:Eo; [|reflexivity]. exfalso.
  assert (chans s ch = Some (Chan 0 [] false (Some r))) as X; [|rewrite Hx in X; injection X as ->; discriminate].
  pose proof (fi_own _ R) as HO. destruct (pcs s t) eqn:Ep; try discriminate; cbn in Hs; injection Hs as -> -> <-.
  - destruct k.
    + assert (owner s ch = Some None) as Y by (apply (oi_client _ HO t); rewrite Ep; reflexivity). unfold owner in Y. rewrite Hx in Y. cbn in Y. congruence.
    + assert (chans s ch = Some (Chan 0 [] false (Some t))) as Y by (apply (oi_get _ HO t); rewrite Ep; reflexivity). rewrite Hx in Y. injection Y as ->. discriminate.
  - pose proof (oi_visit _ HO t) as Hv. rewrite Ep in Hv. destruct Hv as [(cks & Hv) _].
    destruct (oi_reg _ HO ch r) as [Hr _]; [congruence|unfold owner; rewrite Hx; cbn; congruence|].
    apply (oi_get _ HO r). destruct (pcs s r); try discriminate; exact Hr || (destruct k; [discriminate|exact Hr]).
Qed.
Print Assumptions C39_only_crash.
(** what Server.Start does (server.go:70-77: a channel of capacity 1, subscribed, closed on return
    without Unsubscribe), followed by one more configuration update *)
Theorem C39_server_start_crashes_refuted : forall checks c, relevant checks None c = true -> exists ls s,
  run step NewConfigDistributor ls = Some s /\ sourced (hist s) = [c] /\ crashed s = Some PanicSendClosed.
Proof.
  intros checks c Hr. set (ls := subscribe0 1 checks ++ [LCloseChan 0; LSource 9 c; LGo 9; LGo 9; LPick 9 0; LGo 9]). exists ls.
  apply (run_witness (fun s => sourced (hist s) = [c] /\ crashed s = Some PanicSendClosed)).
  rewrite <- should_spec in Hr. lazy -[shouldSendUpdatedConfig]. rewrite Hr. lazy. auto.
Qed.
Print Assumptions C39_server_start_crashes_refuted.
Example C39_polite_instance :
  match run step NewConfigDistributor (subscribe0 1 [] ++ update0 cfgA ++ [LCall 1 (CUnsubscribe 0); LGo 1; LGo 1; LCloseChan 0; LSource 9 cfgB; LGo 9; LGo 9; LGo 9]) with
  | Some s => sent 0 (hist s) = [cfgA] /\ installed (hist s) = [cfgB; cfgA] /\ crashed s = None | None => False end.
Proof. vm_compute. auto. Qed.

(** *** C40 *)
Theorem C40_write_sections_exclusive : forall s t t', reachable step init s ->
  in_write_section (pcs s t) -> in_write_section (pcs s t') -> t = t'.
Proof. intros s t t' R H H'. pose proof (li_writer _ (reachable_lock _ R)) as HL. apply HL in H. apply HL in H'. congruence. Qed.
Print Assumptions C40_write_sections_exclusive.
Theorem C40_readers_excluded : forall s t t', reachable step init s ->
  in_write_section (pcs s t) -> in_read_section (pcs s t') -> False.
Proof.
  intros s t t' R H H'. pose proof (reachable_lock _ R) as HL. apply (li_writer _ HL) in H.
  assert (In t' (readers s)) as X by (apply (li_readers _ HL); destruct (pcs s t'); cbn in H'; tauto).
  rewrite (li_excl _ HL) in X; [destruct X|congruence].
Qed.
Print Assumptions C40_readers_excluded.
Example C40_instance :
  option_map (fun s => (pcs s 1, pcs s 2, pcs s 3, step s (LGo 1)))
    (run step NewConfigDistributor [LNewChan 0 1; LCall 1 (CSubscribe 0 []); LCall 2 CGet; LCall 3 CGet; LGo 1; LGo 2; LGo 2; LGo 3; LGo 3])
  = Some (S1 0 [] STop, G2, G2, None).
Proof. vm_compute. reflexivity. Qed.

(** *** C41 *)
Theorem C41_monitor_exit_means_closed : forall s t, reachable step init s -> In (HMonExit t) (hist s) -> closed s = EvFired.
Proof. intros s t R. apply (ci_exit _ (reachable_both_close _ R)). Qed.
Print Assumptions C41_monitor_exit_means_closed.
Theorem C41_closed_source_closes : forall s t, reachable step init s -> crashed s = None ->
  pcs s t = M0 -> src_closed s = true -> closed s = EvInit -> writer s = None -> readers s = [] ->
  exists s', run step s [LGo t; LGo t; LGo t; LGo t; LGo t] = Some s' /\
    closed s' = EvFired /\ subs s' = [] /\ pcs s' t = MExit /\ writer s' = None.
Proof.
  intros s t _ Hc Hp Hsrc Hx Hw Hr. cbn [run].
  unfold step at 1, go at 1. cbn. rewrite Hc, Hp, Hsrc. unfold step at 1, go at 1. cbn. rewrite Hc, upd_same, Hx.
  unfold step at 1, go at 1. cbn. rewrite Hc, upd_same. unfold step at 1, go at 1. cbn. rewrite Hc, upd_same. unfold is_free at 1. cbn. rewrite Hw, Hr.
  unfold step at 1, go at 1. cbn. rewrite Hc, upd_same. eexists. split; [reflexivity|]. cbn. rewrite upd_same. auto.
Qed.
Print Assumptions C41_closed_source_closes.
(** Close takes effect once: the subscriptions are deleted at most once in any execution, however many
    goroutines call Close and however often, and a call made after one has completed returns without
    touching anything (in particular without waiting for the mutex). *)
Theorem C41_close_takes_effect_once : forall s, reachable step init s ->
  (length (filter (fun e => match e with HCancelAll => true | _ => false end) (hist s)) <= 1)%nat.
Proof. intros s R. apply (oi_max _ (reachable_once _ R)). Qed.
Print Assumptions C41_close_takes_effect_once.
Theorem C41_second_close_returns_at_once : forall s t s1, reachable step init s -> close_completed (hist s) ->
  step s (LCall t CClose) = Some s1 ->
  exists s2, step s1 (LGo t) = Some s2 /\ hist s2 = HRet t RNil :: hist s1 /\
    (writer s2, readers s2, closed s2, last s2, subs s2, chans s2, crashed s2) = (writer s, readers s, closed s, last s, subs s, chans s, crashed s).
Proof.
  intros s t s1 R HC E. pose proof (ci_done _ (reachable_both_close _ R) HC) as HF.
  unfold step in E. destruct (crashed s) eqn:Hc; [discriminate|]. destruct (pcs s t); try discriminate. injection E as <-.
  eexists. split; [unfold step, go; cbn; rewrite Hc, upd_same, HF; reflexivity|]. split; [reflexivity|]. cbn. rewrite Hc. reflexivity.
Qed.
Print Assumptions C41_second_close_returns_at_once.
Example C41_second_close : option_map (fun s => (pcs s 4%nat, firstn 2 (hist s)))
    (run step NewConfigDistributor [LNewChan 0 1; LCall 3 CClose; LGo 3; LGo 3; LGo 3; LGo 3; LCall 1 CClose; LGo 1; LCall 4 CClose; LGo 4])
  = Some (Idle, [HRet 4 RNil; HCall 4 CClose]).
Proof. vm_compute. reflexivity. Qed.
(** Close does not prevent a Subscribe that already passed its check from registering afterwards *)
Theorem C41_no_subscription_after_close_refuted : exists ls s,
  run step NewConfigDistributor ls = Some s /\ close_completed (hist s) /\ subscribed 0 (hist s) = Some [] /\ subs s <> [].
Proof.
  set (ls := [LNewChan 0 1; LCall 1 (CSubscribe 0 []); LGo 1; LCall 3 CClose; LGo 3; LGo 3; LGo 3; LGo 3; LGo 1; LGo 1; LFresh 1 9; LGo 1]). exists ls.
  apply (run_witness (fun s => close_completed (hist s) /\ subscribed 0 (hist s) = Some [] /\ subs s <> [])).
  vm_compute. split; [|split; [reflexivity|discriminate]].
  eexists [_; _; _], 3%nat, _, _. split; reflexivity.
Qed.
Print Assumptions C41_no_subscription_after_close_refuted.
Example C41_instance :
  option_map (fun s => (closed s, subs s, pcs s 9))
    (run step NewConfigDistributor (subscribe0 8 [] ++ update0 cfgA ++ [LCloseSource; LGo 9; LGo 9; LGo 9; LGo 9; LGo 9]))
  = Some (EvFired, [], MExit).
Proof. vm_compute. reflexivity. Qed.
