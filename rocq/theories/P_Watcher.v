(** Properties C70-C73, C82: the file watcher and configuration reload (pkg/cli/file_watcher.go,
    pkg/cli/watch_server_config.go, prepareConfigChan in pkg/cli/cli.go).
    Every theorem is about every execution: any interleaving of the goroutines, any file changes,
    any fsnotify events and errors, any StopWatch calls. Histories are newest first. *)
From Verif Require Import FileWatcher SpecWatcher WatcherProofs WatcherFacts WatcherLive.
From Verif Require Import WatcherLog.

Definition cA := Config (str "a:1") (str "postgres://x/a").
Definition cB := Config (str "b:2") (str "postgres://x/b").
Definition cC := Config (str "c:3") (str "postgres://x/c").
(** prepareConfigChan runs to completion, nothing failing *)
Definition started_ok : list label :=
  [LMain; LMain; LMain; LStarter None; LStarter None; LStarter None; LStarter None; LStarter None; LMain].
Definition E1 := ErrExternal 1.

(** * C70 The server sees the initial configuration first *)

Theorem C70_initial_then_reloads : forall s, reachable step from_cli s -> main s = M_Returned None ->
  exists c0, loaded (hist s) = [c0] /\
    recvd (hist s) ++ chan s ++ pending s = c0 :: good_reloads (hist s) /\ (length (chan s) <= 1)%nat.
Proof.
  intros s H HM. destruct (reachable_cli _ H) as [_ L]. rewrite HM in L. destruct L as [c0 L].
  destruct (reachable_traffic _ (reachable_from_cli _ H)) as [T1 T2 _ T4].
  exists c0. split; [exact L|]. split; [|exact T4]. rewrite L in T2. rewrite app_assoc, T1, T2. reflexivity.
Qed.
Print Assumptions C70_initial_then_reloads.

Theorem C70_nothing_before_it_is_loaded : forall s, reachable step from_cli s -> loaded (hist s) = [] ->
  recvd (hist s) = [] /\ chan s = [] /\ forall r, main s <> M_Returned r.
Proof.
  intros s H HL. destruct (reachable_cli _ H) as [_ L].
  pose proof (reachable_shape _ (reachable_from_cli _ H)) as HS.
  destruct (reachable_traffic _ (reachable_from_cli _ H)) as [T1 T2 T3 _].
  assert (before_watch (main s) = true) as HB by (destruct (main s); auto; destruct L as [c L]; congruence).
  destruct (early _ HS HB) as [E1 _]. rewrite HL, (T3 E1) in T2. cbn in T2.
  apply app_eq_nil in T2. destruct T2 as [T2 _]. rewrite T2 in T1. apply app_eq_nil in T1. destruct T1 as [T1 T1'].
  repeat split; auto. intros r X. rewrite X in HB. discriminate HB.
Qed.
Print Assumptions C70_nothing_before_it_is_loaded.

(** Every configuration read is what the file contained at that moment. *)
Theorem C70_reads_are_current : forall f0 ls s h2 e h1, run step (prepare f0) ls = Some s -> hist s = h2 ++ e :: h1 ->
  forall f, e = WRead f \/ e = WReload f -> f = contents f0 h1.
Proof.
  intros f0 ls s h2 e h1 H E f He. destruct (reads_run _ _ _ H) as [_ R]. rewrite E in R.
  apply reads_ok_split in R. destruct He as [-> | ->]; exact R.
Qed.
Print Assumptions C70_reads_are_current.

(** One reload per write event, no more. *)
Theorem C70_one_reload_per_write : forall s, reachable step from_cli s ->
  (reload_count (hist s) + (match handler s with H_Read => 1 | _ => 0 end) = length (filter reloads (received_ops (hist s))))%nat.
Proof. exact reachable_count. Qed.
Print Assumptions C70_one_reload_per_write.

(** If a write event was received after the file's last change and the handler is done with it, the
    newest configuration handed over is the file's. *)
Theorem C70_newest_wins : forall s h2 op h1 c, reachable step from_cli s ->
  hist s = h2 ++ WEvent op :: h1 -> reloads op = true -> unchanged h2 ->
  handler s = H_Select \/ handler s = H_End -> file s = Some c -> exists l, sent (hist s) = l ++ [c].
Proof.
  intros s h2 op h1 c H E Ho Hu Hh Hf. pose proof (reachable_newest _ H) as N. unfold newest_inv in N.
  rewrite E, fresh_split in N by assumption. specialize (N eq_refl). rewrite Hf, <- E in N.
  destruct Hh as [Hh|Hh]; rewrite Hh in N; exact N.
Qed.
Print Assumptions C70_newest_wins.

(** While the watcher is alive, writing a configuration into the file can always get it to the
    server by the program's own actions alone. *)
Theorem C70_reload_reaches_server : forall s c, reachable step from_cli s -> crashed s = None ->
  main s = M_Returned None -> handler s <> H_None -> handler s <> H_End ->
  exists ls s' l, Forall (fun l => own l = true) ls /\
    run step s (LFile (Some c) [OpWrite] :: ls) = Some s' /\ recvd (hist s') = l ++ [c].
Proof.
  intros s c H HC HM H1 H2. apply reload_reaches; auto. destruct (handler s); cbn; congruence.
Qed.
Print Assumptions C70_reload_reaches_server.

(** A change between the initial load and the moment the watch is in place is never noticed. *)
Theorem C70_early_change_refuted : exists ls s, run step (prepare (Some cA)) ls = Some s /\
  main s = M_Returned None /\ file s = Some cB /\ events s = [] /\ handler s = H_Select /\
  chan s = [] /\ recvd (hist s) = [cA].
Proof.
  exists [LMain; LMain; LMain; LStarter None; LStarter None; LStarter None; LFile (Some cB) [OpWrite]; LStarter None; LStarter None; LMain; LRecv].
  eexists. split; [vm_compute; reflexivity|]. repeat split.
Qed.
Print Assumptions C70_early_change_refuted.

(** A slow server: two good reloads and a bad one while the channel is full. *)
Example C70_instance : option_map (fun s => (recvd (hist s), chan s, good_reloads (hist s), reload_count (hist s), handler s))
  (run step (prepare (Some cA)) (started_ok ++
    [LFile (Some cB) [2]; LEvent; LHandler; LRecv; LHandler; LFile None [2]; LEvent; LHandler; LFile (Some cC) [2]; LEvent; LHandler; LRecv; LHandler; LRecv])) =
  Some ([cA; cB; cC], [], [cB; cC], 3%nat, H_Select).
Proof. vm_compute. reflexivity. Qed.

(** * C71 File events reach the right callback *)

Theorem C71_right_callback : forall s, reachable step init s ->
  calls (hist s) = flat_map (wanted (cbs s)) (received_ops (hist s)).
Proof. exact reachable_calls. Qed.
Print Assumptions C71_right_callback.

(** Callbacks never overlap: another event is received only after the previous callback returned. *)
Theorem C71_one_at_a_time : forall s l s' op, reachable step init s -> step s l = Some s' ->
  received_ops (hist s') = received_ops (hist s) ++ [op] -> handler s = H_Select.
Proof.
  intros s l s' op H E X. assert (forall (h : list Z) x, h = h ++ [x] -> False) as N.
  { intros h x Y. apply (f_equal (@length Z)) in Y. rewrite app_length in Y. cbn in Y. Lia.lia. }
  dstep E; cbn in X; try (exfalso; eapply N; exact X). all: reflexivity.
Qed.
Print Assumptions C71_one_at_a_time.

Example C71_instance : option_map (fun s => (received_ops (hist s), calls (hist s)))
  (run step (watch (Callbacks CbOther CbOther CbNil) None)
    [LMain; LStarter None; LStarter None; LStarter None; LStarter None; LFile None [3; 2; 6; 4; 8; 5; 18]; LEvent; LHandler; LEvent; LHandler; LEvent; LHandler;
     LEvent; LEvent; LEvent; LHandler; LEvent]) =
  Some ([3; 2; 6; 4; 8; 5; 18], [KCreate; KWrite; KWrite; KCreate; KWrite]).
Proof. vm_compute. reflexivity. Qed.

(** * C72 Replacing the file does not reload it *)

(** Without a write event (or with the create bit also set) nothing is reloaded, whatever else
    happens to the file: the server never sees anything but the initial configuration. *)
Theorem C72_only_writes_reload : forall s, reachable step from_cli s ->
  (forall op, In op (received_ops (hist s)) -> reloads op = false) ->
  reload_count (hist s) = 0%nat /\ recvd (hist s) ++ chan s ++ pending s = loaded (hist s).
Proof.
  intros s H HO. pose proof (reachable_count _ H) as C. unfold count_inv in C.
  assert (filter reloads (received_ops (hist s)) = []) as F.
  { destruct (filter reloads (received_ops (hist s))) as [|x l] eqn:E; [reflexivity|].
    assert (In x (x :: l)) as X by (left; reflexivity). rewrite <- E in X. apply filter_In in X. destruct X as [X1 X2]. rewrite (HO _ X1) in X2. discriminate X2. }
  rewrite F in C. cbn in C. assert (reload_count (hist s) = 0%nat) as R by Lia.lia. split; [exact R|].
  destruct (reachable_traffic _ (reachable_from_cli _ H)) as [T1 T2 _ _].
  assert (forall h, reload_count h = 0%nat -> good_reloads h = []) as G.
  { induction h as [|[| |[c|]| | | | | | | | | | | | | |] h IH]; cbn; intros Y; auto; discriminate Y. }
  rewrite (G _ R), app_nil_r in T2. rewrite app_assoc, T1. exact T2.
Qed.
Print Assumptions C72_only_writes_reload.

(** The file is moved away and a new one put in its place; everything reported is processed and the
    server still runs on the old configuration. *)
Theorem C72_replacement_reloads_refuted : exists ls s, run step (prepare (Some cA)) ls = Some s /\
  main s = M_Returned None /\ file s = Some cB /\ events s = [] /\ handler s = H_Select /\ chan s = [] /\
  received_ops (hist s) = [8; 16; 4; 1] /\ recvd (hist s) = [cA].
Proof.
  exists (started_ok ++ [LRecv; LFile None [8; 16; 4]; LFile (Some cB) [1]; LEvent; LEvent; LEvent; LEvent]).
  eexists. split; [vm_compute; reflexivity|]. repeat split.
Qed.
Print Assumptions C72_replacement_reloads_refuted.

(** A new file written in one go, reported as one combined event: not reloaded either. *)
Example C72_instance : option_map (fun s => (file s, recvd (hist s), calls (hist s)))
  (run step (prepare (Some cA)) (started_ok ++ [LRecv; LFile (Some cB) [3]; LEvent])) = Some (Some cB, [cA], []).
Proof. vm_compute. reflexivity. Qed.

(** * C73 StopWatch may be called exactly once, after Watch succeeded *)

Theorem C73_stop_crashes_unless : forall s s', reachable step init s -> step s LStop = Some s' ->
  (crashed s' = None <-> In WMade (hist s) /\ ~ In WStop (hist s)) /\
  (crashed s' = None -> hist s' = WStop :: hist s) /\
  (In WStop (hist s) -> crashed s' = Some PanicCloseClosed) /\
  (~ In WMade (hist s) -> crashed s' = Some PanicCloseNil).
Proof.
  intros s s' H E. pose proof (reachable_shape _ H) as HS. pose proof (sh_done _ HS) as S1. pose proof (sh_stop _ HS) as S2.
  rewrite <- made_in, <- stopped_in. unfold step in E. destruct (crashed s) eqn:Ec; [discriminate E|].
  destruct (done s); injection E as <-; rewrite S1, S2; cbn; rewrite ?Ec; intuition (auto; congruence).
Qed.
Print Assumptions C73_stop_crashes_unless.

(** A StopWatch is always possible, and the first one after a successful Watch never crashes. *)
Theorem C73_first_stop_is_safe : forall s, reachable step init s -> crashed s = None ->
  In (WWatchRet None) (hist s) -> ~ In WStop (hist s) ->
  exists s', step s LStop = Some s' /\ crashed s' = None.
Proof.
  intros s H HC HW HN. pose proof (reachable_shape _ H) as HS. pose proof (sh_done _ HS) as S1. pose proof (sh_stop _ HS) as S2.
  assert (made (hist s) = true) as HM by (apply nil_made; assumption).
  rewrite <- stopped_in in HN. unfold step. rewrite HC. rewrite HM in S1. destruct (done s); try discriminate S1; [|rewrite S2 in HN; exfalso; apply HN; reflexivity].
  eexists. split; [reflexivity|]. exact HC.
Qed.
Print Assumptions C73_first_stop_is_safe.

(** After StopWatch the program's own actions can always bring both goroutines to their end and
    close the fsnotify watcher, even from inside a callback waiting for the server. *)
Theorem C73_stop_takes_effect : forall s, reachable step init s -> crashed s = None -> In WStop (hist s) ->
  exists ls s', Forall (fun l => own l = true) ls /\ run step s ls = Some s' /\
    handler s' = H_End /\ starter s' = S_End /\ In WClosed (hist s').
Proof. exact stop_takes_effect. Qed.
Print Assumptions C73_stop_takes_effect.

(** Once the handler noticed the stop (or an fsnotify error), it receives and calls nothing more. *)
Theorem C73_nothing_after_the_end : forall s h2 e h1, reachable step init s -> hist s = h2 ++ e :: h1 ->
  e = WStopped \/ (exists r, e = WError r) ->
  (forall op, ~ In (WEvent op) h2) /\ (forall k, ~ In (WCall k) h2) /\ (forall f, ~ In (WReload f) h2).
Proof.
  intros s h2 e h1 H E He. pose proof (reachable_quiet _ H) as Q. rewrite E in Q.
  assert (match e with WError _ | WStopped => True | _ => False end) as He' by (destruct He as [-> |[r ->]]; exact I).
  pose proof (quiet_split _ _ _ Q He') as X.
  repeat split; intros y Y; exact (X _ Y).
Qed.
Print Assumptions C73_nothing_after_the_end.

(** StopWatch itself promises nothing: callbacks may run after it has returned. *)
Theorem C73_no_callback_after_stop_refuted : exists ls s h2 h1,
  run step (watch (Callbacks CbOther CbOther CbOther) None) ls = Some s /\ crashed s = None /\
  hist s = h2 ++ WStop :: h1 /\ calls h2 = [KRemove; KWrite].
Proof.
  eexists [LMain; LStarter None; LStarter None; LStarter None; LStarter None; LStarter None; LMain; LStop; LFile None [4]; LEvent; LHandler; LFile None [2]; LEvent].
  eexists. eexists [_; _; _; _; _; _; _]. eexists. split; [vm_compute; reflexivity|]. repeat split.
Qed.
Print Assumptions C73_no_callback_after_stop_refuted.

(** Twice, and before Watch. *)
Example C73_instance : (option_map (fun s => crashed s) (run step (watch (Callbacks CbNil CbOther CbNil) None)
    [LMain; LStarter None; LStarter None; LStarter None; LStarter None; LStarter None; LMain; LStop; LStopped; LStop]),
  option_map (fun s => crashed s) (run step (watch (Callbacks CbNil CbOther CbNil) None) [LMain; LStarter None; LStop])) =
  (Some (Some PanicCloseClosed), Some (Some PanicCloseNil)).
Proof. vm_compute. reflexivity. Qed.

(** * C82 What Watch reports *)

(** If no fsnotify error was received before Watch returned, it returned what adding the path gave,
    or the error of creating the fsnotify watcher. *)
Theorem C82_watch_reports : forall s h2 r h1, reachable step init s -> hist s = h2 ++ WWatchRet r :: h1 ->
  (forall e, ~ In (WError e) h1) -> In (WAdd r) h1 \/ (r <> None /\ ~ In WMade h1).
Proof.
  intros s h2 r h1 H E HF. pose proof (reachable_returns _ H) as R. rewrite E in R. apply returns_ok_split in R; [exact R|].
  destruct (failed h1) eqn:F; [|reflexivity]. apply failed_in in F. destruct F as [e F]. destruct (HF _ F).
Qed.
Print Assumptions C82_watch_reports.

(** Watch does return: seven actions of the caller and of the goroutine it started are enough, whatever
    fsnotify answers and whatever the handler, the file or callers of StopWatch did before. *)
Theorem C82_watch_returns : forall s answer, reachable step init s -> crashed s = None ->
  In WWatch (hist s) -> (forall r, ~ In (WWatchRet r) (hist s)) ->
  exists ls s' r, (length ls <= 7)%nat /\ Forall (fun l => l = LMain \/ l = LStarter answer) ls /\
    run step s ls = Some s' /\ In (WWatchRet r) (hist s').
Proof.
  intros s a H HC HW HN. destruct (watch_returns s a H HC (watch_open _ H HW HN)) as (ls & s' & r & L & F & R & E).
  exists ls, s', r. repeat split; auto. rewrite E. left. reflexivity.
Qed.
Print Assumptions C82_watch_returns.

(** While the handler lives, the result Watch gave is the result of adding the path. *)
Theorem C82_live_watch_reports : forall s r, reachable step init s -> main s = M_Returned r ->
  handler s <> H_None -> handler s <> H_End -> In (WAdd r) (hist s).
Proof.
  intros s r H HM H1 H2. apply (er_ret _ (reachable_err _ H) _ HM). destruct (handler s); cbn; congruence.
Qed.
Print Assumptions C82_live_watch_reports.

(** Errors arriving early break this both ways: Watch may report success although the handler has
    already given up (the error is overwritten), and failure although the path was added. *)
Theorem C82_success_means_watching_refuted : exists ls s, run step (prepare (Some cA)) ls = Some s /\
  main s = M_Returned None /\ handler s = H_End /\ In (WError (Some E1)) (hist s) /\ ~ In WStop (hist s) /\ werr s = None.
Proof.
  exists [LMain; LMain; LMain; LStarter None; LStarter None; LStarter None; LError E1; LStarter None; LStarter None; LMain].
  eexists. split; [vm_compute; reflexivity|]. cbn. repeat split; auto 20. intuition discriminate.
Qed.
Print Assumptions C82_success_means_watching_refuted.
Theorem C82_failure_means_not_added_refuted : exists ls s, run step (prepare (Some cA)) ls = Some s /\
  main s = M_Returned (Some E1) /\ In (WAdd None) (hist s).
Proof.
  exists [LMain; LMain; LMain; LStarter None; LStarter None; LStarter None; LStarter None; LStarter None; LError E1; LMain].
  eexists. split; [vm_compute; reflexivity|]. cbn. repeat split; auto 20.
Qed.
Print Assumptions C82_failure_means_not_added_refuted.

(** If adding the path failed, both goroutines and the fsnotify watcher stay around until somebody
    calls StopWatch or fsnotify reports an error; no event ever arrives. *)
Theorem C82_failed_watch_leaks : forall s e, reachable step init s -> In (WAdd (Some e)) (hist s) ->
  ~ In WStop (hist s) -> (forall r, ~ In (WError r) (hist s)) ->
  handler s = H_Select /\ events s = [] /\ starter s <> S_End /\ ~ In WClosed (hist s).
Proof.
  intros s e H HA HN HF. pose proof (reachable_shape _ H) as HS. pose proof (reachable_err _ H) as HE. pose proof (reachable_busy _ H) as HB.
  assert (listening s = false) as L.
  { rewrite (sh_listen _ HS). destruct (add_ok (hist s)) eqn:X; [|reflexivity]. apply existsb_exists in X. destruct X as (x & X1 & X2).
    destruct x as [| | | | | |[|]| | | | | | | | | |]; try discriminate X2. discriminate (er_one _ HE _ _ HA X1). }
  assert (added (hist s) = true) as A by (apply existsb_exists; eexists; split; [exact HA|reflexivity]).
  assert (hended (handler s) = false) as D.
  { rewrite (sh_ended _ HS). destruct (failed (hist s)) eqn:X; [apply failed_in in X; destruct X as [r X]; destruct (HF _ X)|].
    destruct (noticed (hist s)) eqn:Y; [|reflexivity]. apply (sh_noticed _ HS), stopped_in in Y. tauto. }
  pose proof (sh_add _ HS) as S1. pose proof (sh_hs _ HS) as S2. pose proof (sh_end _ HS) as S3. pose proof (sh_closed _ HS) as S4. pose proof (sh_wclosed _ HS) as S5. pose proof (sh_made _ HS) as S6.
  assert (starter s <> S_End) as NE.
  { intros X. rewrite X in *. rewrite A in S1. congruence. }
  unfold busy_inv in HB. rewrite L in HB. split; [|split; [apply (sh_events _ HS L)|split; [exact NE|]]].
  - destruct (handler s); try reflexivity; try discriminate HB; try discriminate D. destruct (starter s); cbn in *; congruence.
  - rewrite <- closed_in, S4, S5. destruct (starter s); congruence.
Qed.
Print Assumptions C82_failed_watch_leaks.

(** The error that ended the watch is never logged: the line that should log it prints nil. *)
Theorem C82_error_logged_refuted : forall s, reachable step init s -> forall r, In (WLogged r) (hist s) -> r = None.
Proof. exact logged_nil. Qed.
Print Assumptions C82_error_logged_refuted.
Theorem C82_logged_only_for_an_error : forall s l s' r, step s l = Some s' -> hist s' = WLogged r :: hist s -> exists e, werr s = Some e.
Proof. exact logged_when. Qed.
Print Assumptions C82_logged_only_for_an_error.

(** When Watch's goroutine is done, it has written one line, saying nil, if the last of Add's result and the fsnotify errors was an error, and none otherwise. *)
Theorem C82_log_lines : forall s, reachable step init s -> In WClosed (hist s) -> logged (hist s) = match last_error (hist s) with Some _ => [None] | None => [] end.
Proof. exact log_line. Qed.
Print Assumptions C82_log_lines.

(** The handler never finds fsnotify's channels closed: they are closed only after it returned. *)
Theorem C82_channels_closed_last : forall s, reachable step init s -> step s LEventsClosed = None /\ step s LErrorsClosed = None.
Proof.
  intros s H. pose proof (reachable_shape _ H) as HS. pose proof (sh_wclosed _ HS) as S1. pose proof (sh_end _ HS) as S2.
  unfold step. destruct (crashed s); auto. destruct (handler s) eqn:E; auto. destruct (wclosed s) eqn:W; auto.
  destruct (starter s); try discriminate S1. discriminate S2.
Qed.
Print Assumptions C82_channels_closed_last.

(** An error ends the watch, is logged as nil and the watcher is closed; a failing path. *)
Example C82_instance : (option_map (fun s => (main s, starter s, werr s, firstn 4 (hist s))) (run step (prepare (Some cA))
    (started_ok ++ [LFile (Some cB) [2]; LError E1; LStarter None; LStarter None; LStarter None])),
  option_map (fun s => (main s, starter s, handler s)) (run step (prepare (Some cA))
    [LMain; LMain; LMain; LStarter None; LStarter None; LStarter None; LStarter (Some E1); LStarter None; LMain])) =
  (Some (M_Returned None, S_End, Some E1, [WClosed; WLogged None; WError (Some E1); WChange (Some cB)]),
   Some (M_Returned (Some E1), S_Wait, H_Select)).
Proof. vm_compute. reflexivity. Qed.
(** Watch is running; a watch ended by an error that Add's success covered up, and one ended by StopWatch: nothing is logged. *)
Example C82_instance_running : (option_map (fun s => (crashed s, hist s)) (run step (watch (Callbacks CbNil CbOther CbNil) None) [LMain; LStarter None]),
  option_map (fun s => (hist s, logged (hist s))) (run step (watch (Callbacks CbNil CbOther CbNil) None) ([LMain; LStarter None; LStarter None; LStarter None; LError E1] ++ repeat (LStarter None) 5)),
  option_map (fun s => (firstn 3 (hist s), logged (hist s))) (run step (watch (Callbacks CbNil CbOther CbNil) None) ([LMain] ++ repeat (LStarter None) 5 ++ [LStop; LStopped] ++ repeat (LStarter None) 3))) =
  (Some (None, [WWatch]), Some ([WClosed; WAdd None; WError (Some E1); WMade; WWatch], []), Some ([WClosed; WStopped; WStop], [])).
Proof. vm_compute. reflexivity. Qed.
