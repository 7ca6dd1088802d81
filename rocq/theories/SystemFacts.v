(** Facts about the whole program, put together from the invariants. *)
From Verif Require Export SystemTrace.
From Verif Require SessionMore WatcherProofs ServerSessions.
Require Import Lia.

(** *** Nothing is ever shut down *)
Definition unclosed (h : list Server.event) : Prop :=
  (forall t r, ~ In (Server.HRet t Server.CStart r) h) /\ (forall t, ~ In (Server.HCall t Server.CClose) h).
Lemma unclosed_step v l v' : calm_srv v -> Server.step v l = Some v' -> (forall t, l <> Server.LClose t) -> unclosed (Server.hist v) -> unclosed (Server.hist v').
Proof.
  intros CV H L U. assert (C : forall t, match Server.pcs v t with Server.ARet _ => False | _ => True end).
  { intros t. destruct (Nat.eq_dec t 0) as [->|X]; [destruct (cv_main _ CV) as [Y|Y]; destruct (Server.pcs v 0%nat); (discriminate || contradiction || exact I)|].
    pose proof (cv_worker _ CV t X) as Y. destruct (Server.pcs v t); (contradiction || exact I). }
  vstep H; try exact U.
  all: try match goal with E : Server.pcs ?v ?t = Server.ARet _ |- _ => pose proof (C t) as X; rewrite E in X; destruct X end.
  all: try (exfalso; eapply L; reflexivity).
  all: destruct U as [U1 U2]; split; intros; cbn; (intros Q; repeat (destruct Q as [Q|Q]; [discriminate Q|]); first [eapply U1; eassumption|eapply U2; eassumption]).
Qed.
Lemma reachable_unclosed s : reachable step init s -> unclosed (Server.hist (srv s)).
Proof.
  apply (sys_induct (fun s => unclosed (Server.hist (srv s)))); [intros f; split; intros; intros []|].
  clear s. intros s l s' R U E. destruct (step_moves _ _ _ E) as (_ & m & P & _ & _ & E3 & _).
  pose proof (reachable_calm _ R) as CA. pose proof (ca_srv _ CA) as CV. destruct (calm_plan _ _ _ _ CA P E3) as (_ & C2 & _).
  destruct C2 as [C2|[c C2]].
  - destruct (mv_shape _ _ _ CA P) as [X|[[l1 X]|[c1 X]]]; rewrite X in E3, C2.
    + apply run_none in E3. rewrite E3. exact U.
    + apply run_one in E3. eapply unclosed_step; eauto. intros t ->. inversion C2; subst. contradiction.
    + inversion C2; subst. contradiction.
  - rewrite C2 in E3. apply run_two in E3. destruct E3 as (v1 & X & Y).
    assert (Server.pcs (srv s) 0%nat = Server.A4) as Z.
    { clear - P C2. dplan P; try discriminate C2; try assumption; try reflexivity. all: match goal with H : _ = true |- _ => injection C2 as ->; discriminate H end. }
    rewrite (calm_update _ _ _ _ CV Z X Y). exact U.
Qed.

(** *** The watcher's part of an execution *)
Lemma watcher_trace f ls s : run step (Run f) ls = Some s -> exists ws, run FileWatcher.step (FileWatcher.prepare f) ws = Some (watcher s).
Proof.
  intros H. apply (run_invariant step (fun s => exists ws, run FileWatcher.step (FileWatcher.prepare f) ws = Some (watcher s))) in H; [exact H| |exists []; reflexivity].
  intros s1 l s2 [ws W] E. destruct (step_moves _ _ _ E) as (_ & m & P & E1 & _). exists (ws ++ mw m). rewrite run_app, W. exact E1.
Qed.
Lemma contents_had f h c : SpecWatcher.contents f h = Some c -> file_had f h c.
Proof.
  induction h as [|e h IH]; cbn; intros H; [left; exact H|]. unfold file_had in *. cbn.
  destruct e; try (destruct (IH H); auto; fail). subst. auto.
Qed.
Lemma loaded_in h c : In c (SpecWatcher.loaded h ++ SpecWatcher.good_reloads h) -> exists h2 e h1, h = h2 ++ e :: h1 /\ (e = FileWatcher.WRead (Some c) \/ e = FileWatcher.WReload (Some c)).
Proof.
  induction h as [|e h IH]; cbn; [tauto|]. intros H.
  assert (In c (SpecWatcher.loaded h ++ SpecWatcher.good_reloads h) \/ e = FileWatcher.WRead (Some c) \/ e = FileWatcher.WReload (Some c)) as [X|X].
  { destruct e; auto. all: destruct f as [c1|]; auto; repeat (apply in_app_iff in H; destruct H as [H|H]); auto using in_or_app.
    all: destruct H as [->|[]]; auto. }
  - destruct (IH X) as (h2 & e' & h1 & -> & Y). exists (e :: h2), e', h1. auto.
  - exists [], e, h. auto.
Qed.
Lemma loaded_had f ls s c : run step (Run f) ls = Some s -> In c (SpecWatcher.loaded (FileWatcher.hist (watcher s)) ++ SpecWatcher.good_reloads (FileWatcher.hist (watcher s))) ->
  file_had f (FileWatcher.hist (watcher s)) c.
Proof.
  intros H X. destruct (watcher_trace _ _ _ H) as [ws W]. destruct (loaded_in _ _ X) as (h2 & e & h1 & E & Y).
  destruct (WatcherProofs.reads_run _ _ _ W) as [_ Q]. rewrite E in Q. apply WatcherProofs.reads_ok_split in Q.
  assert (SpecWatcher.contents f h1 = Some c) as Z by (destruct Y as [-> | ->]; symmetry; exact Q).
  apply contents_had in Z. rewrite E. destruct Z as [Z|Z]; [left; exact Z|right]. apply in_or_app. right. right. exact Z.
Qed.

(** *** From the file to the distributor *)
Lemma from_cli_sourced s : reachable step init s ->
  rev (SpecDistributor.sourced (Distributor.hist (dist s))) ++ FileWatcher.chan (watcher s) ++ SpecWatcher.pending (watcher s) =
  SpecWatcher.loaded (FileWatcher.hist (watcher s)) ++ SpecWatcher.good_reloads (FileWatcher.hist (watcher s)).
Proof.
  intros R. pose proof (or_src _ (reachable_ordered _ R)) as S. unfold sources in S. rewrite <- S.
  destruct (WatcherProofs.reachable_traffic _ (WatcherProofs.reachable_from_cli _ (pt_watcher _ (reachable_parts _ R)))) as [T1 T2 _ _]. rewrite app_assoc, T1, T2. reflexivity.
Qed.
Lemma sourced_in s c : reachable step init s -> In c (SpecDistributor.sourced (Distributor.hist (dist s))) ->
  In c (SpecWatcher.loaded (FileWatcher.hist (watcher s)) ++ SpecWatcher.good_reloads (FileWatcher.hist (watcher s))).
Proof. intros R H. rewrite <- from_cli_sourced by exact R. apply in_or_app. left. apply in_rev in H. exact H. Qed.
Lemma installed_in s c : reachable step init s -> In c (SpecDistributor.installed (Distributor.hist (dist s))) -> In c (SpecDistributor.sourced (Distributor.hist (dist s))).
Proof.
  intros R H. pose proof (DistributorProofs.reachable_mon _ (pt_dist _ (reachable_parts _ R))) as M.
  destruct (DistributorProofs.mi_src' _ M) as [E|(t & c1 & X)]; [rewrite E; exact H|]. rewrite (DistributorProofs.mi_src _ M _ _ X). right. exact H.
Qed.
Lemma changes_in c l : forall now, In c (address_changes now l) -> In c l.
Proof.
  induction l as [|x l IH]; intros now; cbn; [tauto|]. destruct now as [a|]; [destruct (list_eq_dec _ _ _)|]; intros H; [eauto|destruct H as [->|H]; eauto..].
Qed.
Lemma received_in s c : reachable step init s -> In c (SpecDistributor.received 0%nat (Distributor.hist (dist s))) -> In c (SpecDistributor.installed (Distributor.hist (dist s))).
Proof.
  intros R H. pose proof (pt_dist _ (reachable_parts _ R)) as RD.
  apply in_rev, (changes_in _ _ None). rewrite <- (sb_exp _ _ (or_sub _ (reachable_ordered _ R))).
  rewrite (DistributorSubs.si_sent _ (DistributorSubs.reachable_subs _ RD) 0%nat). destruct (DistributorSubs.reachable_fifo _ RD 0%nat) as [X _]. rewrite X.
  apply in_or_app. left. apply in_or_app. auto.
Qed.

(** *** The server's share *)
Lemma pending_short w : (length (SpecWatcher.pending w) <= 1)%nat.
Proof. unfold SpecWatcher.pending. destruct (FileWatcher.main w), (FileWatcher.handler w); cbn; lia. Qed.
Lemma owed_short s : reachable step init s -> (length (DistributorSubs.owed (dist s) 0%nat) <= 1)%nat.
Proof.
  intros _. unfold DistributorSubs.owed. destruct (Distributor.writer (dist s)) as [t|]; [|cbn; lia].
  destruct (Distributor.pcs (dist s) t); cbn; try lia; repeat match goal with |- context [match ?x with _ => _ end] => destruct x; cbn; try lia end.
Qed.

(** *** The sessions' part of an execution *)
Lemma session_run c ls : forall s1 s2, reachable step init s1 -> run step s1 ls = Some s2 -> exists xs,
  run Session.step (sess s1 c) xs = Some (sess s2 c) /\ Forall (fun l => ~ SpecSession.calls_close l) xs.
Proof.
  induction ls as [|l ls IH]; cbn; intros s1 s2 R H; [injection H as <-; exists []; split; [reflexivity|constructor]|].
  destruct (step s1 l) as [s|] eqn:E; [|discriminate]. destruct (IH s s2 (reachable_step _ _ _ _ _ R E) H) as (xs & X1 & X2).
  destruct (step_moves _ _ _ E) as (_ & m & P & _ & _ & E3 & E4 & E5 & _). destruct (calm_plan _ _ _ _ (reachable_calm _ R) P E3) as (_ & _ & C3).
  destruct (Nat.eq_dec c (mc m)) as [->|N].
  - exists (ms m ++ xs). rewrite run_app, E4. split; [exact X1|]. apply Forall_app. split; [|exact X2].
    apply Forall_forall. intros x Hx Q. destruct x; try destruct Q. exact (C3 _ Hx).
  - rewrite E5 in X1 by exact N. eauto.
Qed.
Lemma established s1 c ls s2 : reachable step init s1 -> Session.start_pc (sess s1 c) = Session.SWait -> run step s1 ls = Some s2 ->
  Session.start_pc (sess s2 c) = Session.SWait /\ SpecSession.start_results (Session.hist (sess s2 c)) = [] /\
  In c (Server.sessions (srv s2)) /\ Server.conn_open (srv s2) c = true /\ option_map Session.is_open (Session.conns (sess s2 c) Session.Client) = Some true.
Proof.
  intros R Hw H. destruct (session_run c _ _ _ R H) as (xs & X1 & X2). destruct (session_alone_inv s1 c R) as (A1 & A2 & A3).
  destruct (SessionTraffic.stays_running _ _ _ A1 A2 A3 Hw X1 X2) as (B1 & B2 & B3). split; [exact B1|]. split; [exact B3|].
  assert (R2 : reachable step init s2) by (eapply reachable_run; eassumption).
  pose proof (reachable_linked _ R2) as K. pose proof (ServerSessions.reachable_ses _ (pt_srv _ (reachable_parts _ R2))) as S.
  pose proof (lk_fired _ K c) as F. rewrite B2 in F. cbn in F.
  pose proof (lk_owner _ K c) as O. rewrite B1 in O. destruct O as [t O].
  assert (ServerSessions.mid_conn (Server.pcs (srv s2) t) = Some c) as M by (destruct (Server.pcs (srv s2) t); try destruct O; reflexivity).
  split; [destruct (ServerSessions.sn_reg _ S c (ServerSessions.sn_mid _ S _ _ M)); [assumption|congruence]|].
  split.
  - destruct (Server.conn_open (srv s2) c) eqn:Q; [reflexivity|]. rewrite (ServerSessions.sn_closed _ S c) in F; [discriminate| |exact Q].
    destruct (Nat.lt_ge_cases c (Server.next_conn (srv s2))) as [X|X]; [exact X|]. rewrite (lk_fresh _ K c X) in B1. discriminate B1.
  - destruct (session_alone_inv s2 c R2) as (D1 & _ & _). destruct (SessionProofs.ki_init _ (SessionPipe.pp_close _ (SessionLife.al_pipes _ D1)) B2) as [Z _].
    unfold SessionProofs.shut in Z. cbn in Z. injection Z as Z1 Z2 Z3 Z4 Z5. exact Z1.
Qed.

(** *** Get *)
Lemma get_state s t h : reachable step init s -> SpecDistributor.open_call t (Distributor.hist (dist s)) = Some (Distributor.CGet, h) ->
  match Distributor.pcs (dist s) t with Distributor.G0 | Distributor.G1 | Distributor.G2 | Distributor.G3 (Some _) => True | _ => False end /\
  asks s t /\ SpecDistributor.installed (Distributor.hist (dist s)) <> [].
Proof.
  intros R H. pose proof (reachable_duties _ R) as D. pose proof (du_duty _ D t) as T.
  pose proof (DistributorProofs.reachable_calls _ (pt_dist _ (reachable_parts _ R)) t) as I. rewrite H in I.
  assert (match Distributor.pcs (dist s) t with Distributor.G0 | Distributor.G1 | Distributor.G2 | Distributor.G3 (Some _) => True | _ => False end /\ asks s t) as [A B].
  { unfold duty in T. destruct (Distributor.pcs (dist s) t); cbn in I; try discriminate I; auto; try contradiction.
    all: try destruct k; try contradiction; try discriminate I.
    all: try (destruct I as [? I]; discriminate I). all: try (destruct I as (? & ? & I); discriminate I).
    match goal with o : option config |- _ => destruct o; [auto|contradiction] end. }
  split; [exact A|]. split; [exact B|]. intros E.
  pose proof (DistributorProofs.mi_last _ (DistributorProofs.reachable_mon _ (pt_dist _ (reachable_parts _ R)))) as L. unfold SpecDistributor.current in L. rewrite E in L. cbn in L.
  destruct (du_blank _ D L) as [Q1 Q2]. destruct B as (c & w & B & _). destruct (Nat.eq_dec t 0) as [->|N].
  - destruct (ca_main _ (reachable_calm _ R)) as [[_ X]|[_ X]]; rewrite B in X; [discriminate|contradiction].
  - rewrite Q1 in B by exact N. discriminate B.
Qed.
