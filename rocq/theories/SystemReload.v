(** The goroutines that carry configurations, one at a time. *)
From Verif Require Import Fair.
From Verif Require Export SpecReload SystemFacts SystemQuiet.
Require Import Lia.

(** *** What the program's actions do to the distributor *)
Definition comes (s : state) (l : label) (l1 : Distributor.label) : Prop :=
  match l1 with
  | Distributor.LGo t => acts (Thread t) l /\ (returning (dist s) t = None -> l = YDist (Distributor.LGo t))
  | Distributor.LFresh t n => acts (Thread t) l /\ match Distributor.pcs (dist s) t with Distributor.S4 _ _ _ => unused s n = true | _ => True end
  | Distributor.LPick t _ => acts (Thread t) l
  | Distributor.LSource t _ => l = YSource t
  | Distributor.LRecv ch => ch = 0%nat /\ l = YUpdate
  | Distributor.LCall t k => k = Distributor.CGet /\ l = YGet t
  | Distributor.LClosedCase _ | Distributor.LHandoff _ _ => True
  | _ => False
  end.
Lemma dist_cases s l s' : reachable step init s -> step s l = Some s' ->
  dist s' = dist s \/ (exists l1, Distributor.step (dist s) l1 = Some (dist s') /\ comes s l l1) \/ l = YSubscribe /\ Server.pcs (srv s) 0%nat = Server.A3.
Proof.
  intros R E. pose proof (cv_main _ (ca_srv _ (reachable_calm _ R))) as CM. destruct (step_moves _ _ _ E) as (_ & m & P & _ & E2 & E3 & _).
  destruct (calm_plan _ _ _ _ (reachable_calm _ R) P E3) as (C1 & _).
  dplan P; runs; auto; right; try (right; split; [reflexivity|assumption]); left; eexists; (split; [eassumption|]); cbn; auto.
  all: try (exfalso; destruct CM as [CM|CM]; [discriminate CM|exact CM]).
  all: try (exfalso; destruct (ca_main _ (reachable_calm _ R)) as [[CA _]|[CA _]]; congruence).
  all: try (split; [reflexivity|congruence]).
  destruct l; try discriminate Heqb; cbn in *; auto. split; [reflexivity|]. destruct (Distributor.pcs (dist s) t); auto.
Qed.
(** the server's loop *)
Definition up (s : state) : Prop := serving (Server.pcs (srv s) 0%nat).
Lemma keep_srv s l s' : reachable step init s -> step s l = Some s' -> ~ acts (Thread 0) l -> in_loop (Server.pcs (srv s) 0%nat) -> Server.pcs (srv s') 0%nat = Server.pcs (srv s) 0%nat.
Proof.
  intros R E N U. pose proof (ca_srv _ (reachable_calm _ R)) as CV. destruct (step_moves _ _ _ E) as (_ & m & P & _ & _ & E3 & _).
  assert (X : mv m = [] \/ exists l1, mv m = [l1] /\ match l1 with Server.LGo 0 | Server.LSpawn 0 _ | Server.LListen 0 _ | Server.LSubscribe _ _ | Server.LRecv _ => False | Server.LSpawn _ n => n <> 0%nat | _ => True end).
  { clear E E3. assert (forall n, unused s n = true -> n <> 0%nat) as UN by (intros n Hn; destruct (unused_spec _ _ Hn); assumption).
    dplan P; auto; try (exfalso; exact U); try (exfalso; apply N; reflexivity); right; eexists; (split; [reflexivity|]); auto.
    all: try (destruct t; [match goal with E : Server.pcs _ 0%nat = _ |- _ => rewrite E in U; contradiction U end|exact I]).
    all: cbn; auto.
    destruct l; try discriminate Heqb; cbn in N; auto; destruct t; auto. }
  destruct X as [X|(l1 & X & Y)]; rewrite X in E3; runs; [rewrite E3; reflexivity|].
  revert E3 Y. generalize (srv s'). intros v' H Y. vstep H; cbn; auto; unfold upd; repeat (eqs; cbn); auto; try contradiction.
  all: try (match goal with E : Server.pcs _ 0%nat = _ |- _ => rewrite E in U; contradiction U end).
  rewrite (cv_shut _ CV) in Heqb. discriminate Heqb.
Qed.
Ltac at_normal N := repeat match goal with E : Distributor.pcs ?d ?t = ?p |- _ => lazymatch goal with _ : normal p /\ t = t |- _ => fail | _ => let X := fresh "NO" in pose proof (N t) as X; rewrite E in X; assert (normal p /\ t = t) by (split; [exact X|reflexivity]) end end; cbn in *; try contradiction.
(** the distributor's goroutines: only their own actions move them *)
Lemma keep_pc s l s' t : reachable step init s -> step s l = Some s' -> ~ acts (Thread t) l -> Distributor.pcs (dist s) t <> Distributor.Idle -> Distributor.pcs (dist s') t = Distributor.pcs (dist s) t.
Proof.
  intros R E N I. destruct (dist_cases _ _ _ R E) as [X|[(l1 & X & C)|[-> X]]]; [rewrite X; reflexivity| |].
  - pose proof (ca_dist _ (reachable_calm _ R)) as CD. pose proof (reachable_normal _ R) as NN. clear E. revert X. generalize (dist s'). intros d' H.
    ddstep H; cbn in C; try contradiction; cbn; unfold upd; repeat (eqs; cbn); auto; try contradiction; try congruence.
    all: try (destruct C; try contradiction; congruence).
    all: try (rewrite (cd_closed _ CD) in *; discriminate).
    all: at_normal NN.
    all: exfalso; apply N, C.
  - destruct (step_moves _ _ _ E) as (_ & m & P & _ & E2 & _). dplan P. cbn [acts] in N. apply run_two in E2. destruct E2 as (d1 & X1 & X2).
    revert X2. generalize (dist s'). intros d' X2. ddstep X1. ddstep X2; cbn; unfold upd; eqs; auto; congruence.
Qed.

Lemma acts_dec r l : acts r l \/ ~ acts r l.
Proof. destruct r, l; cbn; auto; try (destruct l; cbn; auto); try (destruct (Nat.eq_dec t0 t); auto); destruct (Nat.eq_dec t 0); auto. Qed.
Lemma up_loop s : up s -> in_loop (Server.pcs (srv s) 0%nat).
Proof. unfold up. destruct (Server.pcs (srv s) 0%nat); cbn; tauto. Qed.
Lemma up_early s : up s -> early (Server.pcs (srv s) 0%nat) = false.
Proof. unfold up. destruct (Server.pcs (srv s) 0%nat); cbn; tauto. Qed.
Lemma up_step s l s' : reachable step init s -> up s -> step s l = Some s' -> up s'.
Proof.
  intros R U E. destruct (acts_dec (Thread 0) l) as [A|A]; [|unfold up; rewrite (keep_srv _ _ _ R E A (up_loop _ U)); exact U].
  pose proof (ca_srv _ (reachable_calm _ R)) as CV. unfold up in *. destruct (step_moves _ _ _ E) as (_ & m & P & _ & _ & E3 & _).
  assert (SV : forall v l1 v', Server.step v l1 = Some v' -> serving (Server.pcs v 0%nat) -> Server.shut_ev v = EvInit -> match l1 with Server.LGo 0 | Server.LSpawn 0 _ | Server.LListen 0 _ | Server.LRecv 0 | Server.LConfig _ => True | _ => False end ->
    match l1 with Server.LSpawn _ n => n <> 0%nat | Server.LRecv _ => Server.updates v <> [] | _ => True end -> serving (Server.pcs v' 0%nat)).
  { clear. intros v l1 v' H U SH C D. vstep H; cbn in *; try contradiction; unfold upd; repeat (eqs; cbn); auto; try congruence; try (destruct t; try contradiction); try congruence.
    all: repeat match goal with E : Server.pcs _ 0%nat = _ |- _ => rewrite E in * end; cbn in *; auto; try contradiction. }
  dplan P; runs; try contradiction; cbn in A; try (rewrite E3; exact U).
  - destruct l; try contradiction; subst; apply (SV _ _ _ E3 U (cv_shut _ CV)); cbn; auto. cbn in Heqb. apply unused_spec in Heqb. tauto.
  - match goal with Q : Server.step _ (Server.LConfig _) = Some _ |- _ => rename Q into Q1 end.
    assert (serving (Server.pcs x 0%nat)) as U1 by (apply (SV _ _ _ Q1); [rewrite Heqp; exact I|apply (cv_shut _ CV)|exact I|exact I]).
    assert (Server.updates x <> [] /\ Server.shut_ev x = EvInit) as [X1 X2].
    { pose proof (cv_shut _ CV) as C1. pose proof (cv_closed _ CV) as C2. revert Q1 C1 C2. clear. intros H C C2. vstep H; try congruence; cbn; (split; [|exact C]); discriminate. }
    match goal with Q : Server.step x _ = Some _ |- _ => apply (SV _ _ _ Q U1); auto end.
Qed.

(** *** The monitor goroutine *)
Lemma writer_mon s w : reachable step init s -> up s -> Distributor.writer (dist s) = Some w -> SpecDistributor.is_monitor (Distributor.pcs (dist s) w).
Proof.
  intros R U W. apply (DistributorProofs.li_writer _ (DistributorProofs.reachable_lock _ (pt_dist _ (reachable_parts _ R)))) in W.
  pose proof (reachable_normal _ R w) as N. pose proof (cd_pcs _ (ca_dist _ (reachable_calm _ R)) w) as K. pose proof (late_idle _ R (up_early _ U)) as ID.
  destruct (Distributor.pcs (dist s) w) eqn:E; cbn in W, N, K; try contradiction; try exact I; destruct k; try contradiction; destruct K as [-> _]; congruence.
Qed.
Lemma has_monitor s : reachable step init s -> up s -> exists m, SpecDistributor.is_monitor (Distributor.pcs (dist s) m).
Proof.
  intros R U. destruct (Distributor.writer (dist s)) as [w|] eqn:W; [exists w; apply writer_mon; auto|].
  destruct (reachable_plain _ R) as [_ PM _ PS]. apply PM, PS. intros E.
  pose proof (DistributorSubs.si_sub _ (DistributorSubs.reachable_subs _ (pt_dist _ (reachable_parts _ R))) 0%nat) as S. unfold DistributorSubs.sub_ok in S. rewrite W, E in S. cbn in S.
  rewrite (sb_sub _ _ (or_sub _ (reachable_ordered _ R))), (up_early _ U) in S. cbn in S. discriminate S.
Qed.
Definition mon_pc (p : Distributor.pc) : Prop :=
  match p with Distributor.M0 | Distributor.M1 _ | Distributor.M2 _ | Distributor.M3 _ _ [] | Distributor.M3 _ _ [(0%nat, [_])] | Distributor.M4 _ _ 0%nat [] => True | _ => False end.
Definition rank (p : Distributor.pc) : nat :=
  match p with Distributor.M1 _ => 5 | Distributor.M2 _ => 4 | Distributor.M3 _ _ (_ :: _) => 3 | Distributor.M4 _ _ _ _ => 2 | Distributor.M3 _ _ [] => 1 | _ => 0 end.
Lemma monitor_pc s m : reachable step init s -> SpecDistributor.is_monitor (Distributor.pcs (dist s) m) -> mon_pc (Distributor.pcs (dist s) m) /\ m <> 0%nat /\ Server.pcs (srv s) m = Server.Idle.
Proof.
  intros R M. pose proof (reachable_normal _ R m) as N. pose proof (cd_pcs _ (ca_dist _ (reachable_calm _ R)) m) as K. pose proof (pl_pend _ (reachable_plain _ R) m) as P.
  pose proof (du_duty _ (reachable_duties _ R) m) as D. unfold duty in D.
  destruct (Distributor.pcs (dist s) m); cbn in M, N, K, P; try contradiction; cbn; auto.
  - destruct P as [-> | ->]; auto.
  - destruct P as [-> ->]. auto.
Qed.
(** its actions *)
Lemma mon_acts s l s' m : reachable step init s -> up s -> SpecDistributor.is_monitor (Distributor.pcs (dist s) m) -> acts (Thread m) l -> step s l = Some s' ->
  (l = YSource m /\ exists c, Distributor.step (dist s) (Distributor.LSource m c) = Some (dist s')) \/
  exists l1, Distributor.step (dist s) l1 = Some (dist s') /\ (l1 = Distributor.LGo m \/ exists x, l1 = Distributor.LPick m x).
Proof.
  intros R U M A E. destruct (monitor_pc _ _ R M) as (MP & M0 & MI). destruct (step_moves _ _ _ E) as (_ & mv0 & P & _ & E2 & E3 & _).
  dplan P; cbn in A; try contradiction; try (destruct (M0 A)); runs.
  - destruct l; try contradiction; subst; [right; eexists; split; eauto| |right; eexists; split; eauto].
    exfalso. revert E2 MP. generalize (dist s'). intros d' H MP. ddstep H; destruct MP.
  - destruct l; try contradiction; subst; exfalso; revert E3; generalize (srv s'); intros v' H; vstep H; congruence.
  - subst. left. eauto.
  - subst. congruence.
  - subst. congruence.
Qed.
Lemma do_mon s l s' m : reachable step init s -> up s -> SpecDistributor.is_monitor (Distributor.pcs (dist s) m) -> acts (Thread m) l -> step s l = Some s' ->
  Distributor.pcs (dist s) m = Distributor.M0 /\ l = YSource m \/
  (rank (Distributor.pcs (dist s') m) < rank (Distributor.pcs (dist s) m))%nat /\ SpecDistributor.is_monitor (Distributor.pcs (dist s') m).
Proof.
  intros R U M A E. destruct (monitor_pc _ _ R M) as (MP & _ & _). pose proof (ca_dist _ (reachable_calm _ R)) as CD. pose proof (reachable_chan _ R) as CH.
  unfold chan_ok in CH. rewrite unmade_alt, (up_early _ U), andb_false_r in CH. destruct CH as [q CH].
  destruct (mon_acts _ _ _ _ R U M A E) as [(-> & c & H)|(l1 & H & C)].
  - left. split; [|reflexivity]. revert H. generalize (dist s'). intros d' H. ddstep H. reflexivity.
  - right. clear E. revert H. generalize (dist s'). intros d' H.
    destruct C as [->|[x ->]]; ddstep H; cbn; rewrite ?upd_same.
    all: cbn in *; try contradiction; try (rewrite (cd_src _ CD) in *; discriminate); try (split; [lia|exact I]).
    all: repeat match type of MP with context [match ?x with _ => _ end] => destruct x; try contradiction end; cbn in *; try discriminate; try (split; [lia|exact I]); try congruence.
    + destruct (Distributor.subs (dist s)); split; [lia|exact I|lia|exact I].
    + rewrite CH in Heqo0. injection Heqo0 as <-. discriminate Heqb.
    + destruct x; [|discriminate]. split; [cbn; lia|exact I].
Qed.
Lemma source_mon s s' m : reachable step init s -> step s (YSource m) = Some s' -> exists c, Distributor.pcs (dist s') m = Distributor.M1 c.
Proof.
  intros R E. destruct (step_moves _ _ _ E) as (_ & mv0 & P & _ & E2 & _). dplan P. runs. revert E2. generalize (dist s'). intros d' H. ddstep H. cbn. rewrite upd_same. eauto.
Qed.
(** *** The server's channel *)
Definition qu (s : state) : list config := DistributorSubs.queue (dist s) 0.
Lemma up_chan s : reachable step init s -> up s -> Distributor.chans (dist s) 0%nat = Some (Distributor.Chan 1 (qu s) false None).
Proof.
  intros R U. pose proof (reachable_chan _ R) as CH. unfold chan_ok in CH. rewrite unmade_alt, (up_early _ U), andb_false_r in CH. destruct CH as [q CH].
  unfold qu, DistributorSubs.queue. rewrite CH. reflexivity.
Qed.
Lemma keep_queue s l s' : reachable step init s -> up s -> step s l = Some s' -> ~ acts (Thread 0) l -> exists x, qu s' = qu s ++ x.
Proof.
  intros R U E N. pose proof (up_chan _ R U) as CH. pose proof (reachable_normal _ R) as NN.
  destruct (dist_cases _ _ _ R E) as [X|[(l1 & X & C)|[-> X]]]; [exists []; unfold qu; rewrite X, app_nil_r; reflexivity| |unfold up in U; rewrite X in U; destruct U].
  clear E. unfold qu at 1. revert X. generalize (dist s'). intros d' H. unfold qu, DistributorSubs.queue in *.
  ddstep H; cbn in C; try contradiction; cbn; unfold upd; repeat (eqs; cbn); try (exists []; rewrite app_nil_r; reflexivity).
  all: try (rewrite CH; cbn).
  all: try (match goal with E : Distributor.chans _ 0%nat = Some ?c |- _ => rewrite E; cbn; eexists; reflexivity end).
  all: at_normal NN.
  destruct C as [_ ->]. exfalso. apply N. reflexivity.
Qed.
Lemma keep_empty s l s' m : reachable step init s -> up s -> step s l = Some s' -> SpecDistributor.is_monitor (Distributor.pcs (dist s) m) -> ~ acts (Thread m) l -> qu s = [] -> qu s' = [].
Proof.
  intros R U E M N Q. pose proof (up_chan _ R U) as CH. rewrite Q in CH. pose proof (reachable_normal _ R) as NN. pose proof (late_idle _ R (up_early _ U)) as ID.
  pose proof (cd_pcs _ (ca_dist _ (reachable_calm _ R))) as CP. pose proof (DistributorProofs.mi_unique _ (DistributorProofs.reachable_mon _ (pt_dist _ (reachable_parts _ R)))) as UQ.
  destruct (dist_cases _ _ _ R E) as [X|[(l1 & X & C)|[-> X]]]; [unfold qu; rewrite X; exact Q| |unfold up in U; rewrite X in U; destruct U].
  clear E. unfold qu, DistributorSubs.queue. revert X. generalize (dist s'). intros d' H.
  ddstep H; cbn in C; try contradiction; cbn; unfold upd; repeat (eqs; cbn); try (rewrite CH; reflexivity).
  all: at_normal NN.
  - rewrite CH in Heqo0. discriminate Heqo0.
  - exfalso. destruct k; try contradiction. pose proof (CP t) as K. rewrite Heqp in K. destruct K as [-> _]. congruence.
  - exfalso. assert (t = m) as -> by (apply UQ; [rewrite Heqp; exact I|exact M]). apply N, C.
Qed.
(** *** The lock *)
Lemma keep_readers s l s' : reachable step init s -> up s -> step s l = Some s' -> (forall t, l = YDist (Distributor.LGo t) -> Distributor.pcs (dist s) t <> Distributor.G1) ->
  Distributor.readers (dist s') = Distributor.readers (dist s) \/ exists t, Distributor.readers (dist s') = Distributor.remove_tid t (Distributor.readers (dist s)).
Proof.
  intros R U E N. destruct (dist_cases _ _ _ R E) as [X|[(l1 & X & C)|[-> X]]]; [rewrite X; auto| |unfold up in U; rewrite X in U; destruct U].
  clear E. revert X. generalize (dist s'). intros d' H. ddstep H; cbn in C; try contradiction; cbn; auto.
  - exfalso. destruct C as [_ C]. unfold returning in C. rewrite Heqp in C. apply (N t (C eq_refl) Heqp).
  - right. eauto.
Qed.
Lemma remove_tid_length t l : (length (Distributor.remove_tid t l) <= length l)%nat.
Proof. induction l as [|a l IH]; cbn; [lia|]. destruct (Nat.eqb t a); cbn; lia. Qed.
Lemma do_reader s l s' t : reachable step init s -> Distributor.pcs (dist s) t = Distributor.G2 -> acts (Thread t) l -> step s l = Some s' -> Distributor.readers (dist s') = Distributor.remove_tid t (Distributor.readers (dist s)).
Proof.
  intros R G A E. assert (t <> 0%nat) as T0 by (pose proof (cd_pcs _ (ca_dist _ (reachable_calm _ R)) t) as K; rewrite G in K; exact K).
  pose proof (du_duty _ (reachable_duties _ R) t) as D. unfold duty in D. rewrite G in D. destruct D as (c & w & D1 & _).
  destruct (step_moves _ _ _ E) as (_ & mv0 & P & _ & E2 & E3 & _).
  dplan P; cbn in A; try contradiction; try (destruct (T0 A)); runs.
  - clear E. revert E2. generalize (dist s'). intros d' H. destruct l; try contradiction; subst; ddstep H; try congruence. reflexivity.
  - destruct l; try contradiction; subst; [unfold server_alone in Heqb|..]; clear E; revert E3; generalize (srv s'); intros v' H; vstep H; try congruence.
  - clear E. revert E2. generalize (dist s'). intros d' H. subst. ddstep H; congruence.
  - unfold returning in Heqo. subst. rewrite G in Heqo. discriminate Heqo.
  - unfold returning in Heqo. subst. rewrite G in Heqo. discriminate Heqo.
Qed.

(** *** What can be done *)
Definition able (s : state) (r : role) : Prop := exists l, acts r l /\ step s l <> None.
Lemma dist_can s l d' : panicked s = None -> dist_alone s l = true -> Distributor.step (dist s) l = Some d' -> step s (YDist l) <> None.
Proof. intros P A H X. destruct (stuck s (YDist l) _ P ltac:(cbn; rewrite A; reflexivity) X) as [Y|[Y|[Y|Y]]]; try discriminate Y. apply run1 in Y. congruence. Qed.
Lemma server_can s l v' : panicked s = None -> server_alone s l = true -> Server.step (srv s) l = Some v' -> step s (YServer l) <> None.
Proof. intros P A H X. destruct (stuck s (YServer l) _ P ltac:(cbn; rewrite A; reflexivity) X) as [Y|[Y|[Y|Y]]]; try discriminate Y. apply run1 in Y. congruence. Qed.
Lemma watcher_can s l w' : panicked s = None -> watcher_alone l = true -> FileWatcher.step (watcher s) l = Some w' -> step s (YWatcher l) <> None.
Proof. intros P A H X. destruct (stuck s (YWatcher l) _ P ltac:(cbn; rewrite A; reflexivity) X) as [Y|[Y|[Y|Y]]]; try discriminate Y. apply run1 in Y. congruence. Qed.
Lemma able_mon s m : reachable step init s -> up s -> panicked s = None -> SpecDistributor.is_monitor (Distributor.pcs (dist s) m) ->
  match Distributor.pcs (dist s) m with
  | Distributor.M0 => FileWatcher.chan (watcher s) <> [] /\ main s = RServe
  | Distributor.M1 _ => Distributor.readers (dist s) = []
  | Distributor.M4 _ _ _ _ => qu s = []
  | _ => True
  end -> able s (Thread m).
Proof.
  intros R U P M C. destruct (monitor_pc _ _ R M) as (MP & _ & _). pose proof (dist_no_crash _ R) as DC. pose proof (up_chan _ R U) as CH.
  assert (G : forall d', returning (dist s) m = None -> Distributor.go (dist s) m = Some d' -> able s (Thread m)).
  { intros d' H1 H2. exists (YDist (Distributor.LGo m)). split; [reflexivity|]. apply (dist_can s _ d' P); [cbn; rewrite H1; reflexivity|]. unfold Distributor.step. rewrite DC. exact H2. }
  unfold returning, Distributor.go in G. destruct (Distributor.pcs (dist s) m) eqn:E; try contradiction.
  - destruct C as [C MA]. exists (YSource m). split; [reflexivity|]. intros X. destruct (FileWatcher.chan (watcher s)) as [|c q] eqn:W; [congruence|].
    destruct (stuck s (YSource m) _ P ltac:(cbn; rewrite W; reflexivity) X) as [Y|[Y|[Y|Y]]]; try discriminate Y; apply run1 in Y.
    + unfold FileWatcher.step in Y. rewrite (fw_crash _ _ (reachable_fine _ R)), (fw_main _ _ (reachable_fine _ R) MA), W in Y. discriminate Y.
    + unfold Distributor.step in Y. rewrite DC, E, (cd_src _ (ca_dist _ (reachable_calm _ R))) in Y. discriminate Y.
  - unfold Distributor.is_free in G. rewrite C in G.
    assert (Distributor.writer (dist s) = None) as W.
    { destruct (Distributor.writer (dist s)) as [w|] eqn:W; [exfalso|reflexivity].
      assert (w = m) as -> by (apply (DistributorProofs.mi_unique _ (DistributorProofs.reachable_mon _ (pt_dist _ (reachable_parts _ R)))); [apply writer_mon; auto|rewrite E; exact I]).
      apply (DistributorProofs.li_writer _ (DistributorProofs.reachable_lock _ (pt_dist _ (reachable_parts _ R)))) in W. rewrite E in W. destruct W. }
    rewrite W in G. eapply G; reflexivity.
  - eapply G; reflexivity.
  - destruct pending as [|[ch cs] pending]; [eapply G; reflexivity|]. destruct ch; [|destruct MP]. destruct cs as [|c1 [|]]; try destruct MP. destruct pending; [|destruct MP].
    exists (YDist (Distributor.LPick m 0)). split; [reflexivity|]. eapply dist_can; [exact P|reflexivity|]. unfold Distributor.step. rewrite DC, E. cbn. reflexivity.
  - destruct ch; [|destruct MP]. cbn in G. rewrite CH, C in G. eapply G; reflexivity.
Qed.
Lemma able_reader s t : reachable step init s -> panicked s = None -> Distributor.pcs (dist s) t = Distributor.G2 -> able s (Thread t).
Proof.
  intros R P E. exists (YDist (Distributor.LGo t)). split; [reflexivity|]. eapply dist_can; [exact P|cbn; unfold returning; rewrite E; reflexivity|].
  unfold Distributor.step, Distributor.go. rewrite (dist_no_crash _ R), E. reflexivity.
Qed.
Lemma able_server s : reachable step init s -> up s -> panicked s = None -> (Server.pcs (srv s) 0%nat = Server.A4 -> qu s <> []) -> able s (Thread 0).
Proof.
  intros R U P C. pose proof (ca_srv _ (reachable_calm _ R)) as CV. pose proof (cv_crash _ CV) as CC. pose proof (up_chan _ R U) as CH. unfold up in U. destruct (free_number s R) as [n Hn].
  destruct (Server.pcs (srv s) 0%nat) eqn:V; try contradiction.
  - specialize (C eq_refl). destruct (qu s) as [|c q] eqn:Q; [congruence|]. exists YUpdate. split; [reflexivity|]. intros X.
    destruct (stuck s YUpdate (Moves [] [Distributor.LRecv 0] [Server.LConfig c; Server.LRecv 0] 0 [] (main s)) P ltac:(cbn; rewrite V, CH; reflexivity) X) as [Y|[Y|[Y|Y]]]; try discriminate Y.
    + apply run1 in Y. unfold Distributor.step in Y. rewrite (dist_no_crash _ R), CH in Y. discriminate Y.
    + cbn -[Server.step] in Y. unfold Server.step in Y at 1. rewrite (cv_crash _ CV), (cv_closed _ CV), (cv_updates _ CV) in Y.
      rewrite (server_subscribed _ (pt_srv _ (reachable_parts _ R)) 0%nat) in Y by (rewrite V; exact I). unfold Server.step in Y. cbn in Y. rewrite (cv_crash _ CV), V in Y. discriminate Y.
  - exists (YServer (Server.LListen 0 true)). split; [reflexivity|]. eapply server_can; [exact P|reflexivity|]. unfold Server.step. rewrite CC, V. reflexivity.
  - exists (YServer (Server.LSpawn 0 n)). split; [reflexivity|]. eapply server_can; [exact P|exact Hn|]. unfold Server.step. apply unused_spec in Hn. destruct Hn as (_ & _ & Hn). rewrite CC, V, Hn. reflexivity.
Qed.

(** *** The server's goroutine *)
Definition srank (p : Server.pc) : nat := match p with Server.A5 _ => 2 | Server.A6 _ => 1 | _ => 0 end.
Lemma do_server s l s' : reachable step init s -> up s -> acts (Thread 0) l -> step s l = Some s' ->
  Server.pcs (srv s) 0%nat = Server.A4 /\ qu s' = tl (qu s) \/ (srank (Server.pcs (srv s') 0%nat) < srank (Server.pcs (srv s) 0%nat))%nat /\ qu s' = qu s.
Proof.
  intros R U A E. pose proof (late_idle _ R (up_early _ U)) as ID. pose proof (up_chan _ R U) as CH. unfold up in U. pose proof (dist_no_crash _ R) as DC.
  destruct (step_moves _ _ _ E) as (_ & m & P & _ & E2 & E3 & _). clear E.
  dplan P; cbn in A; try contradiction; runs.
  - exfalso. revert E2. generalize (dist s'). intros d' H. destruct l; try contradiction; subst; ddstep H; try congruence.
  - assert (qu s' = qu s) as Q by (unfold qu; rewrite E2; reflexivity). rewrite Q. right. split; [|reflexivity]. clear Q. revert E3. generalize (srv s'). intros v' H.
    destruct l; try contradiction; subst; vstep H; repeat match goal with E : Server.pcs _ 0%nat = _ |- _ => rewrite E in U; clear E end; cbn in U; try contradiction; cbn; rewrite ?upd_same; cbn; auto.
    all: unfold upd; destruct (Nat.eqb 0 child) eqn:X; cbn; auto.
  - exfalso. subst. revert E2. generalize (dist s'). intros d' H. ddstep H; congruence.
  - left. split; [reflexivity|]. injection CH as -> Q -> ->. rewrite <- Q. unfold qu, DistributorSubs.queue. revert E2. generalize (dist s'). intros d' HD. unfold Distributor.step in HD. rewrite DC, Heqo in HD. injection HD as <-. cbn. reflexivity.
  - exfalso. unfold returning in Heqo. subst. rewrite ID in Heqo. discriminate Heqo.
  - exfalso. unfold returning in Heqo. subst. rewrite ID in Heqo. discriminate Heqo.
Qed.
Lemma queue_one s : reachable step init s -> up s -> (length (qu s) <= 1)%nat.
Proof.
  intros R U. destruct (DistributorSubs.reachable_fifo _ (pt_dist _ (reachable_parts _ R)) 0%nat) as [_ F]. unfold DistributorSubs.capacity in F. rewrite (up_chan _ R U) in F. exact F.
Qed.

(** *** The watcher *)
Lemma watch_cases s l s' : step s l = Some s' ->
  watcher s' = watcher s \/ (exists l1, l = YWatcher l1 /\ watcher_alone l1 = true /\ FileWatcher.step (watcher s) l1 = Some (watcher s')) \/ exists t, l = YSource t /\ FileWatcher.step (watcher s) FileWatcher.LRecv = Some (watcher s').
Proof. intros E. destruct (step_moves _ _ _ E) as (_ & m & P & E1 & _). dplan P; runs; eauto 6. Qed.
(** how far the configurations have come *)
Definition n_src (s : state) : nat := length (SpecDistributor.sourced (Distributor.hist (dist s))).
Definition n_inst (s : state) : nat := length (SpecDistributor.installed (Distributor.hist (dist s))).
Definition n_sent (s : state) : nat := (n_src s + length (FileWatcher.chan (watcher s)))%nat.
Definition read (s : state) : list config := SpecWatcher.loaded (FileWatcher.hist (watcher s)) ++ SpecWatcher.good_reloads (FileWatcher.hist (watcher s)).
Lemma serve_step s l s' : reachable step init s -> main s = RServe -> step s l = Some s' -> main s' = RServe.
Proof.
  intros R M E. destruct (ca_main _ (reachable_calm _ (reachable_step _ _ _ _ _ R E))) as [[X _]|[X _]]; [exfalso|exact X].
  destruct (step_moves _ _ _ E) as (_ & m & P & _ & _ & _ & _ & _ & E6). rewrite E6 in X. dplan P; cbn in X; congruence.
Qed.
Lemma dist_hist s l s' : step s l = Some s' -> exists h, Distributor.hist (dist s') = h ++ Distributor.hist (dist s).
Proof.
  intros E. destruct (step_moves _ _ _ E) as (_ & m & _ & _ & E2 & _). revert E2. generalize (dist s) (dist s') (md m). clear. intros d d' ls. revert d.
  induction ls as [|l ls IH]; cbn; intros d H; [injection H as <-; exists []; reflexivity|]. destruct (Distributor.step d l) as [d1|] eqn:E; [|discriminate]. destruct (IH _ H) as [h Hh].
  assert (exists h1, Distributor.hist d1 = h1 ++ Distributor.hist d) as [h1 H1] by (clear - E; ddstep E; cbn; first [exists []; reflexivity|eexists [_]; reflexivity|eexists [_; _]; reflexivity]).
  exists (h ++ h1). rewrite Hh, H1, app_assoc. reflexivity.
Qed.
Lemma watch_hist s l s' : step s l = Some s' -> exists h, FileWatcher.hist (watcher s') = h ++ FileWatcher.hist (watcher s).
Proof.
  intros E. destruct (watch_cases _ _ _ E) as [X|[(l1 & _ & _ & X)|(t & _ & X)]]; [rewrite X; exists []; reflexivity| |]; revert X; generalize (watcher s'); intros w' H; WatcherProofs.dstep H; cbn; first [exists []; reflexivity|eexists [_]; reflexivity|eexists [_; _]; reflexivity|eexists [_; _; _]; reflexivity].
Qed.

Lemma sourced_app a b : SpecDistributor.sourced (a ++ b) = SpecDistributor.sourced a ++ SpecDistributor.sourced b.
Proof. induction a as [|e a IH]; cbn; [reflexivity|]. destruct e; cbn; rewrite ?IH; reflexivity. Qed.
Lemma installed_app a b : SpecDistributor.installed (a ++ b) = SpecDistributor.installed a ++ SpecDistributor.installed b.
Proof. induction a as [|e a IH]; cbn; [reflexivity|]. destruct e; cbn; rewrite ?IH; reflexivity. Qed.
Lemma received_app ch a b : SpecDistributor.received ch (a ++ b) = SpecDistributor.received ch b ++ SpecDistributor.received ch a.
Proof. induction a as [|e a IH]; cbn; [rewrite app_nil_r; reflexivity|]. destruct e; cbn; rewrite ?IH, ?app_assoc; reflexivity. Qed.
Lemma sent_app a b : SpecWatcher.sent (a ++ b) = SpecWatcher.sent b ++ SpecWatcher.sent a.
Proof. induction a as [|e a IH]; cbn; [rewrite app_nil_r; reflexivity|]. destruct e; cbn; rewrite ?IH, ?app_assoc; reflexivity. Qed.
Lemma good_app a b : SpecWatcher.good_reloads (a ++ b) = SpecWatcher.good_reloads b ++ SpecWatcher.good_reloads a.
Proof. induction a as [|e a IH]; cbn; [rewrite app_nil_r; reflexivity|]. destruct e; try destruct f; cbn; rewrite ?IH, ?app_assoc; reflexivity. Qed.
Lemma src_step s l s' : step s l = Some s' -> (n_src s <= n_src s')%nat.
Proof. intros E. destruct (dist_hist _ _ _ E) as [h H]. unfold n_src. rewrite H, sourced_app, app_length. lia. Qed.
Lemma inst_step s l s' : step s l = Some s' -> exists x, rev (SpecDistributor.installed (Distributor.hist (dist s'))) = rev (SpecDistributor.installed (Distributor.hist (dist s))) ++ x.
Proof. intros E. destruct (dist_hist _ _ _ E) as [h H]. rewrite H, installed_app, rev_app_distr. eauto. Qed.
Lemma n_sent_sent s : reachable step init s -> n_sent s = length (SpecWatcher.sent (FileWatcher.hist (watcher s))).
Proof.
  intros R. pose proof (or_src _ (reachable_ordered _ R)) as S. unfold sources in S.
  destruct (WatcherProofs.reachable_traffic _ (WatcherProofs.reachable_from_cli _ (pt_watcher _ (reachable_parts _ R)))) as [T1 _ _ _]. rewrite <- T1, S, app_length, rev_length. reflexivity.
Qed.
Lemma sent_step s l s' : reachable step init s -> step s l = Some s' -> (n_sent s <= n_sent s')%nat.
Proof.
  intros R E. rewrite (n_sent_sent _ R), (n_sent_sent _ (reachable_step _ _ _ _ _ R E)). destruct (watch_hist _ _ _ E) as [h H]. rewrite H, sent_app, app_length. lia.
Qed.
Lemma chan_one s : reachable step init s -> (length (FileWatcher.chan (watcher s)) <= 1)%nat.
Proof. intros R. apply (WatcherProofs.tr_cap _ (WatcherProofs.reachable_traffic _ (WatcherProofs.reachable_from_cli _ (pt_watcher _ (reachable_parts _ R))))). Qed.
Lemma read_all s : reachable step init s -> rev (SpecDistributor.sourced (Distributor.hist (dist s))) ++ FileWatcher.chan (watcher s) ++ SpecWatcher.pending (watcher s) = read s.
Proof. exact (from_cli_sourced s). Qed.
Lemma n_read s : reachable step init s -> length (read s) = (n_sent s + length (SpecWatcher.pending (watcher s)))%nat.
Proof. intros R. rewrite <- (read_all _ R), !app_length, rev_length. unfold n_sent, n_src. lia. Qed.
Lemma read_one s : reachable step init s -> main s = RServe -> exists c0, SpecWatcher.loaded (FileWatcher.hist (watcher s)) = [c0].
Proof.
  intros R M. destruct (WatcherProofs.reachable_cli _ (pt_watcher _ (reachable_parts _ R))) as [_ LO]. rewrite (fw_main _ _ (reachable_fine _ R) M) in LO. exact LO.
Qed.
Lemma loaded_app a b : exists x, SpecWatcher.loaded (a ++ b) = SpecWatcher.loaded b ++ x.
Proof. induction a as [|e a [x IH]]; cbn; [exists []; rewrite app_nil_r; reflexivity|]. destruct e; eauto. destruct f; eauto. rewrite IH, <- app_assoc. eauto. Qed.
Lemma read_step s l s' : reachable step init s -> main s = RServe -> step s l = Some s' -> exists x, read s' = read s ++ x.
Proof.
  intros R M E. unfold read. destruct (read_one _ R M) as [c0 L]. destruct (read_one _ (reachable_step _ _ _ _ _ R E) (serve_step _ _ _ R M E)) as [c1 L1].
  destruct (watch_hist _ _ _ E) as [h H]. rewrite H in *. destruct (loaded_app h (FileWatcher.hist (watcher s))) as [x X]. rewrite L1, L in X. injection X as -> <-.
  rewrite L1, L, good_app. exists (SpecWatcher.good_reloads h). rewrite app_assoc. reflexivity.
Qed.
Lemma pending_handler s : reachable step init s -> main s = RServe -> SpecWatcher.pending (watcher s) = match FileWatcher.handler (watcher s) with FileWatcher.H_Send c => [c] | _ => [] end.
Proof. intros R M. unfold SpecWatcher.pending. rewrite (fw_main _ _ (reachable_fine _ R) M). reflexivity. Qed.
Lemma source_src s s' m : step s (YSource m) = Some s' -> n_src s' = S (n_src s).
Proof.
  intros E. destruct (step_moves _ _ _ E) as (_ & mv0 & P & _ & E2 & _). dplan P. runs. unfold n_src. revert E2. generalize (dist s'). intros d' H. ddstep H. reflexivity.
Qed.
(** the handler *)
Lemma able_handler s : reachable step init s -> panicked s = None -> main s = RServe ->
  match FileWatcher.handler (watcher s) with
  | FileWatcher.H_Other _ | FileWatcher.H_Read => True
  | FileWatcher.H_Send _ => FileWatcher.chan (watcher s) = []
  | FileWatcher.H_Select => FileWatcher.events (watcher s) <> []
  | _ => False
  end -> able s Handler.
Proof.
  intros R P M C. pose proof (fw_crash _ _ (reachable_fine _ R)) as CC. pose proof (fw_main _ _ (reachable_fine _ R) M) as W.
  pose proof (WatcherProofs.reachable_from_cli _ (pt_watcher _ (reachable_parts _ R))) as RW. pose proof (WatcherProofs.reachable_shape _ RW) as SH.
  destruct (FileWatcher.handler (watcher s)) eqn:H; try contradiction.
  - exists (YWatcher FileWatcher.LEvent). split; [exact I|]. destruct (FileWatcher.events (watcher s)) as [|op es] eqn:EV; [congruence|].
    assert (FileWatcher.wclosed (watcher s) = false) as WC.
    { pose proof (WatcherProofs.sh_wclosed _ SH) as S1. pose proof (WatcherProofs.sh_end _ SH) as S2. rewrite H in S1, S2. destruct (FileWatcher.wclosed (watcher s)); [|reflexivity]. exfalso. destruct (FileWatcher.starter (watcher s)); discriminate. }
    eapply watcher_can; [exact P|reflexivity|]. unfold FileWatcher.step. rewrite CC, H, EV, WC. reflexivity.
  - exists (YWatcher FileWatcher.LHandler). split; [exact I|]. eapply watcher_can; [exact P|reflexivity|]. unfold FileWatcher.step, FileWatcher.handler_step. rewrite CC, H. reflexivity.
  - exists (YWatcher FileWatcher.LHandler). split; [exact I|]. eapply watcher_can; [exact P|reflexivity|]. unfold FileWatcher.step, FileWatcher.handler_step. rewrite CC, H. reflexivity.
  - exists (YWatcher FileWatcher.LHandler). split; [exact I|]. eapply watcher_can; [exact P|reflexivity|]. unfold FileWatcher.step, FileWatcher.handler_step. rewrite CC, H, C. reflexivity.
Qed.
(** the channel stays empty until the handler sends; what was read is not forgotten *)
Lemma keep_handler s l s' c : reachable step init s -> main s = RServe -> step s l = Some s' -> ~ acts Handler l -> FileWatcher.handler (watcher s) = FileWatcher.H_Send c ->
  FileWatcher.handler (watcher s') = FileWatcher.H_Send c /\ (FileWatcher.chan (watcher s) = [] -> FileWatcher.chan (watcher s') = []).
Proof.
  intros R M E N H. pose proof (fw_main _ _ (reachable_fine _ R) M) as W.
  destruct (watch_cases _ _ _ E) as [X|[(l1 & -> & A & X)|(t & -> & X)]]; [rewrite X; auto| |]; clear E; revert X; generalize (watcher s'); intros w' X.
  - cbn in N. WatcherProofs.dstep X; try discriminate A; cbn; try (exfalso; apply N; exact I); try congruence; auto.
    exfalso. pose proof (WatcherProofs.sh_hs _ (WatcherProofs.reachable_shape _ (WatcherProofs.reachable_from_cli _ (pt_watcher _ (reachable_parts _ R))))) as S1. rewrite Heqs0, H in S1. cbn in S1. discriminate S1.
  - WatcherProofs.dstep X; cbn; auto. split; [exact H|]. intros Y. congruence.
Qed.
Lemma do_handler s l s' c : reachable step init s -> main s = RServe -> acts Handler l -> step s l = Some s' -> FileWatcher.handler (watcher s) = FileWatcher.H_Send c -> n_sent s' = S (n_sent s).
Proof.
  intros R M A E H. rewrite (n_sent_sent _ R), (n_sent_sent _ (reachable_step _ _ _ _ _ R E)).
  destruct (watch_cases _ _ _ E) as [X|[(l1 & -> & B & X)|(t & -> & X)]]; [|clear E; revert X; generalize (watcher s'); intros w' X|contradiction].
  - exfalso. destruct l; try contradiction. destruct (step_moves _ _ _ E) as (_ & m & P & E1 & _). destruct l; try contradiction; cbn in P; injection P as <-; cbn [mw] in E1; runs; unfold FileWatcher.step, FileWatcher.handler_step in E1; destruct (FileWatcher.crashed (watcher s)); try discriminate; rewrite H in E1; try discriminate.
    destruct (_ <? _)%nat; [|discriminate]. injection E1 as E1. rewrite X in E1. apply (f_equal FileWatcher.handler) in E1. cbn in E1. congruence.
  - destruct l1; try contradiction; WatcherProofs.dstep X; try congruence. cbn. rewrite app_length. cbn. lia.
Qed.
