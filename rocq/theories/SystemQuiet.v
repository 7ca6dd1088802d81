(** When the program has nothing left to do for a configuration, and that it gets there. *)
From Verif Require Export SpecSystem SystemFacts SystemRuns.
From Verif Require WatcherLive ServerMore SessionMore.
Require Import Lia.

(** *** The server's subscription is the only one; there is a monitor once it was made *)
Definition one_sub (m : list (nat * list Distributor.check)) : Prop := m = [] \/ m = [(0%nat, [listen_changed])].
Definition pend_ok (p : Distributor.pc) : Prop :=
  match p with
  | Distributor.M3 _ _ m => one_sub m
  | Distributor.M4 _ _ ch m => ch = 0%nat /\ m = []
  | _ => True
  end.
Record plain (d : Distributor.state) : Prop := {
  pl_subs : one_sub (Distributor.subs d);
  pl_mon : Distributor.started d = true -> exists t, SpecDistributor.is_monitor (Distributor.pcs d t);
  pl_pend : forall t, pend_ok (Distributor.pcs d t);
  pl_start : Distributor.subs d <> [] -> Distributor.started d = true
}.
Lemma one_sub_pick m ch cs : one_sub m -> Distributor.lookup ch m = Some cs -> ch = 0%nat /\ m = [(0%nat, [listen_changed])] /\ Distributor.remove ch m = [].
Proof.
  intros [-> | ->]; [discriminate|]. cbn. destruct ch; [|discriminate]. auto.
Qed.
Lemma one_sub_assign m : one_sub m -> Distributor.assign 0 [listen_changed] m = [(0%nat, [listen_changed])].
Proof. intros [-> | ->]; reflexivity. Qed.
Lemma plain_step d l d' : (forall t, normal (Distributor.pcs d t)) -> calm_dist d -> calm_dist d' -> plain d -> Distributor.step d l = Some d' -> plain d'.
Proof.
  intros N [C1 C2 C3] [K1 K2 K3] [P1 P2 P3 P4] H. ddstep H.
  all: repeat match goal with E : Distributor.pcs ?d ?t = ?p |- _ => lazymatch goal with _ : normal p /\ t = t |- _ => fail | _ => let X := fresh "NO" in let Y := fresh "CA" in let Z := fresh "PE" in pose proof (N t) as X; pose proof (C3 t) as Y; pose proof (P3 t) as Z; rewrite E in X, Y, Z; assert (normal p /\ t = t) by (split; [exact X|reflexivity]) end end; cbn in *; try contradiction.
  all: try (rewrite C1 in *; cbn in *; discriminate); try (rewrite C2 in *; cbn in *; discriminate).
  all: try (destruct k; try contradiction).
  all: repeat match goal with H : _ /\ _ |- _ => destruct H end; subst.
  all: try match goal with E : Distributor.lookup _ _ = Some _ |- _ => destruct (one_sub_pick _ _ _ PE E) as (? & ? & ?); subst end.
  all: constructor; cbn in *; auto.
  all: try (rewrite one_sub_assign by assumption; right; reflexivity).
  all: try solve [intros t'; unfold upd; repeat (eqs; cbn); auto; apply P3].
  all: try solve [intros Hs; destruct (P2 ltac:(first [exact Hs|reflexivity])) as [t' Ht]; exists t'; unfold upd; repeat (eqs; cbn); auto; subst;
    match goal with E : Distributor.pcs ?d ?t = _, X : SpecDistributor.is_monitor (Distributor.pcs ?d ?t) |- _ => rewrite E in X; cbn in X; exact X end].
  all: try solve [intros _; match goal with |- context [upd _ ?n Distributor.M0] => exists n; rewrite upd_same; exact I end].
  all: try solve [intros t'; unfold upd; repeat (eqs; cbn); auto; try apply P3; left; reflexivity].
Qed.
Lemma reachable_normal s : reachable step init s -> forall t, normal (Distributor.pcs (dist s) t).
Proof. intros R t. apply duty_normal, (du_duty _ (reachable_duties _ R)). Qed.
Lemma reachable_plain s : reachable step init s -> plain (dist s).
Proof.
  revert s. apply (sys_induct (fun s => plain (dist s))).
  - intros f. constructor; cbn; auto; [left; reflexivity|discriminate].
  - intros s l s' R I E. pose proof (reachable_calm _ R) as CA. pose proof (reachable_calm _ (reachable_step _ _ _ _ _ R E)) as CA'.
    destruct (step_moves _ _ _ E) as (_ & m & P & _ & E2 & _). pose proof (reachable_normal _ R) as N.
    destruct (one_or_call _ _ _ P) as [X|[(l1 & X & Y)|(_ & X)]]; rewrite X in E2.
    + apply run_none in E2. rewrite E2. exact I.
    + apply run_one in E2. eapply plain_step; eauto using ca_dist.
    + apply run_two in E2. destruct E2 as (d1 & X1 & X2). pose proof (ca_dist _ CA') as C'. revert X1 X2 C'. generalize (dist s'). intros d' X1 X2 C'.
      assert (plain d1) as I1 by (destruct I as [I1 I2 I3 I4]; ddstep X1; constructor; cbn; auto).
      assert (calm_dist d1) as C1 by (destruct (ca_dist _ CA) as [K1 K2 K3]; ddstep X1; constructor; cbn; auto).
      eapply plain_step; [| | |exact I1|exact X2]; auto. intros t. assert (Distributor.pcs d1 t = Distributor.pcs (dist s) t) as -> by (ddstep X1; reflexivity). apply N.
Qed.

(** *** Only boundedly many of them without the outside *)
Definition drank (p : Distributor.pc) : nat :=
  match p with
  | Distributor.S0 _ _ _ => 9 | Distributor.S1 _ _ _ => 8 | Distributor.S2 _ _ _ => 7 | Distributor.S3 _ _ _ _ => 6 | Distributor.S4 _ _ _ => 2 | Distributor.S5 _ _ => 1
  | Distributor.G0 => 4 | Distributor.G1 => 3 | Distributor.G2 => 2 | Distributor.G3 _ => 1
  | Distributor.M1 _ => 9 | Distributor.M2 _ => 8 | Distributor.M3 _ _ m => 1 + 6 * length m | Distributor.M4 _ _ _ m => 6 + 6 * length m
  | _ => 0
  end%nat.
Fixpoint dtotal (f : nat -> Distributor.pc) (k : nat) : nat := match k with O => O | S k' => (drank (f k') + dtotal f k')%nat end.
Lemma dtotal_upd f t p k : (t < k)%nat -> (dtotal (upd f t p) k + drank (f t) = dtotal f k + drank p)%nat.
Proof.
  assert (E : forall j, (j <= t)%nat -> dtotal (upd f t p) j = dtotal f j).
  { induction j as [|j IH]; cbn; intros Hj; [reflexivity|]. rewrite IH by lia. unfold upd at 1. eqs; [lia|reflexivity]. }
  induction k as [|k IH]; intros Ht; [lia|]. cbn. destruct (Nat.eq_dec t k) as [->|Hn].
  - rewrite E by lia. rewrite upd_same. lia.
  - rewrite (upd_other f t p k) by lia. specialize (IH ltac:(lia)). lia.
Qed.
Definition idle_from (d : Distributor.state) (k : nat) : Prop := forall t, (k <= t)%nat -> Distributor.pcs d t = Distributor.Idle.
Lemma dtotal_more d k k' : idle_from d k -> (k <= k')%nat -> dtotal (Distributor.pcs d) k' = dtotal (Distributor.pcs d) k.
Proof. intros H Hk. induction Hk as [|k' Hk IH]; [reflexivity|]. cbn. rewrite (H k') by lia. exact IH. Qed.
Definition qlen (d : Distributor.state) : nat := match Distributor.chans d 0%nat with Some x => length (Distributor.ch_queue x) | None => 0 end.
Definition dwork (d : Distributor.state) (k : nat) : nat := (dtotal (Distributor.pcs d) k + 3 * qlen d)%nat.
(** what remains to be done has become [a] less and [b] more *)
Definition shifts (d d' : Distributor.state) (a b : nat) : Prop :=
  forall k, idle_from d k -> exists k', idle_from d' k' /\ (dwork d' k' + a <= dwork d k + b)%nat.
Lemma shift_one d d' t p a b : Distributor.pcs d' = upd (Distributor.pcs d) t p ->
  (drank p + 3 * qlen d' + a <= drank (Distributor.pcs d t) + 3 * qlen d + b)%nat -> shifts d d' a b.
Proof.
  intros E H k Hk. exists (Nat.max k (S t)). split.
  - intros t' Ht. rewrite E, upd_other by lia. apply Hk. lia.
  - unfold dwork. rewrite <- (dtotal_more d k (Nat.max k (S t))) by (auto; lia). rewrite E.
    pose proof (dtotal_upd (Distributor.pcs d) t p (Nat.max k (S t)) ltac:(lia)). lia.
Qed.
Lemma shift_two d d' t p n p' a b : Distributor.pcs d' = upd (upd (Distributor.pcs d) t p) n p' -> t <> n ->
  (drank p + drank p' + 3 * qlen d' + a <= drank (Distributor.pcs d t) + drank (Distributor.pcs d n) + 3 * qlen d + b)%nat -> shifts d d' a b.
Proof.
  intros E Hn H k Hk. exists (Nat.max k (S (Nat.max t n))). split.
  - intros t' Ht. rewrite E, !upd_other by lia. apply Hk. lia.
  - unfold dwork. rewrite <- (dtotal_more d k (Nat.max k (S (Nat.max t n)))) by (auto; lia). rewrite E.
    pose proof (dtotal_upd (Distributor.pcs d) t p (Nat.max k (S (Nat.max t n))) ltac:(lia)).
    pose proof (dtotal_upd (upd (Distributor.pcs d) t p) n p' (Nat.max k (S (Nat.max t n))) ltac:(lia)) as X. rewrite upd_other in X by auto. lia.
Qed.
Lemma dist_drop d l d' : (forall t, normal (Distributor.pcs d t)) -> calm_dist d -> plain d -> single d -> Distributor.step d l = Some d' ->
  match l with Distributor.LGo _ | Distributor.LFresh _ _ | Distributor.LHandoff _ _ | Distributor.LClosedCase _ | Distributor.LPick _ _ => True | _ => False end ->
  Distributor.crashed d' = None -> shifts d d' 1 0.
Proof.
  intros N [C1 C2 C3] [P1 P2 P3] [G1 _ _] H L CR. ddstep H; cbn in L; try contradiction.
  all: repeat match goal with E : Distributor.pcs ?d ?t = ?p |- _ => lazymatch goal with _ : normal p /\ t = t |- _ => fail | _ => let X := fresh "NO" in let Y := fresh "CA" in let Z := fresh "PE" in pose proof (N t) as X; pose proof (C3 t) as Y; pose proof (P3 t) as Z; rewrite E in X, Y, Z; assert (normal p /\ t = t) by (split; [exact X|reflexivity]) end end; cbn in *; try contradiction.
  all: try (rewrite C1 in *; cbn in *; discriminate); try (rewrite C2 in *; cbn in *; discriminate).
  all: try (destruct k; try contradiction).
  all: repeat match goal with H : _ /\ _ |- _ => destruct H end; subst.
  all: try match goal with E : Distributor.lookup _ _ = Some _ |- _ => destruct (one_sub_pick _ _ _ PE E) as (? & ? & ?); subst end.
  all: try match goal with E : Distributor.chans _ 0%nat = Some _ |- _ => idtac end.
  all: try solve [eapply shift_one; [reflexivity|]; match goal with E : Distributor.pcs _ _ = _ |- _ => rewrite E end; unfold qlen; cbn; try (match goal with E : Distributor.chans _ 0%nat = Some _ |- _ => rewrite E end; cbn; rewrite ?app_length; cbn); lia].
  all: try discriminate CR.
  - eapply shift_one; [reflexivity|]. rewrite Heqp. unfold qlen. cbn. destruct P1 as [-> | ->]; cbn; lia.
  - eapply shift_two; [reflexivity|congruence|]. rewrite Heqp, Heqp0. unfold qlen. cbn. lia.
Qed.
Definition wrank_main (p : FileWatcher.mpc) : nat :=
  match p with FileWatcher.M_Read => 23 | FileWatcher.M_Send _ => 22 | FileWatcher.M_Watch => 11 | FileWatcher.M_Wait => 1 | _ => 0 end.
Definition wrank_starter (p : FileWatcher.spc) : nat :=
  match p with
  | FileWatcher.S_New => 9 | FileWatcher.S_NewFailed => 1 | FileWatcher.S_Make => 8 | FileWatcher.S_Spawn => 7 | FileWatcher.S_Add => 6
  | FileWatcher.S_Init => 5 | FileWatcher.S_Wait => 4 | FileWatcher.S_Check => 3 | FileWatcher.S_Close => 2 | _ => 0
  end%nat.
Definition wrank_handler (p : FileWatcher.hpc) : nat :=
  match p with FileWatcher.H_Read => 12 | FileWatcher.H_Send _ => 11 | FileWatcher.H_Other _ => 1 | _ => 0 end%nat.
Definition wwork (w : FileWatcher.state) : nat :=
  (wrank_main (FileWatcher.main w) + wrank_starter (FileWatcher.starter w) + wrank_handler (FileWatcher.handler w) + 10 * length (FileWatcher.chan w) + 13 * length (FileWatcher.events w))%nat.
Lemma watcher_drop w l w' : WatcherProofs.shape w -> FileWatcher.step w l = Some w' ->
  match l with FileWatcher.LMain | FileWatcher.LStarter _ | FileWatcher.LHandler | FileWatcher.LEvent => True | _ => False end -> (wwork w' < wwork w)%nat.
Proof.
  intros HS H L. pose proof (WatcherProofs.sh_main _ HS) as S1. pose proof (WatcherProofs.spawn_none _ HS) as S2. clear HS.
  WatcherProofs.dstep H; try contradiction; unfold wwork; cbn -[Nat.mul];
    repeat match goal with E : FileWatcher.main _ = _ |- _ => rewrite E in *; clear E | E : FileWatcher.starter _ = _ |- _ => rewrite E in *; clear E | E : FileWatcher.handler _ = _ |- _ => rewrite E in *; clear E | E : FileWatcher.events _ = _ |- _ => rewrite E in *; clear E end; cbn -[Nat.mul] in *; rewrite ?app_length; cbn [length]; try lia.
Qed.
Lemma watcher_recv w w' : FileWatcher.step w FileWatcher.LRecv = Some w' -> (wwork w' + 10 = wwork w)%nat.
Proof. intros H. WatcherProofs.dstep H. unfold wwork. cbn -[Nat.mul]. match goal with E : FileWatcher.chan _ = _ |- _ => rewrite E end. cbn [length]. lia. Qed.
Definition vrank (p : Server.pc) : nat :=
  match p with Server.A0 => 4 | Server.A1 => 3 | Server.A2 => 2 | Server.A3 => 1 | Server.A5 _ => 2 | Server.A6 _ => 1 | _ => 0 end%nat.
Definition main_action (l : Server.label) : Prop :=
  match l with Server.LGo 0 | Server.LSpawn 0 _ | Server.LListen 0 _ => True | _ => False end.
Lemma server_drop v l v' : calm_srv v -> Server.step v l = Some v' -> main_action l -> (forall t c, l = Server.LSpawn t c -> c <> 0%nat) ->
  (vrank (Server.pcs v' 0%nat) < vrank (Server.pcs v 0%nat))%nat /\ early (Server.pcs v' 0%nat) = early (Server.pcs v 0%nat).
Proof.
  intros [I1 I2 I3 I4 IS I5 I6] H L F. vstep H; cbn in L; try contradiction; destruct t; try contradiction.
  all: try (rewrite I1 in *; cbn in *; discriminate).
  all: try match goal with E : Server.pcs _ 0%nat = _ |- _ => rewrite E in IS, I5 |- *; destruct I5 as [I5|I5]; [discriminate I5|]; cbn in I5; try contradiction end.
  all: try congruence.
  all: cbn; rewrite ?upd_same; cbn; auto.
  all: specialize (F _ _ eq_refl); rewrite upd_other, upd_same by congruence; cbn; auto.
Qed.

Definition work (s : state) (k : nat) : nat :=
  (wwork (watcher s) + dwork (dist s) k + vrank (Server.pcs (srv s) 0%nat) + (if unmade s then 10 else 0) + match main s with RPrepare => 5 | _ => 0 end)%nat.
Lemma unmade_le s s' : is_idle (Distributor.pcs (dist s') 0%nat) = is_idle (Distributor.pcs (dist s) 0%nat) -> early (Server.pcs (srv s') 0%nat) = early (Server.pcs (srv s) 0%nat) ->
  unmade s' = unmade s.
Proof. intros A B. rewrite !unmade_alt, A, B. reflexivity. Qed.
Lemma pipeline_drop s l s' k : reachable step init s -> pipeline l -> step s l = Some s' -> idle_from (dist s) k ->
  exists k', idle_from (dist s') k' /\ (work s' k' < work s k)%nat.
Proof.
  intros R L E Hk. pose proof (reachable_step _ _ _ _ _ R E) as R'. pose proof (reachable_calm _ R) as CA. pose proof (reachable_calm _ R') as CA'.
  destruct (step_moves _ _ _ E) as (_ & m & P & E1 & E2 & E3 & _ & _ & Em). pose proof (reachable_normal _ R) as N.
  pose proof (reachable_plain _ R) as PL. pose proof (reachable_single _ R) as SG. pose proof (dist_no_crash _ R') as DC.
  pose proof (WatcherProofs.reachable_shape _ (WatcherProofs.reachable_from_cli _ (pt_watcher _ (reachable_parts _ R)))) as SH.
  unfold work. destruct l; cbn in L; try contradiction; cbn in P.
  - destruct (watcher_alone l) eqn:A; [|discriminate]. injection P as <-. cbn [mw md mv mr] in *. runs. rewrite E2, E3, Em.
    exists k. split; [exact Hk|]. rewrite (unmade_le s s') by (rewrite ?E2, ?E3; reflexivity).
    assert (wwork (watcher s') < wwork (watcher s))%nat; [|lia]. eapply watcher_drop; [exact SH|eassumption|]. destruct l; try contradiction; exact I.
  - destruct (dist_alone s l) eqn:A; [|discriminate]. injection P as <-. cbn [mw md mv mr] in *. runs. rewrite E1, E3, Em.
    destruct (dist_drop _ _ _ N (ca_dist _ CA) PL SG E2) with (k := k) as (k' & K1 & K2); auto; [destruct l; try discriminate A; exact I|].
    exists k'. split; [exact K1|]. rewrite (unmade_le s s'); [lia| |rewrite E3; reflexivity]. eapply alone_idle; eauto using ca_dist.
  - destruct (server_alone s l) eqn:A; [|discriminate]. injection P as <-. cbn [mw md mv mr] in *. runs. rewrite E1, E2, Em.
    destruct (server_drop _ _ _ (ca_srv _ CA) E3) as [V1 V2]; [destruct l; try contradiction; exact L| |].
    { intros t c ->. cbn in A. apply unused_spec in A. tauto. }
    exists k. split; [exact Hk|]. rewrite (unmade_le s s'); [lia|rewrite E2; reflexivity|exact V2].
  - destruct (main s) eqn:M; try discriminate. destruct (FileWatcher.main (watcher s)) eqn:W; try discriminate. destruct r; [discriminate|]. injection P as <-. cbn [mw md mv mr] in *. runs.
    rewrite E1, E2, Em. exists k. split; [exact Hk|]. assert (Server.pcs (srv s) 0%nat = Server.Idle /\ Server.pcs (srv s') 0%nat = Server.A0) as [V1 V2].
    { split; [destruct (ca_main _ CA) as [[_ X]|[X _]]; [exact X|congruence]|]. clear - E3. revert E3. generalize (srv s'). intros v E3. vstep E3. reflexivity. }
    rewrite (unmade_le s s') by (rewrite ?E2, ?V1, ?V2; reflexivity). rewrite V1, V2. cbn [vrank]. lia.
  - destruct (Server.pcs (srv s) 0%nat) eqn:V; try discriminate. destruct (Distributor.pcs (dist s) 0%nat) eqn:D0; try discriminate. injection P as <-. cbn [mw md mv mr] in *. runs.
    rewrite E1, E3, V, Em. assert (unmade s = true) as -> by (unfold unmade; rewrite V, D0; reflexivity).
    assert (shifts (dist s) (dist s') 0 9 /\ Distributor.pcs (dist s') 0%nat <> Distributor.Idle) as [SF ND].
    { clear - D0 H H0. revert H0. generalize (dist s'). intros d' H0. ddstep H. ddstep H0. split; [|cbn; discriminate].
      eapply shift_one; [reflexivity|]. rewrite D0. unfold qlen. cbn. lia. }
    destruct (SF _ Hk) as (k' & K1 & K2). exists k'. split; [exact K1|]. assert (unmade s' = false) as -> by (unfold unmade; destruct (Distributor.pcs (dist s') 0%nat); congruence). lia.
  - destruct (Server.pcs (srv s) 0%nat) eqn:V; try discriminate. destruct (returning (dist s) 0) as [rr|] eqn:RT; try discriminate.
    destruct (returning_calm _ _ _ (ca_dist _ CA) RT) as [(_ & D0 & ->)|[(X & _)|(X & _)]]; try congruence. injection P as <-. cbn [mw md mv mr] in *. runs.
    rewrite E1, Em. assert (Server.pcs (srv s') 0%nat = Server.A4) as V4.
    { clear - E3. revert E3. generalize (srv s'). intros v E3. vstep E3. apply upd_same. }
    destruct (dist_drop _ _ _ N (ca_dist _ CA) PL SG E2) with (k := k) as (k' & K1 & K2); auto.
    exists k'. split; [exact K1|]. rewrite V4. assert (unmade s' = false) as ->.
    { rewrite unmade_alt, V4. cbn. apply andb_false_r. } cbn [vrank]. lia.
  - destruct (FileWatcher.chan (watcher s)) as [|c q] eqn:Q; [discriminate|]. injection P as <-. cbn [mw md mv mr] in *. runs.
    rewrite E3, Em. pose proof (watcher_recv _ _ E1) as W.
    assert (shifts (dist s) (dist s') 0 9 /\ (is_idle (Distributor.pcs (dist s') 0%nat) = is_idle (Distributor.pcs (dist s) 0%nat))) as [SF UI].
    { clear - E2. revert E2. generalize (dist s'). intros d' E2. ddstep E2. split; [eapply shift_one; [reflexivity|]; rewrite Heqp; unfold qlen; cbn; lia|].
      cbn. unfold upd. eqs; [subst; rewrite Heqp; reflexivity|reflexivity]. }
    destruct (SF _ Hk) as (k' & K1 & K2). exists k'. split; [exact K1|]. rewrite (unmade_le s s'); [lia|exact UI|rewrite E3; reflexivity].
  - destruct (Server.pcs (srv s) 0%nat) eqn:V; try discriminate. destruct (Distributor.chans (dist s) 0%nat) as [[cp [|c q] cl ow]|] eqn:Q; try discriminate. injection P as <-. cbn [mw md mv mr] in *. runs.
    rewrite E1, Em. assert (shifts (dist s) (dist s') 3 0 /\ Distributor.pcs (dist s') = Distributor.pcs (dist s)) as [SF UI].
    { clear - E2 Q. revert E2. generalize (dist s'). intros d' E2. ddstep E2. split; [|reflexivity].
      intros k Hk. exists k. split; [exact Hk|]. unfold dwork, qlen. cbn -[Nat.mul]. rewrite Heqo0, ?upd_same. cbn -[Nat.mul]. lia. }
    rewrite (calm_update _ _ _ _ (ca_srv _ CA) V H H0) in *. cbn [Server.pcs Server.goto]. rewrite upd_same.
    destruct (SF _ Hk) as (k' & K1 & K2). exists k'. split; [exact K1|].
    assert (unmade s' = false) as -> by (rewrite unmade_alt, (calm_update _ _ _ _ (ca_srv _ CA) V H H0); cbn; rewrite ?upd_same; apply andb_false_r).
    cbn [vrank]. lia.
  - destruct (Server.pcs (srv s) t) eqn:V; try discriminate. destruct (returning (dist s) t) as [rr|] eqn:RT; try discriminate.
    assert (md m = [Distributor.LGo t] /\ mv m = [] /\ mw m = [] /\ mr m = main s) as (M1 & M2 & M3 & M4) by (destruct rr; try discriminate; injection P as <-; auto).
    rewrite M1, M2, M3, M4 in *. runs. rewrite E1, E3, Em.
    destruct (dist_drop _ _ _ N (ca_dist _ CA) PL SG E2) with (k := k) as (k' & K1 & K2); auto.
    exists k'. split; [exact K1|]. rewrite (unmade_le s s'); [lia| |rewrite E3; reflexivity].
    assert (t <> 0%nat) as Ht. { intros ->. destruct (cv_main _ (ca_srv _ CA)) as [X|X]; rewrite V in X; [discriminate|destruct X]. }
    clear - E2 Ht RT. unfold returning in RT. revert E2. generalize (dist s'). intros d' E2. f_equal.
    ddstep E2; cbn; rewrite ?upd_other by congruence; reflexivity.
Qed.
Lemma pipeline_bounded s : reachable step init s -> exists n, forall ls s', run step s ls = Some s' -> Forall pipeline ls -> (length ls <= n)%nat.
Proof.
  intros R. destruct (DistributorDead.fi_bound _ (DistributorDead.reachable_full _ (pt_dist _ (reachable_parts _ R)))) as [k Hk].
  exists (work s k). intros ls. revert s R k Hk. induction ls as [|l ls IH]; cbn; intros s R k Hk s' H F; [lia|].
  destruct (step s l) as [s1|] eqn:E; [|discriminate]. inversion F; subst. destruct (pipeline_drop _ _ _ _ R H2 E Hk) as (k' & K1 & K2).
  specialize (IH s1 (reachable_step _ _ _ _ _ R E) k' K1 s' H H3). lia.
Qed.

(** *** Nothing left to do *)
Lemma stuck s l m : panicked s = None -> plan s l = Some m -> step s l = None ->
  run FileWatcher.step (watcher s) (mw m) = None \/ run Distributor.step (dist s) (md m) = None \/ run Server.step (srv s) (mv m) = None \/ run Session.step (sess s (mc m)) (ms m) = None.
Proof.
  intros P E H. unfold step in H. rewrite P, E in H.
  destruct (run FileWatcher.step _ _); auto. destruct (run Distributor.step _ _); auto. destruct (run Server.step _ _); auto. destruct (run Session.step _ _); [discriminate|auto].
Qed.
Lemma run1 {S L} (f : S -> L -> option S) s l : run f s [l] = None -> f s l = None.
Proof. cbn. destruct (f s l); congruence. Qed.
Lemma quiet_watcher s l : panicked s = None -> quiet s -> pipeline (YWatcher l) -> FileWatcher.step (watcher s) l = None.
Proof.
  intros P Q L. assert (watcher_alone l = true) as A by (destruct l; try contradiction; reflexivity).
  destruct (stuck s (YWatcher l) _ P ltac:(cbn; rewrite A; reflexivity) (Q _ L)) as [X|[X|[X|X]]]; try discriminate X. apply run1, X.
Qed.
Lemma quiet_dist s l : panicked s = None -> quiet s -> dist_alone s l = true -> Distributor.step (dist s) l = None.
Proof.
  intros P Q A. destruct (stuck s (YDist l) _ P ltac:(cbn; rewrite A; reflexivity) (Q (YDist l) I)) as [X|[X|[X|X]]]; try discriminate X. apply run1, X.
Qed.
Lemma quiet_server s l : panicked s = None -> quiet s -> pipeline (YServer l) -> server_alone s l = true -> Server.step (srv s) l = None.
Proof.
  intros P Q L A. destruct (stuck s (YServer l) _ P ltac:(cbn; rewrite A; reflexivity) (Q _ L)) as [X|[X|[X|X]]]; try discriminate X. apply run1, X.
Qed.
Lemma free_number s : reachable step init s -> exists n, unused s n = true.
Proof.
  intros R. destruct (DistributorDead.fi_bound _ (DistributorDead.reachable_full _ (pt_dist _ (reachable_parts _ R)))) as [k Hk].
  destruct (ServerMore.reachable_fin _ (pt_srv _ (reachable_parts _ R))) as [n Hn]. exists (S (Nat.max k n)). unfold unused. rewrite Hk, Hn by lia. reflexivity.
Qed.
Definition serving (p : Server.pc) : Prop := match p with Server.A4 | Server.A5 _ | Server.A6 _ => True | _ => False end.
Lemma server_subscribed v : reachable Server.step Server.init v -> forall t, serving (Server.pcs v t) -> Server.subscribed v = true.
Proof.
  apply (reachable_invariant Server.step Server.init (fun v => forall t, serving (Server.pcs v t) -> Server.subscribed v = true)); [intros ? -> t []|].
  intros v1 l v2 I H. vstep H; cbn; auto; intros t0; unfold upd; repeat (eqs; cbn); auto; try tauto.
  all: try (intros _; match goal with E : Server.pcs ?v ?t = _ |- _ => apply (I t); rewrite E; exact Logic.I end).
  all: try (intros X; apply (I t0); exact X).
Qed.

(** the watcher has nothing to do: its caller failed, or it returned *)
Lemma quiet_prepared s : reachable step init s -> panicked s = None -> quiet s ->
  FileWatcher.main (watcher s) = FileWatcher.M_Failed \/ exists r, FileWatcher.main (watcher s) = FileWatcher.M_Returned r.
Proof.
  intros R P Q. pose proof (quiet_watcher s FileWatcher.LMain P Q I) as M. pose proof (quiet_watcher s (FileWatcher.LStarter None) P Q I) as ST.
  pose proof (fw_crash _ _ (reachable_fine _ R)) as C. unfold FileWatcher.step in M, ST. rewrite C in M, ST.
  pose proof (pt_watcher _ (reachable_parts _ R)) as RW. pose proof (WatcherProofs.reachable_from_cli _ RW) as RW'.
  pose proof (WatcherProofs.reachable_shape _ RW') as SH. destruct (WatcherProofs.reachable_cli _ RW) as [_ CL].
  unfold FileWatcher.main_step in M. destruct (FileWatcher.main (watcher s)) eqn:E; try discriminate; auto; [exfalso|exfalso|right; eauto].
  - destruct (WatcherProofs.reachable_traffic _ RW') as [T1 T2 T3 T4]. destruct (WatcherProofs.early _ SH) as [S1 S2]; [rewrite E; reflexivity|].
    rewrite (T3 S1), app_nil_r in T2. destruct CL as [c0 CL]. rewrite CL in T2. unfold SpecWatcher.pending in T2. rewrite E in T2.
    assert (SpecWatcher.sent (FileWatcher.hist (watcher s)) = []) as Z. { destruct (SpecWatcher.sent _) as [|a [|b q]]; [reflexivity| |]; discriminate T2. }
    rewrite Z in T1. apply app_eq_nil in T1. destruct T1 as [_ T1]. rewrite T1 in M. discriminate M.
  - pose proof (WatcherProofs.sh_init _ SH) as SI. pose proof (WatcherProofs.sh_main _ SH) as SM. rewrite E in SM. destruct (FileWatcher.inited (watcher s)); [discriminate M|].
    unfold FileWatcher.starter_step in ST. destruct (FileWatcher.starter (watcher s)); discriminate.
Qed.
(** Run has called Start *)
Lemma quiet_serve s : reachable step init s -> panicked s = None -> quiet s -> FileWatcher.main (watcher s) = FileWatcher.M_Returned None ->
  main s = RServe /\ in_loop (Server.pcs (srv s) 0%nat).
Proof.
  intros R P Q W. pose proof (reachable_calm _ R) as CA. destruct (ca_main _ CA) as [[M V]|X]; [exfalso|exact X].
  destruct (stuck s YRun _ P ltac:(cbn; rewrite M, W; reflexivity) (Q YRun I)) as [X|[X|[X|X]]]; try discriminate X.
  apply run1 in X. unfold Server.step in X. rewrite (cv_crash _ (ca_srv _ CA)), V in X. discriminate X.
Qed.
(** nobody writes in the distributor, and nobody reads *)
Lemma quiet_reader s t : reachable step init s -> panicked s = None -> quiet s -> Distributor.pcs (dist s) t <> Distributor.G2.
Proof.
  intros R P Q E. pose proof (quiet_dist s (Distributor.LGo t) P Q) as X. cbn in X. unfold returning in X. rewrite E in X. specialize (X eq_refl).
  unfold Distributor.step, Distributor.go in X. rewrite (dist_no_crash _ R), E in X. discriminate X.
Qed.
Lemma quiet_free s : reachable step init s -> panicked s = None -> quiet s -> Distributor.writer (dist s) = None -> Distributor.is_free (dist s) = true.
Proof.
  intros R P Q W. unfold Distributor.is_free. rewrite W. destruct (Distributor.readers (dist s)) as [|t r] eqn:E; [reflexivity|]. exfalso.
  apply (quiet_reader s t R P Q). apply (DistributorProofs.li_readers _ (DistributorProofs.reachable_lock _ (pt_dist _ (reachable_parts _ R)))). rewrite E. left. reflexivity.
Qed.
Lemma quiet_go s t : reachable step init s -> panicked s = None -> quiet s -> returning (dist s) t = None -> Distributor.go (dist s) t = None.
Proof.
  intros R P Q E. pose proof (quiet_dist s (Distributor.LGo t) P Q) as X. cbn in X. rewrite E in X. specialize (X eq_refl).
  unfold Distributor.step in X. rewrite (dist_no_crash _ R) in X. exact X.
Qed.
(** the server is waiting for a configuration *)
Lemma quiet_loop s : reachable step init s -> panicked s = None -> quiet s -> in_loop (Server.pcs (srv s) 0%nat) -> Server.pcs (srv s) 0%nat = Server.A4.
Proof.
  intros R P Q L. pose proof (reachable_calm _ R) as CA. pose proof (ca_srv _ CA) as CV. pose proof (ca_dist _ CA) as CD. pose proof (cv_crash _ CV) as CC.
  pose proof (cv_start _ CV) as CS. destruct (free_number s R) as [n Hn]. pose proof (unused_spec _ _ Hn) as (Hn1 & Hn2 & Hn3).
  pose proof (quiet_server s (Server.LGo 0) P Q I) as G. unfold Server.step in G. rewrite CC in G. cbn in G. unfold Server.go in G.
  pose proof (quiet_server s (Server.LListen 0 true) P Q I eq_refl) as LL. unfold Server.step in LL. rewrite CC in LL.
  pose proof (quiet_server s (Server.LSpawn 0 n) P Q I Hn) as LS. unfold Server.step in LS. rewrite CC, Hn3 in LS.
  destruct (Server.pcs (srv s) 0%nat) eqn:V; try contradiction; try reflexivity; exfalso; try discriminate.
  - specialize (G eq_refl). discriminate.
  - rewrite CS in G. specialize (G eq_refl). discriminate.
  - specialize (G eq_refl). discriminate.
  - clear G LL LS. pose proof (or_sub _ (reachable_ordered _ R)) as SB. rewrite V in SB. destruct (sb_early _ _ SB eq_refl) as [SB1 SB2].
    pose proof (cd_pcs _ CD 0%nat) as K. pose proof (reachable_normal _ R 0%nat) as N. pose proof (quiet_go s 0 R P Q) as G. unfold returning, Distributor.go in G.
    pose proof (dist_no_crash _ R) as DC.
    destruct (Distributor.pcs (dist s) 0%nat) eqn:D; cbn in K, N; try contradiction; try congruence; try (destruct k; try contradiction).
    + destruct (stuck s YSubscribe _ P ltac:(cbn; rewrite V, D; reflexivity) (Q YSubscribe I)) as [X|[X|[X|X]]]; try discriminate X.
      pose proof (reachable_chan _ R) as CH. unfold chan_ok, unmade in CH. rewrite D, V in CH. cbn in CH.
      cbn -[Distributor.step] in X. unfold Distributor.step in X at 1. rewrite DC, CH in X. cbn in X. unfold Distributor.step in X. cbn in X. rewrite DC, D in X. cbn in X. rewrite ?upd_same in X. discriminate X.
    + rewrite (cd_closed _ CD) in G. specialize (G eq_refl). discriminate G.
    + specialize (G eq_refl). rewrite quiet_free in G; try assumption; [discriminate G|].
      destruct (Distributor.writer (dist s)) as [w|] eqn:W; [exfalso|reflexivity].
      apply (DistributorProofs.li_writer _ (DistributorProofs.reachable_lock _ (pt_dist _ (reachable_parts _ R)))) in W.
      pose proof (reachable_normal _ R w) as NW. pose proof (cd_pcs _ CD w) as KW.
      pose proof (DistributorProofs.mi_started _ (DistributorProofs.reachable_mon _ (pt_dist _ (reachable_parts _ R))) SB2 w) as MW.
      destruct (Distributor.pcs (dist s) w) eqn:DW; cbn in W, NW, KW, MW; try contradiction; try (destruct k; try contradiction); destruct KW as [-> _]; congruence.
    + specialize (G eq_refl). destruct (Distributor.last (dist s)); [destruct (Distributor.shouldSendUpdatedConfig _ _ _)|]; discriminate G.
    + specialize (G eq_refl). destruct K as (_ & -> & ->). pose proof (reachable_chan _ R) as CH. unfold chan_ok, unmade in CH. rewrite D in CH. destruct CH as [q CH].
      cbn in G. rewrite CH in G. cbn in G.
      assert (q = []) as ->.
      { eapply (nothing_queued _ R _ _ CH). Unshelve. rewrite (DistributorProofs.mi_last _ (DistributorProofs.reachable_mon _ (pt_dist _ (reachable_parts _ R)))). unfold SpecDistributor.current. rewrite SB1. reflexivity. }
      discriminate G.
    + pose proof (quiet_dist s (Distributor.LFresh 0 n) P Q) as X. cbn in X. rewrite D in X. specialize (X Hn). unfold Distributor.step in X. rewrite DC, D, SB2, Hn2 in X. discriminate X.
    + destruct (stuck s YSubscribed (Moves [] [Distributor.LGo 0] [Server.LSubscribe 0 None] 0 [] (main s)) P ltac:(cbn; unfold returning; rewrite V, D; reflexivity) (Q YSubscribed I)) as [X|[X|[X|X]]]; try discriminate X; apply run1 in X.
      * unfold Distributor.step, Distributor.go in X. rewrite DC, D in X. discriminate X.
      * unfold Server.step in X. rewrite CC, V in X. discriminate X.
Qed.
(** nothing waits in the server's channel *)
Lemma quiet_queue s : reachable step init s -> panicked s = None -> quiet s -> Server.pcs (srv s) 0%nat = Server.A4 ->
  Distributor.chans (dist s) 0%nat = Some (Distributor.Chan 1 [] false None).
Proof.
  intros R P Q V. pose proof (ca_srv _ (reachable_calm _ R)) as CV. pose proof (reachable_chan _ R) as CH. unfold chan_ok in CH.
  rewrite unmade_alt, V in CH. cbn in CH. rewrite andb_false_r in CH. destruct CH as [[|c q] CH]; [exact CH|exfalso].
  destruct (stuck s YUpdate (Moves [] [Distributor.LRecv 0] [Server.LConfig c; Server.LRecv 0] 0 [] (main s)) P ltac:(cbn; rewrite V, CH; reflexivity) (Q YUpdate I)) as [X|[X|[X|X]]]; try discriminate X.
  - apply run1 in X. unfold Distributor.step in X. rewrite (dist_no_crash _ R), CH in X. discriminate X.
  - cbn -[Server.step] in X. unfold Server.step in X at 1. rewrite (cv_crash _ CV), (cv_closed _ CV), (cv_updates _ CV) in X.
    rewrite (server_subscribed _ (pt_srv _ (reachable_parts _ R)) 0%nat) in X by (rewrite V; exact I). unfold Server.step in X. cbn in X. rewrite (cv_crash _ CV), V in X. discriminate X.
Qed.
Lemma quiet_writer s : reachable step init s -> panicked s = None -> quiet s -> Server.pcs (srv s) 0%nat = Server.A4 -> Distributor.writer (dist s) = None.
Proof.
  intros R P Q V. pose proof (pt_dist _ (reachable_parts _ R)) as RD. destruct (Distributor.writer (dist s)) as [w|] eqn:W; [exfalso|reflexivity].
  apply (DistributorProofs.li_writer _ (DistributorProofs.reachable_lock _ RD)) in W. pose proof (reachable_normal _ R w) as N. pose proof (cd_pcs _ (ca_dist _ (reachable_calm _ R)) w) as K.
  pose proof (late_idle _ R ltac:(rewrite V; reflexivity)) as ID. pose proof (quiet_go s w R P Q) as G. unfold returning, Distributor.go in G.
  pose proof (pl_pend _ (reachable_plain _ R) w) as PE.
  destruct (Distributor.pcs (dist s) w) eqn:E; cbn in W, N, K; try contradiction; try (destruct k; try contradiction); try (destruct K as [-> _]; congruence).
  - specialize (G eq_refl). discriminate G.
  - cbn in PE. destruct PE as [-> | ->]; [specialize (G eq_refl); discriminate G|].
    pose proof (quiet_dist s (Distributor.LPick w 0) P Q eq_refl) as X. unfold Distributor.step in X. rewrite (dist_no_crash _ R), E in X. cbn in X. discriminate X.
  - cbn in PE. destruct PE as [-> ->]. specialize (G eq_refl). cbn in G. rewrite (quiet_queue s R P Q V) in G. discriminate G.
Qed.
Lemma panic_session s c : panicked s = None -> (c < Server.next_conn (srv s))%nat -> Session.crashed (sess s c) = None.
Proof.
  unfold panicked. destruct (FileWatcher.crashed (watcher s)), (Distributor.crashed (dist s)), (Server.crashed (srv s)); try discriminate. intros H Hc.
  assert (In c (seq 0 (Server.next_conn (srv s)))) as Hi by (apply in_seq; lia). revert H Hi. induction (seq 0 _) as [|x l IH]; cbn; [tauto|].
  destruct (Session.crashed (sess s x)) eqn:E; [discriminate|]. intros H [->|Hi]; auto.
Qed.
Lemma quiet_dist_idle s : reachable step init s -> panicked s = None -> quiet s -> Server.pcs (srv s) 0%nat = Server.A4 ->
  forall t, Distributor.pcs (dist s) t = Distributor.Idle \/ Distributor.pcs (dist s) t = Distributor.M0.
Proof.
  intros R P Q V t. pose proof (reachable_normal _ R t) as N. pose proof (cd_pcs _ (ca_dist _ (reachable_calm _ R)) t) as K.
  pose proof (late_idle _ R ltac:(rewrite V; reflexivity)) as ID. pose proof (quiet_go s t R P Q) as G. unfold returning, Distributor.go in G.
  pose proof (quiet_writer s R P Q V) as W. pose proof (quiet_free s R P Q W) as F. pose proof (quiet_reader s t R P Q) as GR.
  assert (~ SpecDistributor.in_write_section (Distributor.pcs (dist s) t)) as NW.
  { intros X. apply (DistributorProofs.li_writer _ (DistributorProofs.reachable_lock _ (pt_dist _ (reachable_parts _ R)))) in X. congruence. }
  destruct (Distributor.pcs (dist s) t) eqn:E; cbn in N, K, NW; auto; try contradiction; try (destruct k; try contradiction); try (exfalso; tauto); exfalso; try congruence; try (destruct K as [-> _]; congruence).
  - rewrite (cd_closed _ (ca_dist _ (reachable_calm _ R))) in G. specialize (G eq_refl). discriminate G.
  - rewrite W in G. specialize (G eq_refl). discriminate G.
  - destruct snapshot as [c|]; [|contradiction]. pose proof (du_duty _ (reachable_duties _ R) t) as D. unfold duty in D. rewrite E in D. destruct D as (x & w & A & B & C).
    destruct (stuck s (YGot t envAB) (Moves [] [Distributor.LGo t] [] x [Session.LConfig envAB (Ok c)] (main s)) P ltac:(cbn; unfold returning; rewrite A, E; reflexivity) (Q (YGot t envAB) I)) as [X|[X|[X|X]]]; try discriminate X; apply run1 in X.
    + unfold Distributor.step, Distributor.go in X. rewrite (dist_no_crash _ R), E in X. discriminate X.
    + cbn [mc] in X. unfold Session.step in X. rewrite panic_session, B, C in X; auto.
      * destruct (Session.parse_uri _ _); discriminate X.
      * apply (ServerProofs.oi_conn_lt _ (ServerProofs.reachable_own _ (pt_srv _ (reachable_parts _ R))) t). cbn. rewrite A. reflexivity.
  - rewrite F in G. specialize (G eq_refl). discriminate G.
Qed.
Lemma quiet_monitor s : reachable step init s -> panicked s = None -> quiet s -> Server.pcs (srv s) 0%nat = Server.A4 -> exists t, Distributor.pcs (dist s) t = Distributor.M0.
Proof.
  intros R P Q V. pose proof (pt_dist _ (reachable_parts _ R)) as RD. pose proof (quiet_writer s R P Q V) as W. destruct (reachable_plain _ R) as [_ PM _ PS].
  destruct PM as [t Ht]; [apply PS; intros E|].
  - pose proof (DistributorSubs.si_sub _ (DistributorSubs.reachable_subs _ RD) 0%nat) as S. unfold DistributorSubs.sub_ok in S. rewrite W, E in S. cbn in S.
    rewrite (sb_sub _ _ (or_sub _ (reachable_ordered _ R))), V in S. cbn in S. discriminate S.
  - exists t. destruct (quiet_dist_idle s R P Q V t) as [E|E]; [rewrite E in Ht; destruct Ht|exact E].
Qed.
Lemma quiet_source s : reachable step init s -> panicked s = None -> quiet s -> Server.pcs (srv s) 0%nat = Server.A4 -> FileWatcher.main (watcher s) = FileWatcher.M_Returned None ->
  FileWatcher.chan (watcher s) = [].
Proof.
  intros R P Q V W. destruct (FileWatcher.chan (watcher s)) as [|c q] eqn:E; [reflexivity|exfalso]. destruct (quiet_monitor s R P Q V) as [t Ht].
  destruct (stuck s (YSource t) _ P ltac:(cbn; rewrite E; reflexivity) (Q (YSource t) I)) as [X|[X|[X|X]]]; try discriminate X; apply run1 in X.
  - unfold FileWatcher.step in X. rewrite (fw_crash _ _ (reachable_fine _ R)), W, E in X. discriminate X.
  - unfold Distributor.step in X. rewrite (dist_no_crash _ R), Ht, (cd_src _ (ca_dist _ (reachable_calm _ R))) in X. discriminate X.
Qed.
Lemma quiet_handler s : reachable step init s -> panicked s = None -> quiet s -> Server.pcs (srv s) 0%nat = Server.A4 -> FileWatcher.main (watcher s) = FileWatcher.M_Returned None ->
  FileWatcher.handler (watcher s) = FileWatcher.H_End \/ FileWatcher.handler (watcher s) = FileWatcher.H_Select /\ FileWatcher.events (watcher s) = [].
Proof.
  intros R P Q V W. pose proof (quiet_source s R P Q V W) as E. pose proof (fw_crash _ _ (reachable_fine _ R)) as C.
  pose proof (WatcherProofs.reachable_from_cli _ (pt_watcher _ (reachable_parts _ R))) as RW. pose proof (WatcherProofs.reachable_shape _ RW) as SH.
  pose proof (quiet_watcher s FileWatcher.LHandler P Q I) as H. unfold FileWatcher.step, FileWatcher.handler_step in H. rewrite C, E in H.
  pose proof (quiet_watcher s FileWatcher.LEvent P Q I) as EV. unfold FileWatcher.step in EV. rewrite C in EV.
  destruct (FileWatcher.handler (watcher s)) eqn:HE; auto; try discriminate H.
  - exfalso. pose proof (WatcherFacts.nil_made _ RW (proj2 (WatcherLive.reachable_watch _ RW) _ W)) as M.
    pose proof (WatcherProofs.sh_ret _ SH) as S1. rewrite W in S1. pose proof (WatcherProofs.sh_init _ SH) as S2. rewrite S1 in S2. pose proof (WatcherProofs.sh_hs _ SH) as S3. rewrite M, HE in S3.
    destruct (FileWatcher.starter (watcher s)); discriminate.
  - right. split; [reflexivity|]. destruct (FileWatcher.events (watcher s)) as [|op es]; [reflexivity|exfalso].
    pose proof (WatcherProofs.sh_wclosed _ SH) as S1. pose proof (WatcherProofs.sh_end _ SH) as S2. rewrite HE in S1, S2.
    destruct (FileWatcher.wclosed (watcher s)); [|discriminate EV]. destruct (FileWatcher.starter (watcher s)); discriminate.
Qed.
(** what has happened by then *)
Lemma quiet_all s : reachable step init s -> panicked s = None -> quiet s -> FileWatcher.main (watcher s) = FileWatcher.M_Returned None ->
  exists c0, SpecWatcher.loaded (FileWatcher.hist (watcher s)) = [c0] /\
    rev (SpecDistributor.installed (Distributor.hist (dist s))) = c0 :: SpecWatcher.good_reloads (FileWatcher.hist (watcher s)) /\
    SpecWatcher.sent (FileWatcher.hist (watcher s)) = c0 :: SpecWatcher.good_reloads (FileWatcher.hist (watcher s)) /\
    SpecDistributor.received 0 (Distributor.hist (dist s)) = address_changes None (rev (SpecDistributor.installed (Distributor.hist (dist s)))).
Proof.
  intros R P Q HM. destruct (quiet_serve s R P Q HM) as [M L]. pose proof (quiet_loop s R P Q L) as V. pose proof (reachable_parts _ R) as [RW RD _ _].
  destruct (WatcherProofs.reachable_cli _ RW) as [_ LO]. rewrite HM in LO. destruct LO as [c0 LO].
  destruct (WatcherProofs.reachable_traffic _ (WatcherProofs.reachable_from_cli _ RW)) as [_ T2 _ _].
  pose proof (from_cli_sourced _ R) as S. rewrite LO in S, T2. cbn [app] in S, T2. pose proof (quiet_source s R P Q V HM) as E. rewrite E in S. cbn [app] in S.
  assert (SpecWatcher.pending (watcher s) = []) as PE.
  { unfold SpecWatcher.pending. rewrite HM. destruct (quiet_handler s R P Q V HM) as [->|[-> _]]; reflexivity. }
  rewrite PE, app_nil_r in S, T2. pose proof (DistributorProofs.reachable_mon _ RD) as MO.
  exists c0. split; [exact LO|]. split; [|split; [exact T2|]].
  - destruct (DistributorProofs.mi_src' _ MO) as [X|(t & c & X)]; [rewrite <- X; exact S|]. destruct (quiet_dist_idle s R P Q V t) as [Y|Y]; rewrite Y in X; destruct X; discriminate.
  - destruct (DistributorSubs.reachable_fifo _ RD 0%nat) as [Q1 _]. rewrite <- (sb_exp _ _ (or_sub _ (reachable_ordered _ R))), (DistributorSubs.si_sent _ (DistributorSubs.reachable_subs _ RD) 0%nat), Q1.
    unfold DistributorSubs.owed, DistributorSubs.queue. rewrite (quiet_queue s R P Q V), (quiet_writer s R P Q V). cbn. rewrite !app_nil_r. reflexivity.
Qed.

(** *** It gets there *)
Definition candidates (k n : nat) : list label :=
  [YWatcher FileWatcher.LMain; YWatcher (FileWatcher.LStarter None); YWatcher FileWatcher.LHandler; YWatcher FileWatcher.LEvent;
   YServer (Server.LGo 0); YServer (Server.LSpawn 0 n); YServer (Server.LListen 0 true); YRun; YSubscribe; YSubscribed; YUpdate] ++
  flat_map (fun t => [YDist (Distributor.LGo t); YDist (Distributor.LFresh t n); YDist (Distributor.LPick t 0); YSource t; YGot t envAB]) (seq 0 k).
Lemma candidate_dist k n t l : (t < k)%nat -> In l [YDist (Distributor.LGo t); YDist (Distributor.LFresh t n); YDist (Distributor.LPick t 0); YSource t; YGot t envAB] -> In l (candidates k n).
Proof. intros H X. apply in_or_app. right. apply in_flat_map. exists t. split; [apply in_seq; lia|exact X]. Qed.
Lemma candidate_pipeline k n l : In l (candidates k n) -> pipeline l.
Proof.
  intros H. apply in_app_or in H. destruct H as [H|H]; [repeat (destruct H as [<-|H]; [exact I|]); destruct H|].
  apply in_flat_map in H. destruct H as (t & _ & H). repeat (destruct H as [<-|H]; [exact I|]); destruct H.
Qed.
Lemma env_sane : SpecSession.sane_env envAB.
Proof. split; [intros m; apply Permutation.Permutation_refl|]. intros u q. cbn. destruct (bytes_eqb u urlB); discriminate. Qed.
Lemma candidate_sane k n l : In l (candidates k n) -> sane l.
Proof.
  intros H. apply in_app_or in H. destruct H as [H|H]; [repeat (destruct H as [<-|H]; [exact I|]); destruct H|].
  apply in_flat_map in H. destruct H as (t & _ & H). repeat (destruct H as [<-|H]; [first [exact I|apply env_sane]|]); destruct H.
Qed.
Lemma moved s l m w d v x : panicked s = None -> plan s l = Some m -> run FileWatcher.step (watcher s) (mw m) = Some w -> run Distributor.step (dist s) (md m) = Some d ->
  run Server.step (srv s) (mv m) = Some v -> run Session.step (sess s (mc m)) (ms m) = Some x -> step s l <> None.
Proof. intros P E A B C D. unfold step. rewrite P, E, A, B, C, D. discriminate. Qed.
Lemma one_run {S L} (f : S -> L -> option S) s l s' : f s l = Some s' -> run f s [l] = Some s'.
Proof. cbn. intros ->. reflexivity. Qed.
Lemma candidates_suffice s l s' k n : reachable step init s -> unused s n = true -> idle_from (dist s) k -> pipeline l -> step s l = Some s' ->
  exists l', In l' (candidates k n) /\ step s l' <> None.
Proof.
  intros R Hn Hk L E. destruct (step_moves _ _ _ E) as (PN & m & P & E1 & E2 & E3 & E4 & _ & Em). pose proof (reachable_normal _ R) as N. pose proof (reachable_calm _ R) as CA.
  pose proof (unused_spec _ _ Hn) as (Hn1 & Hn2 & Hn3).
  assert (B : forall t, Distributor.pcs (dist s) t <> Distributor.Idle -> (t < k)%nat). { intros t X. destruct (Nat.lt_ge_cases t k) as [Y|Y]; [exact Y|]. destruct X. apply Hk, Y. }
  assert (HE : In l (candidates k n) -> exists l', In l' (candidates k n) /\ step s l' <> None) by (intros X; exists l; split; [exact X|congruence]).
  destruct l; cbn in L; try contradiction; cbn in P.
  - destruct l; try contradiction; try (apply HE; cbn; tauto). exists (YWatcher (FileWatcher.LStarter None)). split; [cbn; tauto|].
    injection P as <-. cbn [mw md mv ms mc] in *. apply run_one in E1.
    assert (exists w, FileWatcher.step (watcher s) (FileWatcher.LStarter None) = Some w) as [w W].
    { unfold FileWatcher.step in *. destruct (FileWatcher.crashed (watcher s)); [discriminate|]. unfold FileWatcher.starter_step in *. destruct (FileWatcher.starter (watcher s)); try discriminate; eauto. }
    eapply moved; [exact PN|reflexivity|apply one_run, W|reflexivity|reflexivity|reflexivity].
  - destruct (dist_alone s l) eqn:A; [|discriminate]. injection P as <-. cbn [mw md mv ms mc] in *. apply run_one in E2.
    destruct l; try discriminate A.
    + apply HE. apply (candidate_dist k n t); [|left; reflexivity]. apply B. intros X. unfold Distributor.step, Distributor.go in E2. rewrite X in E2. destruct (Distributor.crashed (dist s)); discriminate.
    + exists (YDist (Distributor.LFresh t n)). assert (exists ch cs kk, Distributor.pcs (dist s) t = Distributor.S4 ch cs kk /\ Distributor.started (dist s) = false) as (ch & cs & kk & X1 & X2).
      { specialize (N t). unfold Distributor.step in E2. destruct (Distributor.crashed (dist s)); [discriminate|]. destruct (Distributor.pcs (dist s) t); try discriminate; [destruct snapshot; [discriminate|contradiction]|].
        destruct (Distributor.started (dist s)); [discriminate|]. eauto 6. }
      split; [apply (candidate_dist k n t); [apply B; congruence|cbn; tauto]|].
      eapply moved; [exact PN|cbn; rewrite X1, Hn; reflexivity|reflexivity| |reflexivity|reflexivity]. apply one_run. unfold Distributor.step. rewrite (dist_no_crash _ R), X1, X2, Hn2. reflexivity.
    + exfalso. pose proof (N r) as NR. unfold Distributor.step in E2. destruct (Distributor.crashed (dist s)); [discriminate|]. destruct (Distributor.sending _) as [[[? ?] ?]|]; [|discriminate].
      destruct (Distributor.pcs (dist s) r); try discriminate. exact NR.
    + exfalso. unfold Distributor.step in E2. rewrite (cd_closed _ (ca_dist _ CA)) in E2. destruct (Distributor.crashed (dist s)); discriminate.
    + apply HE. unfold Distributor.step in E2. destruct (Distributor.crashed (dist s)); [discriminate|]. destruct (Distributor.pcs (dist s) t) eqn:X; try discriminate.
      destruct (Distributor.lookup ch pending) eqn:Y; [|discriminate]. pose proof (pl_pend _ (reachable_plain _ R) t) as PE. rewrite X in PE.
      destruct (one_sub_pick _ _ _ PE Y) as (-> & _). apply (candidate_dist k n t); [apply B; congruence|cbn; tauto].
  - destruct (server_alone s l) eqn:A; [|discriminate]. injection P as <-. cbn [mw md mv ms mc] in *. apply run_one in E3.
    destruct l; try contradiction; destruct t; try contradiction; try (apply HE; cbn; tauto).
    + exists (YServer (Server.LListen 0 true)). split; [cbn; tauto|]. assert (exists v, Server.step (srv s) (Server.LListen 0 true) = Some v) as [v V].
      { unfold Server.step in *. destruct (Server.crashed (srv s)); [discriminate|]. destruct (Server.pcs (srv s) 0%nat); try discriminate. eexists. reflexivity. }
      eapply moved; [exact PN|reflexivity|reflexivity|reflexivity|apply one_run, V|reflexivity].
    + exists (YServer (Server.LSpawn 0 n)). split; [cbn; tauto|]. assert (exists v, Server.step (srv s) (Server.LSpawn 0 n) = Some v) as [v V].
      { unfold Server.step in *. destruct (Server.crashed (srv s)); [discriminate|]. rewrite Hn3. destruct (Server.pcs (srv s) child); try discriminate. destruct (Server.pcs (srv s) 0%nat); try discriminate; eexists; reflexivity. }
      eapply moved; [exact PN|cbn; rewrite Hn; reflexivity|reflexivity|reflexivity|apply one_run, V|reflexivity].
  - apply HE. cbn; tauto.
  - apply HE. cbn; tauto.
  - apply HE. cbn; tauto.
  - apply HE. apply (candidate_dist k n t); [|cbn; tauto]. destruct (FileWatcher.chan (watcher s)); [discriminate|]. injection P as <-. cbn [md] in E2. apply run_one in E2.
    apply B. intros X. unfold Distributor.step in E2. rewrite X in E2. destruct (Distributor.crashed (dist s)); discriminate.
  - apply HE. cbn; tauto.
  - exists (YGot t envAB). destruct (Server.pcs (srv s) t) eqn:V; try discriminate. destruct (returning (dist s) t) as [r|] eqn:RT; [|discriminate].
    destruct (returning_calm _ _ _ (ca_dist _ CA) RT) as [(-> & _)|[(Ht & cfg & X & ->)|(_ & ch & X)]].
    + exfalso. destruct (cv_main _ (ca_srv _ CA)) as [Y|Y]; rewrite V in Y; [discriminate|destruct Y].
    + injection P as <-. cbn [mw md mv ms mc] in *. split; [apply (candidate_dist k n t); [apply B; congruence|cbn; tauto]|].
      apply run_one in E4. assert (exists x, Session.step (sess s c) (Session.LConfig envAB (Ok cfg)) = Some x) as [x Y].
      { unfold Session.step in *. destruct (Session.crashed (sess s c)); [discriminate|]. destruct (Session.start_pc (sess s c)); try discriminate. destruct (Session.cached (sess s c)); try discriminate.
        destruct (Session.parse_uri envAB _); eexists; reflexivity. }
      eapply moved; [exact PN|cbn; rewrite V, RT; reflexivity|reflexivity|exact E2|reflexivity|apply one_run, Y].
    + specialize (N t). rewrite X in N. destruct N.
Qed.
Lemma no_panic s l s' : reachable step init s -> pipeline l -> sane l -> step s l = Some s' -> panicked s' = None.
Proof.
  intros R L S E. pose proof (reachable_step _ _ _ _ _ R E) as R'. destruct (panicked s') as [p|] eqn:X; [exfalso|reflexivity].
  destruct (panicked_session _ _ R' X) as (c & Hc & Y). destruct (step_moves _ _ _ E) as (PN & m & P & E1 & E2 & E3 & E4 & E5 & Em).
  assert (Z : Session.crashed (sess s c) = None).
  { destruct (Nat.lt_ge_cases c (Server.next_conn (srv s))) as [A|A]; [apply panic_session; assumption|]. rewrite (lk_fresh _ (reachable_linked _ R) c A). reflexivity. }
  destruct (Nat.eq_dec c (mc m)) as [->|D]; [|rewrite E5 in Y by exact D; congruence].
  assert (ms m = [] \/ exists t E r, l = YGot t E /\ ms m = [Session.LConfig E r]) as [W|(t & E0 & r & -> & W)].
  { clear - L P. dplan P; try contradiction L; auto; right; do 3 eexists; split; reflexivity. }
  - rewrite W in E4. apply run_none in E4. congruence.
  - rewrite W in E4. apply run_one in E4. rewrite (SessionMore.config_no_crash _ _ _ _ S E4) in Y. discriminate Y.
Qed.
Lemma candidate_or_quiet s ls : (exists l, In l ls /\ step s l <> None) \/ forall l, In l ls -> step s l = None.
Proof.
  induction ls as [|l ls IH]; [right; intros l []|]. destruct (step s l) as [s'|] eqn:E; [left; exists l; split; [left; reflexivity|congruence]|].
  destruct IH as [(x & A & B)|IH]; [left; exists x; split; [right; exact A|exact B]|right; intros x [<-|X]; auto].
Qed.
Lemma settles s : reachable step init s -> panicked s = None ->
  exists ls s', Forall (fun l => pipeline l /\ sane l) ls /\ run step s ls = Some s' /\ panicked s' = None /\ quiet s'.
Proof.
  intros R P. destruct (DistributorDead.fi_bound _ (DistributorDead.reachable_full _ (pt_dist _ (reachable_parts _ R)))) as [k Hk].
  remember (work s k) as w eqn:Ew. revert s k R P Hk Ew. induction w as [w IH] using lt_wf_ind. intros s k R P Hk Ew.
  destruct (free_number s R) as [n Hn]. destruct (candidate_or_quiet s (candidates k n)) as [(l & A & B)|Q].
  - destruct (step s l) as [s1|] eqn:E; [|congruence]. destruct (pipeline_drop _ _ _ _ R (candidate_pipeline _ _ _ A) E Hk) as (k' & K1 & K2).
    destruct (IH (work s1 k') ltac:(lia) s1 k' (reachable_step _ _ _ _ _ R E) (no_panic _ _ _ R (candidate_pipeline _ _ _ A) (candidate_sane _ _ _ A) E) K1 eq_refl) as (ls & s' & F & Hr & Hp & Hq).
    exists (l :: ls), s'. split; [constructor; [split; [eapply candidate_pipeline|eapply candidate_sane]; exact A|exact F]|]. cbn. rewrite E. auto.
  - exists [], s. split; [constructor|]. split; [reflexivity|]. split; [exact P|]. intros l L. destruct (step s l) as [s'|] eqn:E; [exfalso|reflexivity].
    destruct (candidates_suffice _ _ _ _ _ R Hn Hk L E) as (l' & A & B). apply B, Q, A.
Qed.

(** *** A change of the file takes effect *)
Record coming (c : config) (w : FileWatcher.state) : Prop := {
  co_file : FileWatcher.file w = Some c;
  co_due : WatcherLive.due w;
  co_main : FileWatcher.main w = FileWatcher.M_Returned None;
  co_alive : WatcherFacts.alive (FileWatcher.handler w) = true
}.
Lemma coming_step c w l w' : WatcherProofs.shape w -> FileWatcher.done w <> FileWatcher.ChClosed -> coming c w -> FileWatcher.step w l = Some w' ->
  match l with FileWatcher.LFile _ _ | FileWatcher.LError _ | FileWatcher.LStop => False | _ => True end -> coming c w'.
Proof.
  intros SH ND [F D M A] H L. pose proof (WatcherProofs.sh_hs _ SH) as S1. pose proof (WatcherProofs.sh_ret _ SH) as S2. pose proof (WatcherProofs.sh_init _ SH) as S3.
  pose proof (WatcherProofs.sh_wclosed _ SH) as S4. pose proof (WatcherProofs.sh_end _ SH) as S5.
  unfold WatcherLive.due in D. WatcherProofs.dstep H; try contradiction.
  all: rewrite ?M in *; try discriminate.
  all: try congruence.
  all: try (injection F as <-).
  all: try (exfalso; destruct (FileWatcher.starter w); cbn in *; discriminate).
  all: constructor; unfold WatcherLive.due; cbn in *; auto; try congruence.
  all: try (rewrite Heqh; reflexivity).
  all: destruct D as [D|(es0 & op0 & D & D')]; [left; rewrite D, orb_true_r; reflexivity|].
  all: destruct es0 as [|a es0]; cbn in D; injection D as -> D; [left; rewrite D'; reflexivity|right; exists es0, op0; auto].
Qed.
Lemma undisturbed_watcher s l m : plan s l = Some m -> undisturbed l -> mw m = [] \/ exists x, mw m = [x] /\ match x with FileWatcher.LFile _ _ | FileWatcher.LError _ | FileWatcher.LStop => False | _ => True end.
Proof. intros P L. dplan P; auto; right; eexists; (split; [reflexivity|]); auto. destruct l; try contradiction L; try exact I. discriminate Heqb. Qed.
Lemma coming_run c ls : forall s s', reachable step init s -> coming c (watcher s) -> Forall undisturbed ls -> run step s ls = Some s' -> coming c (watcher s').
Proof.
  induction ls as [|l ls IH]; cbn; intros s s' R C F H; [congruence|]. destruct (step s l) as [s1|] eqn:E; [|discriminate]. inversion F; subst.
  eapply IH; [eapply reachable_step; eassumption| |exact H3|exact H]. destruct (step_moves _ _ _ E) as (_ & m & P & E1 & _).
  pose proof (WatcherProofs.reachable_shape _ (WatcherProofs.reachable_from_cli _ (pt_watcher _ (reachable_parts _ R)))) as SH.
  destruct (undisturbed_watcher _ _ _ P H2) as [W|(x & W & L)]; rewrite W in E1; runs; [rewrite E1; exact C|].
  eapply coming_step; try eassumption. apply (fw_done _ _ (reachable_fine _ R)).
Qed.
Lemma coming_quiet c s : reachable step init s -> panicked s = None -> quiet s -> coming c (watcher s) -> SpecDistributor.current (Distributor.hist (dist s)) = Some c.
Proof.
  intros R P Q [F D M A]. destruct (quiet_serve s R P Q M) as [_ L]. pose proof (quiet_loop s R P Q L) as V.
  destruct (quiet_handler s R P Q V M) as [H|[H E]]; [rewrite H in A; discriminate A|]. destruct D as [D|(es & op & D & _)]; [|rewrite E in D; destruct es; discriminate D].
  pose proof (WatcherProofs.reachable_newest _ (pt_watcher _ (reachable_parts _ R)) D) as N. rewrite H, F in N. destruct N as [l N].
  destruct (quiet_all s R P Q M) as (c0 & _ & I & S & _). rewrite <- S, N in I. unfold SpecDistributor.current.
  apply (f_equal (@rev config)) in I. rewrite rev_involutive, rev_app_distr in I. rewrite I. reflexivity.
Qed.
Lemma change_coming s c s1 : reachable step init s -> main s = RServe -> FileWatcher.handler (watcher s) <> FileWatcher.H_None -> FileWatcher.handler (watcher s) <> FileWatcher.H_End ->
  step s (YWatcher (FileWatcher.LFile (Some c) [FileWatcher.OpWrite])) = Some s1 -> coming c (watcher s1).
Proof.
  intros R M H1 H2 E. destruct (step_moves _ _ _ E) as (_ & m & P & E1 & _). cbn in P. injection P as <-. cbn [mw] in E1. apply run_one in E1.
  pose proof (WatcherProofs.reachable_from_cli _ (pt_watcher _ (reachable_parts _ R))) as RW. pose proof (WatcherProofs.reachable_shape _ RW) as SH.
  pose proof (fw_main _ _ (reachable_fine _ R) M) as W.
  assert (WatcherFacts.alive (FileWatcher.handler (watcher s)) = true) as HA by (destruct (FileWatcher.handler (watcher s)); cbn; congruence).
  assert (FileWatcher.listening (watcher s) = true) as HL.
  { rewrite (WatcherProofs.sh_listen _ SH). apply existsb_exists. exists (FileWatcher.WAdd None). split; [apply (WatcherFacts.er_ret _ (WatcherFacts.reachable_err _ RW) _ W HA)|reflexivity]. }
  unfold FileWatcher.step in E1. destruct (FileWatcher.crashed (watcher s)); [discriminate|]. injection E1 as E1. rewrite <- E1, HL. constructor; cbn; auto.
  right. exists (FileWatcher.events (watcher s)), FileWatcher.OpWrite. split; reflexivity.
Qed.
