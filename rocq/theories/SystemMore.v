(** The server's channel, the watcher in the whole program, and the numbers of goroutines. *)
From Verif Require Export SystemOrder.
From Verif Require WatcherFacts.
From Verif Require DistributorDead WatcherProofs.
Require Import Lia.

(** *** The server's channel *)
Definition chan_ok (fresh : bool) (d : Distributor.state) : Prop :=
  if fresh then Distributor.chans d 0%nat = None else exists q, Distributor.chans d 0%nat = Some (Distributor.Chan 1 q false None).
Definition unmade (s : state) : bool :=
  match Distributor.pcs (dist s) 0%nat with Distributor.Idle => early (Server.pcs (srv s) 0%nat) | _ => false end.
Lemma chan_ok_step b d l d' : (forall t, normal (Distributor.pcs d t)) -> chan_ok b d -> Distributor.step d l = Some d' -> (forall n, l <> Distributor.LNewChan 0 n) -> l <> Distributor.LCloseChan 0 -> chan_ok b d'.
Proof.
  intros N C H L1 L2. unfold chan_ok in *.
  ddstep H; cbn; auto; unfold upd; repeat (eqs; cbn); auto.
  all: repeat match goal with E : Distributor.pcs ?d ?t = ?p |- _ => lazymatch goal with _ : normal p /\ t = t |- _ => fail | _ => let X := fresh "NO" in pose proof (N t) as X; rewrite E in X; assert (normal p /\ t = t) by (split; [exact X|reflexivity]) end end; cbn in *; try contradiction.
  all: try (exfalso; subst; eapply L1; reflexivity).
  all: try (exfalso; apply L2; congruence). 
  all: destruct b; [congruence|]; destruct C as [q C].
  all: try match goal with E : Distributor.chans _ ?c = Some _ |- _ => subst; rewrite C in E; injection E as <- || injection E as <- <- <- || idtac end; cbn in *; eauto.
  subst. eauto.
Qed.
Definition is_idle (p : Distributor.pc) : bool := match p with Distributor.Idle => true | _ => false end.
Lemma alone_idle s l d' : (forall t, normal (Distributor.pcs (dist s) t)) -> calm_dist (dist s) -> dist_alone s l = true -> Distributor.step (dist s) l = Some d' ->
  is_idle (Distributor.pcs d' 0%nat) = is_idle (Distributor.pcs (dist s) 0%nat).
Proof.
  intros N [C1 C2 C3] A H. ddstep H; cbn in A; try discriminate A.
  all: repeat match goal with E : Distributor.pcs ?d ?t = ?p |- _ => lazymatch goal with _ : normal p /\ t = t |- _ => fail | _ => let X := fresh "NO" in pose proof (N t) as X; rewrite E in X; assert (normal p /\ t = t) by (split; [exact X|reflexivity]) end end; cbn in *; try contradiction.
  all: unfold returning in A; repeat match goal with E : Distributor.pcs (dist ?s) ?t = ?p |- _ => rewrite E in A end; cbn in A; try discriminate A.
  all: try (rewrite C1 in *; cbn in *; discriminate); try (rewrite C2 in *; cbn in *; discriminate).
  all: try (destruct k; try contradiction; try discriminate A).
  all: unfold upd; repeat (eqs; cbn); auto.
  all: try match goal with E : Distributor.pcs _ _ = _ |- _ => subst; rewrite E; reflexivity end.
  all: apply unused_spec in A; destruct A; congruence.
Qed.
Lemma unmade_alt s : unmade s = (is_idle (Distributor.pcs (dist s) 0%nat) && early (Server.pcs (srv s) 0%nat))%bool.
Proof. unfold unmade. destruct (Distributor.pcs (dist s) 0%nat); reflexivity. Qed.
Lemma chan_step s l s' : reachable step init s -> chan_ok (unmade s) (dist s) -> step s l = Some s' -> chan_ok (unmade s') (dist s').
Proof.
  intros R C E. assert (R' : reachable step init s') by (eapply reachable_step; eassumption). destruct (step_moves _ _ _ E) as (_ & m & P & _ & E2 & E3 & _).
  pose proof (reachable_calm _ R) as CA. pose proof (ca_srv _ CA) as CV. pose proof (ca_dist _ CA) as CD. pose proof (du_duty _ (reachable_duties _ R)) as D.
  destruct (calm_plan _ _ _ _ CA P E3) as (C1 & C2 & _).
  assert (N : forall t, normal (Distributor.pcs (dist s) t)) by (intros t; apply duty_normal, D).
  (* no channel is made *)
  assert (One : forall l1, md m = [l1] -> (forall n, l1 <> Distributor.LNewChan 0 n) -> unmade s' = unmade s -> chan_ok (unmade s') (dist s')).
  { intros l1 X Y ->. rewrite X in E2, C1. apply run_one in E2. eapply chan_ok_step; eauto. intros ->. inversion C1; subst. contradiction. }
  assert (Z : md m = [] -> early (Server.pcs (srv s') 0%nat) = early (Server.pcs (srv s) 0%nat) -> chan_ok (unmade s') (dist s')).
  { intros X Y. rewrite X in E2. apply run_none in E2. rewrite unmade_alt, E2, Y, <- unmade_alt. exact C. }
  assert (Ve : mv m = [] -> early (Server.pcs (srv s') 0%nat) = early (Server.pcs (srv s) 0%nat)) by (intros X; rewrite X in E3; apply run_none in E3; rewrite E3; reflexivity).
  assert (Vo : forall l1, mv m = [l1] -> (forall r, l1 <> Server.LSubscribe 0 r) -> early (Server.pcs (srv s') 0%nat) = early (Server.pcs (srv s) 0%nat)).
  { intros l1 X Y. rewrite X in E3, C2. apply run_one in E3. eapply early_step; eauto. destruct C2 as [C2|[? C2]]; [|discriminate C2]. inversion C2; assumption. }
  assert (I0 : Distributor.pcs (dist s') 0%nat = Distributor.pcs (dist s) 0%nat -> mv m = [] -> unmade s' = unmade s) by (intros X Y; rewrite !unmade_alt, X, (Ve Y); reflexivity).
  assert (T0 : forall t c, Server.pcs (srv s) t = Server.C6 c -> t <> 0%nat).
  { intros t c X ->. pose proof (cv_main _ CV) as M. rewrite X in M. destruct M as [M|[]]. discriminate M. }
  destruct l.
  - dplan P. apply Z; auto.
  - dplan P. apply (One l); auto.
    + intros n ->. discriminate Heqb.
    + apply run_one in E2. rewrite !unmade_alt, (alone_idle _ _ _ N CD Heqb E2), (Ve eq_refl). reflexivity.
  - dplan P. apply Z; auto. apply (Vo l); auto. intros r ->. discriminate Heqb.
  - dplan P. apply Z; auto.
  - dplan P. apply Z; auto. apply (Vo (Server.LStart 0)); auto. discriminate.
  - dplan P. apply run_two in E2. destruct E2 as (d1 & X1 & X2).
    assert (Y : Distributor.pcs (dist s') 0%nat = Distributor.S0 0%nat [listen_changed] Distributor.STop /\ Distributor.chans (dist s') 0%nat = Some (Distributor.Chan 1 [] false None)).
    { revert X1 X2. clear. generalize (dist s'). intros d' X1 X2. ddstep X1. ddstep X2. auto. }
    destruct Y as [Y1 Y2]. unfold unmade, chan_ok. rewrite Y1. eauto.
  - assert (X : md m = [Distributor.LGo 0] /\ mv m = [Server.LSubscribe 0 None] /\ Server.pcs (srv s) 0%nat = Server.A3 /\ returning (dist s) 0 = Some Distributor.RNil).
    { dplan P; auto. apply (returning_calm _ _ _ CD) in Heqo. destruct Heqo as [(? & ? & ?)|[(? & ? & ? & ?)|(? & ? & ?)]]; congruence. }
    destruct X as (X1 & X2 & X3 & X4). apply (One (Distributor.LGo 0)); [exact X1|discriminate|].
    apply (returning_calm _ _ _ CD) in X4. destruct X4 as [(_ & X & _)|[(X & _)|(X & _)]]; try (destruct X; reflexivity).
    rewrite X2 in E3. apply run_one in E3. unfold Server.step in E3. rewrite (cv_crash _ CV), X3 in E3. injection E3 as E3.
    rewrite !unmade_alt, X, <- E3. cbn. apply andb_false_r.
  - dplan P. apply (One (Distributor.LSource t c)); auto; [discriminate|]. apply run_one in E2. apply I0; [|reflexivity].
    pose proof (cd_pcs _ CD t) as Q. revert E2 Q. clear. generalize (dist s'). intros d' H Q. ddstep H; cbn in *; apply upd_other; congruence.
  - dplan P. apply (One (Distributor.LRecv 0)); auto; [discriminate|]. apply run_one in E2. apply run_two in E3. destruct E3 as (v1 & X & Y).
    rewrite !unmade_alt, (calm_update _ _ _ _ CV Heqp X Y), Heqp. cbn. rewrite !andb_false_r. reflexivity.
  - dplan P. apply (One (Distributor.LCall t Distributor.CGet)); auto; [discriminate|]. apply run_one in E2. apply I0; [|reflexivity].
    apply T0 in Heqp. revert E2 Heqp. clear. generalize (dist s'). intros d' H Q. ddstep H. cbn in *. apply upd_other. congruence.
  - assert (X : exists c, Server.pcs (srv s) t = Server.C6 c /\ md m = [Distributor.LGo t] /\ mv m = []) by (clear - P; dplan P; eauto).
    destruct X as (c & Hp & X1 & X2). apply (One (Distributor.LGo t)); auto; [discriminate|]. apply I0; [|exact X2].
    apply T0 in Hp. rewrite X1 in E2. apply run_one in E2. pose proof (N t) as NT.
    assert (Q : returning (dist s) t <> None) by (clear - P; dplan P; congruence). destruct (returning (dist s) t) as [r1|] eqn:Q1; [|congruence].
    apply (returning_calm _ _ _ CD) in Q1. destruct Q1 as [(-> & _)|[(_ & c1 & Q1 & _)|(_ & ch & Q1)]]; [congruence| |rewrite Q1 in NT; destruct NT].
    revert E2 Q1 Hp. clear. generalize (dist s'). intros d' H Q Hn. ddstep H; try congruence. cbn. apply upd_other. congruence.
  - dplan P. apply Z; auto. apply (Vo (Server.LGo t)); auto. discriminate.
  - dplan P. apply Z; auto. apply (Vo (Server.LEnd t r)); auto. discriminate.
  - assert (X : md m = [] /\ mv m = [Server.LGo t]) by (clear - P; dplan P; auto). apply Z; [tauto|]. apply (Vo (Server.LGo t)); [tauto|discriminate].
  - dplan P. apply Z; auto. apply (Vo (Server.LGo t)); auto. discriminate.
  - exfalso. eapply no_pick; eassumption.
  - dplan P. apply Z; auto. apply (Vo (Server.LGo t)); auto. discriminate.
  - exfalso. dplan P. pose proof (cv_main _ CV) as M. rewrite Heqp in M. destruct M as [M|[]]; discriminate M.
  - exfalso. dplan P. pose proof (cv_main _ CV) as M. rewrite Heqp in M. destruct M as [M|[]]; discriminate M.
  - exfalso. dplan P. pose proof (cv_main _ CV) as M. rewrite Heqp in M. destruct M as [M|[]]; discriminate M.
  - exfalso. destruct (ca_main _ CA) as [[X _]|[X _]]; unfold plan in P; rewrite X in P; discriminate P.
Qed.
Lemma reachable_chan s : reachable step init s -> chan_ok (unmade s) (dist s).
Proof. revert s. apply sys_induct; [|apply chan_step]. intros f. reflexivity. Qed.

(** *** Nothing but a session crashes *)
Lemma no_close_step d l d' : Distributor.step d l = Some d' -> calm_dist_label l -> (forall ch, ~ In (Distributor.HCloseChan ch) (Distributor.hist d)) ->
  forall ch, ~ In (Distributor.HCloseChan ch) (Distributor.hist d').
Proof. intros H L N. ddstep H; cbn in L; try contradiction; cbn; intros ch' X; try (apply (N ch'); tauto); repeat (destruct X as [X|X]; [discriminate X|]); apply (N ch'); exact X. Qed.
Lemma no_close_run ls : forall d d', run Distributor.step d ls = Some d' -> Forall calm_dist_label ls -> (forall ch, ~ In (Distributor.HCloseChan ch) (Distributor.hist d)) ->
  forall ch, ~ In (Distributor.HCloseChan ch) (Distributor.hist d').
Proof.
  induction ls as [|l ls IH]; cbn; intros d d' H F N; [injection H as <-; exact N|]. destruct (Distributor.step d l) eqn:E; [|discriminate]. inversion F; subst.
  eapply IH; eauto. eapply no_close_step; eauto.
Qed.
Lemma no_close s : reachable step init s -> forall ch, ~ In (Distributor.HCloseChan ch) (Distributor.hist (dist s)).
Proof.
  revert s. apply (sys_induct (fun s => forall ch, ~ In (Distributor.HCloseChan ch) (Distributor.hist (dist s)))); [intros f ch []|]. intros s l s' R I E. destruct (step_moves _ _ _ E) as (_ & m & P & _ & E2 & E3 & _).
  destruct (calm_plan _ _ _ _ (reachable_calm _ R) P E3) as (C1 & _). eapply no_close_run; eauto.
Qed.
Lemma dist_no_crash s : reachable step init s -> Distributor.crashed (dist s) = None.
Proof.
  intros R. apply DistributorDead.polite_no_crash; [apply (pt_dist _ (reachable_parts _ R))|]. intros h2 ch h1 E. exfalso. apply (no_close _ R ch). rewrite E. apply in_elt.
Qed.
Record fine_watcher (m : rpc) (w : FileWatcher.state) : Prop := {
  fw_crash : FileWatcher.crashed w = None;
  fw_done : FileWatcher.done w <> FileWatcher.ChClosed;
  fw_main : m = RServe -> FileWatcher.main w = FileWatcher.M_Returned None
}.
Lemma fine_watcher_step m w l w' : FileWatcher.step w l = Some w' -> l <> FileWatcher.LStop -> fine_watcher m w -> fine_watcher m w'.
Proof.
  intros H N [I1 I2 I3]. WatcherProofs.dstep H; constructor; cbn; auto; try congruence; try (intros X; specialize (I3 X); congruence).
Qed.
Lemma reachable_fine s : reachable step init s -> fine_watcher (main s) (watcher s).
Proof.
  revert s. apply (sys_induct (fun s => fine_watcher (main s) (watcher s))).
  - intros f. constructor; cbn; congruence.
  - intros s l s' R I E. destruct (step_moves _ _ _ E) as (_ & m & P & E1 & _ & _ & _ & _ & E6).
    assert (K : main s' = main s -> fine_watcher (main s') (watcher s')).
    { intros ->. assert (X : mw m = [] \/ exists l1, mw m = [l1] /\ l1 <> FileWatcher.LStop).
      { dplan P; auto; right; eexists; (split; [reflexivity|]); try discriminate. intros ->. discriminate Heqb. }
      destruct X as [X|(l1 & X & Y)]; rewrite X in E1; [apply run_none in E1; rewrite E1; exact I|]. apply run_one in E1. eapply fine_watcher_step; eauto. }
    destruct (ca_main _ (reachable_calm _ (reachable_step _ _ _ _ _ R E))) as [[X _]|[X _]]; destruct (ca_main _ (reachable_calm _ R)) as [[Y _]|[Y _]]; try (apply K; congruence).
    + exfalso. rewrite E6 in X. dplan P; cbn in X; congruence.
    + assert (mw m = [] /\ FileWatcher.main (watcher s) = FileWatcher.M_Returned None) as [Z1 Z2]. { rewrite E6 in X. clear - P X Y. dplan P; cbn in X; try congruence. auto. }
      rewrite Z1 in E1. apply run_none in E1. rewrite E1. destruct I as [I1 I2 I3]. constructor; auto.
Qed.

(** *** Nothing is ever closed *)
Lemma panicked_session s p : reachable step init s -> panicked s = Some p -> exists c, (c < Server.next_conn (srv s))%nat /\ Session.crashed (sess s c) = Some p.
Proof.
  intros R. unfold panicked. rewrite (fw_crash _ _ (reachable_fine _ R)), (dist_no_crash _ R), (cv_crash _ (ca_srv _ (reachable_calm _ R))).
  intros H. assert (X : exists c, In c (seq 0 (Server.next_conn (srv s))) /\ Session.crashed (sess s c) = Some p).
  { induction (seq 0 _) as [|c l IH]; cbn in H; [discriminate|]. destruct (Session.crashed (sess s c)) eqn:E.
    - exists c. split; [left; reflexivity|congruence].
    - destruct (IH H) as (c' & A & B). exists c'. split; [right; exact A|exact B]. }
  destruct X as (c & A & B). exists c. split; [|exact B]. apply in_seq in A. lia.
Qed.
Lemma no_fire s : reachable step init s -> ~ In Distributor.HFire (Distributor.hist (dist s)).
Proof.
  intros R X. apply (DistributorProofs.ci_fire _ (DistributorProofs.reachable_both_close _ (pt_dist _ (reachable_parts _ R)))) in X.
  rewrite (cd_closed _ (ca_dist _ (reachable_calm _ R))) in X. discriminate X.
Qed.
(** *** The server's channel is the only one *)
Record single (d : Distributor.state) : Prop := {
  sg_chan : forall ch, ch <> 0%nat -> Distributor.chans d ch = None;
  sg_sub : forall ch cs, In (Distributor.HSub ch cs) (Distributor.hist d) -> ch = 0%nat /\ cs = [listen_changed];
  sg_pc : forall t ch cs k, Distributor.pcs d t = Distributor.S2 ch cs k -> ch = 0%nat /\ cs = [listen_changed]
}.
Lemma single_step d l d' : (forall t, normal (Distributor.pcs d t)) -> single d -> Distributor.step d l = Some d' -> (forall ch n, l = Distributor.LNewChan ch n -> ch = 0%nat) -> calm_dist d -> calm_dist d' ->
  single d'.
Proof.
  intros N [I1 I2 I3] H L C C'. constructor.
  - ddstep H; cbn; auto; unfold upd; intros ch' Hc; repeat (eqs; cbn); auto; try congruence.
    all: repeat match goal with E : Distributor.pcs ?d ?t = ?p |- _ => lazymatch goal with _ : normal p /\ t = t |- _ => fail | _ => let X := fresh "NO" in pose proof (N t) as X; rewrite E in X; assert (normal p /\ t = t) by (split; [exact X|reflexivity]) end end; cbn in *; try contradiction.
    all: try (specialize (L _ _ eq_refl); congruence).
    all: try (match goal with E : Distributor.chans _ ?c = Some _ |- _ => specialize (I1 c); rewrite I1 in E by congruence; discriminate E end).
  - ddstep H; cbn; auto; intros ch' cs' X; repeat (destruct X as [X|X]; [first [discriminate X|injection X as <- <-; eapply I3; eassumption]|]); eauto.
  - intros t ch cs k E. pose proof (cd_pcs _ C' t) as Q. rewrite E in Q. destruct k; [cbn in Q; tauto|]. exfalso.
    revert E. ddstep H; cbn; unfold upd; repeat (eqs; cbn); try discriminate; intros E; try (injection E as -> -> ->).
    all: repeat match goal with E : Distributor.pcs ?d ?t = ?p |- _ => lazymatch goal with _ : normal p /\ t = t |- _ => fail | _ => let X := fresh "NO" in pose proof (N t) as X; rewrite E in X; assert (normal p /\ t = t) by (split; [exact X|reflexivity]) end end; cbn in *; try contradiction; try discriminate.
Qed.
Lemma one_or_call s l m : plan s l = Some m -> md m = [] \/ (exists l1, md m = [l1] /\ forall ch n, l1 <> Distributor.LNewChan ch n) \/
  l = YSubscribe /\ md m = [Distributor.LNewChan 0 1; Distributor.LCall 0 (Distributor.CSubscribe 0 [listen_changed])].
Proof. intros P. dplan P; auto; right; left; eexists; (split; [reflexivity|]); try discriminate. intros ch n ->. discriminate Heqb. Qed.
Lemma reachable_single s : reachable step init s -> single (dist s).
Proof.
  revert s. apply (sys_induct (fun s => single (dist s))).
  - intros f. constructor; cbn; try tauto. discriminate.
  - intros s l s' R I E. pose proof (reachable_calm _ R) as CA. pose proof (reachable_calm _ (reachable_step _ _ _ _ _ R E)) as CA'.
    destruct (step_moves _ _ _ E) as (_ & m & P & _ & E2 & _). pose proof (du_duty _ (reachable_duties _ R)) as D.
    assert (N : forall t, normal (Distributor.pcs (dist s) t)) by (intros t; apply duty_normal, D).
    destruct (one_or_call _ _ _ P) as [X|[(l1 & X & Y)|(_ & X)]]; rewrite X in E2.
    + apply run_none in E2. rewrite E2. exact I.
    + apply run_one in E2. eapply single_step; eauto using ca_dist. intros ch n ->. destruct (Y _ _ eq_refl).
    + apply run_two in E2. destruct E2 as (d1 & X1 & X2). destruct I as [I1 I2 I3]. revert X1 X2. generalize (dist s'). intros d' X1 X2. ddstep X1. ddstep X2.
      constructor; cbn.
      * intros ch Hc. rewrite upd_other by exact Hc. auto.
      * intros ch cs [Q|Q]; [discriminate Q|]. eauto.
      * intros t ch cs k. unfold upd. eqs; [discriminate|]. eauto.
Qed.
Lemma reachable_safe s : reachable step init s -> SpecDistributor.safe (dist s).
Proof.
  intros R w ch r (_ & _ & O & _). unfold SpecDistributor.owner in O. pose proof (reachable_chan _ R) as C. destruct (Nat.eq_dec ch 0) as [->|X].
  - unfold chan_ok in C. destruct (unmade s); [rewrite C in O; discriminate O|]. destruct C as [q C]. rewrite C in O. discriminate O.
  - rewrite (sg_chan _ (reachable_single _ R)) in O by exact X. discriminate O.
Qed.
