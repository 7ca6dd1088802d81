(** Sessions have nothing to do with each other. *)
From Verif Require Export SpecIsolation SystemProofs SystemSessions SystemFlow SystemFacts SystemMore SystemQuiet.
Require Import Lia.

Lemma relaying_owner s t c : reachable step init s -> relaying s c -> ServerProofs.own_conn (Server.pcs (srv s) t) = Some c -> Server.pcs (srv s) t = Server.C6 c /\ Session.closed (sess s c) = EvInit.
Proof.
  intros R W O. unfold relaying in W. pose proof (lk_agree _ (reachable_linked _ R) _ _ O) as A. destruct (Server.pcs (srv s) t); cbn in *; try discriminate; try (rewrite W in A; try discriminate A; destruct A as [A _]; discriminate A).
  injection O as ->. split; [reflexivity|apply A].
Qed.
(** an action that is not the session's own leaves a relaying session alone *)
Lemma unmoved s l m v c : reachable step init s -> relaying s c -> plan s l = Some m -> run Server.step (srv s) (mv m) = Some v -> of_session c l = None -> ms m = [] \/ mc m <> c.
Proof.
  intros R W P V O. destruct (Nat.eq_dec (mc m) c) as [E|N]; [left|right; exact N]. pose proof (ca_srv _ (reachable_calm _ R)) as CV.
  assert (KK : forall t, match Server.pcs (srv s) t with Server.K4 _ _ | Server.K5 _ _ _ => False | _ => True end).
  { intros t. destruct (Nat.eq_dec t 0) as [->|X]; [destruct (cv_main _ CV) as [M|M]; destruct (Server.pcs (srv s) 0%nat); try exact I; discriminate || contradiction|].
    pose proof (cv_worker _ CV t X) as M. destruct (Server.pcs (srv s) t); try exact I; contradiction. }
  destruct l; cbn in P.
  all: repeat (match type of P with context [match ?x with _ => _ end] => destruct x eqn:? end; try discriminate P).
  all: injection P as <-; cbn in *; subst; try reflexivity; exfalso.
  all: try match goal with E : Server.pcs (srv ?s) ?t = _ |- _ => let A := fresh "A" in pose proof (relaying_owner s t _ R W) as A; rewrite E in A; cbn in A; try (destruct (A eq_refl); discriminate) end.
  all: try (rewrite Nat.eqb_refl in O; discriminate O).
  all: try solve [match goal with E : Server.pcs (srv ?s) ?t = _ |- _ => pose proof (KK t) as K; rewrite E in K; exact K end].
  all: try solve [match goal with H : returning (dist ?s) ?t = Some _, E : Server.pcs (srv ?s) ?t = Server.C6 _ |- _ =>
    pose proof (du_duty _ (reachable_duties _ R) t) as D; unfold duty in D; unfold returning in H; destruct (Distributor.pcs (dist s) t); try discriminate H; try contradiction;
    repeat match type of H with context [match ?x with _ => _ end] => destruct x; try discriminate H end; try contradiction;
    try (rewrite E in D; discriminate D); destruct D as (? & ? & D1 & D2 & _); rewrite E in D1; injection D1 as <-; unfold relaying in W; congruence end].
  all: match type of V with context [Server.step (srv ?s) (Server.LPick ?t ?c)] => pose proof (KK t) as K; unfold Server.step in V; destruct (Server.crashed (srv s)); [discriminate V|]; destruct (Server.pcs (srv s) t); try discriminate V; contradiction end.
Qed.
Lemma plan_same s b l m c : same_but c s b -> relaying s c -> relaying b c -> plan s l = Some m -> of_session c l = None -> ms m = [] \/ mc m <> c -> plan b l = Some m.
Proof.
  intros (EW & ED & EV & EM & ES) W1 W2 P O N. unfold relaying in *.
  assert (AL : forall l, server_alone b l = server_alone s l) by (intros l0; unfold server_alone, unused; rewrite EV, ED; reflexivity).
  assert (AD : forall l, dist_alone b l = dist_alone s l) by (intros l0; unfold dist_alone, unused; rewrite EV, ED; reflexivity).
  destruct l; cbn [plan] in *; rewrite ?AL, ?AD; rewrite <- ?EW, <- ?ED, <- ?EV, <- ?EM; try exact P.
  - cbn in O. destruct (Nat.eqb_spec c0 c) as [->|X]; [discriminate O|]. rewrite <- ES by exact X. exact P.
  - destruct (Server.pcs (srv s) t); try discriminate P. destruct (Nat.eq_dec c0 c) as [->|X]; [rewrite W1 in P; destruct (Distributor.pcs (dist s) t); discriminate P|]. rewrite <- ES by exact X. exact P.
  - destruct (Server.pcs (srv s) t); try discriminate P. destruct (Nat.eq_dec c0 c) as [->|X]; [rewrite W1 in P; discriminate P|]. rewrite <- ES by exact X. exact P.
  - destruct (Server.pcs (srv s) t); try discriminate P. destruct (Nat.eq_dec c0 c) as [->|X]; [|rewrite <- ES by exact X; exact P]. exfalso. destruct (Session.closed (sess s c)); try discriminate P; injection P as <-; cbn in N; destruct N; congruence.
  - destruct (Server.pcs (srv s) t); try discriminate P. destruct (Nat.eq_dec c0 c) as [->|X]; [|rewrite <- ES by exact X; exact P]. exfalso. destruct (Session.close_pc (sess s c) 0%nat); try discriminate P; injection P as <-; cbn in N; destruct N; congruence.
  - destruct (Nat.eq_dec c0 c) as [->|X]; [|rewrite <- ES by exact X; exact P]. exfalso. destruct (Session.closed (sess s c)); try discriminate P; injection P as <-; cbn in N; destruct N; congruence.
  - destruct (Server.pcs (srv s) t); try discriminate P. destruct (Nat.eq_dec c0 c) as [->|X]; [|rewrite <- ES by exact X; exact P]. exfalso. destruct (Session.close_pc (sess s c) (S t)); try discriminate P; injection P as <-; cbn in N; destruct N; congruence.
Qed.
Lemma other_step c a b l a' : reachable step init a -> relaying a c -> relaying b c -> same_but c a b -> panicked b = None -> of_session c l = None -> step a l = Some a' ->
  exists b', step b l = Some b' /\ same_but c a' b' /\ sess a' c = sess a c /\ sess b' c = sess b c.
Proof.
  intros R W1 W2 SB PB O H. destruct (step_moves _ _ _ H) as (_ & m & P & E1 & E2 & E3 & E4 & E5 & E6). pose proof (unmoved _ _ _ _ _ R W1 P E3 O) as N.
  pose proof (plan_same _ _ _ _ _ SB W1 W2 P O N) as P2. destruct SB as (EW & ED & EV & EM & ES).
  assert (X : exists x, run Session.step (sess b (mc m)) (ms m) = Some x /\ (mc m <> c -> x = sess a' (mc m)) /\ (mc m = c -> x = sess b c /\ sess a' c = sess a c)).
  { destruct N as [N|N].
    - rewrite N in *. cbn in *. injection E4 as E4. exists (sess b (mc m)). split; [reflexivity|]. split; [intros Z; rewrite <- E4, <- ES by exact Z; reflexivity|]. intros Z. rewrite Z in *. auto.
    - exists (sess a' (mc m)). rewrite <- ES by exact N. split; [exact E4|]. split; [reflexivity|]. intros Z. congruence. }
  destruct X as (x & X1 & X2 & X3). unfold step. rewrite PB, P2, <- EW, <- ED, <- EV, E1, E2, E3, X1. eexists. split; [reflexivity|]. split; [|split].
  - repeat split; cbn; auto. intros c' Hc. unfold upd. destruct (Nat.eqb_spec c' (mc m)) as [->|Z]; [rewrite X2 by exact Hc; reflexivity|]. rewrite E5 by exact Z. apply ES, Hc.
  - destruct (Nat.eq_dec (mc m) c) as [Z|Z]; [apply X3, Z|]. apply E5. congruence.
  - cbn. unfold upd. destruct (Nat.eqb_spec c (mc m)) as [Z|Z]; [apply X3; congruence|reflexivity].
Qed.
Lemma relaying_step s l s' c : reachable step init s -> relaying s c -> step s l = Some s' -> relaying s' c.
Proof. intros R W H. apply (established s c [l] s' R W). cbn. rewrite H. reflexivity. Qed.
Lemma panic_same c a b : same_but c a b -> Session.crashed (sess b c) = None -> panicked a = None -> panicked b = None.
Proof.
  intros (EW & ED & EV & EM & ES) C H. unfold panicked in *. rewrite <- EW, <- ED, <- EV. destruct (FileWatcher.crashed (watcher a)), (Distributor.crashed (dist a)), (Server.crashed (srv a)); try discriminate H.
  induction (seq 0 _) as [|x m IH]; cbn in *; [reflexivity|]. destruct (Nat.eq_dec x c) as [->|X]; [rewrite C; destruct (Session.crashed (sess a c)); [discriminate|auto]|].
  rewrite <- ES by exact X. destruct (Session.crashed (sess a x)); [discriminate|auto].
Qed.
Lemma panicked_stops s l : panicked s <> None -> step s l = None.
Proof. intros H. unfold step. destruct (panicked s); [reflexivity|congruence]. Qed.
Lemma relaying_there s c : reachable step init s -> relaying s c -> (c < Server.next_conn (srv s))%nat.
Proof. intros R W. destruct (Nat.lt_ge_cases c (Server.next_conn (srv s))) as [X|X]; [exact X|]. unfold relaying in W. rewrite (lk_fresh _ (reachable_linked _ R) c X) in W. discriminate W. Qed.
Lemma crash_stops x l : Session.crashed x <> None -> Session.step x l = None.
Proof. intros H. unfold Session.step. destruct (Session.crashed x); [reflexivity|congruence]. Qed.
Lemma own_step s x l s' : step s (YSession x l) = Some s' -> watcher s' = watcher s /\ dist s' = dist s /\ srv s' = srv s /\ main s' = main s /\ Session.step (sess s x) l = Some (sess s' x) /\ forall c, c <> x -> sess s' c = sess s c.
Proof.
  intros H. destruct (step_moves _ _ _ H) as (_ & m & P & E1 & E2 & E3 & E4 & E5 & E6). cbn in P. destruct (_ && _)%bool; [|discriminate]. injection P as <-. cbn in *. 
  destruct (Session.step (sess s x) l); [|discriminate]. repeat split; congruence || auto.
Qed.
Lemma of_session_inv c l x : of_session c l = Some x -> l = YSession c x.
Proof. destruct l; cbn; try discriminate. destruct (Nat.eqb_spec c0 c); [|discriminate]. congruence. Qed.

(** *** Whose bytes these are *)
Lemma arrives x l x' d : Session.step x l = Some x' -> SpecSession.arrived d (Session.hist x') = SpecSession.arrived d (Session.hist x) ++ match l with Session.LArrive d' b => if Session.side_eqb d d' then b else [] | _ => [] end.
Proof. intros H. SessionProofs.dstep H; cbn; rewrite ?app_nil_r; reflexivity. Qed.
Lemma arrived_only c d ls : forall s s', run step s ls = Some s' -> SpecSession.arrived d (Session.hist (sess s' c)) = SpecSession.arrived d (Session.hist (sess s c)) ++ received c d ls.
Proof.
  induction ls as [|l ls IH]; cbn; intros s s' H; [injection H as <-; symmetry; apply app_nil_r|]. destruct (step s l) as [s1|] eqn:E; [|discriminate]. rewrite (IH _ _ H), app_assoc. f_equal.
  destruct (step_moves _ _ _ E) as (_ & m & P & _ & _ & _ & E4 & E5 & _).
  assert (X : (exists x, l = YSession (mc m) x /\ ms m = [x]) \/ Forall (fun x => match x with Session.LArrive _ _ => False | _ => True end) (ms m) /\ match l with YSession _ (Session.LArrive _ _) => False | _ => True end).
  { destruct l; cbn in P; repeat (match type of P with context [match ?x with _ => _ end] => destruct x eqn:? end; try discriminate P); injection P as <-; cbn; eauto; right; split; auto; repeat constructor. }
  destruct X as [(x & -> & X)|[X Y]].
  - rewrite X in E4. cbn in E4. destruct (Session.step (sess s (mc m)) x) as [x1|] eqn:F; [|discriminate]. injection E4 as ->. destruct (Nat.eqb_spec (mc m) c) as [<-|N]; [rewrite (arrives _ _ _ d F); destruct x; try reflexivity|]. rewrite E5 by congruence. destruct x; cbn; rewrite ?app_nil_r; reflexivity.
  - assert (Z : SpecSession.arrived d (Session.hist (sess s1 c)) = SpecSession.arrived d (Session.hist (sess s c))).
    { destruct (Nat.eq_dec c (mc m)) as [->|N]; [|rewrite E5 by exact N; reflexivity]. clear - X E4. revert X E4. generalize (sess s (mc m)). induction (ms m) as [|y ys IH]; cbn; intros x X E; [injection E as ->; reflexivity|].
      destruct (Session.step x y) as [x1|] eqn:F; [|discriminate]. inversion X; subst. rewrite (IH x1) by assumption. rewrite (arrives _ _ _ d F). destruct y; try contradiction; apply app_nil_r. }
    rewrite Z. symmetry. destruct l; try apply app_nil_r. destruct l; try apply app_nil_r. contradiction.
Qed.

(** taking the actions of a relaying session out of an execution *)
Lemma without_gen c ls : forall a b a', reachable step init a -> reachable step init b -> relaying a c -> relaying b c -> same_but c a b -> Session.crashed (sess b c) = None ->
  run step a ls = Some a' ->
  exists b', run step b (others c ls) = Some b' /\ same_but c a' b' /\ sess b' c = sess b c /\ run Session.step (sess a c) (acts_of c ls) = Some (sess a' c).
Proof.
  induction ls as [|l ls IH]; intros a b a' RA RB WA WB SB CB H.
  - injection H as <-. exists b. cbn. auto.
  - cbn in H. destruct (step a l) as [a1|] eqn:E; [|discriminate]. cbn [others filter acts_of flat_map]. destruct (of_session c l) as [x|] eqn:O; cbn [app].
    + apply of_session_inv in O. subst l. destruct (own_step _ _ _ _ E) as (Q1 & Q2 & Q3 & Q4 & Q5 & Q6). destruct (IH a1 b a') as (b' & X1 & X2 & X3 & X4); auto.
      * exact (reachable_step _ _ _ _ _ RA E).
      * exact (relaying_step _ _ _ _ RA WA E).
      * destruct SB as (S1 & S2 & S3 & S4 & S5). repeat split; try congruence. intros c' Hc. rewrite Q6 by exact Hc. apply S5, Hc.
      * exists b'. split; [exact X1|]. split; [exact X2|]. split; [exact X3|]. cbn. rewrite Q5. exact X4.
    + destruct (step_moves _ _ _ E) as (PA & _). destruct (other_step c a b l a1 RA WA WB SB (panic_same _ _ _ SB CB PA) O E) as (b1 & Y1 & Y2 & Y3 & Y4).
      destruct (IH a1 b1 a') as (b' & X1 & X2 & X3 & X4); auto.
      * exact (reachable_step _ _ _ _ _ RA E).
      * exact (reachable_step _ _ _ _ _ RB Y1).
      * unfold relaying. rewrite Y3. exact WA.
      * unfold relaying. rewrite Y4. exact WB.
      * rewrite Y4. exact CB.
      * exists b'. split; [cbn; rewrite Y1; exact X1|]. split; [exact X2|]. split; [congruence|]. rewrite <- Y3. exact X4.
Qed.
(** putting actions of a relaying session into an execution *)
Lemma with_gen c ls : forall a b b' x, reachable step init a -> reachable step init b -> relaying a c -> relaying b c -> same_but c a b -> panicked a = None ->
  run step b (others c ls) = Some b' -> panicked b' = None -> run Session.step (sess a c) (acts_of c ls) = Some x -> Session.crashed x = None -> Forall relay_action (acts_of c ls) ->
  exists a', run step a ls = Some a' /\ same_but c a' b' /\ sess a' c = x.
Proof.
  induction ls as [|l ls IH]; intros a b b' x RA RB WA WB SB PA H PB HX CX F.
  - cbn in *. injection H as <-. injection HX as <-. exists a. auto.
  - cbn [others filter acts_of flat_map] in *. destruct (of_session c l) as [y|] eqn:O; cbn [app] in *.
    + apply of_session_inv in O. subst l. inversion F as [|? ? FY F']; subst. cbn in HX. destruct (Session.step (sess a c) y) as [x1|] eqn:E; [|discriminate].
      assert (ST : step a (YSession c y) = Some (State (watcher a) (dist a) (srv a) (upd (sess a) c x1) (main a))).
      { unfold step. rewrite PA. cbn. rewrite (proj2 (Nat.ltb_lt _ _) (relaying_there a c RA WA)). assert (session_alone (sess a c) y = true) as -> by (destruct y; cbn in *; try contradiction; try reflexivity; rewrite WA; reflexivity).
        cbn. rewrite E. reflexivity. }
      assert (CX1 : Session.crashed x1 = None). { destruct (acts_of c ls) as [|z zs] eqn:EZ; [unfold acts_of in EZ; rewrite EZ in HX; cbn in HX; injection HX as <-; exact CX|]. unfold acts_of in EZ. rewrite EZ in HX. cbn in HX. destruct (Session.crashed x1) eqn:Z; [|reflexivity]. rewrite crash_stops in HX by congruence. discriminate HX. }
      assert (SB1 : same_but c (State (watcher a) (dist a) (srv a) (upd (sess a) c x1) (main a)) b).
      { destruct SB as (S1 & S2 & S3 & S4 & S5). repeat split; cbn; auto. intros c' Hc. rewrite upd_other by exact Hc. apply S5, Hc. }
      destruct (IH (State (watcher a) (dist a) (srv a) (upd (sess a) c x1) (main a)) b b' x) as (a' & X1 & X2 & X3); auto.
      * exact (reachable_step _ _ _ _ _ RA ST).
      * exact (relaying_step _ _ _ _ RA WA ST).
      * apply (panic_same c a); [|cbn; rewrite upd_same; exact CX1|exact PA]. repeat split; cbn; auto. intros c' Hc. rewrite upd_other by exact Hc. reflexivity.
      * cbn. rewrite upd_same. exact HX.
      * exists a'. split; [cbn [run]; rewrite ST; exact X1|auto].
    + cbn in H. destruct (step b l) as [b1|] eqn:E; [|discriminate].
      assert (SB' : same_but c b a) by (destruct SB as (S1 & S2 & S3 & S4 & S5); repeat split; auto; intros c' Hc; symmetry; apply S5, Hc).
      destruct (other_step c b a l b1 RB WB WA SB' PA O E) as (a1 & Y1 & Y2 & Y3 & Y4).
      assert (PB1 : panicked b1 = None). { destruct (panicked b1) eqn:Z; [|reflexivity]. destruct (others c ls) as [|z zs] eqn:EZ; unfold others in EZ; rewrite EZ in H; cbn in H; [congruence|]. rewrite panicked_stops in H by congruence. discriminate H. }
      assert (CA : Session.crashed (sess a c) = None) by (apply (panic_session a c PA), relaying_there; assumption).
      destruct (IH a1 b1 b' x) as (a' & X1 & X2 & X3); auto.
      * exact (reachable_step _ _ _ _ _ RA Y1).
      * exact (reachable_step _ _ _ _ _ RB E).
      * unfold relaying. rewrite Y4. exact WA.
      * unfold relaying. rewrite Y3. exact WB.
      * destruct Y2 as (S1 & S2 & S3 & S4 & S5). repeat split; auto. intros c' Hc. symmetry. apply S5, Hc.
      * apply (panic_same c b1); [exact Y2|rewrite Y4; exact CA|exact PB1].
      * unfold acts_of. rewrite Y4. exact HX.
      * exists a'. split; [cbn; rewrite Y1; exact X1|auto].
Qed.
