(** Listeners of the server model. *)
From Verif Require Export ServerProofs.
Require Import Lia.

Definition pre_lis (p : pc) : option nat := match p with A6 l | S0 l | S1 l | S2 l | S3 l => Some l | _ => None end.
Definition post_lis (p : pc) : option nat := match p with S4 l | S5 l | S6 l _ => Some l | _ => None end.
Definition at_s3 (p : pc) : Prop := match p with S3 _ => True | _ => False end.
Definition at_k4 (p : pc) : Prop := match p with K4 _ _ | K5 _ _ _ | K6 _ => True | _ => False end.
Record lis_inv (s : state) : Prop := {
  la_pre : forall t l, pre_lis (pcs s t) = Some l -> lis_open s l = true /\ ~ In l (installed (hist s));
  la_post : forall t l, post_lis (pcs s t) = Some l -> In l (installed (hist s));
  la_open : forall l, In l (installed (hist s)) -> lis_open s l = true -> listener s = Some l;
  la_last : forall l, listener s = Some l -> exists pre, installed (hist s) = pre ++ [l];
  la_closed : forall l, listener s = Some l -> lis_open s l = false -> exists t, at_s3 (pcs s t);
  la_s3 : forall t, at_s3 (pcs s t) -> forall l, In l (installed (hist s)) -> lis_open s l = false;
  la_k4 : forall t, at_k4 (pcs s t) -> listener s = None
}.
(** steps that do not touch listeners *)
Lemma lis_frame s s' :
  (forall t l, pre_lis (pcs s' t) = Some l -> exists t', pre_lis (pcs s t') = Some l) -> (forall t l, post_lis (pcs s' t) = Some l -> exists t', post_lis (pcs s t') = Some l) ->
  (forall t, at_s3 (pcs s' t) <-> at_s3 (pcs s t)) -> (forall t, at_k4 (pcs s' t) -> at_k4 (pcs s t)) ->
  listener s' = listener s -> lis_open s' = lis_open s -> installed (hist s') = installed (hist s) -> lis_inv s -> lis_inv s'.
Proof.
  intros H1 H2 H3 H4 H5 H6 H7 [I1 I2 I3 I4 I5 I6 I7]. constructor; rewrite ?H5, ?H6, ?H7; eauto.
  - intros t l Hl. destruct (H1 _ _ Hl) as [t' X]. eauto.
  - intros t l Hl. destruct (H2 _ _ Hl) as [t' X]. eauto.
  - intros l Hl Ho. destruct (I5 l Hl Ho) as [t X]. exists t. apply H3, X.
  - intros t Ht. apply H3 in Ht. eauto.
Qed.
Lemma pre_own p l : pre_lis p = Some l -> own_lis p = Some l.
Proof. destruct p; cbn; congruence. Qed.
Lemma post_own p l : post_lis p = Some l -> own_lis p = Some l.
Proof. destruct p; cbn; congruence. Qed.
Lemma one_section s t t' : lock_inv s -> in_section (pcs s t) -> in_section (pcs s t') -> t = t'.
Proof. intros HL H H'. apply HL in H. apply HL in H'. congruence. Qed.
Lemma s3_section p : at_s3 p -> in_section p.
Proof. destruct p; cbn; tauto. Qed.
Lemma k4_section p : at_k4 p -> in_section p.
Proof. destruct p; cbn; tauto. Qed.
Lemma lis_step s l s' : own_inv s -> lock_inv s -> lis_inv s -> step s l = Some s' -> lis_inv s'.
Proof.
  intros HO HL HI H. dstep H.
  all: try (eapply lis_frame; [| | | | | | |exact HI]; cbn; auto; [intros t1 l1|intros t1 l1|intros t1|intros t1]; unfold upd; eqs; eauto;
     match goal with E : pcs ?s ?t = _ |- _ => rewrite ?E; cbn; try congruence; try tauto; try (intros X; exists t; rewrite E; exact X) end; fail).
  all: try solve [destruct HI; constructor; assumption].
  all: try match goal with E : pcs ?s ?t = _, HL : lock_inv ?s |- _ => assert (forall t', in_section (pcs s t') -> in_section (pcs s t) -> t' = t) as Hone by (intros; eapply one_section; eassumption); rewrite E in Hone; cbn in Hone end.
  all: destruct HI as [I1 I2 I3 I4 I5 I6 I7]; destruct HO as [O1 O2 O3 _ _ _].
  all: try match goal with E : pcs ?s ?t = _, I1 : forall t l, pre_lis (pcs ?s t) = Some l -> _, O2 : forall t l, own_lis (pcs ?s t) = Some l -> (l < _)%nat |- _ =>
     lazymatch type of E with _ = Idle => fail | _ => idtac end;
     pose proof (I1 t) as A1; pose proof (O2 t) as A2; rewrite E in A1, A2; cbn in A1, A2; try specialize (A1 _ eq_refl); try specialize (A2 _ eq_refl); try destruct A1 as [A1 A1'] end.
  all: try match goal with E : pcs ?s ?t = _, I2 : forall t l, post_lis (pcs ?s t) = Some l -> _ |- _ =>
     lazymatch type of E with _ = Idle => fail | _ => idtac end;
     pose proof (I2 t) as B1; rewrite E in B1; cbn in B1; try specialize (B1 _ eq_refl) end.
  all: constructor; cbn; auto; unfold upd.
  all: try solve [intros l1 Hl1 Ho1; try discriminate Hl1; eqs; try discriminate Ho1; try (exfalso; congruence);
     match goal with I5 : forall l, _ -> _ -> exists t, at_s3 _, E : pcs ?s ?t = _ |- _ => destruct (I5 _ Hl1 Ho1) as [tx X]; exists tx; eqs; auto; rewrite ?E in X; cbn in *; tauto end].
  all: intros; eqs; cbn in *; try discriminate; try tauto; eauto.
  all: repeat match goal with E : Some _ = Some _ |- _ => injection E as E; subst end.
  all: repeat match goal with E : In _ (_ ++ _) |- _ => rewrite in_app_iff in E; destruct E as [E|[E|[]]]; [|subst] end; auto; try (rewrite in_app_iff; cbn; auto; fail).
  all: try solve [exfalso; match goal with O2 : forall t l, own_lis _ = _ -> (l < _)%nat, E : pre_lis (pcs _ ?t) = Some _ |- _ => apply pre_own, O2 in E; lia end].
  all: try solve [match goal with E : In _ (installed _), O3 : forall l, In l (installed _) -> (l < _)%nat |- _ => apply O3 in E; lia end].
  all: try solve [split; [reflexivity|]; intros X; match goal with O3 : forall l, In l (installed _) -> _ |- _ => apply O3 in X; lia end].
  all: try solve [match goal with |- lis_open ?s ?x = false => destruct (lis_open s x) eqn:Hop; [|reflexivity]; exfalso end;
     match goal with I3 : forall l, In l _ -> lis_open _ l = true -> _, HI : In _ (installed _) |- _ => pose proof (I3 _ HI Hop); congruence end].
  all: try solve [match goal with I5 : forall l, _ -> _ -> exists t, at_s3 _, H1 : listener _ = Some _, H2 : lis_open _ _ = false |- _ => destruct (I5 _ H1 H2) as [tx X]; exists tx; eqs; auto;
     repeat match goal with E : pcs _ _ = _ |- _ => rewrite E in X end; cbn in *; tauto end].
  all: try solve [exfalso; match goal with I4 : forall l, listener _ = Some l -> exists pre, _, H1 : listener _ = Some ?n, I1 : forall t l, pre_lis _ = _ -> _, HP : pre_lis _ = Some ?n |- _ => 
     destruct (I4 _ H1) as [pre X]; destruct (I1 _ _ HP) as [_ Y]; apply Y; rewrite X, in_app_iff; cbn; auto end].
  - destruct (I1 _ _ H) as [X Y]. split; [exact X|]. rewrite in_app_iff. intros [Z|[Z|[]]]; [auto|]. subst l0.
    apply n. eapply O1; [apply pre_own; exact H|]. rewrite Heqp. reflexivity.
  - rewrite in_app_iff. left. eauto.
  - exfalso. assert (X : at_s3 (pcs s t)) by (rewrite Heqp; exact I). rewrite (I6 _ X _ H) in H0. discriminate.
  - eauto.
  - exfalso. apply n. apply Hone; [apply s3_section; exact H|exact I].
  - exfalso. apply n. apply Hone; [apply s3_section; exact H|exact I].
  - exfalso. apply n. apply Hone; [apply k4_section; exact H|exact I].
  - exfalso. destruct (I4 _ Heqo0) as [pre X]. apply A1'. rewrite X, in_app_iff. cbn. auto.
  - exists t. rewrite Nat.eqb_refl. exact I.
  - exfalso. pose proof (I3 _ H H0). congruence.
Qed.

Lemma lis_init : lis_inv NewServer.
Proof. constructor; cbn; intros; try tauto; discriminate. Qed.
Lemma reachable_lis s : reachable step init s -> lis_inv s.
Proof.
  intros H. apply (reachable_invariant step init (fun s => own_inv s /\ lock_inv s /\ lis_inv s)) in H.
  - apply H.
  - intros ? ->. auto using own_init, lock_init, lis_init.
  - intros s1 l s2 (HO & HL & HI) Hs. split; [|split]; eauto using own_step, lock_step, lis_step.
Qed.
