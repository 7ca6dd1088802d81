(** What a Start or Close call did by the time it returns. *)
From Verif Require Export ServerLate.
Require Import Lia.

Definition closed_with (t : tid) (r : option error) (m : list event) : Prop := m = [HShutdown t] /\ r = None \/ exists l, m = [HListenerClosed t l r; HShutdown t].
Definition start_outcome (t : tid) (r : option error) (m : list event) : Prop :=
  m = [] /\ (r = Some ErrServerClosed \/ r = Some ErrServerAlreadyStarted) \/ m = [HStarted t] /\ r <> None.
Definition close_outcome (t : tid) (r : option error) (m : list event) : Prop :=
  m = [] /\ r = None \/ exists m', m = HWaited t :: m' /\ closed_with t r m'.
Definition acts_ok (t : tid) (p : pc) (m : list event) : Prop :=
  match p with
  | A0 | A1 | K0 => m = []
  | A2 | A3 | A4 | A5 _ | A6 _ => m = [HStarted t]
  | A7 r => m = [HStarted t] /\ r <> None
  | ARet r => start_outcome t r m
  | K1 | K2 | K3 => m = [HShutdown t]
  | K4 r _ | K5 r _ _ | K6 r | K7 r => closed_with t r m
  | K8 r => exists m', m = HWaited t :: m' /\ closed_with t r m'
  | KRet r => close_outcome t r m
  | _ => True
  end.
Definition acts_inv s := (forall t, acts_ok t (pcs s t) (acts t (hist s))) /\
  (forall h1 h2 t r, hist s = h1 ++ HRet t CStart r :: h2 -> start_outcome t r (acts t h2)) /\
  (forall h1 h2 t r, hist s = h1 ++ HRet t CClose r :: h2 -> close_outcome t r (acts t h2)).
Lemma acts_pc s l s' : (forall t, acts_ok t (pcs s t) (acts t (hist s))) -> step s l = Some s' -> forall t, acts_ok t (pcs s' t) (acts t (hist s')).
Proof.
  intros HI H t1. pose proof (HI t1) as X. clear HI.
  dstep H; cbn; unfold upd in *; eqs; cbn; auto.
  all: try match goal with E : pcs ?s ?t = _, X : acts_ok _ (pcs ?s ?t) _ |- _ => rewrite E in X; cbn in X end.
  all: rewrite ?Nat.eqb_refl; try congruence; auto.
  all: try (eqs; congruence).
  all: try (split; [assumption|discriminate]).
  - left. auto.
  - left. auto.
  - right. exact X.
  - left. auto.
  - left. auto.
  - eauto.
  - right. exact X.
  - right. exists n. rewrite X. reflexivity.
Qed.
Lemma step_rets s l s' : step s l = Some s' -> exists es, hist s' = es ++ hist s /\
  forall h1 k t, (forall r, es = h1 ++ HRet t CStart r :: k -> k = [] /\ pcs s t = ARet r) /\ (forall r, es = h1 ++ HRet t CClose r :: k -> k = [] /\ pcs s t = KRet r).
Proof.
  intros H. dstep H; cbn; match goal with |- exists es, ?h = es ++ ?h /\ _ => exists [] | |- exists es, ?a :: ?b :: ?h = es ++ ?h /\ _ => exists [a; b] | |- exists es, ?a :: ?h = es ++ ?h /\ _ => exists [a] end.
  all: (split; [reflexivity|]); intros h1 k t1; split; intros r1 X; repeat (destruct h1 as [|? h1]; cbn in X; try discriminate X; try (injection X as ? X; subst)); try discriminate.
  all: try (injection X as ? ? ?; subst); subst; try (split; [reflexivity|assumption]).
Qed.
Lemma acts_step s l s' : acts_inv s -> step s l = Some s' -> acts_inv s'.
Proof.
  intros (I1 & I2 & I3) H. split; [eapply acts_pc; eassumption|]. destruct (step_rets _ _ _ H) as (es & E & Hr).
  split; intros h1 h2 t r E'; rewrite E in E'; apply split_app in E'; destruct E' as [(k & Ek & ->)|(k & -> & Ek)]; eauto.
  - destruct (proj1 (Hr h1 k t) r Ek) as [-> Hp]. specialize (I1 t). rewrite Hp in I1. exact I1.
  - destruct (proj2 (Hr h1 k t) r Ek) as [-> Hp]. specialize (I1 t). rewrite Hp in I1. exact I1.
Qed.
Lemma reachable_acts s : reachable step init s -> acts_inv s.
Proof.
  apply reachable_invariant; [intros ? ->|apply acts_step]. split; [intros t; exact I|]. split; intros [|? h1] h2 t r; discriminate.
Qed.

(** *** Results of Serve *)
Definition serve_outcome (s : state) (x : nat) (r : option error) : Prop := r <> None /\ (In x (installed (hist s)) \/ r = Some ErrServerClosed).
Definition serves_inv s := (forall t x r, pcs s t = SRet x r -> serve_outcome s x r) /\ (forall t x r, In (HRet t (CServe x) r) (hist s) -> serve_outcome s x r).
Lemma step_inst_mono s l s' x : step s l = Some s' -> In x (installed (hist s)) -> In x (installed (hist s')).
Proof. intros H Hx. destruct (step_inst _ _ _ H) as [E|(t & y & _ & E)]; rewrite E; [exact Hx|]. rewrite in_app_iff. auto. Qed.
Lemma serves_step s l s' : lis_inv s -> serves_inv s -> step s l = Some s' -> serves_inv s'.
Proof.
  intros HL [I1 I2] H.
  assert (M : forall x r, serve_outcome s x r -> serve_outcome s' x r).
  { intros x r [A B]. split; [exact A|]. destruct B as [B|B]; [left; eapply step_inst_mono; eassumption|auto]. }
  split.
  - intros t x r E.
    assert (X : pcs s t = SRet x r \/ r = Some ErrServerClosed \/ (r <> None /\ pcs s t = S5 x)).
    { dstep H; cbn in E; unfold upd in E; eqs; auto; try discriminate; try (injection E as <- <-); auto; right; right; split; [discriminate|assumption|discriminate|assumption]. }
    destruct X as [X|[->|[Hr X]]]; [eauto|split; [discriminate|auto]|]. apply M. split; [exact Hr|]. left. apply (la_post _ HL t). rewrite X. reflexivity.
  - intros t x r E.
    assert (X : In (HRet t (CServe x) r) (hist s) \/ pcs s t = SRet x r).
    { dstep H; cbn in E; auto; repeat (destruct E as [E|E]; [try discriminate E|auto]). all: injection E as <- <- <-; auto. }
    destruct X as [X|X]; eauto.
Qed.
Lemma reachable_serves s : reachable step init s -> serves_inv s.
Proof.
  intros H. apply (reachable_invariant step init (fun s => srv_inv s /\ serves_inv s)) in H.
  - apply H.
  - intros ? ->. split; [apply srv_init|]. split; [discriminate|intros ? ? ? []].
  - intros s1 l s2 [X Y] Hs. split; [eauto using srv_step|]. eapply serves_step; [apply X|exact Y|exact Hs].
Qed.
