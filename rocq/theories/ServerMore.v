(** Results, background goroutines and progress of the server model. *)
From Verif Require Export ServerSessions.
Require Import Lia.

(** *** Only finitely many goroutines exist *)
Definition fin_inv (s : state) : Prop := exists n, forall t, (n <= t)%nat -> pcs s t = Idle.
Lemma fin_upd (f : nat -> pc) t p : (exists n, forall t', (n <= t')%nat -> f t' = Idle) -> exists n, forall t', (n <= t')%nat -> upd f t p t' = Idle.
Proof. intros [n H]. exists (Nat.max n (S t)). intros t' Ht. unfold upd. eqs; [lia|]. apply H. lia. Qed.
Lemma fin_step s l s' : fin_inv s -> step s l = Some s' -> fin_inv s'.
Proof. intros HI H. dstep H; unfold fin_inv in *; cbn; auto using fin_upd. Qed.
Lemma reachable_fin s : reachable step init s -> fin_inv s.
Proof. apply reachable_invariant; [intros ? ->; exists 0%nat; reflexivity|apply fin_step]. Qed.

(** *** The wait group *)
Definition worker (p : pc) : Prop :=
  match p with
  | S0 _ | S1 _ | S2 _ | S3 _ | S4 _ | S5 _ | S6 _ _ | SRet _ _
  | C0 _ | C1 _ | C2 _ | C3 _ | C4 _ | C5 _ | C6 _ | C7 _ _ | C8 _ _ | C9 _ _ | C10 _ _ | C11 _ _ | CRet _ _ => True
  | _ => False
  end.
Record wg_inv (s : state) : Prop := {
  wi_count : wg s = length (running (hist s));
  wi_nodup : NoDup (running (hist s));
  wi_bg : forall t, In t (running (hist s)) <-> bg s t = true;
  wi_pc : forall t, bg s t = true -> worker (pcs s t)
}.
Lemma wg_frame s s' : wg s' = wg s -> running (hist s') = running (hist s) -> bg s' = bg s -> (forall t, worker (pcs s t) -> bg s t = true -> worker (pcs s' t)) -> wg_inv s -> wg_inv s'.
Proof. intros H1 H2 H3 H4 []. constructor; rewrite ?H1, ?H2, ?H3; auto. Qed.
Lemma filter_out t m : NoDup m -> In t m -> S (length (filter (fun t' => negb (Nat.eqb t' t)) m)) = length m.
Proof.
  induction m as [|a m IH]; cbn; intros Hn Hi; [tauto|]. inversion Hn; subst.
  destruct (Nat.eqb_spec a t); cbn.
  - subst. f_equal. clear IH Hi Hn. induction m as [|b m IH]; cbn; [reflexivity|]. destruct (Nat.eqb_spec b t); cbn in *; [subst; tauto|].
    f_equal. apply IH; [tauto|]. now inversion H2.
  - f_equal. apply IH; [assumption|]. destruct Hi; [congruence|assumption].
Qed.
Lemma wg_step s l s' : wg_inv s -> step s l = Some s' -> wg_inv s'.
Proof.
  intros HI H. dstep H.
  all: try (eapply wg_frame; [| | | |exact HI]; cbn; auto; intros t1; unfold upd; eqs; auto;
    match goal with E : pcs _ _ = _ |- _ => rewrite E; cbn; try tauto end; intros; congruence).
  all: destruct HI as [I1 I2 I3 I4].
  all: try (constructor; cbn in *; auto; intros t1 Ht1; unfold upd; eqs; auto; congruence).
  1-4: assert (Hin : In t (running (hist s))) by (apply I3; assumption).
  1-4: constructor; cbn; [rewrite I1; pose proof (filter_out _ _ I2 Hin); lia|apply NoDup_filter, I2
     |intros t1; rewrite filter_In, I3, Bool.negb_true_iff, Nat.eqb_neq; unfold upd; eqs; [intuition congruence|tauto]
     |intros t1; unfold upd; eqs; [discriminate|apply I4]].
  all: assert (Hb : bg s child = false) by (destruct (bg s child) eqn:Hb; [apply I4 in Hb; rewrite Heqp in Hb; destruct Hb|reflexivity]).
  all: constructor; cbn; [lia|constructor; [rewrite I3; congruence|assumption]|intros t1; rewrite I3; unfold upd; eqs; intuition congruence|].
  all: intros t1; unfold upd; eqs; cbn; auto; intros X; apply I4 in X; rewrite Heqp0 in X; cbn in X; tauto.
Qed.
Lemma wg_init : wg_inv NewServer.
Proof. constructor; cbn; auto; [constructor|intuition congruence|discriminate]. Qed.
Lemma reachable_wg s : reachable step init s -> wg_inv s.
Proof. apply reachable_invariant; [intros ? ->; apply wg_init|apply wg_step]. Qed.
(** when Wait returned *)
Definition waited_inv s := forall h1 h2 t, hist s = h1 ++ HWaited t :: h2 -> running h2 = [].
Lemma step_waited s l s' : step s l = Some s' -> exists es, hist s' = es ++ hist s /\
  (forall t, In (HWaited t) es -> es = [HWaited t] /\ wg s = 0%nat).
Proof.
  intros H. dstep H; cbn; match goal with |- exists es, ?h = es ++ ?h /\ _ => exists [] | |- exists es, ?a :: ?b :: ?h = es ++ ?h /\ _ => exists [a; b] | |- exists es, ?a :: ?h = es ++ ?h /\ _ => exists [a] end; cbn.
  all: (split; [reflexivity|]); intros t1 X; try (decompose [or] X; try discriminate; tauto).
  destruct X as [X|[]]. injection X as ->. auto.
Qed.
Lemma waited_step s l s' : wg_inv s -> waited_inv s -> step s l = Some s' -> waited_inv s'.
Proof.
  intros HW HI H. destruct (step_waited _ _ _ H) as (es & E & Hc).
  intros h1 h2 t E'. rewrite E in E'. apply split_app in E'. destruct E' as [(k & Ek & ->)|(k & -> & Ek)]; [|eapply HI; eassumption].
  destruct (Hc t) as (E1 & Hw); [rewrite Ek, in_app_iff; right; left; reflexivity|].
  assert (k = []) as ->.
  { rewrite Ek in E1. destruct h1 as [|e h1]; cbn in E1; [injection E1 as ->; reflexivity|]. injection E1 as _ E1. destruct h1; discriminate. }
  cbn. rewrite (wi_count _ HW) in Hw. destruct (running (hist s)); [reflexivity|discriminate].
Qed.
Lemma reachable_waited s : reachable step init s -> waited_inv s.
Proof.
  intros H. apply (reachable_invariant step init (fun s => wg_inv s /\ waited_inv s)) in H.
  - apply H.
  - intros ? ->. split; [apply wg_init|]. intros [|? h1] h2 t; discriminate.
  - intros s1 l s2 [X Y] Hs. split; eauto using wg_step, waited_step.
Qed.

(** *** Listeners are closed once *)
Record cls_inv (s : state) : Prop := {
  ci_nodup : NoDup (closed_listeners (hist s));
  ci_in : forall l, In l (closed_listeners (hist s)) -> In l (installed (hist s)) /\ lis_open s l = false;
  ci_all : forall l, In l (installed (hist s)) -> lis_open s l = false -> In l (closed_listeners (hist s))
}.
Lemma cls_frame s s' : closed_listeners (hist s') = closed_listeners (hist s) -> installed (hist s') = installed (hist s) ->
  (forall l, In l (installed (hist s)) -> lis_open s' l = lis_open s l) -> cls_inv s -> cls_inv s'.
Proof.
  intros H1 H2 H3 [I1 I2 I3]. constructor; rewrite ?H1, ?H2; auto.
  - intros l X. destruct (I2 l X). rewrite H3; auto.
  - intros l X. rewrite H3; auto.
Qed.
Lemma cls_step s l s' : srv_inv s -> cls_inv s -> step s l = Some s' -> cls_inv s'.
Proof.
  intros (HE & HO & HK & HL & HS) HI H. dstep H.
  all: try (eapply cls_frame; [| | |exact HI]; cbn; auto; intros l1 Hl1; unfold upd; eqs; auto; apply (oi_inst_lt _ HO) in Hl1; lia).
  - destruct HI as [I1 I2 I3]. destruct (la_pre _ HL t l ltac:(rewrite Heqp; reflexivity)) as [X Y].
    constructor; cbn; auto.
    + intros x Hx. rewrite in_app_iff. destruct (I2 x Hx). auto.
    + intros x. rewrite in_app_iff. intros [Z|[Z|[]]] Ho; [auto|congruence].
  - destruct HI as [I1 I2 I3]. destruct (la_last _ HL _ Heqo0) as [pre Hpre].
    assert (Ho : lis_open s n = true).
    { destruct (lis_open s n) eqn:Ho; [reflexivity|]. destruct (la_closed _ HL _ Heqo0 Ho) as [t' X].
      assert (t' = t) as -> by (eapply one_section; [exact HK|apply s3_section, X|rewrite Heqp; exact I]). rewrite Heqp in X. destruct X. }
    constructor; cbn.
    + constructor; [|exact I1]. intros Z. destruct (I2 _ Z). congruence.
    + intros x [<-|Hx]; [split; [rewrite Hpre, in_app_iff; cbn; auto|apply upd_same]|]. destruct (I2 _ Hx). unfold upd. eqs; auto.
    + intros x Hx. unfold upd. eqs; auto.
  - destruct HI as [I1 I2 I3]. destruct (la_last _ HL _ Heqo0) as [pre Hpre].
    assert (Ho : lis_open s n = true).
    { destruct (lis_open s n) eqn:Ho; [reflexivity|]. destruct (la_closed _ HL _ Heqo0 Ho) as [t' X].
      assert (t' = t) as -> by (eapply one_section; [exact HK|apply s3_section, X|rewrite Heqp; exact I]). rewrite Heqp in X. destruct X. }
    constructor; cbn.
    + constructor; [|exact I1]. intros Z. destruct (I2 _ Z). congruence.
    + intros x [<-|Hx]; [split; [rewrite Hpre, in_app_iff; cbn; auto|apply upd_same]|]. destruct (I2 _ Hx). unfold upd. eqs; auto.
    + intros x Hx. unfold upd. eqs; auto.
Qed.
Lemma reachable_cls s : reachable step init s -> cls_inv s.
Proof.
  intros H. apply (reachable_invariant step init (fun s => srv_inv s /\ cls_inv s)) in H.
  - apply H.
  - intros ? ->. split; [apply srv_init|]. constructor; cbn; try tauto. constructor.
  - intros s1 l s2 [X Y] Hs. split; eauto using srv_step, cls_step.
Qed.

(** *** Results of Start *)
Definition start_live (p : pc) : Prop := in_start p \/ exists r, p = ARet r /\ other_start r = true.
Record stres_inv (s : state) : Prop := {
  tr_one : forall t t', start_live (pcs s t) -> start_live (pcs s t') -> t = t';
  tr_none : forall t, start_live (pcs s t) -> other_starts (hist s) = [] /\ start_ev s <> EvInit;
  tr_init : start_ev s = EvInit -> other_starts (hist s) = [];
  tr_count : (length (other_starts (hist s)) <= 1)%nat;
  tr_a7 : forall t r, pcs s t = A7 r \/ pcs s t = ARet r -> r <> None;
  tr_res : forall t r, In (HRet t CStart r) (hist s) -> r <> None
}.
Lemma start_live_inv p : start_live p -> match p with A2 | A3 | A4 | A5 _ | A6 _ | A7 _ => True | ARet r => other_start r = true | _ => False end.
Proof. intros [H|(r & -> & H)]; [destruct p; auto; contradiction|exact H]. Qed.
Lemma stres_frame s s' : (forall t, start_live (pcs s' t) -> start_live (pcs s t)) -> other_starts (hist s') = other_starts (hist s) -> start_ev s' = start_ev s ->
  (forall t r, pcs s' t = A7 r \/ pcs s' t = ARet r -> r = Some ErrServerClosed \/ r = Some ErrServerAlreadyStarted \/ pcs s t = A7 r \/ pcs s t = ARet r) ->
  (forall t r, In (HRet t CStart r) (hist s') -> In (HRet t CStart r) (hist s)) -> stres_inv s -> stres_inv s'.
Proof.
  intros H1 H2 H3 H4 H5 []. constructor; rewrite ?H2, ?H3; eauto.
  intros t r X. destruct (H4 _ _ X) as [->|[->|Y]]; [discriminate|discriminate|eauto].
Qed.
Lemma stres_step s l s' : stres_inv s -> step s l = Some s' -> stres_inv s'.
Proof.
  intros HI H. dstep H.
  all: try (eapply stres_frame; [| | | | |exact HI]; cbn; [intros t1|reflexivity|reflexivity|intros t1 r1|intros t1 r1; auto]; unfold upd; eqs; auto; 
     first [intros X; apply start_live_inv in X; cbn in X; first [contradiction|discriminate|match goal with E : pcs _ _ = _ |- _ => rewrite E; left; exact I end]
           |intros [X|X]; try discriminate X; auto; injection X as <-; auto
           |intros X; repeat (destruct X as [X|X]; [discriminate|]); exact X]; fail).
  all: destruct HI as [I1 I2 I3 I4 I5 I6].
  - constructor; cbn; try discriminate; auto.
    + intros t1 t2. unfold upd. eqs; auto; intros X Y; exfalso; first [apply I2 in Y; tauto|apply I2 in X; tauto].
    + intros t1. unfold upd. eqs; intros X; [split; [auto|discriminate]|]. apply I2 in X. tauto.
    + intros t1 r1. unfold upd. eqs; [intros [X|X]; discriminate|apply I5].
    + intros t1 r1 [X|X]; [discriminate|eauto].
  - assert (Hl : start_live (pcs s t)) by (rewrite Heqp; left; exact I).
    constructor; cbn; try discriminate; auto.
    + intros t1 t2. unfold upd. eqs; auto.
    + intros t1. unfold upd. eqs; intros X; (split; [eapply I2; eassumption|discriminate]).
    + intros t1 r1. unfold upd. eqs; [intros [X|X]; discriminate|apply I5].
  - assert (Hr : r <> None) by (apply (I5 t); rewrite Heqp; auto).
    constructor; cbn.
    + intros t1 t2. unfold upd. eqs; auto; intros X Y; first [apply start_live_inv in X; contradiction|apply start_live_inv in Y; contradiction].
    + intros t1. unfold upd. eqs; intros X; [apply start_live_inv in X; contradiction|].
      destruct (other_start r) eqn:Ho; [|eapply I2; exact X]. exfalso. apply n. apply I1; [exact X|]. rewrite Heqp. right. eauto.
    + intros X. destruct (other_start r) eqn:Ho; [|auto]. exfalso. apply (I2 t); [rewrite Heqp; right; eauto|exact X].
    + destruct (other_start r) eqn:Ho; [|auto]. cbn. destruct (I2 t) as [X _]; [rewrite Heqp; right; eauto|]. rewrite X. cbn. lia.
    + intros t1 r1. unfold upd. eqs; [intros [X|X]; discriminate|apply I5].
    + intros t1 r1 [X|[X|X]]; [discriminate|injection X as -> ->; exact Hr|eauto].
  - assert (Hr : r <> None) by (apply (I5 t); rewrite Heqp; auto).
    constructor; cbn.
    + intros t1 t2. unfold upd. eqs; auto; intros X Y; first [apply start_live_inv in X; contradiction|apply start_live_inv in Y; contradiction].
    + intros t1. unfold upd. eqs; intros X; [apply start_live_inv in X; contradiction|].
      destruct (other_start r) eqn:Ho; [|eapply I2; exact X]. exfalso. apply n. apply I1; [exact X|]. rewrite Heqp. right. eauto.
    + intros X. destruct (other_start r) eqn:Ho; [|auto]. exfalso. apply (I2 t); [rewrite Heqp; right; eauto|exact X].
    + destruct (other_start r) eqn:Ho; [|auto]. cbn. destruct (I2 t) as [X _]; [rewrite Heqp; right; eauto|]. rewrite X. cbn. lia.
    + intros t1 r1. unfold upd. eqs; [intros [X|X]; discriminate|apply I5].
    + intros t1 r1 [X|X]; [injection X as -> ->; exact Hr|eauto].
  - assert (Hl : start_live (pcs s t)) by (rewrite Heqp; left; exact I).
    constructor; cbn; auto.
    + intros t1 t2. unfold upd. eqs; auto.
    + intros t1. unfold upd. eqs; intros X; eapply I2; eassumption.
    + intros t1 r1. unfold upd. eqs; [intros [X|X]; [|discriminate]; injection X as <-; discriminate|apply I5].
Qed.
Lemma reachable_stres s : reachable step init s -> stres_inv s.
Proof.
  apply reachable_invariant; [intros ? ->|apply stres_step].
  constructor; cbn; try tauto; try lia; intros; try (destruct H; discriminate).
  - apply start_live_inv in H. contradiction.
  - apply start_live_inv in H. contradiction.
Qed.

(** *** Results of Close *)
Definition close_res (p : pc) : option (option error) := match p with K4 r _ | K5 r _ _ | K6 r | K7 r | K8 r | KRet r => Some r | _ => None end.
Definition close_live (p : pc) : Prop := in_close p \/ exists e, p = KRet (Some e).
Record clres_inv (s : state) : Prop := {
  kr_one : forall t t', close_live (pcs s t) -> close_live (pcs s t') -> t = t';
  kr_none : forall t, close_live (pcs s t) -> failed_closes (hist s) = [] /\ shut_ev s <> EvInit;
  kr_init : shut_ev s = EvInit -> failed_closes (hist s) = [];
  kr_count : (length (failed_closes (hist s)) <= 1)%nat;
  kr_from : forall t e, close_res (pcs s t) = Some (Some e) -> exists l, In (HListenerClosed t l (Some e)) (hist s);
  kr_res : forall t e, In (HRet t CClose (Some e)) (hist s) -> exists l, In (HListenerClosed t l (Some e)) (hist s)
}.
Lemma close_live_inv p : close_live p -> match p with K1 | K2 | K3 | K4 _ _ | K5 _ _ _ | K6 _ | K7 _ | K8 _ | KRet (Some _) => True | _ => False end.
Proof. intros [H|(r & ->)]; [destruct p; auto; contradiction|exact I]. Qed.
Lemma clres_frame s s' : (forall t, close_live (pcs s' t) -> close_live (pcs s t)) -> failed_closes (hist s') = failed_closes (hist s) -> (shut_ev s' = EvInit <-> shut_ev s = EvInit) ->
  (forall t r, close_res (pcs s' t) = Some (Some r) -> close_res (pcs s t) = Some (Some r)) ->
  (forall t r, In (HRet t CClose (Some r)) (hist s') -> In (HRet t CClose (Some r)) (hist s)) ->
  (forall e, In e (hist s) -> In e (hist s')) -> clres_inv s -> clres_inv s'.
Proof.
  intros H1 H2 H3 H4 H5 H6 []. constructor; rewrite ?H2; rewrite ?H3; eauto.
  - intros t X. rewrite H3. eauto.
  - intros t e X. apply H4 in X. destruct (kr_from0 _ _ X) as [l Y]. eauto.
  - intros t e X. apply H5 in X. destruct (kr_res0 _ _ X) as [l Y]. eauto.
Qed.
Lemma clres_step s l s' : clres_inv s -> step s l = Some s' -> clres_inv s'.
Proof.
  intros HI H. dstep H.
  all: try (eapply clres_frame; [| | | | | |exact HI]; cbn; [intros t1|reflexivity|first [reflexivity|split; congruence]|intros t1 r1|intros t1 r1; auto|auto]; unfold upd; eqs; auto; 
     first [intros X; apply close_live_inv in X; cbn in X; first [contradiction|discriminate|match goal with E : pcs _ _ = _ |- _ => rewrite E; left; exact I end]
           |intros X; cbn in X; first [discriminate X|match goal with E : pcs _ _ = _ |- _ => rewrite E; exact X end]
           |intros X; repeat (destruct X as [X|X]; [discriminate|]); exact X]; fail).
  all: destruct HI as [I1 I2 I3 I4 I5 I6].
  - constructor; cbn; try discriminate; auto.
    + intros t1 t2. unfold upd. eqs; auto; intros X Y; exfalso; first [apply I2 in Y; tauto|apply I2 in X; tauto].
    + intros t1. unfold upd. eqs; intros X; [split; [auto|discriminate]|]. apply I2 in X. tauto.
    + intros t1 r1. unfold upd. eqs; [discriminate|]. intros X. destruct (I5 _ _ X) as [l Y]. eauto.
    + intros t1 r1 [X|X]; [discriminate|]. destruct (I6 _ _ X) as [l Y]. eauto.
  - assert (Hl : close_live (pcs s t)) by (rewrite Heqp; left; exact I).
    constructor; cbn; try discriminate; auto.
    + intros t1 t2. unfold upd. eqs; auto.
    + intros t1. unfold upd. eqs; intros X; (split; [eapply I2; eassumption|discriminate]).
    + intros t1 r1. unfold upd. eqs; [discriminate|apply I5].
  - constructor; cbn.
    + intros t1 t2. unfold upd. eqs; auto; intros X Y; first [apply close_live_inv in X; contradiction|apply close_live_inv in Y; contradiction].
    + intros t1. unfold upd. eqs; intros X; [apply close_live_inv in X; contradiction|].
      destruct r as [e|]; [|eapply I2; exact X]. exfalso. apply n. apply I1; [exact X|]. rewrite Heqp. right. eauto.
    + intros X. destruct r as [e|]; [|auto]. exfalso. apply (I2 t); [rewrite Heqp; right; eauto|exact X].
    + destruct r as [e|]; [|auto]. cbn. destruct (I2 t) as [X _]; [rewrite Heqp; right; eauto|]. rewrite X. cbn. lia.
    + intros t1 r1. unfold upd. eqs; [discriminate|]. intros X. destruct (I5 _ _ X) as [l Y]. eauto.
    + intros t1 r1 X. assert (Y : HRet t1 CClose (Some r1) = HRet t CClose r \/ In (HRet t1 CClose (Some r1)) (hist s)) by (decompose [or] X; try discriminate; auto).
      destruct Y as [Y|Y]; [injection Y as -> <-; destruct (I5 t r1) as [l Z]; [rewrite Heqp; reflexivity|eauto]|].
      destruct (I6 _ _ Y) as [l Z]. eauto.
  - constructor; cbn.
    + intros t1 t2. unfold upd. eqs; auto; intros X Y; first [apply close_live_inv in X; contradiction|apply close_live_inv in Y; contradiction].
    + intros t1. unfold upd. eqs; intros X; [apply close_live_inv in X; contradiction|].
      destruct r as [e|]; [|eapply I2; exact X]. exfalso. apply n. apply I1; [exact X|]. rewrite Heqp. right. eauto.
    + intros X. destruct r as [e|]; [|auto]. exfalso. apply (I2 t); [rewrite Heqp; right; eauto|exact X].
    + destruct r as [e|]; [|auto]. cbn. destruct (I2 t) as [X _]; [rewrite Heqp; right; eauto|]. rewrite X. cbn. lia.
    + intros t1 r1. unfold upd. eqs; [discriminate|]. intros X. destruct (I5 _ _ X) as [l Y]. eauto.
    + intros t1 r1 X. assert (Y : HRet t1 CClose (Some r1) = HRet t CClose r \/ In (HRet t1 CClose (Some r1)) (hist s)) by (decompose [or] X; try discriminate; auto).
      destruct Y as [Y|Y]; [injection Y as -> <-; destruct (I5 t r1) as [l Z]; [rewrite Heqp; reflexivity|eauto]|].
      destruct (I6 _ _ Y) as [l Z]. eauto.
  - assert (Hl : close_live (pcs s t)) by (rewrite Heqp; left; exact I).
    constructor; cbn; auto.
    + intros t1 t2. unfold upd. eqs; auto.
    + intros t1. unfold upd. eqs; intros X; eapply I2; eassumption.
    + intros t1 r1. unfold upd. eqs; [intros X; injection X as ->; eauto|]. intros X. destruct (I5 _ _ X) as [l Y]. eauto.
    + intros t1 r1 [X|X]; [discriminate|]. destruct (I6 _ _ X) as [l Y]. eauto.
Qed.
Lemma reachable_clres s : reachable step init s -> clres_inv s.
Proof.
  apply reachable_invariant; [intros ? ->|apply clres_step].
  constructor; cbn; try tauto; try lia; intros; try (destruct H; discriminate); try discriminate.
  - apply close_live_inv in H. contradiction.
  - apply close_live_inv in H. contradiction.
Qed.

(** *** Results of ServeConn *)
Definition settled (s : state) (c : nat) (r : option error) : Prop := s_fired s c = true \/ r = Some ErrServerClosed /\ ~ In c (registered (hist s)).
Record cnres_inv (s : state) : Prop := {
  cr_pc : forall t c r, pcs s t = CRet c r -> settled s c r;
  cr_res : forall t c r, In (HRet t (CServeConn c) r) (hist s) -> settled s c r /\ (c < next_conn s)%nat /\ forall t', own_conn (pcs s t') <> Some c
}.
Lemma step_reg s l s' : step s l = Some s' -> registered (hist s') = registered (hist s) \/ exists t c, pcs s t = C3 c /\ registered (hist s') = registered (hist s) ++ [c].
Proof. intros H. dstep H; cbn; eauto. Qed.
Lemma settled_step s l s' c r : step s l = Some s' -> (forall t, pcs s t <> C3 c) -> settled s c r -> settled s' c r.
Proof.
  intros H Hn [X|[X Y]]; [left; eapply step_fired; eassumption|]. right. split; [exact X|].
  destruct (step_reg _ _ _ H) as [E|(t & c' & E & E')]; rewrite ?E, ?E'; [exact Y|].
  rewrite in_app_iff. intros [Z|[Z|[]]]; [auto|]. subst c'. apply (Hn t). exact E.
Qed.
Lemma step_own s l s' : step s l = Some s' -> (next_conn s <= next_conn s')%nat /\ forall t c, own_conn (pcs s' t) = Some c -> (next_conn s <= c)%nat \/ exists t', own_conn (pcs s t') = Some c.
Proof.
  intros H. dstep H; cbn; (split; [lia|]); intros t1 c1; unfold upd; eqs; eauto; try discriminate; cbn.
  all: try solve [intros X; right; match goal with E : pcs ?s ?t = _ |- exists t', own_conn (pcs ?s t') = _ => exists t; rewrite E; exact X end].
  all: try (intros X; injection X as <-; auto).
Qed.
Lemma step_to_ret s l s' t c r : step s l = Some s' -> pcs s' t = CRet c r ->
  pcs s t = CRet c r \/ (pre_conn (pcs s t) = Some c /\ r = Some ErrServerClosed /\ hist s' = hist s) \/ fin_conn (pcs s t) = Some c.
Proof.
  intros H. dstep H; cbn; unfold upd; eqs; auto; try discriminate; intros X; injection X as -> ->; right;
  match goal with E : pcs _ _ = _ |- _ => rewrite E; cbn; auto end.
Qed.
Lemma step_ret s l s' t c r : step s l = Some s' -> In (HRet t (CServeConn c) r) (hist s') ->
  In (HRet t (CServeConn c) r) (hist s) \/ pcs s t = CRet c r /\ pcs s' = upd (pcs s) t Idle /\ s_fired s' = s_fired s /\ registered (hist s') = registered (hist s) /\ next_conn s' = next_conn s.
Proof.
  intros H. dstep H; cbn; auto; intros X; repeat (destruct X as [X|X]; [try discriminate X|auto]).
  all: injection X as -> -> ->; right; auto 10.
Qed.
Lemma cnres_step s l s' : srv_inv s -> cnres_inv s -> step s l = Some s' -> cnres_inv s'.
Proof.
  intros (HE & HO & HK & HL & HS) [I1 I2] H. constructor.
  - intros t c r E. destruct (step_to_ret _ _ _ _ _ _ H E) as [X|[(X & -> & Eh)|X]].
    + eapply settled_step; [exact H| |eauto]. intros t' E'. assert (t' = t) as ->; [|congruence].
      apply (oi_conn _ HO t' t c); [rewrite E'|rewrite X]; reflexivity.
    + right. split; [reflexivity|]. rewrite Eh. apply (sn_pre _ HS t c X).
    + left. apply (step_fired _ _ _ H), (sn_fin _ HS t c X).
  - intros t c r E. destruct (step_ret _ _ _ _ _ _ H E) as [X|(X & Ep & Ef & Er & En)].
    + destruct (I2 _ _ _ X) as (A & B & C). destruct (step_own _ _ _ H) as [D F]. split; [|split].
      * eapply settled_step; [exact H| |exact A]. intros t' E'. apply (C t'). rewrite E'. reflexivity.
      * lia.
      * intros t' E'. destruct (F _ _ E') as [G|[t1 G]]; [lia|]. apply (C t1 G).
    + assert (A : own_conn (pcs s t) = Some c) by (rewrite X; reflexivity). split; [|split].
      * destruct (I1 _ _ _ X) as [Y|[Y Z]]; [left|right]; rewrite ?Ef, ?Er; auto.
      * rewrite En. eapply (oi_conn_lt _ HO); exact A.
      * intros t'. rewrite Ep. unfold upd. eqs; [discriminate|]. intros G. apply n. eapply (oi_conn _ HO); eassumption.
Qed.
Lemma reachable_cnres s : reachable step init s -> cnres_inv s.
Proof.
  intros H. apply (reachable_invariant step init (fun s => srv_inv s /\ cnres_inv s)) in H.
  - apply H.
  - intros ? ->. split; [apply srv_init|]. constructor; cbn; try tauto. discriminate.
  - intros s1 l s2 [X Y] Hs. split; eauto using srv_step, cnres_step.
Qed.

(** *** Progress *)
(** whoever holds the mutex can go on by themself *)
Lemma holder_progress s t : reachable step init s -> crashed s = None -> mu s = Some t -> exists l s', actor l = Some t /\ own_action s l /\ step s l = Some s'.
Proof.
  intros HR Hc Hm. pose proof (reachable_lock _ HR t) as HL. apply HL in Hm.
  assert (A : forall s', step s (LGo t) = Some s' -> exists l s', actor l = Some t /\ own_action s l /\ step s l = Some s') by (intros s' X; exists (LGo t), s'; repeat split; auto).
  assert (B : forall c s', step s (LPick t c) = Some s' -> exists l s', actor l = Some t /\ own_action s l /\ step s l = Some s') by (intros c s' X; exists (LPick t c), s'; repeat split; auto).
  assert (C : forall s', step s (LCloseListener t None) = Some s' -> exists l s', actor l = Some t /\ own_action s l /\ step s l = Some s') by (intros s' X; exists (LCloseListener t None), s'; repeat split; auto).
  destruct (pcs s t) eqn:E; try contradiction;
    try (eapply A; unfold step, go; rewrite Hc, E; reflexivity).
  - destruct (listener s) eqn:El; [eapply C|eapply A]; unfold step, go; rewrite Hc, E, El; reflexivity.
  - destruct (listener s) eqn:El; [eapply C|eapply A]; unfold step, go; rewrite Hc, E, El; reflexivity.
  - destruct todo as [|c todo]; [eapply A; unfold step, go; rewrite Hc, E; reflexivity|].
    apply (B c) with (s' := if s_fired s c then goto s t (K4 r (remove_session c (c :: todo))) else log (goto (with_fired s c) t (K5 r (remove_session c (c :: todo)) c)) (HSessionFired c)).
    unfold step. rewrite Hc, E. cbn [existsb]. rewrite Nat.eqb_refl. reflexivity.
Qed.
Lemma quiet_free s : reachable step init s -> crashed s = None -> quiet s -> mu s = None.
Proof.
  intros HR Hc HQ. destruct (mu s) as [t|] eqn:E; [|reflexivity]. destruct (holder_progress s t HR Hc E) as (l & s' & _ & A & B).
  rewrite (HQ l A) in B. discriminate.
Qed.
(** what a goroutine of the server can wait for when nothing is left to do *)
Lemma quiet_worker s t : reachable step init s -> crashed s = None -> quiet s -> worker (pcs s t) ->
  (exists x, pcs s t = S5 x /\ lis_open s x = true) \/ (exists c, pcs s t = C6 c /\ s_fired s c = false).
Proof.
  intros HR Hc HQ HW. pose proof (quiet_free s HR Hc HQ) as Hm. pose proof (HQ (LGo t) I) as G. unfold step, go, lock in G. rewrite Hc in G.
  destruct (pcs s t) eqn:E; try contradiction; rewrite ?Hm in G; try discriminate G.
  - exfalso. pose proof (proj1 (reachable_lock s HR t)) as X. rewrite E in X. specialize (X I). congruence.
  - left. exists l. split; [reflexivity|]. destruct (lis_open s l) eqn:Ho; [reflexivity|].
    pose proof (HQ (LAccept t (AError ErrConnClosed)) ltac:(exists l; auto)) as X. unfold step in X. rewrite Hc, E in X. discriminate.
  - exfalso. destruct (reachable_fin _ HR) as [n Hn]. pose proof (HQ (LSpawn t n) I) as X. unfold step in X. rewrite Hc, (Hn n), E in X by lia. discriminate.
  - right. exists c. split; [reflexivity|]. destruct (s_fired s c) eqn:Hf; [|reflexivity].
    pose proof (HQ (LEnd t None) ltac:(exists c; auto)) as X. unfold step in X. rewrite Hc, E in X. discriminate.
Qed.
