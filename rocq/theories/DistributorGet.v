(** What Get returns in the ConfigDistributor model. *)
From Verif Require Export DistributorProofs.
Require Import Lia.

Definition floor (t : tid) (s : state) : list config :=
  match open_call t (hist s) with Some (_, h) => installed h | None => [] end.
Definition get_ok (p : pc) (fl now : list config) : Prop :=
  match p with
  | G3 (Some c) => at_least_as_new c fl now
  | G3 None | S0 _ _ SGet | S1 _ _ SGet | S2 _ _ SGet | S4 _ _ SGet | S5 _ SGet | G5 _ => fl = []
  | S3 _ _ SGet c => fl = [] /\ In c now
  | G6 _ (RConfig c) | G7 _ (RConfig c) | G8 _ (RConfig c) => fl = [] /\ In c now
  | G6 _ RNil | G7 _ RNil | G8 _ RNil => False
  | S3 _ _ STop c | M3 _ c _ | M4 _ c _ _ => In c now
  | _ => True
  end.
Definition get_inv (s : state) : Prop := forall t, get_ok (pcs s t) (floor t s) (installed (hist s)).

Lemma at_least_as_new_cons c fl now x : at_least_as_new c fl now -> at_least_as_new c fl (x :: now).
Proof. intros (newer & -> & H). exists (x :: newer). cbn. tauto. Qed.
Lemma get_ok_cons p fl now x : get_ok p fl now -> get_ok p fl (x :: now).
Proof.
  destruct p; cbn; auto.
  - destruct snapshot; auto. apply at_least_as_new_cons.
  - destruct k; tauto.
  - destruct r; tauto.
  - destruct r; tauto.
  - destruct r; tauto.
Qed.

Lemma floor_now t s : exists newer, installed (hist s) = newer ++ floor t s.
Proof.
  unfold floor. destruct (open_call t (hist s)) as [[k h]|] eqn:E; [|exists (installed (hist s)); rewrite app_nil_r; reflexivity].
  destruct (open_call_suffix _ _ _ _ E) as (h2 & ->). rewrite installed_app. cbn. eauto.
Qed.

Lemma get_inv_step s l s' : mon_inv s -> get_inv s -> step s l = Some s' -> get_inv s'.
Proof.
  intros HM HI H. dstep H.
  all: at_pcs HI; intros t'; specialize (HI t'); unfold floor in *; cbn in *; upds; dk; cbn in *; try rewrite Nat.eqb_refl in *; cbn in *.
  all: try exact HI; try exact I; try assumption; try tauto.
  all: try (apply get_ok_cons; exact HI).
  all: try (destruct (Nat.eqb_spec t' t); congruence || assumption).
  - change (match open_call t (hist s) with Some (_, h) => installed h | None => [] end) with (floor t s).
    destruct (floor_now t s) as (newer & E). rewrite (mi_last _ HM). unfold current. rewrite E.
    destruct newer as [|x newer]; cbn.
    + destruct (floor t s) as [|y fl]; cbn; [reflexivity|]. exists []. cbn. auto.
    + exists (x :: newer). cbn. auto.
  - rewrite (mi_last _ HM) in *. unfold current in *. destruct (installed (hist s)); cbn in *; [discriminate|]. left. congruence.
  - split; [exact H|]. rewrite (mi_last _ HM) in *. unfold current in *. destruct (installed (hist s)); cbn in *; [discriminate|]. left. congruence.
Qed.
Lemma reachable_get s : reachable step init s -> get_inv s.
Proof.
  intros H. enough (mon_inv s /\ get_inv s) by tauto. revert s H. apply reachable_invariant.
  - intros ? ->. split; [apply reachable_mon, reachable_init; reflexivity|]. intros t. exact I.
  - intros s l s' [Hc Hi] H. split; [eapply mon_inv_step; eauto|eapply get_inv_step; eauto].
Qed.

(** *** Returns *)
Definition rets_ok (Q : tid -> result -> list event -> Prop) (h : list event) : Prop :=
  forall h2 t r h1, h = h2 ++ HRet t r :: h1 -> Q t r h1.
Lemma rets_ok_cons Q e h : rets_ok Q h -> (forall t r, e = HRet t r -> Q t r h) -> rets_ok Q (e :: h).
Proof. intros H He h2 t r h1 E. destruct h2 as [|x h2]; injection E as -> ->; [apply He; reflexivity|eapply H; reflexivity]. Qed.
Lemma rets_ok_other Q e h : rets_ok Q h -> (forall t r, e <> HRet t r) -> rets_ok Q (e :: h).
Proof. intros H He. apply rets_ok_cons; [exact H|]. intros t r ->. destruct (He t r eq_refl). Qed.

Lemma installed_sourced s c : mon_inv s -> In c (installed (hist s)) -> In c (sourced (hist s)).
Proof.
  intros HM Hc. destruct (mi_src' _ HM) as [E|(t & x & Hx)]; [rewrite E; exact Hc|].
  rewrite (mi_src _ HM t x Hx). right. exact Hc.
Qed.

Definition ret_spec (t : tid) (r : result) (h : list event) : Prop :=
  exists k h1, open_call t h = Some (k, h1) /\
  match r with
  | RConfig c => k = CGet /\ In c (sourced h) /\ at_least_as_new c (installed h1) (installed h)
  | RClosed => (k = CGet \/ exists ch checks, k = CSubscribe ch checks) /\ In HFire h
  | RNil => k <> CGet
  end.

(** a Get or Subscribe that started after a Close completed is still at its first instruction *)
Definition late_inv (s : state) : Prop :=
  forall t k h1, open_call t (hist s) = Some (k, h1) -> k = CGet \/ (exists ch checks, k = CSubscribe ch checks) ->
  close_completed h1 -> pcs s t = entry k.
Definition late_spec (t : tid) (r : result) (h : list event) : Prop :=
  forall k h1, open_call t h = Some (k, h1) -> k = CGet \/ (exists ch checks, k = CSubscribe ch checks) ->
  close_completed h1 -> r = RClosed.

Definition all_inv (s : state) : Prop := lock_inv s /\ call_inv s /\ mon_inv s /\ close_inv s /\ get_inv s.
Lemma reachable_all s : reachable step init s -> all_inv s.
Proof. intros H. repeat split; try apply reachable_lock; try apply reachable_calls; try apply reachable_mon; try apply reachable_both_close; try apply reachable_get; exact H. Qed.

Lemma rets_step s l s' : all_inv s -> rets_ok ret_spec (hist s) -> step s l = Some s' -> rets_ok ret_spec (hist s').
Proof.
  intros (HL & HC & HM & HX & HG) HI H. dstep H; cbn.
  all: try exact HI.
  all: repeat (apply rets_ok_other; [|intros; discriminate]); try exact HI.
  all: at_pcs HC; at_pcs HG; dk; cbn in *; repeat match goal with X : exists _, _ |- _ => destruct X end.
  all: apply rets_ok_cons; [repeat (apply rets_ok_other; [|intros; discriminate]); exact HI|intros t' r' E; injection E as <- <-].
  all: unfold ret_spec, floor in *; cbn [open_call]; try match goal with E : open_call _ _ = _ |- _ => rewrite E in *; eexists _, _; split; [reflexivity|] end.
  all: try discriminate.
  - split; [auto|]. apply (ci_fire _ HX). assumption.
  - split; [reflexivity|]. split; [|assumption]. apply installed_sourced; [exact HM|].
    match goal with X : at_least_as_new _ _ _ |- _ => destruct X as (newer & -> & X) end. apply in_or_app.
    match goal with X : _ \/ _ |- _ => destruct X as [X|X] end; [auto|]. right. destruct (installed x); cbn in *; [discriminate|]. left. congruence.
  - split; [right; eauto|]. apply (ci_fire _ HX). assumption.
  - destruct r as [c0| |]; [|split; [auto|]|tauto].
    + match goal with X : _ /\ _ |- _ => destruct X as [-> X]; split; [reflexivity|]; split; [apply installed_sourced; auto|exists (installed (hist s)); rewrite app_nil_r; auto] end.
    + apply (ci_fire _ HX). apply (ci_g8 _ HX t). rewrite Heqp. exact I.
Qed.

Lemma close_completed_app h2 h : close_completed h -> close_completed (h2 ++ h).
Proof. intros (a & t & b & c & -> & H). exists (h2 ++ a), t, b, c. rewrite app_assoc. auto. Qed.
Lemma late_closed s t k h1 : close_inv s -> open_call t (hist s) = Some (k, h1) -> close_completed h1 -> closed s = EvFired.
Proof.
  intros HX E Hc. apply (ci_done _ HX). destruct (open_call_suffix _ _ _ _ E) as (h2 & ->).
  change (h2 ++ HCall t k :: h1) with (h2 ++ [HCall t k] ++ h1). rewrite app_assoc. apply close_completed_app. exact Hc.
Qed.

Lemma late_step s l s' : all_inv s -> late_inv s -> step s l = Some s' -> late_inv s'.
Proof.
  intros (HL & HC & HM & HX & HG) HI H. pose proof (late_closed s) as HD. dstep H.
  all: intros t' k' h1'; specialize (HI t' k' h1'); specialize (HD t' k' h1' HX); cbn in *; upds; cbn in *.
  all: try exact HI.
  all: try (intros E K Hc; discriminate E).
  all: try (intros E K Hc; specialize (HI E K Hc); specialize (HD E Hc); cbn in *; congruence || (rewrite HD in *; discriminate) || (destruct k'; cbn in *; congruence)).
  all: try (intros E K Hc; injection E as <- <-; reflexivity).
  - intros E K Hc. specialize (HI E K Hc). rewrite Heqp in HI. destruct k'; cbn in HI; try congruence.
    destruct K as [K|(? & ? & K)]; discriminate.
Qed.

Lemma late_rets_step s l s' : all_inv s -> late_inv s -> rets_ok late_spec (hist s) -> step s l = Some s' -> rets_ok late_spec (hist s').
Proof.
  intros (HL & HC & HM & HX & HG) HJ HI H. pose proof (late_closed s) as HD. dstep H; cbn.
  all: try exact HI.
  all: repeat (apply rets_ok_other; [|intros; discriminate]); try exact HI.
  all: apply rets_ok_cons; [repeat (apply rets_ok_other; [|intros; discriminate]); exact HI|intros t' r' E; injection E as <- <-].
  all: intros k' h1' E K Hc; cbn in E; try reflexivity.
  all: specialize (HD _ _ _ HX E Hc); specialize (HJ _ _ _ E K Hc); destruct K as [->|(? & ? & ->)]; cbn in HJ; congruence.
Qed.

Record get_all (s : state) : Prop := { ga_all : all_inv s; ga_rets : rets_ok ret_spec (hist s); ga_late : late_inv s; ga_lrets : rets_ok late_spec (hist s) }.
Lemma all_inv_step s l s' : all_inv s -> step s l = Some s' -> all_inv s'.
Proof.
  intros (HL & HC & HM & HX & HG) H. repeat apply conj; [eapply lock_inv_step|eapply call_inv_step|eapply mon_inv_step|eapply close_inv_step|eapply get_inv_step]; eauto.
Qed.
Lemma reachable_get_all s : reachable step init s -> get_all s.
Proof.
  revert s. apply reachable_invariant.
  - intros s0 E. assert (reachable step init s0) as R by (apply reachable_init; exact E).
    rewrite E in *. constructor; [apply reachable_all; exact R| | |].
    + intros h2 t r h1 X. destruct h2; discriminate.
    + intros t k h1 X. discriminate.
    + intros h2 t r h1 X. destruct h2; discriminate.
  - intros s l s' [A B C D] H. constructor; [eapply all_inv_step|eapply rets_step|eapply late_step|eapply late_rets_step]; eauto.
Qed.
