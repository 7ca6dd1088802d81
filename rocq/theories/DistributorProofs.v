(** Invariants of the ConfigDistributor model. *)
From Verif Require Export SpecDistributor.
Require Import Lia.

#[global] Arguments Nat.ltb : simpl never.
Ltac dstep H :=
  unfold step, go, after_close in H;
  repeat (match type of H with
          | context [sending (pcs ?s ?t)] => destruct (pcs s t) eqn:?; cbn [sending] in H
          | context [match ?x with _ => _ end] => first [is_var x; destruct x | destruct x eqn:?]; cbn [sending] in H
          end; try discriminate);
  try (injection H as <-);
  try match goal with E : is_free ?x = true |- _ => unfold is_free in E; destruct (writer x) eqn:?; [discriminate|]; destruct (readers x) eqn:?; [clear E|discriminate] end;
  repeat match goal with E : Nat.eqb _ _ = true |- _ => apply Nat.eqb_eq in E; subst end.
(** instantiate [P : forall t, ...] at every goroutine whose program counter is known *)
Ltac at_pcs P := repeat match goal with
  | E : pcs ?s ?t = ?p |- _ => lazymatch goal with _ : t = t /\ P = P |- _ => fail | _ => idtac end;
      let X := fresh in pose proof (P t) as X; rewrite E in X; revert E X end; intros.
Ltac upds := unfold upd in *; repeat match goal with
  | |- context [Nat.eqb ?a ?b] => destruct (Nat.eqb_spec a b); [subst|]
  end.

Lemma remove_tid_spec t l x : NoDup l -> (In x (remove_tid t l) <-> In x l /\ x <> t).
Proof.
  induction l as [|a l IH]; cbn; intros Hn; [tauto|]. inversion Hn as [|? ? Ha Hl]; subst. specialize (IH Hl).
  destruct (Nat.eqb_spec t a) as [->|E].
  - split; [intros H; split; [auto|intros ->; tauto]|]. intros [[->|?] ?]; congruence.
  - cbn. rewrite IH. split; [intros [->|[? ?]]; split; auto|]. intros [[->|?] ?]; auto.
Qed.
Lemma remove_tid_nodup t l : NoDup l -> NoDup (remove_tid t l).
Proof.
  induction l as [|a l IH]; cbn; intros Hn; [constructor|]. inversion Hn as [|? ? Ha Hl]; subst.
  destruct (Nat.eqb_spec t a); [exact Hl|]. constructor; [|auto]. rewrite remove_tid_spec by exact Hl. tauto.
Qed.

(** *** The lock *)
Record lock_inv (s : state) : Prop := {
  li_writer : forall t, writer s = Some t <-> in_write_section (pcs s t);
  li_readers : forall t, In t (readers s) <-> pcs s t = G2;
  li_excl : writer s <> None -> readers s = [];
  li_nodup : NoDup (readers s) }.

Lemma lock_inv_step s l s' : lock_inv s -> step s l = Some s' -> lock_inv s'.
Proof.
  intros HI H. dstep H. all: destruct HI as [Hw Hr He Hn].
  all: cbn in *; at_pcs Hw; at_pcs Hr; cbn in *.
  all: constructor; cbn in *.
  all: try (intros t'; specialize (Hw t'); specialize (Hr t'); upds).
  all: try assumption; try tauto.
  all: try (rewrite remove_tid_spec by exact Hn).
  all: try solve [intuition congruence].
  all: try match goal with E : readers _ = [] |- _ => rewrite E in * end; cbn in *; try solve [intuition congruence].
  - constructor; [|exact Hn]. intros X. destruct H0 as [H0 _]. discriminate (H0 X).
  - intros Hx. specialize (He Hx). rewrite He. reflexivity.
  - apply remove_tid_nodup, Hn.
Qed.
Lemma lock_inv_init : lock_inv NewConfigDistributor.
Proof. constructor; cbn; try tauto; try (intros; split; [discriminate|tauto]); try (intros; split; [tauto|discriminate]). constructor. Qed.
Lemma reachable_lock s : reachable step init s -> lock_inv s.
Proof. apply reachable_invariant; [intros ? ->; apply lock_inv_init|apply lock_inv_step]. Qed.

(** *** Calls in progress *)
Definition in_call (p : pc) (o : option (call * list event)) : Prop :=
  match p with
  | Idle | M0 | M1 _ | M2 _ | M3 _ _ _ | M4 _ _ _ _ | MExit | C0 CMon | C1 CMon | C2 CMon | C3 CMon => o = None
  | G0 | G1 | G2 | G3 _ | S0 _ _ SGet | S1 _ _ SGet | S2 _ _ SGet | S3 _ _ SGet _ | S4 _ _ SGet | S5 _ SGet
  | G5 _ | G6 _ _ | G7 _ _ | G8 _ _ => exists h, o = Some (CGet, h)
  | S0 ch checks STop | S1 ch checks STop | S2 ch checks STop | S3 ch checks STop _ | S4 ch checks STop =>
      exists h, o = Some (CSubscribe ch checks, h)
  | S5 ch STop => exists checks h, o = Some (CSubscribe ch checks, h)
  | U0 ch | U1 ch => exists h, o = Some (CUnsubscribe ch, h)
  | C0 CTop | C1 CTop | C2 CTop | C3 CTop => exists h, o = Some (CClose, h)
  end.
Definition call_inv (s : state) : Prop := forall t, in_call (pcs s t) (open_call t (hist s)).

Ltac dk := repeat match goal with k : skont |- _ => destruct k | k : ckont |- _ => destruct k end.

Lemma call_inv_step s l s' : call_inv s -> step s l = Some s' -> call_inv s'.
Proof.
  intros Hc H. dstep H.
  all: at_pcs Hc; intros t'; specialize (Hc t'); cbn in *; upds; dk; cbn in *.
  all: try exact Hc.
  all: try assumption.
  all: try reflexivity.
  all: try congruence.
  all: eauto.
Qed.
Lemma reachable_calls s : reachable step init s -> call_inv s.
Proof. apply reachable_invariant; [intros ? -> t; reflexivity|apply call_inv_step]. Qed.

Lemma open_call_suffix t h k h1 : open_call t h = Some (k, h1) -> exists h2, h = h2 ++ HCall t k :: h1.
Proof.
  induction h as [|e h IH]; cbn; [discriminate|]. intros H.
  destruct e; try (destruct (IH H) as (h2 & ->); exists (e :: h2); reflexivity) || idtac.
  all: try (destruct (IH H) as (h2 & ->); eexists (_ :: h2); reflexivity).
  - destruct (Nat.eqb_spec t t0) as [->|]; [injection H as <- <-; exists []; reflexivity|].
    destruct (IH H) as (h2 & ->). eexists (_ :: h2). reflexivity.
  - destruct (Nat.eqb_spec t t0) as [->|]; [discriminate|].
    destruct (IH H) as (h2 & ->). eexists (_ :: h2). reflexivity.
Qed.
Lemma installed_app h1 h2 : installed (h1 ++ h2) = installed h1 ++ installed h2.
Proof. induction h1 as [|[] h1 IH]; cbn; rewrite ?IH; reflexivity. Qed.

(** *** The monitor and the source *)
Record mon_inv (s : state) : Prop := {
  mi_started : started s = false -> forall t, ~ is_monitor (pcs s t);
  mi_unique : forall t t', is_monitor (pcs s t) -> is_monitor (pcs s t') -> t = t';
  mi_last : last s = current (hist s);
  mi_src : forall t c, pcs s t = M1 c \/ pcs s t = M2 c -> sourced (hist s) = c :: installed (hist s);
  mi_src' : sourced (hist s) = installed (hist s) \/ exists t c, pcs s t = M1 c \/ pcs s t = M2 c }.

Lemma mon_inv_step s l s' : mon_inv s -> step s l = Some s' -> mon_inv s'.
Proof.
  intros HI H. dstep H. all: destruct HI as [Hs Hu Hl Hc Hc'].
  all: at_pcs Hu; cbn in *.
  all: constructor; cbn in *.
  all: try exact Hl; try exact Hs; try exact Hu; try exact Hc; try exact Hc'; try reflexivity.
  all: dk.
  all: try solve [intros Hx t'; specialize (Hs Hx); pose proof (Hs t'); at_pcs Hs; upds; cbn in *; tauto].
  all: try solve [intros a b; specialize (Hu a b); repeat match goal with X : forall t', _ -> is_monitor (pcs _ t') -> _ |- _ => pose proof (X a); specialize (X b) end; upds; cbn in *; auto; try tauto; intuition congruence].
  all: try solve [intros a c'; specialize (Hc a c'); upds; intuition congruence].
  all: try solve [destruct Hc' as [Hc'|(a & c' & Hc')]; [left; exact Hc'|right; exists a, c'; upds; intuition congruence]].
  all: try solve [unfold current in *; cbn; congruence].
  all: try solve [intros; congruence].
  all: try solve [intros a b; specialize (Hs ltac:(assumption)); pose proof (Hs a); pose proof (Hs b); upds; cbn in *; tauto].
  - intros a c'. specialize (Hc a c') as Ha. specialize (Hc t c (or_introl Heqp)). upds; [|tauto]. intuition congruence.
  - intros a c'. specialize (H a I). upds; [intuition congruence|]. intros Ha. destruct n. symmetry. apply H. destruct Ha as [-> | ->]; exact I.
  - left. apply (Hc t). auto.
  - intros a c'. specialize (H a I) as Ha. upds.
    + intros X. assert (c = c') as -> by (destruct X; congruence). f_equal.
      destruct Hc' as [Hc'|(b & cb & Hb)]; [exact Hc'|]. assert (t = b) as -> by (apply H; [exact I|destruct Hb as [-> | ->]; exact I]). destruct Hb; congruence.
    + intros X. destruct n. symmetry. apply Ha. destruct X as [-> | ->]; exact I.
  - right. exists t, c. rewrite upd_same. auto.
Qed.
Lemma reachable_mon s : reachable step init s -> mon_inv s.
Proof. apply reachable_invariant; [intros ? ->; constructor; cbn; try tauto; try discriminate; intros ? ? [|]; discriminate|apply mon_inv_step]. Qed.

(** *** What the history says about the monitor *)
Definition starts (h : list event) : nat := length (filter (fun e => match e with HMonStart _ => true | _ => false end) h).
Record monhist_inv (s : state) : Prop := {
  mh_start : forall t, In (HMonStart t) (hist s) <-> is_monitor (pcs s t);
  mh_exit : forall t, In (HMonExit t) (hist s) <-> pcs s t = MExit;
  mh_count : starts (hist s) = if started s then 1%nat else 0%nat }.
Lemma monhist_inv_step s l s' : mon_inv s -> monhist_inv s -> step s l = Some s' -> monhist_inv s'.
Proof.
  intros HM HI H. dstep H. all: destruct HI as [Hs He Hc]; pose proof (mi_started _ HM) as Hns; clear HM.
  all: at_pcs Hs; at_pcs He; dk; unfold starts in *; cbn in *.
  all: constructor; cbn in *; unfold starts in *; cbn in *.
  all: try exact Hs; try exact He; try exact Hc; try congruence.
  all: try solve [intros t'; specialize (Hs t'); upds; cbn in *; intuition congruence].
  all: try solve [intros t'; specialize (He t'); upds; cbn in *; intuition congruence].
  all: match goal with X : started _ = _ |- _ => rewrite Hc, X; reflexivity end.
Qed.
Lemma reachable_monhist s : reachable step init s -> monhist_inv s.
Proof.
  intros H. enough (mon_inv s /\ monhist_inv s) by tauto. revert s H. apply reachable_invariant.
  - intros ? ->. split; [|constructor; cbn; try reflexivity; intuition discriminate].
    constructor; cbn; try tauto; try discriminate. intros ? ? [|]; discriminate.
  - intros s l s' [Hm Hi] H. split; [eapply mon_inv_step; eauto|eapply monhist_inv_step; eauto].
Qed.

(** *** Closing *)
Definition post_fire (p : pc) : Prop :=
  match p with C2 _ | C3 _ | MExit | G6 _ RClosed | G7 _ RClosed => True | _ => False end.
Definition firing (p : pc) : Prop := match p with C1 _ => True | _ => False end.
Definition refused (p : pc) : Prop := match p with G8 _ RClosed => True | _ => False end.
Record close_inv (s : state) : Prop := {
  ci_fire : ev_fired (closed s) = true <-> In HFire (hist s);
  ci_firing : forall t, closed s = EvFiring t <-> firing (pcs s t);
  ci_post : forall t, post_fire (pcs s t) -> closed s = EvFired;
  ci_g8 : forall t, refused (pcs s t) -> ev_fired (closed s) = true;
  ci_exit : forall t, In (HMonExit t) (hist s) -> closed s = EvFired;
  ci_done : close_completed (hist s) -> closed s = EvFired }.

Lemma close_completed_cons e h :
  close_completed (e :: h) ->
  close_completed h \/ exists t h0, e = HRet t RNil /\ open_call t h = Some (CClose, h0).
Proof.
  intros (h2 & t & h1 & h0 & E & H). destruct h2 as [|x h2]; injection E as -> ->.
  - right. eauto.
  - left. exists h2, t, h1, h0. auto.
Qed.

Lemma close_inv_step s l s' : call_inv s -> close_inv s -> step s l = Some s' -> close_inv s'.
Proof.
  intros Hcall HI H. dstep H. all: destruct HI as [Hf Hfi Hp H8 He Hd].
  all: at_pcs Hcall; at_pcs Hfi; at_pcs Hp; at_pcs H8; cbn in *.
  all: constructor; cbn in *.
  all: try exact Hf; try exact Hfi; try exact Hp; try exact H8; try exact He; try exact Hd.
  all: try solve [rewrite Hf; intuition congruence].
  all: try solve [intros t'; specialize (Hfi t'); upds; cbn in *; intuition congruence].
  all: try solve [intros t'; specialize (Hp t'); upds; cbn in *; intuition congruence].
  all: try solve [intros t'; specialize (H8 t'); upds; cbn in *; intuition congruence].
  all: try solve [intros t'; specialize (He t'); intuition congruence].
  all: try solve [intros Hx; repeat (apply close_completed_cons in Hx; destruct Hx as [Hx|(? & ? & Hx & ?)]; [|discriminate Hx]); auto].
  all: try match goal with r : result |- _ => destruct r end.
  all: try solve [intros t'; pose proof (Hp t'); specialize (H8 t'); upds; cbn in *; intuition congruence].
  all: dk; cbn in *.
  all: try solve [intros Hx; repeat (apply close_completed_cons in Hx; destruct Hx as [Hx|(? & ? & Hx & Hy)]); try discriminate Hx; auto; injection Hx as <-; cbn in Hy;
     repeat match goal with X : exists _, _ |- _ => destruct X end; congruence].
  all: try solve [rewrite ?Heqe in *; intuition congruence].
  all: try solve [intros Hx; repeat (apply close_completed_cons in Hx; destruct Hx as [Hx|(? & ? & Hx & ?)]; [|discriminate Hx]); specialize (Hd Hx); congruence].
  all: try solve [intros t' _; rewrite (H1 I); reflexivity].
  all: try solve [split; [|auto]; intros _; apply Hf; destruct H0 as [_ H0]; rewrite (H0 I); reflexivity].
  all: assert (closed s = EvFired) as HF by (destruct (closed s); try discriminate; reflexivity).
  all: intros t' _; exact HF.
Qed.
Lemma reachable_both_close s : reachable step init s -> close_inv s.
Proof.
  intros H. enough (call_inv s /\ close_inv s) by tauto. revert s H. apply reachable_invariant.
  - intros ? ->. split; [intros t; reflexivity|]. constructor; cbn; try tauto; try (intuition discriminate).
    intros (h2 & t & h1 & h0 & E & _). destruct h2; discriminate.
  - intros s l s' [Hc Hi] H. split; [eapply call_inv_step; eauto|eapply close_inv_step; eauto].
Qed.


(** *** Close takes effect once *)
Definition cancels (h : list event) : nat := length (filter (fun e => match e with HCancelAll => true | _ => false end) h).
Definition closing (p : pc) : Prop := match p with C1 _ | C2 _ | C3 _ => True | _ => False end.
Record once_inv (s : state) : Prop := {
  oi_unique : forall t t', closing (pcs s t) -> closing (pcs s t') -> t = t';
  oi_init : closed s = EvInit -> forall t, ~ closing (pcs s t);
  oi_none : closed s = EvInit -> cancels (hist s) = 0%nat;
  oi_busy : forall t, closing (pcs s t) -> cancels (hist s) = 0%nat;
  oi_max : (cancels (hist s) <= 1)%nat }.
Lemma once_inv_step s l s' : once_inv s -> step s l = Some s' -> once_inv s'.
Proof.
  intros HI H. dstep H. all: destruct HI as [Hu Hi Hn Hb Hm].
  all: at_pcs Hu; at_pcs Hi; at_pcs Hb; dk; unfold cancels in *; cbn in *.
  all: constructor; cbn in *.
  all: try exact Hu; try exact Hi; try exact Hn; try exact Hb; try exact Hm.
  all: try solve [intros a b; pose proof (Hu a b); repeat match goal with X : forall t', _ -> closing (pcs _ t') -> _ |- _ => pose proof (X a); specialize (X b) end; upds; cbn in *; auto; try tauto; intuition congruence].
  all: try solve [intros Hx a; try discriminate Hx; specialize (Hi Hx a); upds; cbn in *; tauto].
  all: try solve [intros Hx; try discriminate Hx; auto].
  all: try solve [intros a; pose proof (Hb a); upds; cbn in *; tauto].
  all: try congruence.
  all: try solve [intros a b; pose proof (Hi ltac:(assumption) a); pose proof (Hi ltac:(assumption) b); upds; cbn in *; tauto].
  all: try solve [intros a; pose proof (Hi ltac:(assumption) a); upds; cbn in *; tauto].
  all: try solve [intros a; specialize (H a I); upds; cbn in *; [tauto|intros X; destruct n; symmetry; tauto]].
  all: try solve [rewrite (H0 I); auto].
  all: try solve [intros Hx; destruct (Hi Hx t); rewrite Heqp; exact I].
Qed.
Lemma reachable_once s : reachable step init s -> once_inv s.
Proof. apply reachable_invariant; [intros ? ->; constructor; cbn; try tauto; auto|apply once_inv_step]. Qed.
