(** Invariants of Event.v *)
From Verif Require Import Event SpecEvent.
Require Import Lia.

Definition holds (p : epc) : Prop := match p with F3 | F4 | F5 | F6 | F7 _ => True | _ => False end.
Definition won (p : epc) : Prop := match p with F6 | F7 true | F8 true => True | _ => False end.
Definition is_ret (e : eevent) : Prop := match e with RetFire _ _ => True | _ => False end.
Definition is_call (e : eevent) : Prop := match e with CallFire _ => True | _ => False end.
Record einv (w : option tid) (s : estate) : Prop := EInv {
  i_mutex : forall t, o_mutex s = Some t <-> holds (e_pc s t);
  i_crash : e_crashed s = false;
  i_closed : match w with None => e_closed s = false /\ o_done s = false
                        | Some _ => e_closed s = true /\ e_fired s = true end;
  i_f4 : forall t, e_pc s t = F4 -> w = None /\ e_fired s = false;
  i_f5 : forall t, e_pc s t = F5 -> w = None /\ e_fired s = true;
  i_f6 : forall t, e_pc s t = F6 -> w = Some t /\ o_done s = false;
  i_f7 : forall t b, e_pc s t = F7 b -> o_done s = true /\ (b = true -> w = Some t);
  i_f8 : forall t b, e_pc s t = F8 b -> o_done s = true /\ (b = true -> w = Some t);
  i_fired : e_fired s = true -> w <> None \/ exists t, e_pc s t = F5;
  i_w : forall t, w = Some t -> o_done s = true \/ e_pc s t = F6;
  i_wins : match w with
           | None => wins (e_hist s) = 0%nat
           | Some t => won (e_pc s t) /\ wins (e_hist s) = 0%nat \/ ~ won (e_pc s t) /\ wins (e_hist s) = 1%nat
           end;
  i_ret : forall e, In e (e_hist s) -> is_ret e -> o_done s = true;
  i_after : forall h2 e h1, e_hist s = h2 ++ e :: h1 -> is_ret e -> Forall (obs true) h2;
  i_fresh : (forall e, In e (e_hist s) -> ~ is_call e) -> (forall t, e_pc s t = EIdle) /\ w = None;
  i_before : forall h2 h1, e_hist s = h2 ++ h1 -> (forall e, In e h1 -> ~ is_call e) -> Forall (obs false) h1;
  i_called : forall e, In e (e_hist s) -> is_call e -> o_done s = true \/ exists t, e_pc s t <> EIdle
}.

Lemma einv_init : einv None NewEvent.
Proof.
  split; cbn; try (intros; discriminate); try tauto; try (split; congruence).
  - intros t. split; [discriminate|tauto].
  - intros h2 e h1 H. destruct h2; discriminate.
  - intros h2 h1 H. destruct h2; [|discriminate]. cbn in H. subst. constructor.
Qed.

(** a new event [e] on top of a history *)
Lemma after_cons h e : (forall h2 x h1, h = h2 ++ x :: h1 -> is_ret x -> Forall (obs true) h2) ->
  ((exists x, In x h /\ is_ret x) -> obs true e) ->
  forall h2 x h1, e :: h = h2 ++ x :: h1 -> is_ret x -> Forall (obs true) h2.
Proof.
  intros H He h2 x h1 E Hx. destruct h2 as [|y h2]; [constructor|]. cbn in E. injection E as <- E.
  constructor; [|eauto]. apply He. exists x. split; [|exact Hx]. rewrite E. apply in_or_app. right. left. reflexivity.
Qed.
Lemma before_cons h e : (forall h2 h1, h = h2 ++ h1 -> (forall x, In x h1 -> ~ is_call x) -> Forall (obs false) h1) ->
  ((forall x, In x h -> ~ is_call x) -> obs false e) ->
  forall h2 h1, e :: h = h2 ++ h1 -> (forall x, In x h1 -> ~ is_call x) -> Forall (obs false) h1.
Proof.
  intros H He h2 h1 E Hn. destruct h2 as [|y h2]; cbn in E.
  - subst h1. assert (forall x, In x h -> ~ is_call x) as Hh by (intros; apply Hn; right; assumption).
    constructor; [auto|]. apply (H [] h); auto.
  - injection E as <- E. eauto.
Qed.

Lemma wins_other e h : is_win e = false -> wins (e :: h) = wins h.
Proof. intros H. unfold wins. cbn. rewrite H. reflexivity. Qed.

Ltac thr t' t := destruct (Nat.eq_dec t' t) as [->|?Hne]; [rewrite upd_same in *|rewrite upd_other in * by assumption].

(** moving goroutine [t] between points that neither hold the mutex differently nor win *)
Lemma einv_goto w s t p : einv w s ->
  (holds p <-> holds (e_pc s t)) -> (won p <-> won (e_pc s t)) ->
  (p = F4 -> w = None /\ e_fired s = false) -> p <> F5 -> e_pc s t <> F5 -> p <> F6 -> e_pc s t <> F6 ->
  (forall b, p = F7 b -> o_done s = true /\ (b = true -> w = Some t)) ->
  (forall b, p = F8 b -> o_done s = true /\ (b = true -> w = Some t)) ->
  e_pc s t <> EIdle -> p <> EIdle -> einv w (goto s t p).
Proof.
  intros I Hh Hw H4 H5 H5' H6 H6' H7 H8 Hi Hi'. destruct I. split; cbn; try assumption.
  - intros t'. thr t' t; [rewrite Hh|]; apply i_mutex0.
  - intros t' E. thr t' t; eauto.
  - intros t' E. thr t' t; [contradiction|eauto].
  - intros t' E. thr t' t; [contradiction|eauto].
  - intros t' b E. thr t' t; eauto.
  - intros t' b E. thr t' t; eauto.
  - intros Hf. destruct (i_fired0 Hf) as [|(t' & E)]; [auto|]. right. exists t'. thr t' t; [contradiction|exact E].
  - intros t' E. destruct (i_w0 t' E) as [|E']; [auto|]. right. thr t' t; [contradiction|exact E'].
  - destruct w as [t'|]; [|assumption]. thr t' t; [rewrite Hw|]; assumption.
  - intros Hn. destruct (i_fresh0 Hn) as [Hall ?]. exfalso. apply Hi. auto.
  - intros e He Hc. right. exists t. rewrite upd_same. exact Hi'.
Qed.

Lemma einv_step w s l s' : einv w s -> estep s l = Some s' -> exists w', einv w' s'.
Proof.
  intros I H. unfold estep in H. rewrite (i_crash _ _ I) in H. destruct l as [t|t|t|t].
  - (* call *)
    destruct (e_pc s t) eqn:Ep; try discriminate. injection H as <-. exists w. destruct I. split; cbn; try assumption.
    + intros t'. thr t' t; [rewrite i_mutex0, Ep; reflexivity|apply i_mutex0].
    + intros t' E. thr t' t; [discriminate|eauto].
    + intros t' E. thr t' t; [discriminate|eauto].
    + intros t' E. thr t' t; [discriminate|eauto].
    + intros t' b E. thr t' t; [discriminate|eauto].
    + intros t' b E. thr t' t; [discriminate|eauto].
    + intros Hf. destruct (i_fired0 Hf) as [|(t' & E)]; [auto|]. right. exists t'. thr t' t; [congruence|exact E].
    + intros t' E. destruct (i_w0 t' E) as [|E']; [auto|]. right. thr t' t; [congruence|exact E'].
    + destruct w as [t'|]; rewrite !wins_other by reflexivity; [|assumption].
      thr t' t; [rewrite Ep in i_wins0|]; cbn in *; assumption.
    + intros e [<-|He] Hr; [destruct Hr|eauto].
    + apply after_cons; [assumption|]. intros _. exact Coq.Init.Logic.I.
    + intros Hn. exfalso. apply (Hn (CallFire t)); cbn; auto.
    + apply before_cons; [assumption|]. intros _. exact Coq.Init.Logic.I.
    + intros e _ _. right. exists t. rewrite upd_same. discriminate.
  - (* go *)
    destruct (e_pc s t) eqn:Ep; try discriminate.
    + (* F1 *)
      injection H as <-. exists w. destruct (o_done s) eqn:Ed; (apply einv_goto; [exact I|rewrite Ep; cbn; tauto..]) ||
        (apply einv_goto; try rewrite Ep; cbn; try tauto; try discriminate; try exact I; intros b [= <-]; split; [exact Ed|discriminate]) ||
        (apply einv_goto; try rewrite Ep; cbn; try tauto; try discriminate; exact I).
    + (* F2 *)
      destruct (o_mutex s) eqn:Em; [discriminate|]. injection H as <-. exists w. destruct I.
      assert (forall t', ~ holds (e_pc s t')) as Hno by (intros t' Ht; apply i_mutex0 in Ht; congruence).
      split; cbn; try assumption; try reflexivity.
      * intros t'. thr t' t; [cbn; tauto|]. split; [congruence|]. intros Ht. exfalso. eapply Hno, Ht.
      * intros t' E. thr t' t; [discriminate|eauto].
      * intros t' E. thr t' t; [discriminate|eauto].
      * intros t' E. thr t' t; [discriminate|eauto].
      * intros t' b E. thr t' t; [discriminate|eauto].
      * intros t' b E. thr t' t; [discriminate|eauto].
      * intros Hf. destruct (i_fired0 Hf) as [|(t' & E)]; [auto|]. exfalso. apply (Hno t'). rewrite E. exact Coq.Init.Logic.I.
      * intros t' E. destruct (i_w0 t' E) as [|E']; [auto|]. exfalso. apply (Hno t'). rewrite E'. exact Coq.Init.Logic.I.
      * destruct w as [t'|]; [|assumption]. thr t' t; [rewrite Ep in i_wins0|]; cbn in *; assumption.
      * intros Hn. destruct (i_fresh0 Hn) as [Hall _]. rewrite Hall in Ep. discriminate.
      * intros e _ _. right. exists t. rewrite upd_same. discriminate.
    + (* F3 *)
      injection H as <-. exists w.
      assert (o_mutex s = Some t) as Hm by (apply I; rewrite Ep; exact Coq.Init.Logic.I).
      destruct (o_done s) eqn:Ed.
      * apply einv_goto; try rewrite Ep; cbn; try tauto; try discriminate; try exact I.
        intros b [= <-]. split; [exact Ed|discriminate].
      * apply einv_goto; try rewrite Ep; cbn; try tauto; try discriminate; try exact I.
        intros _. assert (w = None) as Hw.
        { destruct w as [t'|]; [|reflexivity]. destruct (i_w _ _ I t' eq_refl) as [Hd|E']; [congruence|].
          assert (o_mutex s = Some t') as Hm' by (apply I; rewrite E'; exact Coq.Init.Logic.I). congruence. }
        split; [exact Hw|]. destruct (e_fired s) eqn:Ef; [|reflexivity].
        destruct (i_fired _ _ I Ef) as [Hn|(t' & E')]; [contradiction|].
        assert (o_mutex s = Some t') as Hm' by (apply I; rewrite E'; exact Coq.Init.Logic.I). congruence.
    + (* F4 *)
      injection H as <-. exists w. destruct I. destruct (i_f9 t Ep) as [-> Hf].
      assert (o_mutex s = Some t) as Hm by (apply i_mutex0; rewrite Ep; exact Coq.Init.Logic.I).
      assert (forall t', t' <> t -> ~ holds (e_pc s t')) as Hno by (intros t' Hd Ht; apply i_mutex0 in Ht; congruence).
      split; cbn; try assumption; try reflexivity.
      * intros t'. thr t' t; [cbn; tauto|apply i_mutex0].
      * intros t' E. thr t' t; [discriminate|]. exfalso. apply (Hno t' Hne). rewrite E. exact Coq.Init.Logic.I.
      * intros t' E. split; reflexivity.
      * intros t' E. thr t' t; [discriminate|eauto].
      * intros t' b E. thr t' t; [discriminate|eauto].
      * intros t' b E. thr t' t; [discriminate|eauto].
      * intros _. right. exists t. apply upd_same.
      * intros t' E. discriminate.
      * intros Hn. destruct (i_fresh0 Hn) as [Hall _]. rewrite Hall in Ep. discriminate.
      * intros e _ _. right. exists t. rewrite upd_same. discriminate.
    + (* F5 *)
      destruct I. destruct (i_f10 t Ep) as [-> Hf]. destruct i_closed0 as [Hc Hd]. rewrite Hc in H. injection H as <-.
      assert (o_mutex s = Some t) as Hm by (apply i_mutex0; rewrite Ep; exact Coq.Init.Logic.I).
      assert (forall t', t' <> t -> ~ holds (e_pc s t')) as Hno by (intros t' Hx Ht; apply i_mutex0 in Ht; congruence).
      exists (Some t). split; cbn; try assumption; try reflexivity.
      * intros t'. thr t' t; [cbn; tauto|apply i_mutex0].
      * auto.
      * intros t' E. thr t' t; [discriminate|]. exfalso. apply (Hno t' Hne). rewrite E. exact Coq.Init.Logic.I.
      * intros t' E. thr t' t; [discriminate|]. exfalso. apply (Hno t' Hne). rewrite E. exact Coq.Init.Logic.I.
      * intros t' E. thr t' t; [auto|]. exfalso. apply (Hno t' Hne). rewrite E. exact Coq.Init.Logic.I.
      * intros t' b E. thr t' t; [discriminate|]. exfalso. apply (Hno t' Hne). rewrite E. exact Coq.Init.Logic.I.
      * intros t' b E. thr t' t; [discriminate|]. apply i_f13 in E. destruct E. congruence.
      * intros _. left. discriminate.
      * intros t' [= ->]. right. apply upd_same.
      * left. rewrite upd_same. split; [exact Coq.Init.Logic.I|assumption].
      * intros Hn. destruct (i_fresh0 Hn) as [Hall _]. rewrite Hall in Ep. discriminate.
      * intros e _ _. right. exists t. rewrite upd_same. discriminate.
    + (* F6 *)
      injection H as <-. destruct I. destruct (i_f11 t Ep) as [-> Hd].
      assert (o_mutex s = Some t) as Hm by (apply i_mutex0; rewrite Ep; exact Coq.Init.Logic.I).
      assert (forall t', t' <> t -> ~ holds (e_pc s t')) as Hno by (intros t' Hx Ht; apply i_mutex0 in Ht; congruence).
      exists (Some t). split; cbn; try assumption; try reflexivity.
      * intros t'. thr t' t; [cbn; tauto|apply i_mutex0].
      * intros t' E. thr t' t; [discriminate|eauto].
      * intros t' E. thr t' t; [discriminate|eauto].
      * intros t' E. thr t' t; [discriminate|]. exfalso. apply (Hno t' Hne). rewrite E. exact Coq.Init.Logic.I.
      * intros t' b E. thr t' t; [split; [reflexivity|intros _; reflexivity]|].
        exfalso. apply (Hno t' Hne). rewrite E. exact Coq.Init.Logic.I.
      * intros t' b E. thr t' t; [discriminate|]. apply i_f13 in E. destruct E. congruence.
      * intros _. left. discriminate.
      * auto.
      * rewrite Ep in i_wins0. rewrite upd_same. cbn in *. exact i_wins0.
      * intros Hn. destruct (i_fresh0 Hn) as [Hall _]. rewrite Hall in Ep. discriminate.
      * auto.
    + (* F7 *)
      injection H as <-. exists w. destruct I. destruct (i_f12 t ret Ep) as [Hd Hw].
      assert (o_mutex s = Some t) as Hm by (apply i_mutex0; rewrite Ep; exact Coq.Init.Logic.I).
      assert (forall t', t' <> t -> ~ holds (e_pc s t')) as Hno by (intros t' Hx Ht; apply i_mutex0 in Ht; congruence).
      split; cbn; try assumption; try reflexivity.
      * intros t'. thr t' t; [cbn; split; [discriminate|tauto]|]. split; [discriminate|]. intros Ht. exfalso. eapply Hno; eauto.
      * intros t' E. thr t' t; [discriminate|eauto].
      * intros t' E. thr t' t; [discriminate|eauto].
      * intros t' E. thr t' t; [discriminate|eauto].
      * intros t' b E. thr t' t; [discriminate|eauto].
      * intros t' b E. thr t' t; [injection E as <-; auto|eauto].
      * intros Hf. destruct (i_fired0 Hf) as [|(t' & E)]; [auto|]. right. exists t'. thr t' t; [congruence|exact E].
      * auto.
      * destruct w as [t'|]; [|assumption]. thr t' t; [rewrite Ep in i_wins0|]; cbn in *; assumption.
      * intros Hn. destruct (i_fresh0 Hn) as [Hall _]. rewrite Hall in Ep. discriminate.
      * auto.
    + (* F8 *)
      injection H as <-. exists w. destruct I. destruct (i_f13 t ret Ep) as [Hd Hw].
      assert (w <> None /\ e_fired s = true /\ e_closed s = true) as (Hwn & Hf & Hc).
      { destruct w; [|destruct i_closed0; congruence]. destruct i_closed0. repeat split; [discriminate|assumption..]. }
      split; cbn; try assumption; try reflexivity.
      * intros t'. thr t' t; [rewrite i_mutex0, Ep; reflexivity|apply i_mutex0].
      * intros t' E. thr t' t; [discriminate|eauto].
      * intros t' E. thr t' t; [discriminate|eauto].
      * intros t' E. thr t' t; [discriminate|eauto].
      * intros t' b E. thr t' t; [discriminate|eauto].
      * intros t' b E. thr t' t; [discriminate|eauto].
      * auto.
      * auto.
      * destruct w as [t'|]; [|contradiction]. destruct ret.
        -- specialize (Hw eq_refl). injection Hw as ->. rewrite upd_same, Ep in *. cbn in i_wins0.
           destruct i_wins0 as [[_ Hz]|[Hx _]]; [|tauto]. right. split; [exact (fun x => x)|].
           unfold wins in *. cbn. rewrite Hz. reflexivity.
        -- rewrite !wins_other by reflexivity. thr t' t; [rewrite Ep in i_wins0|]; cbn in *; assumption.
      * intros; assumption.
      * apply after_cons; [assumption|]. intros _. exact Coq.Init.Logic.I.
      * intros Hn. destruct i_fresh0 as [Hall _]; [|rewrite Hall in Ep; discriminate].
        intros e He. apply Hn. cbn. auto.
      * apply before_cons; [assumption|]. intros _. exact Coq.Init.Logic.I.
      * auto.
  - (* HasFired *)
    destruct (e_pc s t) eqn:Ep; try discriminate. injection H as <-. exists w. destruct I. split; cbn; try assumption.
    + intros e [<-|He] Hr; [destruct Hr|eauto].
    + apply after_cons; [assumption|]. intros (x & Hx & Hr). cbn. pose proof (i_ret0 x Hx Hr) as Hd.
      destruct w; [tauto|]. destruct i_closed0; congruence.
    + intros Hn. apply i_fresh0. intros e He. apply Hn. right. exact He.
    + apply before_cons; [assumption|]. intros Hn. cbn. destruct (i_fresh0 Hn) as [Hall ->].
      destruct (e_fired s) eqn:Ef; [|reflexivity]. destruct (i_fired0 eq_refl) as [Hx|(t' & E)]; [contradiction|].
      rewrite Hall in E. discriminate.
    + intros e [<-|He] Hc; [destruct Hc|eauto].
  - (* Done *)
    destruct (e_pc s t) eqn:Ep; try discriminate. injection H as <-. exists w. destruct I. split; cbn; try assumption.
    + intros e [<-|He] Hr; [destruct Hr|eauto].
    + apply after_cons; [assumption|]. intros (x & Hx & Hr). cbn. pose proof (i_ret0 x Hx Hr) as Hd.
      destruct w; [tauto|]. destruct i_closed0; congruence.
    + intros Hn. apply i_fresh0. intros e He. apply Hn. right. exact He.
    + apply before_cons; [assumption|]. intros Hn. cbn. destruct (i_fresh0 Hn) as [Hall ->]. tauto.
    + intros e [<-|He] Hc; [destruct Hc|eauto].
Qed.

Lemma einv_reachable s : reachable estep init s -> exists w, einv w s.
Proof.
  apply (reachable_invariant estep init (fun s => exists w, einv w s)).
  - intros s0 ->. exists None. apply einv_init.
  - intros s0 l s1 (w & I) E. eapply einv_step; eauto.
Qed.

Lemma one_fire_wins : forall s, reachable estep init s ->
  e_crashed s = false /\ (wins (e_hist s) <= 1)%nat /\
  ((forall t, e_pc s t = EIdle) -> (exists t, In (CallFire t) (e_hist s)) -> wins (e_hist s) = 1%nat).
Proof.
  intros s H. destruct (einv_reachable s H) as (w & I). destruct I. split; [assumption|]. split.
  - destruct w as [t|]; [|lia]. destruct i_wins0 as [[_ E]|[_ E]]; lia.
  - intros Hall (t & Hc). destruct (i_called0 _ Hc Coq.Init.Logic.I) as [Hd|(t' & Hn)]; [|congruence].
    destruct w as [x|]; [|destruct i_closed0; congruence]. destruct i_wins0 as [[Hw _]|[_ E]]; [|exact E].
    rewrite Hall in Hw. destruct Hw.
Qed.

Lemma fire_visible : forall s h2 t b h1, reachable estep init s ->
  e_hist s = h2 ++ RetFire t b :: h1 -> Forall (obs true) h2.
Proof. intros s h2 t b h1 H E. destruct (einv_reachable s H) as (w & I). eapply i_after; eauto. exact Coq.Init.Logic.I. Qed.

Lemma fire_not_early : forall s h2 h1, reachable estep init s -> e_hist s = h2 ++ h1 ->
  (forall t, ~ In (CallFire t) h1) -> Forall (obs false) h1.
Proof.
  intros s h2 h1 H E Hn. destruct (einv_reachable s H) as (w & I). eapply i_before; eauto.
  intros [t'| | |] Hx Hc; try destruct Hc. exact (Hn t' Hx).
Qed.

(** monotone: once observed true, always true; and Done closed implies HasFired *)
Record emono (s : estate) : Prop := {
  m_obs : forall t, In (HasFired t true) (e_hist s) -> e_fired s = true;
  m_done : forall t, In (DoneClosed t true) (e_hist s) -> e_closed s = true;
  m_has : forall h2 t h1, e_hist s = h2 ++ HasFired t true :: h1 -> forall t', ~ In (HasFired t' false) h2;
  m_cl : forall h2 t h1, e_hist s = h2 ++ DoneClosed t true :: h1 -> forall t', ~ In (DoneClosed t' false) h2 /\ ~ In (HasFired t' false) h2
}.
Lemma split_cons {A} (P : A -> Prop) (e : A) h h2 x h1 : e :: h = h2 ++ x :: h1 ->
  (h2 = [] /\ e = x /\ h = h1) \/ exists h2', h2 = e :: h2' /\ h = h2' ++ x :: h1.
Proof. destruct h2 as [|y h2]; cbn; intros [= -> ->]; [left; auto|right; eauto]. Qed.

Lemma emono_step w s l s' : einv w s -> emono s -> estep s l = Some s' -> emono s'.
Proof.
  intros I M H. pose proof (i_crash _ _ I) as Hcr. unfold estep in H. rewrite Hcr in H.
  assert (forall s', e_hist s' = e_hist s -> (e_fired s = true -> e_fired s' = true) ->
    (e_closed s = true -> e_closed s' = true) -> emono s') as same.
  { intros s0 Eh Ef Ec. destruct M. split; rewrite Eh; eauto. }
  assert (forall e s0, e_hist s0 = e :: e_hist s -> (forall t b, e <> HasFired t b) -> (forall t b, e <> DoneClosed t b) ->
     e_fired s0 = e_fired s -> e_closed s0 = e_closed s -> emono s0) as plain.
  { intros e s0 Eh N1 N2 Ef Ec. destruct M. split; rewrite Eh.
    - intros t [E|Hi]; [congruence|]. rewrite Ef. eauto.
    - intros t [E|Hi]; [congruence|]. rewrite Ec. eauto.
    - intros h2 t h1 E t'. apply (split_cons (fun _ => True)) in E. destruct E as [(-> & E & _)|(h2' & -> & E)]; [congruence|].
      intros [E'|Hi]; [congruence|]. eapply m_has0; eauto.
    - intros h2 t h1 E t'. apply (split_cons (fun _ => True)) in E. destruct E as [(-> & E & _)|(h2' & -> & E)]; [congruence|].
      destruct (m_cl0 _ _ _ E t'). split; (intros [E'|Hi]; [congruence|tauto]). }
  destruct l as [t|t|t|t].
  - destruct (e_pc s t); try discriminate. injection H as <-. eapply plain; try reflexivity; discriminate.
  - destruct (e_pc s t); try discriminate;
    try (destruct (o_mutex s); [discriminate|]);
    try (destruct (e_closed s) eqn:Ec);
    try (injection H as <-; apply same; cbn; solve [auto|congruence]);
    (injection H as <-; eapply plain; [reflexivity|discriminate|discriminate|reflexivity|exact Ec]).
  - destruct (e_pc s t); try discriminate. injection H as <-. destruct M. split; cbn.
    + intros t' [[= _ E]|Hi]; [exact E|eauto].
    + intros t' [E|Hi]; [discriminate|eauto].
    + intros h2 t' h1 E t''. apply (split_cons (fun _ => True)) in E. destruct E as [(-> & _ & _)|(h2' & -> & E)]; [intros []|].
      intros [[= _ E']|Hi]; [|eapply m_has0; eauto].
      rewrite (m_obs0 t') in E'; [discriminate|]. rewrite E. apply in_or_app. right. left. reflexivity.
    + intros h2 t' h1 E t''. apply (split_cons (fun _ => True)) in E. destruct E as [(-> & E & _)|(h2' & -> & E)]; [discriminate|].
      destruct (m_cl0 _ _ _ E t''). split; (intros [E'|Hi]; [|tauto]); [discriminate|]. injection E' as _ E'.
      assert (e_closed s = true) as Hc by (eapply (m_done0 t'); rewrite E; apply in_or_app; right; left; reflexivity).
      pose proof (i_closed _ _ I) as Hw. destruct w; destruct Hw; congruence.
  - destruct (e_pc s t); try discriminate. injection H as <-. destruct M. split; cbn.
    + intros t' [E|Hi]; [discriminate|eauto].
    + intros t' [[= _ E]|Hi]; [exact E|eauto].
    + intros h2 t' h1 E t''. apply (split_cons (fun _ => True)) in E. destruct E as [(-> & _ & _)|(h2' & -> & E)]; [intros []|].
      intros [E'|Hi]; [discriminate|eapply m_has0; eauto].
    + intros h2 t' h1 E t''. apply (split_cons (fun _ => True)) in E. destruct E as [(-> & _ & _)|(h2' & -> & E)]; [split; intros []|].
      destruct (m_cl0 _ _ _ E t''). split; (intros [E'|Hi]; [|tauto]); [|discriminate]. injection E' as _ E'.
      assert (e_closed s = true) as Hc by (eapply (m_done0 t'); rewrite E; apply in_or_app; right; left; reflexivity). congruence.
Qed.

Lemma emono_reachable s : reachable estep init s -> emono s.
Proof.
  intros H. enough ((exists w, einv w s) /\ emono s) by tauto. revert s H.
  apply reachable_invariant.
  - intros s ->. split; [exists None; apply einv_init|].
    split; cbn; try tauto; intros h2 t h1 E; destruct h2; discriminate.
  - intros s l s' [(w & I) M] E. split; [eapply einv_step; eauto|eapply emono_step; eauto].
Qed.

Lemma observations_stable : forall s, reachable estep init s ->
  (forall h2 t h1, e_hist s = h2 ++ HasFired t true :: h1 -> forall t', ~ In (HasFired t' false) h2) /\
  (forall h2 t h1, e_hist s = h2 ++ DoneClosed t true :: h1 ->
     forall t', ~ In (DoneClosed t' false) h2 /\ ~ In (HasFired t' false) h2).
Proof. intros s H. destruct (emono_reachable s H). auto. Qed.

(** * Refinement of the three-state object *)
Lemma abs_exists w s : einv w s -> exists a, abs s a.
Proof.
  intros []. destruct w as [t|].
  - exists EvFired. cbn. tauto.
  - destruct i_closed0 as [Hc _]. destruct (e_fired s) eqn:Ef.
    + destruct (i_fired0 eq_refl) as [H|(t & H)]; [contradiction|]. exists (EvFiring t). cbn. auto.
    + exists EvInit. cbn. auto.
Qed.

Lemma event_refines : forall s a l s', reachable estep init s -> abs s a -> estep s l = Some s' ->
  exists a', abs s' a' /\ abs_move l a a' /\
    (e_hist s' = e_hist s \/ exists e, e_hist s' = e :: e_hist s /\ abs_sees a e).
Proof.
  intros s a l s' Hr A H. destruct (einv_reachable s Hr) as (w & I).
  assert (reachable estep init s') as Hr' by (eapply reachable_step; eauto).
  destruct (einv_reachable s' Hr') as (w' & I').
  pose proof (i_crash _ _ I) as Hcr. unfold estep in H. rewrite Hcr in H.
  assert (forall x, e_pc s x = F5 -> forall y, e_pc s y = F5 -> x = y) as Huniq.
  { intros x Hx y Hy. assert (o_mutex s = Some x) by (apply I; rewrite Hx; exact Coq.Init.Logic.I).
    assert (o_mutex s = Some y) by (apply I; rewrite Hy; exact Coq.Init.Logic.I). congruence. }
  assert (forall t p, e_pc s t <> F5 -> e_pc s' = upd (e_pc s) t p -> e_fired s' = e_fired s -> e_closed s' = e_closed s ->
    abs s' a) as keep.
  { intros t p Hp Epc Ef Ec. destruct a as [|x|]; cbn in *; rewrite ?Ef, ?Ec, ?Epc; try tauto.
    rewrite upd_other; [tauto|]. intros ->. tauto. }
  destruct l as [t|t|t|t].
  - destruct (e_pc s t) eqn:Ep; try discriminate. injection H as <-. exists a.
    split; [eapply keep with (t := t); try reflexivity; congruence|]. split; [left; reflexivity|].
    right. eexists. split; [reflexivity|exact Coq.Init.Logic.I].
  - destruct (e_pc s t) eqn:Ep; try discriminate.
    + injection H as <-. exists a. split; [eapply keep with (t := t); try reflexivity; congruence|]. split; left; reflexivity.
    + destruct (o_mutex s); [discriminate|]. injection H as <-. exists a.
      split; [eapply keep with (t := t); try reflexivity; congruence|]. split; left; reflexivity.
    + injection H as <-. exists a. split; [eapply keep with (t := t); try reflexivity; congruence|]. split; left; reflexivity.
    + injection H as <-. exists (EvFiring t). destruct (i_f4 _ _ I t Ep) as [-> Hf]. pose proof (i_closed _ _ I) as [Hc _].
      split; [cbn; rewrite upd_same; auto|]. split; [|left; reflexivity]. right. left. exists t.
      split; [reflexivity|]. split; [|reflexivity]. destruct a; cbn in A; try reflexivity; intuition congruence.
    + destruct (i_f5 _ _ I t Ep) as [-> Hf]. pose proof (i_closed _ _ I) as [Hc _]. rewrite Hc in H. injection H as <-.
      exists EvFired. split; [cbn; auto|]. split; [|left; reflexivity]. right. right. exists t. split; [reflexivity|].
      split; [|reflexivity]. destruct a as [|x|]; cbn in A; [destruct A; congruence| |destruct A; congruence].
      f_equal. apply Huniq; tauto.
    + injection H as <-. exists a. split; [eapply keep with (t := t); try reflexivity; congruence|]. split; left; reflexivity.
    + injection H as <-. exists a. split; [eapply keep with (t := t); try reflexivity; congruence|]. split; left; reflexivity.
    + injection H as <-. exists a. split; [eapply keep with (t := t); try reflexivity; congruence|]. split; [left; reflexivity|].
      right. eexists. split; [reflexivity|]. cbn. destruct (i_f8 _ _ I t ret Ep) as [Hd _].
      pose proof (i_closed _ _ I) as Hc. destruct w as [x|]; [|destruct Hc; congruence]. destruct Hc as [Hc Hf].
      destruct a; cbn in A; try reflexivity; intuition congruence.
  - destruct (e_pc s t) eqn:Ep; try discriminate. injection H as <-. exists a. split; [destruct a; exact A|]. split; [left; reflexivity|].
    right. eexists. split; [reflexivity|]. cbn. destruct a; cbn in *; tauto.
  - destruct (e_pc s t) eqn:Ep; try discriminate. injection H as <-. exists a. split; [destruct a; exact A|]. split; [left; reflexivity|].
    right. eexists. split; [reflexivity|]. cbn. destruct a; cbn in *; tauto.
Qed.

Lemma event_abstracts : forall s, reachable estep init s -> exists a, abs s a.
Proof. intros s H. destruct (einv_reachable s H) as (w & I). eapply abs_exists; eauto. Qed.

(** * Progress *)
Lemma fire_progress s t : reachable estep init s -> e_pc s t <> EIdle ->
  estep s (LGo t) <> None \/ exists w, w <> t /\ e_pc s w <> EIdle /\ estep s (LGo w) <> None.
Proof.
  intros R Hp. destruct (einv_reachable s R) as (w & Hi). pose proof (i_crash _ _ Hi) as Hc. pose proof (i_mutex _ _ Hi) as Hm.
  unfold estep. rewrite Hc. destruct (e_pc s t) eqn:E; try (left; discriminate); try congruence.
  - destruct (o_mutex s) as [h|] eqn:Em; [|left; discriminate]. right. exists h.
    pose proof (proj1 (Hm h) eq_refl) as Hh. split; [intros ->; rewrite E in Hh; destruct Hh|].
    destruct (e_pc s h) eqn:Eh; try destruct Hh; (split; [discriminate|]); try discriminate. destruct (e_closed s); discriminate.
  - left. destruct (e_closed s); discriminate.
Qed.
Definition left_to_do (p : epc) : nat :=
  match p with EIdle => 0 | F1 => 8 | F2 => 7 | F3 => 6 | F4 => 5 | F5 => 4 | F6 => 3 | F7 _ => 2 | F8 _ => 1 end%nat.
Definition own_moves (t : tid) (ls : list elabel) : nat := length (filter (fun l => match l with LGo t' => Nat.eqb t' t | _ => false end) ls).
Lemma fire_bounded t ls : forall s s', reachable estep init s -> run estep s ls = Some s' -> ~ In (LCall t) ls -> (own_moves t ls <= left_to_do (e_pc s t))%nat.
Proof.
  induction ls as [|l ls IH]; intros s s' R H Hn; [cbn; apply Nat.le_0_l|]. cbn in H. destruct (estep s l) as [s1|] eqn:E; [|discriminate].
  assert (reachable estep init s1) as R1 by (eapply reachable_step; eassumption).
  assert (own_moves t ls <= left_to_do (e_pc s1 t))%nat as B by (eapply IH; [exact R1|exact H|intros X; apply Hn; right; exact X]).
  destruct (einv_reachable s1 R1) as (w & Hi). pose proof (i_crash _ _ Hi) as Hc.
  unfold own_moves in *. cbn [filter]. unfold estep in E. destruct (e_crashed s); [discriminate|]. destruct l as [u|u|u|u].
  - destruct (e_pc s u) eqn:Eu; try discriminate. injection E as <-. cbn in B. unfold upd in B. destruct (Nat.eqb_spec t u) as [->|]; [exfalso; apply Hn; left; reflexivity|]. exact B.
  - destruct (e_pc s u) eqn:Eu; try discriminate; repeat match type of E with context [match ?x with _ => _ end] => destruct x end; try discriminate; injection E as <-; cbn in B, Hc; try discriminate Hc;
    unfold upd in B; (destruct (Nat.eqb_spec u t) as [->|N]; [rewrite Nat.eqb_refl in B; rewrite Eu; cbn in *; lia|destruct (Nat.eqb_spec t u); [congruence|exact B]]).
  - destruct (e_pc s u) eqn:Eu; try discriminate. injection E as <-. exact B.
  - destruct (e_pc s u) eqn:Eu; try discriminate. injection E as <-. exact B.
Qed.
