(** The wait group of the server. *)
From Verif Require Export WaitGroup ServerGaps.
Require Import Lia.

Lemma mem_in t m : mem t m = true <-> In t m.
Proof. unfold mem. rewrite existsb_exists. split; [intros (x & H & E); apply Nat.eqb_eq in E; subst; exact H|intros H; exists t; split; [exact H|apply Nat.eqb_refl]]. Qed.
(** what a step is *)
Inductive wmove (w : wstate) (w' : wstate) : Prop :=
| MServer l : Server.step (srv w) l = Some (srv w') -> misused w' = None -> asleep w' = asleep w -> 
    (woken w' = woken w /\ (forall t r, l = LGo t -> pcs (srv w) t = K7 r -> ~ In t (asleep w) /\ ~ In t (woken w) /\ wg (srv w) = 0%nat) \/
     exists t r, l = LGo t /\ pcs (srv w) t = K7 r /\ ~ In t (asleep w) /\ wg (srv w) = 0%nat /\ asleep w = [] /\ woken w' = filter (fun t' => negb (Nat.eqb t' t)) (woken w)) ->
    (forall t c, l = LSpawn t c -> asleep w = [] \/ wg (srv w) <> 0%nat) -> wmove w w'
| MReset : srv w' = srv w -> misused w' = None -> asleep w <> [] -> wg (srv w) = 0%nat -> asleep w' = [] -> woken w' = asleep w ++ woken w -> wmove w w'
| MSleep t r : srv w' = srv w -> misused w' = None -> pcs (srv w) t = K7 r -> wg (srv w) <> 0%nat -> ~ In t (woken w) -> asleep w' = t :: asleep w -> woken w' = woken w -> wmove w w'
| MAdd t c s' : srv w' = srv w -> misused w' = Some (AddConcurrent t) -> Server.step (srv w) (LSpawn t c) = Some s' -> wg (srv w) = 0%nat -> asleep w <> [] -> asleep w' = asleep w -> woken w' = woken w -> wmove w w'
| MWait t r : srv w' = srv w -> misused w' = Some (WaitReused t) -> pcs (srv w) t = K7 r -> In t (woken w) -> (wg (srv w) <> 0%nat \/ asleep w <> []) -> asleep w' = asleep w -> woken w' = woken w -> wmove w w'.
Lemma wstep_moves w l w' : wstep w l = Some w' -> misused w = None /\ crashed (srv w) = None /\ wmove w w'.
Proof.
  unfold wstep. destruct (misused w) eqn:M; [discriminate|]. destruct (crashed (srv w)) eqn:C; [discriminate|]. intros H. split; [reflexivity|]. split; [reflexivity|].
  assert (P : forall l0, plain w l0 = Some w' -> (forall t r, l0 = LGo t -> pcs (srv w) t = K7 r -> ~ In t (asleep w) /\ ~ In t (woken w) /\ wg (srv w) = 0%nat) -> (forall t c, l0 <> LSpawn t c) -> wmove w w').
  { intros l0 X Y Z. unfold plain in X. destruct (Server.step (srv w) l0) as [s'|] eqn:E; [|discriminate]. injection X as <-. eapply (MServer _ _ l0); cbn; auto. intros t c ->. exfalso. eapply Z; reflexivity. }
  destruct l as [l|].
  - destruct l as [t|t|t|t|t|t r|t|t|t b|t c|t a|t r|t r|t c|t|cfg]; try (apply (P _ H); congruence).
    + destruct (pcs (srv w) t) eqn:E; try (apply (P _ H); congruence).
      destruct (mem t (asleep w)) eqn:A; [discriminate|]. assert (NA : ~ In t (asleep w)) by (rewrite <- mem_in; congruence).
      destruct (mem t (woken w)) eqn:B.
      * assert (IW : In t (woken w)) by (apply mem_in, B). destruct (asleep w) eqn:SA; [destruct (wg (srv w)) eqn:G|].
        -- destruct (Server.step (srv w) (LGo t)) as [s'|] eqn:ST; [|discriminate]. injection H as <-. eapply (MServer _ _ (LGo t)); cbn; auto. right. exists t, r. rewrite SA. repeat split; auto.
        -- injection H as <-. eapply MWait; cbn; eauto. left. congruence.
        -- injection H as <-. eapply MWait; cbn; eauto. right. congruence.
      * assert (NW : ~ In t (woken w)) by (rewrite <- mem_in; congruence). destruct (wg (srv w)) eqn:G; [apply (P _ H); [|congruence]; intros t1 r1 X _; injection X as <-; auto|].
        injection H as <-. eapply MSleep; cbn; eauto. congruence.
    + destruct (Server.step (srv w) (LSpawn t c)) as [s'|] eqn:ST; [|discriminate]. destruct (asleep w) eqn:SA; [|destruct (wg (srv w)) eqn:G]; injection H as <-.
      * eapply (MServer _ _ (LSpawn t c)); cbn; auto. left. split; [reflexivity|]. discriminate.
      * eapply MAdd; cbn; eauto. congruence.
      * eapply (MServer _ _ (LSpawn t c)); cbn; auto; [left; split; [reflexivity|discriminate]|]. intros; right; congruence.
  - destruct (asleep w) eqn:SA; [discriminate|]. destruct (wg (srv w)) eqn:G; [|discriminate]. injection H as <-. apply MReset; cbn; rewrite ?SA; auto. discriminate.
Qed.
Lemma wstep_srv w l w' : wstep w l = Some w' -> srv w' = srv w \/ exists l', Server.step (srv w) l' = Some (srv w').
Proof. intros H. destruct (wstep_moves _ _ _ H) as (_ & _ & []); eauto. Qed.
Lemma reachable_srv w : reachable wstep winit w -> reachable step init (srv w).
Proof.
  apply (reachable_invariant wstep winit (fun w => reachable step init (srv w))).
  - intros ? ->. apply reachable_init. reflexivity.
  - intros w1 l w2 R H. destruct (wstep_srv _ _ _ H) as [->|[l' E]]; [exact R|eapply reachable_step; eassumption].
Qed.

(** *** Who waits *)
Definition is_k7 (p : pc) : Prop := match p with K7 _ => True | _ => False end.
Record wait_inv (w : wstate) : Prop := {
  ww_pc : forall t, In t (asleep w) \/ In t (woken w) -> is_k7 (pcs (srv w) t);
  ww_one : asleep w = [] \/ woken w = []
}.
Lemma k7_moves s l s' t : Server.step s l = Some s' -> is_k7 (pcs s t) -> is_k7 (pcs s' t) \/ l = LGo t.
Proof.
  intros H K. dstep H; cbn; unfold upd; eqs; auto. all: try (rewrite Heqp in K; destruct K). all: try (rewrite Heqp0 in K; destruct K). all: auto.
Qed.
Lemma k7_same s t t' : reachable step init s -> is_k7 (pcs s t) -> is_k7 (pcs s t') -> t = t'.
Proof.
  intros R A B. destruct (reachable_ev s R). assert (forall t, is_k7 (pcs s t) -> shutdowns (hist s) = [t]) as X by (intros t1 Y; apply si_close; destruct (pcs s t1); try destruct Y; exact I).
  pose proof (X _ A). pose proof (X _ B). congruence.
Qed.
Lemma reachable_wait w : reachable wstep winit w -> wait_inv w.
Proof.
  intros R. apply (reachable_invariant wstep winit (fun w => reachable step init (srv w) /\ wait_inv w)) in R; [apply R| |].
  - intros ? ->. split; [apply reachable_init; reflexivity|]. constructor; cbn; auto. tauto.
  - intros w1 l w2 [R1 [I1 I2]] H. split; [destruct (wstep_srv _ _ _ H) as [->|[l' E]]; [exact R1|eapply reachable_step; eassumption]|].
    destruct (wstep_moves _ _ _ H) as (M & _ & X). destruct X as [l' E _ SA WK _|E _ NA _ SA WK|t r E _ K _ NW SA WK|t c s' E _ _ _ _ SA WK|t r E _ _ _ _ SA WK]; constructor; auto; try rewrite E; rewrite ?SA, ?WK; auto.
    + intros t Ht. assert (In t (asleep w1) \/ In t (woken w1)) as Ht1.
      { destruct Ht as [Ht|Ht]; [auto|]. destruct WK as [[WK _]|(t1 & r & _ & _ & _ & _ & _ & WK)]; rewrite WK in Ht; [auto|]. apply filter_In in Ht. tauto. }
      destruct (k7_moves _ _ _ t E (I1 _ Ht1)) as [Y|Y]; [exact Y|]. exfalso. destruct WK as [[_ WK]|(t1 & r & EL & K & NA & _ & _ & WK)].
      * pose proof (I1 _ Ht1) as K. destruct (pcs (srv w1) t) eqn:EP; try destruct K. destruct (WK _ _ Y EP) as (A & B & _). tauto.
      * assert (t1 = t) as -> by congruence. destruct Ht as [Ht|Ht]; [contradiction|]. rewrite WK in Ht. apply filter_In in Ht. destruct Ht as [_ Ht]. rewrite Nat.eqb_refl in Ht. discriminate.
    + destruct WK as [[-> _]|(t1 & r & _ & _ & _ & _ & -> & _)]; auto.
    + intros t [[]|Ht]. apply in_app_iff in Ht. apply I1, Ht.
    + intros t1 [[<-|Ht]|Ht]; [rewrite K; exact I|apply I1; auto|apply I1; auto].
    + destruct (woken w1) as [|t1 m] eqn:EW; [auto|]. exfalso. assert (t1 = t) as -> by (eapply (k7_same _ _ _ R1); [apply I1; right; left; reflexivity|rewrite K; exact I]). apply NW. left. reflexivity.
Qed.

(** *** Who creates goroutines when there are none *)
Lemma spawner s t c s' : Server.step s (LSpawn t c) = Some s' -> outside_creator s t \/ bg s t = true.
Proof.
  intros H. unfold step in H. destruct (crashed s); [discriminate|]. unfold outside_creator. destruct (pcs s c); try discriminate H. destruct (pcs s t); try discriminate H; auto. destruct (bg s t); auto.
Qed.
Lemma none_running s t : reachable step init s -> bg s t = true -> wg s <> 0%nat.
Proof. intros R H. pose proof (reachable_wg s R) as [C _ B _]. apply B in H. rewrite C. destruct (running (hist s)); [destruct H|discriminate]. Qed.

(** *** When the runtime panics *)
(** some [do] found no goroutine running after Close had emptied the table *)
Definition reuse (h : list event) : Prop := exists h1 h2 c, h = h1 ++ HSpawn c :: h2 /\ running h2 = [] /\ cleared h2 = true.
Lemma reuse_app es h : reuse h -> reuse (es ++ h).
Proof. intros (h1 & h2 & c & -> & A). exists (es ++ h1), h2, c. rewrite <- app_assoc. auto. Qed.
Lemma step_hist s l s' : Server.step s l = Some s' -> exists es, hist s' = es ++ hist s.
Proof. intros H. dstep H; cbn; match goal with |- exists es, ?h = es ++ ?h => exists [] | |- exists es, ?a :: ?b :: ?h = es ++ ?h => exists [a; b] | |- exists es, ?a :: ?h = es ++ ?h => exists [a] end; reflexivity. Qed.
Lemma cleared_app es h : cleared h = true -> cleared (es ++ h) = true.
Proof. intros H. induction es as [|e es IH]; [exact H|]. cbn. destruct e; auto. Qed.
Lemma wg_grows s l s' : Server.step s l = Some s' -> wg s = 0%nat -> wg s' <> 0%nat -> exists t c, l = LSpawn t c /\ hist s' = HSpawn c :: hist s.
Proof. intros H A B. dstep H; cbn in *; try congruence; try (rewrite A in B; cbn in B; congruence); eauto. Qed.
Definition k7_cleared (s : state) : Prop := forall t, (is_k7 (pcs s t) \/ exists r, pcs s t = K6 r) -> cleared (hist s) = true.
Lemma reachable_k7 s : reachable step init s -> k7_cleared s.
Proof.
  apply reachable_invariant; [intros ? -> t [[]|[r X]]; discriminate X|]. intros s1 l s2 I H t K. destruct (step_hist _ _ _ H) as [es E].
  assert (cleared (hist s1) = true \/ hist s2 = HCleared :: hist s1) as [X|X]; [|rewrite E; apply cleared_app, X|rewrite X; reflexivity].
  assert ((exists t, is_k7 (pcs s1 t) \/ exists r, pcs s1 t = K6 r) \/ hist s2 = HCleared :: hist s1) as [[t1 X]|X]; [|left; exact (I _ X)|right; exact X].
  clear I E. dstep H; cbn in *; unfold upd in K; revert K; eqs; cbn; intros K; auto.
  all: try (left; exists t; exact K).
  all: try solve [destruct K as [[]|[? K]]; discriminate K].
  all: try (left; eexists; exact K).
  all: left; match goal with E : pcs _ ?u = _ |- _ => exists u; rewrite E; cbn; eauto end.
Qed.
Record misuse_inv (w : wstate) : Prop := {
  mi_woken : woken w <> [] -> wg (srv w) = 0%nat \/ reuse (hist (srv w));
  mi_add : forall t, misused w = Some (AddConcurrent t) -> outside_creator (srv w) t /\ wg (srv w) = 0%nat /\ exists c, is_k7 (pcs (srv w) c) /\ In c (asleep w);
  mi_wait : forall t, misused w = Some (WaitReused t) -> is_k7 (pcs (srv w) t) /\ reuse (hist (srv w))
}.
Lemma reachable_misuse w : reachable wstep winit w -> misuse_inv w.
Proof.
  intros R. apply (reachable_invariant wstep winit (fun w => reachable wstep winit w /\ misuse_inv w)) in R; [apply R| |].
  - intros ? ->. split; [apply reachable_init; reflexivity|]. constructor; cbn; try discriminate. congruence.
  - intros w1 l w2 [R1 [I1 I2 I3]] H. split; [eapply reachable_step; eassumption|].
    pose proof (reachable_srv _ R1) as RS. pose proof (reachable_wait _ R1) as [J1 J2].
    destruct (wstep_moves _ _ _ H) as (M & _ & X). destruct X as [l' E M' SA WK NS|E M' NA G SA WK|t r E M' K G NW SA WK|t c s' E M' ST G NA SA WK|t r E M' K IW G SA WK]; constructor; rewrite ?M'; try discriminate.
    + intros NE. assert (woken w1 <> []) as N1. { destruct WK as [[<- _]|(? & ? & _ & _ & _ & _ & _ & WK)]; [exact NE|]. intros Z. apply NE. rewrite WK, Z. reflexivity. }
      destruct (step_hist _ _ _ E) as [es EH]. destruct (I1 N1) as [X|X]; [|right; rewrite EH; apply reuse_app, X].
      destruct (Nat.eq_dec (wg (srv w2)) 0) as [Z|Z]; [left; exact Z|right]. destruct (wg_grows _ _ _ E X Z) as (t & c & _ & HS). rewrite HS. exists [], (hist (srv w1)), c. split; [reflexivity|]. split.
      * pose proof (wi_count _ (reachable_wg _ RS)) as C. destruct (running (hist (srv w1))); [reflexivity|]. cbn in C. congruence.
      * destruct (woken w1) as [|t0 m] eqn:EW; [congruence|]. eapply (reachable_k7 _ RS t0). left. apply J1. right. left. reflexivity.
    + rewrite E. auto.
    + rewrite E, WK. exact I1.
    + rewrite E, WK. exact I1.
    + intros t0 X. injection X as <-. rewrite E, SA. split; [|split; [exact G|]].
      * destruct (spawner _ _ _ _ ST) as [Y|Y]; [exact Y|]. exfalso. exact (none_running _ _ RS Y G).
      * destruct (asleep w1) as [|c0 m]; [congruence|]. exists c0. split; [apply J1; left; left; reflexivity|left; reflexivity].
    + rewrite E, WK. exact I1.
    + intros t0 X. injection X as <-. rewrite E. split; [rewrite K; exact I|]. destruct (I1 ltac:(destruct (woken w1); [destruct IW|discriminate])) as [Z|Z]; [|exact Z]. exfalso.
      destruct G as [G|G]; [contradiction|]. destruct J2 as [J2|J2]; [contradiction|]. rewrite J2 in IW. destruct IW.
Qed.

(** *** When it does not *)
Lemma nobody_step s l s' : reachable step init s -> nobody_creates s -> Server.step s l = Some s' -> nobody_creates s'.
Proof.
  intros R [F N] H. assert (F' : shut_ev s' = EvFired) by (dstep H; cbn; congruence). split; [exact F'|]. intros t1.
  assert (CW : forall t, pcs s t = Idle -> bg s t = false). { intros t X. destruct (bg s t) eqn:B; [|reflexivity]. apply (wi_pc _ (reachable_wg s R)) in B. rewrite X in B. destruct B. }
  clear R. pose proof (N t1) as N1. dstep H; cbn; unfold upd; eqs; cbn; auto. all: pose proof (N t) as N0; rewrite ?Heqp in N0; rewrite ?Heqp0 in N0; cbn in *; auto; try contradiction; try congruence.
  all: rewrite F in Heqb; discriminate Heqb.
Qed.
Lemma never_misused w ls w' : reachable wstep winit w -> misused w = None -> nobody_creates (srv w) -> (forall t, ~ is_k7 (pcs (srv w) t)) -> run wstep w ls = Some w' -> misused w' = None.
Proof.
  intros R M N K H.
  assert (I0 : reachable wstep winit w /\ misused w = None /\ nobody_creates (srv w) /\ (woken w = [] \/ wg (srv w) = 0%nat)).
  { repeat split; auto; try apply N. left. destruct (reachable_wait _ R) as [J _]. destruct (woken w) as [|t m]; [reflexivity|]. exfalso. apply (K t), J. right. left. reflexivity. }
  apply (run_invariant wstep (fun w => reachable wstep winit w /\ misused w = None /\ nobody_creates (srv w) /\ (woken w = [] \/ wg (srv w) = 0%nat))) with (ls := ls) (s := w) (s' := w') in I0; [apply I0| |exact H].
  clear. intros w1 l w2 (R1 & M & N & W) H. split; [eapply reachable_step; eassumption|]. pose proof (reachable_srv _ R1) as RS.
  assert (SP : forall t c s', Server.step (srv w1) (LSpawn t c) = Some s' -> wg (srv w1) <> 0%nat).
  { intros t c s' X. destruct (spawner _ _ _ _ X) as [Y|Y]; [|exact (none_running _ _ RS Y)]. exfalso. destruct N as [_ N]. specialize (N t). unfold outside_creator in Y. destruct (pcs (srv w1) t); try contradiction. congruence. }
  pose proof (reachable_wait _ R1) as [J1 J2].
  destruct (wstep_moves _ _ _ H) as (_ & _ & X). destruct X as [l' E M' SA WK NS|E M' NA G SA WK|t r E M' K G NW SA WK|t c s' E M' ST G NA SA WK|t r E M' K IW G SA WK].
  - split; [exact M'|]. split; [eapply nobody_step; eassumption|]. destruct W as [W|W].
    + left. destruct WK as [[-> _]|(? & ? & _ & _ & _ & _ & _ & ->)]; rewrite W; reflexivity.
    + right. destruct (Nat.eq_dec (wg (srv w2)) 0) as [Z|Z]; [exact Z|]. destruct (wg_grows _ _ _ E W Z) as (t & c & -> & _). exfalso. exact (SP _ _ _ E W).
  - rewrite E. auto.
  - split; [exact M'|]. rewrite E, WK. auto.
  - exfalso. exact (SP _ _ _ ST G).
  - exfalso. destruct W as [W|W]; [rewrite W in IW; destruct IW|]. destruct G as [G|G]; [contradiction|]. destruct J2 as [J2|J2]; [contradiction|]. rewrite J2 in IW. destruct IW.
Qed.
(** *** Wait returns when it should *)
Lemma wait_wakes w t r : reachable wstep winit w -> misused w = None -> crashed (srv w) = None -> pcs (srv w) t = K7 r -> wg (srv w) = 0%nat -> wstep w (WGo (LGo t)) <> None \/ wstep w WReset <> None.
Proof.
  intros R M C E G. unfold wstep. rewrite M, C, E, G. destruct (mem t (asleep w)) eqn:A.
  - right. apply mem_in in A. destruct (asleep w); [destruct A|discriminate].
  - left. unfold plain, step. rewrite C. unfold Server.go. rewrite E, G. destruct (mem t (woken w)); [destruct (asleep w); discriminate|discriminate].
Qed.
