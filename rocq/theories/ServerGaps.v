(** Closed listeners hand out no connections, Close leaves no session of its time in the table, and
    the update channel is closed when Start is over. *)
From Verif Require Export ServerActs.
Require Import Lia.

(** *** A closed listener accepts nothing *)
Definition accept_inv s := forall h1 h2 x c, hist s = h1 ++ HAccept x c :: h2 -> ~ In x (closed_listeners h2).
Lemma step_accepts s l s' : step s l = Some s' -> exists es, hist s' = es ++ hist s /\
  forall x c, In (HAccept x c) es -> es = [HAccept x c] /\ lis_open s x = true.
Proof.
  intros H. dstep H; cbn; match goal with |- exists es, ?h = es ++ ?h /\ _ => exists [] | |- exists es, ?a :: ?b :: ?h = es ++ ?h /\ _ => exists [a; b] | |- exists es, ?a :: ?h = es ++ ?h /\ _ => exists [a] end; cbn.
  all: (split; [reflexivity|]); intros x1 c1 X; try (decompose [or] X; try discriminate; tauto).
  destruct X as [X|[]]. injection X as -> ->. auto.
Qed.
Lemma accept_step s l s' : cls_inv s -> accept_inv s -> step s l = Some s' -> accept_inv s'.
Proof.
  intros HC HI H h1 h2 x c E'. destruct (step_accepts _ _ _ H) as (es & E & Ha).
  rewrite E in E'. apply split_app in E'. destruct E' as [(k & Ek & ->)|(k & -> & Ek)]; [|eauto].
  destruct (Ha x c) as [E1 Ho]; [rewrite Ek, in_app_iff; right; left; reflexivity|].
  assert (k = []) as ->.
  { rewrite Ek in E1. destruct h1 as [|e h1]; cbn in E1; [injection E1 as ->; reflexivity|]. injection E1 as _ E1. destruct h1; discriminate. }
  cbn. intros Hi. destruct (ci_in _ HC _ Hi). congruence.
Qed.
Lemma reachable_accept s : reachable step init s -> accept_inv s.
Proof.
  intros H. apply (reachable_invariant step init (fun s => (srv_inv s /\ cls_inv s) /\ accept_inv s)) in H.
  - apply H.
  - intros ? ->. split; [split; [apply srv_init|constructor; cbn; try tauto; constructor]|]. intros [|? h1] h2 x c; discriminate.
  - intros s1 l s2 [[X Y] Z] Hs. split; [split|]; eauto using srv_step, cls_step, accept_step.
Qed.

(** *** Close empties the table of everything registered before *)
Definition swept_inv s := forall h1 h2 c, hist s = h1 ++ HCleared :: h2 -> In c (registered h2) -> ~ In c (sessions s).
Lemma step_sessions s l s' c : step s l = Some s' -> In c (sessions s') -> In c (sessions s) \/ exists t, pcs s t = C3 c.
Proof.
  intros H. dstep H; cbn; auto.
  - rewrite in_remove. intros [<-|[X _]]; eauto.
  - rewrite in_remove. tauto.
  - tauto.
Qed.
Lemma registered_app h1 h2 c : In c (registered h2) -> In c (registered (h1 ++ h2)).
Proof. intros H. induction h1 as [|[] h1 IH]; cbn; auto. apply in_or_app. auto. Qed.
Lemma step_clear_sessions s l s' : step s l = Some s' -> exists es, hist s' = es ++ hist s /\ (In HCleared es -> es = [HCleared] /\ sessions s' = []).
Proof.
  intros H. dstep H; cbn; match goal with |- exists es, ?h = es ++ ?h /\ _ => exists [] | |- exists es, ?a :: ?b :: ?h = es ++ ?h /\ _ => exists [a; b] | |- exists es, ?a :: ?h = es ++ ?h /\ _ => exists [a] end; cbn.
  all: (split; [reflexivity|]); intros X; try (decompose [or] X; try discriminate; tauto).
Qed.
Lemma swept_step s l s' : ses_inv s -> swept_inv s -> step s l = Some s' -> swept_inv s'.
Proof.
  intros HS HI H h1 h2 c E' Hr. destruct (step_clear_sessions _ _ _ H) as (es & E & Hc).
  rewrite E in E'. apply split_app in E'. destruct E' as [(k & Ek & ->)|(k & -> & Ek)].
  - destruct Hc as [_ ->]; [rewrite Ek, in_app_iff; right; left; reflexivity|]. intros [].
  - intros Hin. destruct (step_sessions _ _ _ _ H Hin) as [X|[t X]]; [exact (HI _ _ _ Ek Hr X)|].
    destruct (sn_pre _ HS t c ltac:(rewrite X; reflexivity)) as [Y _]. apply Y. rewrite Ek. apply registered_app. cbn. exact Hr.
Qed.
Lemma reachable_swept s : reachable step init s -> swept_inv s.
Proof.
  intros H. apply (reachable_invariant step init (fun s => srv_inv s /\ swept_inv s)) in H.
  - apply H.
  - intros ? ->. split; [apply srv_init|]. intros [|? h1] h2 c; discriminate.
  - intros s1 l s2 [X Y] Hs. split; [eauto using srv_step|]. eapply swept_step; [apply X|exact Y|exact Hs].
Qed.

(** *** The update channel *)
Record upd_inv (s : state) : Prop := {
  ui_open : forall t, in_start (pcs s t) -> updates_closed s = false;
  ui_none : started (hist s) = [] -> updates_closed s = false /\ subscribed s = false;
  ui_over : updates_closed s = true \/ started (hist s) = [] \/ exists t, in_start (pcs s t)
}.
Lemma upd_step s l s' : ev_inv s -> upd_inv s -> step s l = Some s' -> upd_inv s'.
Proof.
  intros HE [I1 I2 I3] H.
  assert (K : forall t t', in_start (pcs s t) -> in_start (pcs s t') -> t = t').
  { intros t t' X Y. destruct (si_start _ HE t X) as [X1 _]. destruct (si_start _ HE t' Y) as [Y1 _]. congruence. }
  pose proof (si_start _ HE) as S1. pose proof (si_init _ HE) as S2. clear HE.
  assert (forall t p q, pcs s t = p -> in_start p -> in_start q -> (updates_closed s = true \/ started (hist s) = [] \/ exists t', in_start (upd (pcs s) t q t'))) as G.
  { intros t p q _ _ Hq. right. right. exists t. rewrite upd_same. exact Hq. }
  assert (forall t p q, pcs s t = p -> ~ in_start p -> (updates_closed s = true \/ started (hist s) = [] \/ exists t', in_start (upd (pcs s) t q t'))) as G'.
  { intros t p q E Hp. destruct I3 as [X|[X|[t' X]]]; auto. right. right. exists t'. rewrite upd_other; [exact X|]. intros ->. congruence. }
  dstep H.
  all: constructor; cbn; auto.
  all: try (intros t1; unfold upd; eqs; cbn; try tauto; try apply I1; fail).
  all: try (eapply G; [eassumption|exact I|exact I]).
  all: try (eapply G'; [eassumption|exact (fun x => x)]).
  all: try exact I1; try exact I2; try exact I3.
  all: try (intros _; match goal with E : pcs ?s ?t = _ |- _ => apply (I1 t); rewrite E; exact I end).
  all: try (intros t1; unfold upd; eqs; cbn; try tauto; intros X; first [apply (I1 _ X) | idtac]).
  all: try match goal with E : pcs ?s ?t = ?p |- updates_closed _ = false => apply (I1 t); rewrite E; exact I end.
  all: try match goal with |- started _ = [] -> _ => intros X; exfalso; match goal with E : pcs ?s ?t = ?p |- _ => destruct (S1 t) as [Y _]; [rewrite E; exact I|congruence] end end.
  - right. right. exists t. rewrite upd_same. exact I.
  - exfalso. match goal with E : pcs _ t = A7 _ |- _ => assert (t1 = t) as -> by (apply K; [exact X|rewrite E; exact I]); congruence end.
  - right. right. exists t. unfold upd. eqs; try exact I; congruence.
  - destruct I3 as [X|[X|[t' X]]]; auto. right. right. exists t'. unfold upd. eqs; auto; match goal with E : pcs ?s _ = _ |- _ => rewrite E in X; destruct X end.
  - specialize (I1 _ X). congruence.
  - intros X. destruct (I2 X). congruence.
Qed.
Lemma upd_init : upd_inv NewServer.
Proof. constructor; cbn; auto. Qed.
Lemma reachable_upd s : reachable step init s -> upd_inv s.
Proof.
  intros H. apply (reachable_invariant step init (fun s => srv_inv s /\ upd_inv s)) in H.
  - apply H.
  - intros ? ->. split; [apply srv_init|apply upd_init].
  - intros s1 l s2 [X Y] Hs. split; [eauto using srv_step|]. eapply upd_step; [apply X|exact Y|exact Hs].
Qed.
Lemma channel_closed s : reachable step init s -> updates_closed s = true <-> exists t, started (hist s) = [t] /\ ~ in_start (pcs s t).
Proof.
  intros R. destruct (reachable_upd s R) as [I1 I2 I3]. pose proof (reachable_ev s R) as HE. split.
  - intros E. destruct (started (hist s)) as [|t l] eqn:Es; [destruct (I2 eq_refl); congruence|].
    pose proof (si_once _ HE) as L. rewrite Es in L. destruct l; [|cbn in L; lia]. exists t. split; [reflexivity|].
    intros X. apply I1 in X. congruence.
  - intros (t & Es & N). destruct I3 as [X|[X|[t' X]]]; [exact X|congruence|]. destruct (si_start _ HE _ X) as [Y _]. congruence.
Qed.
Lemma late_update s cfg : reachable step init s -> crashed s = None -> subscribed s = true ->
  (forall t, started (hist s) = [t] -> ~ in_start (pcs s t)) ->
  exists s', step s (LConfig cfg) = Some s' /\ crashed s' = Some PanicSendClosed.
Proof.
  intros R Hc Hs Hn. assert (updates_closed s = true) as E.
  { apply (channel_closed s R). destruct (started (hist s)) as [|t l] eqn:Es; [destruct (ui_none _ (reachable_upd s R) Es); congruence|].
    pose proof (si_once _ (reachable_ev s R)) as L. rewrite Es in L. destruct l; [|cbn in L; lia]. exists t. auto. }
  unfold step. rewrite Hc, Hs, E. eexists. split; reflexivity.
Qed.
