(** Sessions and background goroutines of the server model. *)
From Verif Require Export ServerListen.
Require Import Lia.

Definition pre_conn (p : pc) : option nat := match p with S6 _ c | C0 c | C1 c | C2 c | C3 c => Some c | _ => None end.
Definition mid_conn (p : pc) : option nat :=
  match p with C4 c | C5 c | C6 c | C7 c _ | C8 c _ | C9 c _ | C10 c _ => Some c | _ => None end.
Definition fin_conn (p : pc) : option nat := match p with C8 c _ | C9 c _ | C10 c _ | C11 c _ => Some c | _ => None end.
Definition todo_of (p : pc) : option (list nat) := match p with K4 _ m | K5 _ m _ => Some m | _ => None end.
Definition closing (p : pc) : option nat := match p with C8 c _ => Some c | K5 _ _ c => Some c | _ => None end.

Record ses_inv (s : state) : Prop := {
  sn_pre : forall t c, pre_conn (pcs s t) = Some c -> ~ In c (registered (hist s)) /\ conn_open s c = true;
  sn_fin : forall t c, fin_conn (pcs s t) = Some c -> s_fired s c = true;
  sn_fired : forall c, s_fired s c = true -> In c (registered (hist s));
  sn_closed : forall c, (c < next_conn s)%nat -> conn_open s c = false -> s_fired s c = true;
  sn_open : forall c, s_fired s c = true -> conn_open s c = false \/ exists t, closing (pcs s t) = Some c;
  sn_closing : forall t c, closing (pcs s t) = Some c -> s_fired s c = true;
  sn_nodup : NoDup (sessions s);
  sn_reg : forall c, In c (registered (hist s)) -> In c (sessions s) \/ s_fired s c = true;
  sn_sub : forall c, In c (sessions s) -> In c (registered (hist s));
  sn_mid : forall t c, mid_conn (pcs s t) = Some c -> In c (registered (hist s));
  sn_serv : forall c, In c (sessions s) -> exists t, mid_conn (pcs s t) = Some c;
  sn_conv : cleared (hist s) = false -> forall t c, mid_conn (pcs s t) = Some c -> In c (sessions s);
  sn_todo : forall t m, todo_of (pcs s t) = Some m -> forall c, In c (sessions s) -> In c m \/ s_fired s c = true;
  sn_todo_sub : forall t m, todo_of (pcs s t) = Some m -> forall c, In c m -> In c (registered (hist s))
}.
Lemma ses_frame s s' :
  (forall t c, pre_conn (pcs s' t) = Some c -> exists t', pre_conn (pcs s t') = Some c) ->
  (forall t c, fin_conn (pcs s' t) = Some c -> fin_conn (pcs s t) = Some c) ->
  (forall t, closing (pcs s' t) = closing (pcs s t)) ->
  (forall t, mid_conn (pcs s' t) = mid_conn (pcs s t)) ->
  (forall t m, todo_of (pcs s' t) = Some m -> todo_of (pcs s t) = Some m) ->
  registered (hist s') = registered (hist s) -> cleared (hist s') = cleared (hist s) -> conn_open s' = conn_open s -> s_fired s' = s_fired s -> next_conn s' = next_conn s ->
  sessions s' = sessions s -> ses_inv s -> ses_inv s'.
Proof.
  intros H1 H2 H3 H4 H5 E1 E2 E3 E4 E5 E6 []. constructor; rewrite ?E1, ?E2, ?E3, ?E4, ?E5, ?E6; eauto.
  - intros t c H. destruct (H1 _ _ H) as [t' X]. eauto.
  - intros c H. destruct (sn_open0 c H) as [X|[t X]]; [auto|]. right. exists t. rewrite H3. exact X.
  - intros t c. rewrite H3. eauto.
  - intros t c. rewrite H4. eauto.
  - intros c H. destruct (sn_serv0 c H) as [t X]. exists t. rewrite H4. exact X.
  - intros X t c. rewrite H4. eauto.
Qed.
Lemma pre_conn_own p c : pre_conn p = Some c -> own_conn p = Some c.
Proof. destruct p; cbn; congruence. Qed.
Lemma mid_conn_own p c : mid_conn p = Some c -> own_conn p = Some c.
Proof. destruct p; cbn; congruence. Qed.
Lemma todo_section p m : todo_of p = Some m -> in_section p.
Proof. destruct p; cbn; intros; try discriminate; exact I. Qed.
Lemma in_remove c c' m : In c' (remove_session c m) <-> In c' m /\ c' <> c.
Proof.
  unfold remove_session. rewrite filter_In, Bool.negb_true_iff, Nat.eqb_neq. tauto.
Qed.
Lemma nodup_remove c m : NoDup m -> NoDup (remove_session c m).
Proof. apply NoDup_filter. Qed.
Lemma ses_step s l s' : own_inv s -> lock_inv s -> ses_inv s -> step s l = Some s' -> ses_inv s'.
Proof.
  intros HO HL HI H. dstep H.
  all: try (eapply ses_frame; [| | | | | | | | | | |exact HI]; cbn; auto; [intros t1 l1|intros t1 l1|intros t1|intros t1|intros t1 l1]; unfold upd; eqs; eauto;
     match goal with E : pcs ?s ?t = _ |- _ => rewrite ?E; cbn; try congruence; try tauto; try (intros X; exists t; rewrite E; exact X) end; fail).
  all: try solve [destruct HI; constructor; assumption].
  all: try (eapply ses_frame; [| | | | | | | | | | |exact HI]; cbn; auto; [intros t1 l1|intros t1 l1|intros t1|intros t1|intros t1 l1]; unfold upd; eqs; eauto;
     repeat match goal with E : pcs ?s ?t = _ |- _ => rewrite E; clear E end; cbn; try congruence; try tauto; fail).
  all: assert (Hone : forall t', in_section (pcs s t') -> in_section (pcs s t) -> t' = t) by (intros; eapply one_section; eauto).
  all: destruct HI as [I1 I2 I3 I4 I5 I6 I7 I8 I9 I10 I11 I12 I13 I14]; destruct HO as [_ _ _ O1 O2 O3].
  all: match goal with E : pcs ?s ?t = _ |- _ => rewrite E in Hone; cbn in Hone end.
  all: match goal with E : pcs ?s ?t = _ |- _ =>
     pose proof (I1 t) as A1; pose proof (I2 t) as A2; pose proof (I6 t) as A6; pose proof (I10 t) as A10; pose proof (I13 t) as A13; pose proof (I14 t) as A14; rewrite E in A1, A2, A6, A10, A13, A14; cbn in A1, A2, A6, A10, A13, A14;
     try specialize (A1 _ eq_refl); try specialize (A2 _ eq_refl); try specialize (A6 _ eq_refl); try specialize (A10 _ eq_refl); try specialize (A13 _ eq_refl); try specialize (A14 _ eq_refl) end.
  all: try (destruct A1 as [A1 A1']).
  all: constructor; cbn; auto; unfold upd.
  all: intros; eqs; cbn in *; try discriminate; try tauto; eauto 3.
  all: repeat match goal with E : Some _ = Some _ |- _ => injection E as E; subst end.
  all: repeat match goal with E : In _ (_ ++ _) |- _ => rewrite in_app_iff in E; destruct E as [E|[E|[]]]; [|subst] end; auto; try (rewrite in_app_iff; cbn; auto; fail).
  all: try solve [match goal with H : s_fired _ _ = true, E : pcs ?s ?t = _ |- _ \/ exists t0, _ =>
     destruct (I5 _ H) as [X|[tx X]]; [left; exact X|right; exists tx; eqs; auto; repeat match goal with E : pcs _ _ = _ |- _ => rewrite E in X end; cbn in X; congruence] end].
  all: try solve [right; match goal with |- exists t0, closing (if (t0 =? ?t)%nat then _ else _) = _ => exists t; rewrite Nat.eqb_refl; reflexivity end].
  all: repeat match goal with H : In _ (remove_session _ _) |- _ => apply in_remove in H; destruct H as [H ?] end.
  all: repeat match goal with |- context [In _ (remove_session _ _)] => rewrite in_remove end.
  all: try solve [match goal with H : In _ (sessions _) |- exists t0, _ =>
     destruct (I11 _ H) as [tx X]; exists tx; eqs; auto; repeat match goal with E : pcs _ _ = _ |- _ => rewrite E in X end; cbn in *; congruence end].
  all: try solve [split; [|reflexivity]; intros X; apply O3 in X; lia].
  all: try solve [exfalso; match goal with H : s_fired _ _ = true |- _ => apply I3, O3 in H; lia end].
  all: try solve [apply I4; auto; lia].
  all: try solve [match goal with Hc : cleared _ = false, E : pcs _ ?t = _ |- In _ (sessions _) => apply (I12 Hc t); rewrite E; reflexivity end].
  all: try solve [apply NoDup_filter; assumption|constructor].
  all: try solve [exfalso; match goal with Hp : pre_conn _ = Some _, Hr : s_fired _ _ = true |- _ => apply (I1 _ _ Hp); eauto end].
  all: try solve [exfalso; match goal with Hp : todo_of (pcs _ ?tx) = Some _, n : ?tx <> ?t |- _ => apply n, Hone; [eapply todo_section; exact Hp|exact I] end].
  all: try solve [rewrite in_app_iff; left; eauto 3].
  all: try solve [destruct (I8 _ ltac:(eassumption)); auto].
  all: repeat match goal with H : existsb _ _ = true |- _ => apply existsb_exists in H; destruct H as (? & ? & H); apply Nat.eqb_eq in H; subst end.
  all: try solve [eauto 3].
  - destruct (I1 _ _ H) as [X Y]. split; [|exact Y]. rewrite in_app_iff. intros [Z|[Z|[]]]; [auto|]. subst c0. apply n.
    eapply O1; [apply pre_conn_own; exact H|]. rewrite Heqp. reflexivity.
  - constructor; [rewrite in_remove; tauto|apply nodup_remove; assumption].
  - destruct (Nat.eq_dec c0 c); [auto|]. destruct (I8 _ H); auto.
  - rewrite in_app_iff. destruct H as [->|H]; [right; left; reflexivity|left]. apply in_remove in H. apply I9, H.
  - destruct H as [->|H]; [exists t; rewrite Nat.eqb_refl; reflexivity|]. apply in_remove in H. destruct H as [H _].
    destruct (I11 _ H) as [tx X]. exists tx. eqs; [|exact X]. rewrite Heqp in X. discriminate.
  - destruct (Nat.eq_dec c0 c); [auto|]. right. split; [eauto|assumption].
  - destruct (Nat.eq_dec c0 c); [subst; auto|]. destruct (I8 _ H); auto.
  - split; [eauto|]. intros ->. apply n. eapply O1; [apply mid_conn_own; eassumption|]. rewrite Heqp. reflexivity.
  - destruct (Nat.eq_dec c0 x); [subst; auto|]. destruct (A13 _ ltac:(eassumption)); auto.
  - destruct (Nat.eq_dec c0 x); [subst; auto|]. destruct (A13 _ ltac:(eassumption)); auto.
Qed.
Lemma ses_init : ses_inv NewServer.
Proof. constructor; cbn; intros; try tauto; try discriminate; try lia. constructor. Qed.
Definition srv_inv s := ev_inv s /\ own_inv s /\ lock_inv s /\ lis_inv s /\ ses_inv s.
Lemma srv_init : srv_inv NewServer.
Proof. unfold srv_inv. auto using ev_init, own_init, lock_init, lis_init, ses_init. Qed.
Lemma srv_step s l s' : srv_inv s -> step s l = Some s' -> srv_inv s'.
Proof.
  intros (H1 & H2 & H3 & H4 & H5) H. unfold srv_inv. (split; [|split; [|split; [|split]]]); eauto using ev_step, own_step, lock_step, lis_step, ses_step.
Qed.
Lemma reachable_srv s : reachable step init s -> srv_inv s.
Proof. apply reachable_invariant; [intros ? ->; apply srv_init|apply srv_step]. Qed.
Lemma reachable_ses s : reachable step init s -> ses_inv s.
Proof. intros H. apply (reachable_srv s H). Qed.

(** *** What the table held when Close emptied it *)
Definition clear_inv s := forall h1 h2, hist s = h1 ++ HCleared :: h2 ->
  (forall c, In c (registered h2) -> s_fired s c = true) /\ (forall l, In l (installed h2) -> (l < next_lis s)%nat /\ lis_open s l = false).
Definition fired_mono s s' := forall c, s_fired s c = true -> s_fired s' c = true.
Lemma step_fired s l s' : step s l = Some s' -> fired_mono s s'.
Proof. intros H c. dstep H; cbn; auto; unfold upd; eqs; auto. Qed.
Lemma step_lis s l s' : step s l = Some s' -> forall x, (x < next_lis s)%nat -> lis_open s x = false -> (x < next_lis s')%nat /\ lis_open s' x = false.
Proof. intros H x Hx. dstep H; cbn; auto; unfold upd; eqs; auto; try lia. Qed.
Lemma step_hist s l s' : step s l = Some s' -> exists es, hist s' = es ++ hist s /\ 
  (In HCleared es -> es = [HCleared] /\ exists t r, pcs s t = K4 r []).
Proof.
  intros H. dstep H; cbn; match goal with |- exists es, ?h = es ++ ?h /\ _ => exists [] | |- exists es, ?a :: ?b :: ?h = es ++ ?h /\ _ => exists [a; b] | |- exists es, ?a :: ?h = es ++ ?h /\ _ => exists [a] end; cbn.
  all: (split; [reflexivity|]); intros X; try (decompose [or] X; try discriminate; tauto).
  split; [reflexivity|]. eauto.
Qed.
Lemma split_app {A} (es h h1 h2 : list A) x : es ++ h = h1 ++ x :: h2 ->
  (exists k, es = h1 ++ x :: k /\ h2 = k ++ h) \/ (exists k, h1 = es ++ k /\ h = k ++ x :: h2).
Proof.
  revert h1. induction es as [|e es IH]; cbn; intros h1 E; [right; exists h1; auto|].
  destruct h1 as [|y h1]; cbn in E; injection E as -> E; [left; exists es; auto|].
  destruct (IH _ E) as [(k & -> & ->)|(k & -> & ->)]; [left|right]; exists k; auto.
Qed.
Lemma clear_step s l s' : srv_inv s -> clear_inv s -> step s l = Some s' -> clear_inv s'.
Proof.
  intros (HE & HO & HK & HL & HS) HI H. destruct (step_hist _ _ _ H) as (es & E & Hc).
  intros h1 h2 E'. rewrite E in E'. apply split_app in E'. destruct E' as [(k & Ek & ->)|(k & -> & Ek)].
  - destruct Hc as (E1 & t & r & Hp); [rewrite Ek, in_app_iff; right; left; reflexivity|].
    assert (k = []) as ->.
    { rewrite Ek in E1. destruct h1 as [|e h1]; cbn in E1; [injection E1 as ->; reflexivity|]. injection E1 as _ E1. destruct h1; discriminate. }
    cbn. split.
    + intros c Hr. apply (step_fired _ _ _ H). destruct (sn_reg _ HS c Hr) as [X|X]; [|exact X].
      destruct (sn_todo _ HS t [] ltac:(rewrite Hp; reflexivity) c X) as [[]|Y]. exact Y.
    + intros x Hx. apply (step_lis _ _ _ H); [apply (oi_inst_lt _ HO), Hx|].
      destruct (lis_open s x) eqn:Ho; [|reflexivity]. exfalso. pose proof (la_open _ HL x Hx Ho) as X.
      rewrite (la_k4 _ HL t) in X; [discriminate|]. rewrite Hp. exact I.
  - destruct (HI _ _ Ek) as [X Y]. split.
    + intros c Hr. apply (step_fired _ _ _ H), X, Hr.
    + intros x Hx. destruct (Y x Hx). eapply step_lis; eauto.
Qed.
Lemma reachable_clear s : reachable step init s -> clear_inv s.
Proof.
  intros H. apply (reachable_invariant step init (fun s => srv_inv s /\ clear_inv s)) in H.
  - apply H.
  - intros ? ->. split; [apply srv_init|]. intros [|? h1] h2; discriminate.
  - intros s1 l s2 [X Y] Hs. split; eauto using srv_step, clear_step.
Qed.
