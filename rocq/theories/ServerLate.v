(** Calls made after Close has begun, and what Close waits for. *)
From Verif Require Export ServerMore.
Require Import Lia.

Lemma step_shut s l s' : step s l = Some s' -> ev_fired (shut_ev s) = true -> ev_fired (shut_ev s') = true.
Proof. intros H Hf. dstep H; cbn; auto; congruence. Qed.
(** the two places of a refused call *)
Inductive refused : call -> pc -> pc -> Prop :=
| rf_start : refused CStart A0 (ARet (Some ErrServerClosed))
| rf_serve x : refused (CServe x) (S0 x) (SRet x (Some ErrServerClosed))
| rf_conn c : refused (CServeConn c) (C0 c) (CRet c (Some ErrServerClosed)).
Definition no_ret (t : tid) (h : list event) : Prop := forall c r, ~ In (HRet t c r) h.
Definition late (t : tid) (k : call) (p0 p1 : pc) (h0 : list event) (s : state) : Prop :=
  (exists h, hist s = h ++ h0 /\ no_ret t h /\ (pcs s t = p0 \/ pcs s t = p1)) \/
  (exists h1 h2, hist s = h1 ++ HRet t k (Some ErrServerClosed) :: h2 ++ h0 /\ no_ret t h2).
Lemma step_other s l s' t : step s l = Some s' -> actor l <> Some t -> pcs s t <> Idle -> pcs s' t = pcs s t /\ exists es, hist s' = es ++ hist s /\ no_ret t es.
Proof.
  intros H Ha Hp. dstep H; cbn in *; unfold upd; eqs; try congruence; (split; [reflexivity|]).
  all: match goal with |- exists es, ?h = es ++ ?h /\ _ => exists [] | |- exists es, ?a :: ?b :: ?h = es ++ ?h /\ _ => exists [a; b] | |- exists es, ?a :: ?h = es ++ ?h /\ _ => exists [a] end.
  all: (split; [reflexivity|]); intros c1 r1 X; cbn in X; decompose [or] X; try discriminate; try contradiction; congruence.
Qed.
Lemma step_grow s l s' : step s l = Some s' -> exists es, hist s' = es ++ hist s.
Proof. intros H. destruct (step_hist _ _ _ H) as (es & E & _). eauto. Qed.
Lemma late_step t k p0 p1 h0 s l s' : refused k p0 p1 -> ev_fired (shut_ev s) = true -> late t k p0 p1 h0 s -> step s l = Some s' -> late t k p0 p1 h0 s'.
Proof.
  intros Hr Hf HI H. destruct HI as [(h & E & Hn & Hp)|(h1 & h2 & E & Hn)].
  2: { right. destruct (step_grow _ _ _ H) as [es E']. exists (es ++ h1), h2. rewrite E', E, <- app_assoc. auto. }
  assert (Ha : actor l = Some t \/ actor l <> Some t) by (destruct (actor l) as [t'|]; [destruct (Nat.eq_dec t' t); [left|right]; congruence|right; discriminate]).
  destruct Ha as [Ha|Ha].
  2: { destruct (step_other _ _ _ t H Ha) as [Ep (es & E' & Hn')]; [destruct Hr, Hp; congruence|].
    left. exists (es ++ h). rewrite E', E, app_assoc, Ep. split; [reflexivity|]. split; [|exact Hp].
    intros c r. rewrite in_app_iff. intros [X|X]; [eapply Hn'|eapply Hn]; exact X. }
  destruct Hp as [Hp|Hp].
  - left. exists h. assert (X : pcs s' t = p1 /\ hist s' = hist s); [|destruct X as [X ->]; auto].
    destruct Hr; dstep H; cbn in Ha; inversion Ha; subst; try congruence; cbn; rewrite upd_same; split; congruence.
  - right. assert (X : exists es, hist s' = es ++ HRet t k (Some ErrServerClosed) :: hist s); [|destruct X as [es ->]; exists es, h; rewrite E; auto].
    destruct Hr; dstep H; cbn in Ha; inversion Ha; subst; try congruence; cbn.
    all: match goal with E1 : pcs _ _ = ?a, E2 : pcs _ _ = ?b |- _ => rewrite E1 in E2; injection E2; intros; subst end.
    all: first [exists []; reflexivity|eexists [_]; reflexivity].
Qed.
Lemma late_run t k p0 p1 h0 ls : refused k p0 p1 -> forall s s', ev_fired (shut_ev s) = true -> late t k p0 p1 h0 s -> run step s ls = Some s' -> late t k p0 p1 h0 s'.
Proof.
  intros Hr. induction ls as [|l ls IH]; cbn; intros s s' Hf HI H; [congruence|].
  destruct (step s l) as [s1|] eqn:E; [|discriminate]. eapply IH; [|eapply late_step; eassumption|exact H]. eapply step_shut; eassumption.
Qed.

Lemma first_ret t h1 k r h2 h1' k' r' h2' h0 : h1 ++ HRet t k r :: h2 ++ h0 = h1' ++ HRet t k' r' :: h2' ++ h0 -> no_ret t h2 -> no_ret t h2' -> k = k' /\ r = r'.
Proof.
  intros E H H'. assert (E2 : (h1' ++ [HRet t k' r']) ++ h2' = h1 ++ HRet t k r :: h2).
  { apply (app_inv_tail h0). rewrite <- !app_assoc. cbn. symmetry. exact E. }
  apply split_app in E2. destruct E2 as [(x & Ex & ->)|(x & -> & ->)].
  - destruct x as [|y x] using rev_ind; [apply app_inj_tail in Ex; destruct Ex as [_ Ex]; injection Ex as -> ->; auto|].
    clear IHx. exfalso. change (h1 ++ HRet t k r :: x ++ [y]) with (h1 ++ (HRet t k r :: x) ++ [y]) in Ex. rewrite app_assoc in Ex.
    apply app_inj_tail in Ex. destruct Ex as [_ <-]. apply (H k' r'). rewrite !in_app_iff. left. right. left. reflexivity.
  - exfalso. apply (H' k r). rewrite in_app_iff. right. left. reflexivity.
Qed.
Lemma late_call s l s1 s' t k p0 p1 ls : ev_fired (shut_ev s1) = true -> step s l = Some s1 -> refused k p0 p1 -> pcs s1 t = p0 -> run step s1 ls = Some s' ->
  forall h1 h2 k' r, hist s' = h1 ++ HRet t k' r :: h2 ++ hist s1 -> (forall k' r', ~ In (HRet t k' r') h2) -> k' = k /\ r = Some ErrServerClosed.
Proof.
  intros Hf Hs Hr Hp H h1 h2 k' r E Hn.
  assert (X : late t k p0 p1 (hist s1) s1) by (left; exists []; split; [reflexivity|split; [intros ? ? []|auto]]).
  apply (late_run _ _ _ _ _ _ Hr _ _ Hf X) in H. destruct H as [(h & E' & Hn' & _)|(h1' & h2' & E' & Hn')].
  - exfalso. rewrite E in E'. change (h1 ++ HRet t k' r :: h2 ++ hist s1) with (h1 ++ (HRet t k' r :: h2) ++ hist s1) in E'. rewrite app_assoc in E'. apply app_inv_tail in E'.
    apply (Hn' k' r). rewrite <- E', in_app_iff. right. left. reflexivity.
  - rewrite E in E'. exact (first_ret _ _ _ _ _ _ _ _ _ _ E' Hn Hn').
Qed.

(** a refused listener or connection is never installed or registered *)
Definition outside_conn (t : tid) (c : nat) (s : state) : Prop :=
  ~ In c (registered (hist s)) /\ (c < next_conn s)%nat /\ ((forall t', own_conn (pcs s t') = Some c -> t' = t) /\ (own_conn (pcs s t) = Some c -> pcs s t = C0 c \/ pcs s t = CRet c (Some ErrServerClosed))).
Definition outside_lis (t : tid) (x : nat) (s : state) : Prop :=
  ~ In x (installed (hist s)) /\ (x < next_lis s)%nat /\ ((forall t', own_lis (pcs s t') = Some x -> t' = t) /\ (own_lis (pcs s t) = Some x -> pcs s t = S0 x \/ pcs s t = SRet x (Some ErrServerClosed))).
Lemma outside_conn_step t c s l s' : ev_fired (shut_ev s) = true -> outside_conn t c s -> step s l = Some s' -> outside_conn t c s'.
Proof.
  intros Hf (H1 & H2 & H3 & H4) H.
  assert (A : forall t', own_conn (pcs s' t') = Some c -> t' = t /\ (pcs s' t = C0 c \/ pcs s' t = CRet c (Some ErrServerClosed))).
  { intros t'. dstep H; cbn; unfold upd; eqs; intros X; try discriminate X; auto; try (injection X as <-; try lia).
    all: try solve [pose proof (H3 _ X); subst t'; eauto; exfalso; congruence].
    all: try (injection X as ->).
    all: try match goal with E : pcs ?s ?t1 = ?p, H3 : forall t', own_conn (pcs ?s t') = Some _ -> t' = ?t0 |- _ =>
        lazymatch p with Idle => fail | _ => idtac end; let Y := fresh "Y" in pose proof (H3 t1 ltac:(rewrite E; reflexivity)) as Y end; auto.
    all: try congruence. all: subst; auto.
    all: exfalso; match goal with E : pcs ?s ?t1 = ?p, H4 : own_conn (pcs ?s ?t1) = Some _ -> _ |- _ =>
        rewrite E in H4; destruct (H4 eq_refl) as [H5|H5]; discriminate H5 end.
  }
  assert (B : (next_conn s <= next_conn s')%nat) by (dstep H; cbn; lia).
  split; [|split; [lia|split; [intros t' X; apply (A t' X)|intros X; apply (A t X)]]].
  destruct (step_reg _ _ _ H) as [E|(t' & c' & E & E')]; rewrite ?E, ?E'; [exact H1|].
  rewrite in_app_iff. intros [Z|[Z|[]]]; [auto|]. subst c'. assert (t' = t) as -> by (apply H3; rewrite E; reflexivity).
  rewrite E in H4. destruct (H4 eq_refl); discriminate.
Qed.
Lemma step_inst s l s' : step s l = Some s' -> installed (hist s') = installed (hist s) \/ exists t x, pcs s t = S3 x /\ installed (hist s') = installed (hist s) ++ [x].
Proof. intros H. dstep H; cbn; eauto. Qed.
Lemma outside_lis_step t c s l s' : ev_fired (shut_ev s) = true -> outside_lis t c s -> step s l = Some s' -> outside_lis t c s'.
Proof.
  intros Hf (H1 & H2 & H3 & H4) H.
  assert (A : forall t', own_lis (pcs s' t') = Some c -> t' = t /\ (pcs s' t = S0 c \/ pcs s' t = SRet c (Some ErrServerClosed))).
  { intros t'. dstep H; cbn; unfold upd; eqs; intros X; try discriminate X; auto; try (injection X as <-; try lia).
    all: try solve [pose proof (H3 _ X); subst t'; eauto; exfalso; congruence].
    all: try (injection X as ->).
    all: try match goal with E : pcs ?s ?t1 = ?p, H3 : forall t', own_lis (pcs ?s t') = Some _ -> t' = ?t0 |- _ =>
        lazymatch p with Idle => fail | _ => idtac end; let Y := fresh "Y" in pose proof (H3 t1 ltac:(rewrite E; reflexivity)) as Y end; auto.
    all: try congruence. all: subst; auto.
    all: exfalso; match goal with E : pcs ?s ?t1 = ?p, H4 : own_lis (pcs ?s ?t1) = Some _ -> _ |- _ =>
        rewrite E in H4; destruct (H4 eq_refl) as [H5|H5]; discriminate H5 end.
  }
  assert (B : (next_lis s <= next_lis s')%nat) by (dstep H; cbn; lia).
  split; [|split; [lia|split; [intros t' X; apply (A t' X)|intros X; apply (A t X)]]].
  destruct (step_inst _ _ _ H) as [E|(t' & c' & E & E')]; rewrite ?E, ?E'; [exact H1|].
  rewrite in_app_iff. intros [Z|[Z|[]]]; [auto|]. subst c'. assert (t' = t) as -> by (apply H3; rewrite E; reflexivity).
  rewrite E in H4. destruct (H4 eq_refl); discriminate.
Qed.
Lemma outside_conn_run t c ls : forall s s', ev_fired (shut_ev s) = true -> outside_conn t c s -> run step s ls = Some s' -> outside_conn t c s'.
Proof.
  induction ls as [|l ls IH]; cbn; intros s s' Hf HI H; [congruence|].
  destruct (step s l) as [s1|] eqn:E; [|discriminate]. eapply IH; [|eapply outside_conn_step; eassumption|exact H]. eapply step_shut; eassumption.
Qed.
Lemma outside_lis_run t c ls : forall s s', ev_fired (shut_ev s) = true -> outside_lis t c s -> run step s ls = Some s' -> outside_lis t c s'.
Proof.
  induction ls as [|l ls IH]; cbn; intros s s' Hf HI H; [congruence|].
  destruct (step s l) as [s1|] eqn:E; [|discriminate]. eapply IH; [|eapply outside_lis_step; eassumption|exact H]. eapply step_shut; eassumption.
Qed.

(** *** What a waiting Close waits for *)
Definition past_clear (p : pc) : Prop := match p with K6 _ | K7 _ | K8 _ => True | _ => False end.
Definition pastclear_inv s := forall t, past_clear (pcs s t) -> cleared (hist s) = true.
Lemma pastclear_step s l s' : pastclear_inv s -> step s l = Some s' -> pastclear_inv s'.
Proof.
  intros HI H t1. pose proof (HI t1) as X. dstep H; cbn; unfold upd; eqs; cbn; try tauto; auto.
  all: intros _; match goal with E : pcs _ _ = _ |- _ => rewrite E in X; apply X; exact I end.
Qed.
Lemma reachable_pastclear s : reachable step init s -> pastclear_inv s.
Proof. apply reachable_invariant; [intros ? -> t []|apply pastclear_step]. Qed.
Lemma cleared_split h : cleared h = true -> exists h1, h = h1 ++ HCleared :: before_clear h.
Proof.
  induction h as [|e h IH]; cbn; [discriminate|]. intros H. destruct e; try (destruct (IH H) as [h1 E]; eexists (_ :: h1); cbn; f_equal; exact E).
  exists []. reflexivity.
Qed.
Lemma close_waits s t r t' : reachable step init s -> crashed s = None -> quiet s -> pcs s t = K7 r -> In t' (running (hist s)) ->
  (exists x, pcs s t' = S5 x /\ lis_open s x = true /\ In x (installed (hist s)) /\ ~ In x (installed (before_clear (hist s)))) \/
  (exists c, pcs s t' = C6 c /\ s_fired s c = false /\ In c (registered (hist s)) /\ ~ In c (registered (before_clear (hist s)))).
Proof.
  intros HR Hc HQ Hp Hi.
  assert (Hcl : cleared (hist s) = true) by (apply (reachable_pastclear s HR t); rewrite Hp; exact I).
  destruct (cleared_split _ Hcl) as [h1 Eh]. destruct (reachable_clear s HR _ _ Eh) as [CR CI].
  assert (HW : worker (pcs s t')) by (apply (wi_pc _ (reachable_wg s HR)), (wi_bg _ (reachable_wg s HR)), Hi).
  destruct (quiet_worker s t' HR Hc HQ HW) as [(x & Ex & Ho)|(c & Ec & Hf)].
  - left. exists x. repeat split; auto.
    + apply (la_post _ (reachable_lis s HR) t'). rewrite Ex. reflexivity.
    + intros X. apply CI in X. destruct X. congruence.
  - right. exists c. repeat split; auto.
    + apply (sn_mid _ (reachable_ses s HR) t'). rewrite Ec. reflexivity.
    + intros X. apply CR in X. congruence.
Qed.
Lemma close_not_stuck s t r : reachable step init s -> crashed s = None -> pcs s t = K7 r ->
  (forall x, In x (installed (hist s)) -> In x (installed (before_clear (hist s)))) ->
  (forall c, In c (registered (hist s)) -> In c (registered (before_clear (hist s)))) -> ~ quiet s.
Proof.
  intros HR Hc Hp H1 H2 HQ. pose proof (HQ (LGo t) I) as G. unfold step, go in G. rewrite Hc, Hp in G.
  destruct (wg s) eqn:E; [discriminate|]. rewrite (wi_count _ (reachable_wg s HR)) in E.
  destruct (running (hist s)) as [|t' m] eqn:Er; [discriminate|].
  destruct (close_waits s t r t' HR Hc HQ Hp) as [(x & _ & _ & A & B)|(c & _ & _ & A & B)]; [rewrite Er; left; reflexivity|apply B, H1, A|apply B, H2, A].
Qed.

(** *** Only boundedly many actions without the outside *)
Definition rank (n : nat) (p : pc) : nat :=
  match p with
  | Idle => 0 | ARet _ => 1 | A7 _ => 2 | A4 => 3 | A5 _ => 12 | A6 _ => 11 | A3 => 4 | A2 => 5 | A1 => 6 | A0 => 7
  | SRet _ _ => 1 | S5 _ => 2 | S6 _ _ => 16 | S4 _ => 3 | S3 _ => 4 | S2 _ => 5 | S1 _ => 6 | S0 _ => 7
  | CRet _ _ => 1 | C11 _ _ => 2 | C10 _ _ => 3 | C9 _ _ => 4 | C8 _ _ => 5 | C7 _ _ => 6 | C6 _ => 7 | C5 _ => 8 | C4 _ => 9 | C3 _ => 10 | C2 _ => 11 | C1 _ => 12 | C0 _ => 13
  | KRet _ => 1 | K8 _ => 2 | K7 _ => 3 | K6 _ => 4 | K4 _ m => 5 + 2 * length m | K5 _ m _ => 6 + 2 * length m
  | K3 => 6 + 2 * n | K2 => 7 + 2 * n | K1 => 8 + 2 * n | K0 => 9 + 2 * n
  end%nat.
Fixpoint total (n : nat) (f : nat -> pc) (k : nat) : nat := match k with O => O | S k' => (rank n (f k') + total n f k')%nat end.
Lemma total_upd n f t p k : (t < k)%nat -> (total n (upd f t p) k + rank n (f t) = total n f k + rank n p)%nat.
Proof.
  assert (E : forall j, (j <= t)%nat -> total n (upd f t p) j = total n f j).
  { induction j as [|j IH]; cbn; intros Hj; [reflexivity|]. rewrite IH by lia. unfold upd at 1. eqs; [lia|reflexivity]. }
  induction k as [|k IH]; intros Ht; [lia|]. cbn. destruct (Nat.eq_dec t k) as [->|Hn].
  - rewrite E by lia. rewrite upd_same. lia.
  - rewrite (upd_other f t p k) by lia. specialize (IH ltac:(lia)). lia.
Qed.
Lemma total_more n f k k' : (forall t, (k <= t)%nat -> f t = Idle) -> (k <= k')%nat -> total n f k' = total n f k.
Proof.
  intros H Hk. induction Hk as [|k' Hk IH]; [reflexivity|]. cbn. rewrite (H k') by lia. exact IH.
Qed.
Lemma total_drop n f t p k : (t < k)%nat -> (rank n p < rank n (f t))%nat -> (total n (upd f t p) k < total n f k)%nat.
Proof. intros Ht Hr. pose proof (total_upd n f t p k Ht). lia. Qed.
Lemma total_spawn n f t p c q k : (t < k)%nat -> (c < k)%nat -> f c = Idle -> c <> t -> (rank n p + rank n q < rank n (f t))%nat -> (total n (upd (upd f t p) c q) k < total n f k)%nat.
Proof.
  intros Ht Hc Hi Hn Hr. pose proof (total_upd n f t p k Ht). pose proof (total_upd n (upd f t p) c q k Hc) as X. rewrite upd_other, Hi in X by auto. cbn in X. lia.
Qed.
Lemma remove_length c m : In c m -> (length (remove_session c m) < length m)%nat.
Proof.
  unfold remove_session. induction m as [|a m IH]; cbn; [tauto|]. intros H.
  assert (X : (length (filter (fun c' => negb (c' =? c)%nat) m) <= length m)%nat) by (clear; induction m as [|b m IH]; cbn; [lia|]; destruct (negb _); cbn; lia).
  destruct (Nat.eqb_spec a c); cbn; [lia|]. destruct H; [congruence|]. specialize (IH H). lia.
Qed.
Lemma sessions_bound s : own_inv s -> ses_inv s -> (length (sessions s) <= next_conn s)%nat.
Proof.
  intros HO HS. rewrite <- (seq_length (next_conn s) 0). apply NoDup_incl_length; [apply (sn_nodup _ HS)|].
  intros c Hc. apply in_seq. pose proof (oi_reg_lt _ HO c (sn_sub _ HS c Hc)). lia.
Qed.
Lemma own_step_drop s l s' k : srv_inv s -> own_action s l -> step s l = Some s' -> (forall t, (k <= t)%nat -> pcs s t = Idle) ->
  next_conn s' = next_conn s /\ exists k', (forall t, (k' <= t)%nat -> pcs s' t = Idle) /\ (total (next_conn s) (pcs s') k' < total (next_conn s) (pcs s) k)%nat.
Proof.
  intros (HE & HO & HK & HL & HS) Ha H Hk. pose proof (sessions_bound _ HO HS) as HB.
  assert (A : forall t p, pcs s t <> Idle -> pcs s' = upd (pcs s) t p -> (rank (next_conn s) p < rank (next_conn s) (pcs s t))%nat ->
    exists k', (forall t, (k' <= t)%nat -> pcs s' t = Idle) /\ (total (next_conn s) (pcs s') k' < total (next_conn s) (pcs s) k)%nat).
  { intros t p Hp E Hr. assert (t < k)%nat by (destruct (Nat.lt_ge_cases t k); [assumption|exfalso; auto]).
    exists k. rewrite E. split; [|apply total_drop; assumption]. intros t' Ht. rewrite upd_other by lia. auto. }
  assert (B : forall t p c q, pcs s t <> Idle -> pcs s c = Idle -> pcs s' = upd (upd (pcs s) t p) c q -> (rank (next_conn s) p + rank (next_conn s) q < rank (next_conn s) (pcs s t))%nat ->
    exists k', (forall t, (k' <= t)%nat -> pcs s' t = Idle) /\ (total (next_conn s) (pcs s') k' < total (next_conn s) (pcs s) k)%nat).
  { intros t p c q Hp Hc E Hr. assert (t < k)%nat by (destruct (Nat.lt_ge_cases t k); [assumption|exfalso; auto]).
    exists (Nat.max k (S c)). rewrite E. split.
    - intros t' Ht. rewrite !upd_other by lia. apply Hk. lia.
    - rewrite <- (total_more (next_conn s) (pcs s) k (Nat.max k (S c))) by (auto; lia). apply total_spawn; auto; try lia. congruence. }
  dstep H; cbn in Ha; try contradiction; (split; [reflexivity|]).
  all: try (match goal with E : pcs ?s ?t = _, A : forall t p, pcs ?s t <> Idle -> _ |- _ => eapply (A t); [congruence|reflexivity|rewrite E; cbn; lia] end; fail).
  1-2: eapply (B t); [congruence|exact Heqp|reflexivity|rewrite Heqp0; cbn; lia].
  all: assert (R : In c todo) by (match goal with X : existsb _ _ = true |- _ => apply existsb_exists in X; destruct X as (c' & X1 & X2); apply Nat.eqb_eq in X2; subst; exact X1 end).
  all: apply remove_length in R; eapply (A t); [congruence|reflexivity|rewrite Heqp; cbn; lia].
Qed.
Lemma own_run_bound s : reachable step init s -> exists n, forall ls s', own_run s ls s' -> (length ls <= n)%nat.
Proof.
  intros HR. destruct (reachable_fin _ HR) as [k Hk]. exists (total (next_conn s) (pcs s) k). intros ls.
  pose proof (reachable_srv _ HR) as HI. clear HR. revert s k Hk HI. induction ls as [|l ls IH]; cbn; intros s k Hk HI s' H; [lia|].
  destruct H as (s1 & Ha & Hs & H). destruct (own_step_drop _ _ _ _ HI Ha Hs Hk) as (En & k' & Hk' & Hd).
  pose proof (IH s1 k' Hk' (srv_step _ _ _ HI Hs) s' H) as X. rewrite En in X. lia.
Qed.
Lemma own_run_run ls : forall s s', own_run s ls s' -> run step s ls = Some s'.
Proof.
  induction ls as [|l ls IH]; cbn; intros s s' H; [congruence|]. destruct H as (s1 & _ & -> & H). auto.
Qed.
