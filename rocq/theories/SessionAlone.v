(** A session whose Close nobody else calls. *)
From Verif Require Import SessionTraffic.
From Verif Require System.
Require Import Lia.

(** the actions a session takes on its own *)
Lemma self_step x l x' : all_inv x -> alone x -> step x l = Some x' -> System.session_alone x l = true ->
  match start_pc x with
  | SIdle => start_pc x' = SIdle
  | SEntry => start_pc x' = SEntry
  | SDefer r => start_pc x' = SDefer r /\ (close_pc x 0%nat = K0 <-> close_pc x' 0%nat = K0)
  | SDone r => start_pc x' = SDone r
  | _ => match start_pc x' with SIdle | SEntry | SDone _ => False | SDefer _ => close_pc x' 0%nat = K0 | _ => True end
  end /\ ev_fired (closed x') = ev_fired (closed x) /\
  (forall w, start_pc x = SGet w -> cached x = None -> start_pc x' = SGet w /\ cached x' = None) /\
  (start_pc x = SWait -> start_pc x' = SWait \/ exists r, start_pc x' = SDefer r).
Proof.
  intros HA [HL1 HL2] H L. pose proof (pp_phase _ (al_pipes _ HA)) as HP. pose proof (pp_close _ (al_pipes _ HA)) as HK. destruct HP as [P1 P2 P3].
  assert (T : forall t, close_pc x t <> KIdle -> t = 0%nat /\ exists r, start_pc x = SDefer r).
  { intros [|t] E; [|destruct E; apply HL1]. split; [reflexivity|]. destruct (start_pc x); try contradiction. eauto. }
  dstep H; cbn in L; try discriminate L.
  all: try (match goal with E : close_pc ?x ?t = _ |- _ => let Z := fresh in assert (close_pc x t <> KIdle) as Z by congruence; apply T in Z; destruct Z as [-> [? Z]] end).
  all: repeat match goal with E : start_pc _ = _ |- _ => rewrite E in * end; cbn in *; try discriminate L.
  all: repeat match goal with E : close_pc _ _ = _ |- _ => rewrite E in * end; cbn in *; try discriminate L.
  all: try (rewrite upd_same).
  all: try (split; [|split; [reflexivity|split; [intros; try discriminate; try congruence; auto|intros; try discriminate; eauto]]]).
  all: try (destruct (start_pc x); auto; try (split; auto; split; congruence); fail).
  all: auto.
  all: try (split; [reflexivity|split; congruence]).
  - rewrite Heqs. exact I.
  - assert (in_body (close_pc x 0%nat)) as X by (rewrite Heqk; exact I). apply (ki_body _ HK) in X. destruct X as (_ & _ & X). rewrite Heqk in X. rewrite X, H.
    cbn. repeat split; intros; try discriminate; eauto.
Qed.
(** Start and the deferred Close, taken step by step by the server *)
Lemma begin_step x x1 x2 : alone x -> step x LCallStart = Some x1 -> step x1 LStart = Some x2 -> start_pc x = SIdle /\ start_pc x2 = SRecv /\ closed x2 = closed x /\ closed x = EvInit /\ cached x2 = cached x.
Proof.
  intros [_ HL] H1 H2. unfold step in H1. destruct (crashed x) eqn:Ec; [discriminate|]. destruct (start_pc x) eqn:Es; try discriminate. injection H1 as <-.
  unfold step in H2. cbn in H2. rewrite Ec in H2. unfold go_start in H2. cbn in H2. rewrite HL in H2. cbn in H2. injection H2 as <-. cbn. auto.
Qed.
Lemma fire_step x x' r : start_pc x = SDefer r -> close_pc x 0%nat = K0 -> closed x = EvInit -> step x (LClose 0 None) = Some x' ->
  start_pc x' = SDefer r /\ close_pc x' 0%nat = K1 /\ closed x' = EvFiring 0.
Proof.
  intros H1 H2 H3 H. unfold step in H. destruct (crashed x); [discriminate|]. unfold go_close in H. rewrite H2, H3 in H. injection H as <-. cbn. auto.
Qed.
Lemma done_step x x' r e : start_pc x = SDefer r -> close_pc x 0%nat = KRet e -> step x (LClose 0 None) = Some x' -> start_pc x' = SDone r /\ closed x' = closed x.
Proof.
  intros H1 H2 H. unfold step in H. destruct (crashed x); [discriminate|]. unfold go_close in H. rewrite H2, H1 in H. injection H as <-. cbn. auto.
Qed.
Lemma config_step x E r x' : step x (LConfig E r) = Some x' ->
  (exists w, start_pc x = SGet w) /\ cached x = None /\ closed x' = closed x /\
  match start_pc x' with SIdle | SEntry | SDone _ => False | SDefer _ => close_pc x' 0%nat = K0 | _ => True end.
Proof.
  intros H. dstep H; cbn; eauto; try (repeat split; eauto; fail).
  rewrite Heqs. repeat split; eauto.
Qed.

(** *** No send meets a closed channel *)
Lemma no_send_crash ls x : run step NewSession ls = Some x -> Forall (fun l => ~ calls_close l) ls -> crashed x = Some PanicSendClosed -> closed x = EvInit.
Proof.
  assert (forall s, all_inv s /\ pexit_ok s /\ alone s -> (crashed s = Some PanicSendClosed -> closed s = EvInit) -> run step s ls = Some x -> Forall (fun l => ~ calls_close l) ls ->
    crashed x = Some PanicSendClosed -> closed x = EvInit) as X.
  { induction ls as [|l ls IH]; cbn; intros s HI HC H F; [injection H as <-; exact HC|]. destruct (step s l) as [s1|] eqn:E; [|discriminate]. inversion F; subst.
    apply (IH s1); auto.
    - destruct HI as (Q1 & Q2 & Q3). destruct (al_pipes _ Q1) as [P1 P2 _ _ _].
      split; [eapply all_step; eassumption|]. split; [eapply pexit_step; eassumption|eapply alone_step; eassumption].
    - intros HX. destruct HI as (Q1 & Q2 & Q3). destruct (al_pipes _ Q1) as [P1 P2 _ _ _]. destruct P1 as [_ PH _]. destruct Q3 as [_ Q3]. clear IH H F.
      assert (start_pc s = SWait \/ (forall d, in_pc s d = IOff \/ in_pc s d = IExit) /\ (proc_pc s = POff \/ proc_pc s = PExit)) as W.
      { destruct (start_pc s); auto; right; unfold off, exited in PH; (split; [intros [|]|]); tauto. }
      assert (WI : forall d, in_pc s d <> IOff -> in_pc s d <> IExit -> start_pc s = SWait) by (intros d A B; destruct W as [W|[W _]]; [exact W|destruct (W d); contradiction]).
      assert (WP : proc_pc s <> POff -> proc_pc s <> PExit -> start_pc s = SWait) by (intros A B; destruct W as [W|[_ W]]; [exact W|destruct W; contradiction]).
      dstep E; cbn in *; try congruence.
      all: try (rewrite (WI d) in * by congruence; exact Q3).
      all: try (rewrite WP in * by congruence; exact Q3).
      all: rewrite ?Heqs0 in Q3; exact Q3. }
  intros H F. apply (X NewSession); auto. split; [apply all_init|]. split; [apply pexit_init|]. split; [reflexivity|reflexivity].
Qed.
