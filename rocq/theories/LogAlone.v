(** The lines of a session on its own, which others may close. *)
From Verif Require Import LogProofs.
Require Import Lia.
From Verif Require SessionTraffic SessionLife SessionProofs SessionMore.
Import Session SpecSession SessionProofs SessionLife.

Lemma along_app {S L} (step : S -> L -> option S) lines ls1 : forall s s1 ls2, run step s ls1 = Some s1 ->
  along step lines s (ls1 ++ ls2) = along step lines s ls1 ++ along step lines s1 ls2.
Proof.
  induction ls1 as [|l ls IH]; intros s s1 ls2 H; cbn in *; [now injection H as ->|].
  destruct (step s l) as [s'|]; [|discriminate]. rewrite (IH _ _ _ H). now rewrite app_assoc.
Qed.

Definition waited (x : state) : list (option error) :=
  match start_pc x with SDefer r | SDone r => match proc_pc x with POff => [] | _ => [r] end | _ => [] end.
Definition told (x : state) (w : list line) : Prop :=
  outcomes w = waited x /\ occurrences is_closed w = length (start_results (hist x)) /\ (occurrences is_closing w = match closed x with EvFired => 1 | _ => 0 end)%nat /\
  close_errors_told w = map snd (filter (fun te => negb (Nat.eqb (fst te) 0)) (close_errors (hist x))).
Lemma told_step c x l x' w : all_inv x -> step x l = Some x' -> told x w -> told x' (w ++ session_lines c x l x').
Proof.
  intros HA H T. pose proof (ph_phase _ (pp_phase _ (al_pipes _ HA))) as HP.
  unfold told, waited, outcomes, close_errors_told, occurrences, close_errors, errors_of in *. rewrite !flat_map_app, !filter_app, !app_length. destruct T as (-> & -> & -> & ->).
  dstep H; cbn in *.
  all: try (rewrite !app_nil_r, !Nat.add_0_r; auto; fail).
  all: repeat match goal with E : start_pc _ = _ |- _ => rewrite E in * | E : close_pc _ _ = _ |- _ => rewrite E in * | E : queue _ = _ |- _ => rewrite E in * end; cbn in *.
  all: try (rewrite ?app_nil_r, ?Nat.add_0_r; auto; fail).
  all: try (destruct HP as [(_ & _ & _ & _ & ->) _]; rewrite ?app_nil_r, ?Nat.add_0_r, ?app_length; cbn; auto; fail).
  all: rewrite ?flat_map_app, ?filter_app, ?map_app, ?app_length, ?app_nil_r, ?Nat.add_0_r; cbn.
  all: match goal with |- context [map snd ?f] => generalize (map snd f); intros ? end.
  all: auto.
  all: try match goal with E : closed _ = _ |- _ => rewrite E end; auto.
  all: try (destruct HP as [(_ & _ & _ & _ & ->) _]; auto; fail).
  all: try match goal with |- context [match ?o with Some _ => _ | None => _ end] => destruct o end; cbn; rewrite ?app_nil_r, ?Nat.add_0_r; auto.
  all: try match goal with E : all_exited _ = true |- _ => apply all_exited_spec in E; destruct E as (_ & _ & _ & _ & ->) end; auto.
  all: try match goal with E : proc_pc _ = _ |- _ => rewrite E end; auto.
  destruct (ki_body _ (pp_close _ (al_pipes _ HA)) t) as (_ & _ & C); [rewrite Heqk; exact I|]. rewrite Heqk in C. rewrite C. auto.
Qed.
Lemma told_run c ls : forall x, run step NewSession ls = Some x -> told x (along step (session_lines c) NewSession ls).
Proof.
  induction ls as [|l ls IH] using rev_ind; intros x H; [injection H as <-; repeat split|].
  rewrite run_app in H. destruct (run step NewSession ls) as [y|] eqn:E; [|discriminate]. cbn in H. destruct (step y l) as [x'|] eqn:S; [|discriminate]. injection H as ->.
  rewrite (along_app _ _ _ _ _ _ E). cbn [along]. rewrite S, app_nil_r. apply told_step; [|exact S|auto].
  apply (SessionMore.fu_all _ (SessionMore.reachable_full y (ex_intro _ _ (ex_intro _ ls (conj eq_refl E))))).
Qed.
Lemma closed_fired x : reachable step init x -> close_results (hist x) <> [] -> closed x = EvFired.
Proof.
  intros R. enough (all_inv x /\ (close_results (hist x) <> [] -> closed x = EvFired)) as [_ X] by exact X. revert x R.
  apply (reachable_invariant step init (fun x => all_inv x /\ (close_results (hist x) <> [] -> closed x = EvFired))); [intros ? ->; split; [apply all_init|intros X; now destruct X]|].
  intros x l x' [A I] H. split; [eapply all_step; eassumption|]. pose proof (ki_ret _ (pp_close _ (al_pipes _ A))) as K. dstep H; cbn in *; eauto.
  all: intros X; try (specialize (I X)); congruence.
Qed.
Lemma alone_run c ls x : run step NewSession ls = Some x -> let w := along step (session_lines c) NewSession ls in
  (forall r, start_results (hist x) = [r] -> outcomes w = match exits (hist x) with [] => [] | _ => [r] end) /\
  occurrences is_closed w = length (start_results (hist x)) /\
  (occurrences is_closing w <= length (fires (hist x)) <= 1)%nat /\ (close_results (hist x) <> [] -> occurrences is_closing w = 1%nat) /\
  close_errors_told w = map snd (filter (fun te => negb (Nat.eqb (fst te) 0)) (close_errors (hist x))).
Proof.
  intros H. assert (reachable step init x) as R by (exists NewSession, ls; split; [reflexivity|exact H]). destruct (told_run c ls x H) as (A & B & C & D). cbv zeta. split; [|split; [exact B|split; [|split; [intros X; rewrite C, (closed_fired x R X); reflexivity|exact D]]]].
  2: { destruct (ki_once _ (pp_close _ (al_pipes _ (SessionMore.fu_all _ (SessionMore.reachable_full _ R))))) as [K1 K2]. rewrite C. split; [|exact K1]. destruct (closed x); try lia. rewrite K2; [lia|discriminate]. }
  intros r Hr. rewrite A. destruct (SessionMore.fu_all _ (SessionMore.reachable_full _ R)) as [[P1 _ _ _ _] _ [_ _ L3 L4 _] _ _ _ _]. unfold waited.
  pose proof (ph_phase _ P1) as HP. destruct (start_pc x) eqn:Es; rewrite L4 in Hr; try discriminate. injection Hr as ->.
  destruct HP as [(O1 & O2 & O3 & O4 & O5)|[(_ & _ & _ & _ & O) _]].
  - rewrite O5. destruct (exits (hist x)) as [|[g e] l] eqn:E; [reflexivity|]. exfalso. assert (gone x g) as X by (apply L3; left; reflexivity). destruct g as [[]|[]|]; cbn in X; congruence.
  - rewrite O. destruct (exits (hist x)) eqn:E; [|reflexivity]. destruct (proj2 (L3 GProc) O).
Qed.
