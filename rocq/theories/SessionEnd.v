(** What happens after Close. *)
From Verif Require Import BufferProofs FrameProofs FrameFacts ConnProofs ConnFacts DsnProofs.
From Verif Require Export SessionRuns.
Require Import Lia.

Lemma write_err_work s d e s' : step s (LWriteErr d e) = Some s' -> (work s' < work s)%nat.
Proof.
  intros H. dstep H. unfold work, side_weight; cbn. match goal with E : crashed _ = _ |- _ => rewrite E; clear E end.
  sides; cbn; unfold supd; cbn; match goal with E : out_pc _ _ = _ |- _ => rewrite E; clear E end; cbn [out_weight]; lia.
Qed.
Lemma ending_bounded s ls s' : run step s ls = Some s' -> Forall (fun l => ending l = true) ls -> (length ls + work s' <= work s)%nat.
Proof.
  revert s. induction ls as [|l ls IH]; cbn; intros s H F; [injection H as <-; lia|]. destruct (step s l) as [s1|] eqn:E; [|discriminate]. inversion F as [|? ? Fl Fs]; subst.
  assert (work s1 < work s)%nat as W. { unfold ending in Fl. apply orb_true_iff in Fl. destruct Fl as [Fl|Fl]; [eapply work_step; eassumption|]. destruct l; try discriminate Fl. eapply write_err_work, E. }
  specialize (IH _ H Fs). lia.
Qed.
Lemma drained s : reachable step init s -> crashed s = None -> start_pc s = SWait -> fires (hist s) <> [] -> (forall t, close_pc s t = KIdle) ->
  ~ late_connect (hist s) -> (forall l, ending l = true -> step s l = None) -> all_exited s = true.
Proof.
  intros R Hcr Hst Hf Hk Hl HQ. destruct (released s R Hf Hk) as ((c & Ec & Eo) & Hch & Hdb).
  pose proof (ph_phase _ (reachable_phase _ R)) as HP. rewrite Hst in HP. destruct HP as [Hon Hd].
  assert (forall d, exists c, conns s d = Some c /\ is_open c = false) as Hc.
  { intros []; [eauto|]. destruct (conns s DB) as [c'|] eqn:E; [|congruence]. exists c'. split; [reflexivity|]. destruct (Hdb c' eq_refl) as [X|X]; [exact X|destruct (Hl X)]. }
  assert (forall d, in_pc s d <> IOff -> in_pc s d = IExit) as Hi.
  { intros d Hx. destruct (in_pc s d) eqn:E; [congruence| | |reflexivity]; exfalso.
    - specialize (HQ (LRecv d) eq_refl). unfold step in HQ. rewrite Hcr, E in HQ. destruct (Hc d) as (c' & Ec' & Eo'). rewrite Ec' in HQ. unfold recv_on in HQ; rewrite Eo' in HQ; discriminate HQ.
    - specialize (HQ (LIn d) eq_refl). unfold step in HQ. rewrite Hcr, E in HQ. cbv zeta in HQ. rewrite (proj1 (Hch d)) in HQ. discriminate HQ. }
  assert (forall d, out_pc s d <> OOff -> out_pc s d = OExit) as Ho.
  { intros d Hx. destruct (out_pc s d) eqn:E; [congruence| | |reflexivity]; exfalso.
    - specialize (HQ (LTake d) eq_refl). unfold step in HQ. rewrite Hcr, E in HQ. cbv zeta in HQ. rewrite (proj2 (Hch d)) in HQ. destruct (queue (chan_out s d)); discriminate HQ.
    - specialize (HQ (LWriteErr d EOF) eq_refl). unfold step in HQ. rewrite Hcr, E in HQ. discriminate HQ. }
  assert (proc_pc s = PExit) as Hp.
  { destruct (proc_pc s) eqn:E; [unfold on in Hon; intuition congruence| | |reflexivity]; exfalso.
    - specialize (HQ (LSelect Client) eq_refl). unfold step in HQ. rewrite Hcr, E in HQ. cbv zeta in HQ. rewrite (proj1 (Hch Client)) in HQ. destruct (queue (chan_in s Client)); discriminate HQ.
    - specialize (HQ LProc eq_refl). unfold step in HQ. rewrite Hcr, E in HQ. cbv zeta in HQ. rewrite (proj2 (Hch (other from))) in HQ. discriminate HQ. }
  unfold on in Hon. destruct Hon as (O1 & O2 & O3 & O4 & _). unfold all_exited. rewrite (Hi Client), (Hi DB), (Ho Client), (Ho DB), Hp by assumption. reflexivity.
Qed.
Lemma in_hand_crashes s : reachable step init s -> crashed s = None -> fires (hist s) <> [] -> (forall t, close_pc s t = KIdle) ->
  (forall d m, in_pc s d = ISend m -> step s (LIn d) = Some (crash s PanicSendClosed)) /\
  (forall d m, proc_pc s = PSend d m -> step s LProc = Some (crash s PanicSendClosed)).
Proof.
  intros R Hcr Hf Hk. destruct (released s R Hf Hk) as (_ & Hch & _). split.
  - intros d m E. unfold step. rewrite Hcr, E. cbv zeta. rewrite (proj1 (Hch d)). reflexivity.
  - intros d m E. unfold step. rewrite Hcr, E. cbv zeta. rewrite (proj2 (Hch (other d))). reflexivity.
Qed.
(** a Close call in progress can always go on, or waits for one that can *)
Lemma close_progress s t r : reachable step init s -> crashed s = None -> close_pc s t <> KIdle ->
  step s (LClose t r) <> None \/ exists w, w <> t /\ closed s = EvFiring w /\ step s (LClose w r) <> None.
Proof.
  intros R Hcr Hk. pose proof (pp_close _ (al_pipes _ (fu_all _ (reachable_full _ R)))) as HK. pose proof (ph_close _ (reachable_phase _ R)) as H0.
  unfold step. rewrite Hcr. unfold go_close. destruct (close_pc s t) eqn:E; try congruence.
  - destruct (closed s) eqn:Ec; try (left; discriminate). right. exists winner. pose proof (ki_firing _ HK _ Ec) as X. rewrite X.
    split; [intros ->; congruence|]. split; [reflexivity|discriminate].
  - left; discriminate.
  - left. destruct (conns s Client); discriminate.
  - left. destruct (conns s DB); discriminate.
  - left; discriminate.
  - left; discriminate.
  - left; discriminate.
  - left; discriminate.
  - left. destruct t; [|discriminate]. destruct (start_pc s); try congruence.
Qed.
