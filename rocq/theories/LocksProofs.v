(** It does not matter whom a mutex lets in first. *)
From Verif Require Export SpecLocks SystemReady.
Require Import Lia.

Lemma acquires_own s l m : acquires s l = Some m -> own l.
Proof. destruct l; try discriminate; cbn; [trivial|]. destruct l; try discriminate; trivial. Qed.
Lemma acquires_pipeline s l : acquires s l = Some DistMu -> pipeline l.
Proof. destruct l; try discriminate; cbn; [trivial|]. destruct l; try discriminate. destruct (Server.pcs (srv s) t); discriminate. Qed.
Lemma enabled s l : step s l <> None -> panicked s = None /\ exists m, plan s l = Some m /\ run FileWatcher.step (watcher s) (mw m) <> None /\ run Distributor.step (dist s) (md m) <> None /\ run Server.step (srv s) (mv m) <> None.
Proof.
  intros H. destruct (step s l) as [s'|] eqn:E; [|congruence]. destruct (step_moves _ _ _ E) as (P & m & PL & A & B & C & _). split; [exact P|]. exists m. repeat split; congruence.
Qed.
(** who could acquire a mutex finds it free, or free of writers *)
Lemma acquirable s l m : acquires s l = Some m -> step s l <> None -> match m with DistMu => Distributor.writer (dist s) = None | ServerMu => Server.mu (srv s) = None end.
Proof.
  intros A H. destruct (enabled _ _ H) as (P & mv & PL & _ & D & V). destruct l; try discriminate A.
  - destruct l; try discriminate A. cbn in A, PL. destruct (returning (dist s) t); [discriminate|]. injection PL as <-. cbn [md] in D. cbn in D.
    unfold Distributor.step in D. destruct (Distributor.crashed (dist s)); [congruence|]. unfold Distributor.go, Distributor.is_free in D.
    destruct (Distributor.pcs (dist s) t); try discriminate A; injection A as <-; destruct (Distributor.writer (dist s)); congruence.
  - destruct l; try discriminate A. cbn in A, PL. destruct (Server.pcs (srv s) t) eqn:E; try discriminate A; injection A as <-; injection PL as <-; cbn in V;
    unfold Server.step in V; destruct (Server.crashed (srv s)); try congruence; unfold Server.go, Server.lock in V; rewrite E in V; destruct (Server.mu (srv s)); congruence.
Qed.
Section Arbiter.
Context (a : arbiter) (HA : proper a) (tr : list label) (s : state) (R : reachable step init s).
Lemma reader_leaves t : panicked s = None -> Distributor.pcs (dist s) t = Distributor.G2 -> step s (YDist (Distributor.LGo t)) <> None.
Proof.
  intros P E. eapply moved; [exact P|cbn; unfold returning; rewrite E; reflexivity|reflexivity| |reflexivity|reflexivity]. apply one_run. unfold Distributor.step, Distributor.go. rewrite (dist_no_crash _ R), E. reflexivity.
Qed.
Lemma someone_approved l : step s l <> None -> exists l', step s l' <> None /\ a tr s l' = true /\ (own l -> own l') /\ (pipeline l -> pipeline l').
Proof.
  intros H. destruct (acquires s l) as [m|] eqn:A; [|exists l; split; [exact H|]; split; [apply (arb_only _ HA), A|tauto]].
  assert (W : unheld s m \/ exists t, m = DistMu /\ Distributor.pcs (dist s) t = Distributor.G2).
  { pose proof (acquirable _ _ _ A H) as X. destruct m; [|left; exact X]. destruct (Distributor.readers (dist s)) as [|t r] eqn:E; [left; split; assumption|right]. exists t. split; [reflexivity|].
    apply (DistributorProofs.li_readers _ (DistributorProofs.reachable_lock _ (pt_dist _ (reachable_parts _ R)))). rewrite E. left. reflexivity. }
  destruct W as [W|(t & -> & E)].
  - destruct (arb_some _ HA tr s l m A H W) as (l' & A' & H' & X). exists l'. split; [exact H'|]. split; [exact X|]. split; [intros _; eapply acquires_own, A'|]. intros PL.
    destruct m; [apply (acquires_pipeline s), A'|]. exfalso. clear - A PL R H. destruct l; try discriminate A; cbn in A; destruct l; try discriminate A; cbn in PL; [|destruct t; [|contradiction]].
    + destruct (Distributor.pcs (dist s) t); discriminate A.
    + pose proof (cv_main _ (ca_srv _ (reachable_calm _ R))) as M. destruct (Server.pcs (srv s) 0%nat); try discriminate A; destruct M as [M|[]]; discriminate M.
  - destruct (enabled _ _ H) as [P _]. exists (YDist (Distributor.LGo t)). split; [apply reader_leaves; assumption|]. split; [|split; intros; exact I]. apply (arb_only _ HA). cbn. rewrite E. reflexivity.
Qed.
Lemma rest_under : at_rest_under a tr s -> at_rest s.
Proof.
  intros Q l L. destruct (step s l) as [s'|] eqn:E; [exfalso|reflexivity]. destruct (someone_approved l ltac:(congruence)) as (l' & H & X & Y & _). apply H, Q; auto.
Qed.
Lemma quiet_under : (forall l, pipeline l -> a tr s l = true -> step s l = None) -> quiet s.
Proof.
  intros Q l L. destruct (step s l) as [s'|] eqn:E; [exfalso|reflexivity]. destruct (someone_approved l ltac:(congruence)) as (l' & H & X & _ & Y). apply H, Q; auto.
Qed.
End Arbiter.
Lemma comes_to_rest_under a : proper a -> forall tr s, reachable step init s -> exists ls s', Forall own ls /\ run step s ls = Some s' /\ approved a tr s ls /\ at_rest s'.
Proof.
  intros HA tr s R. destruct (own_bounded s R) as [n Hn]. revert tr s R Hn. induction n as [n IH] using lt_wf_ind. intros tr s R Hn.
  assert (D : at_rest s \/ exists l, own l /\ step s l <> None).
  { destruct (DistributorDead.fi_bound _ (DistributorDead.reachable_full _ (pt_dist _ (reachable_parts _ R)))) as [k Hk].
    destruct (ServerMore.reachable_fin _ (pt_srv _ (reachable_parts _ R))) as [j Hj]. destruct (free_number s R) as [f Hf].
    destruct (candidate_or_quiet s (own_candidates k f j (Server.next_conn (srv s)))) as [(l & A & B)|Q]; [right; exists l; split; [eapply own_candidate_own, A|exact B]|left].
    intros l L. destruct (step s l) as [s'|] eqn:E; [exfalso|reflexivity]. destruct (own_candidates_suffice _ _ _ _ _ _ R Hf Hk Hj L E) as (l' & A & B). apply B, Q, A. }
  destruct D as [Q|(l0 & L0 & H0)]; [exists [], s; repeat split; auto|]. destruct (someone_approved a HA tr s R l0 H0) as (l & H & X & Y & _). specialize (Y L0).
  destruct (step s l) as [s1|] eqn:E; [|congruence]. destruct (IH (pred n)) with (tr := tr ++ [l]) (s := s1) as (ls & s' & F & Hr & AP & Q).
  - pose proof (Hn [l] s1 ltac:(cbn; rewrite E; reflexivity) ltac:(repeat constructor; exact Y)) as Z. cbn in Z. lia.
  - eapply reachable_step; eassumption.
  - intros ls s' Hr F. pose proof (Hn (l :: ls) s' ltac:(cbn; rewrite E; exact Hr) ltac:(constructor; assumption)) as Z. cbn in Z. lia.
  - exists (l :: ls), s'. split; [constructor; assumption|]. cbn. rewrite E. repeat split; auto.
Qed.

(** *** Two arbiters *)
Lemma lock_enabled s t : panicked s = None -> unheld s DistMu -> waits_for_lock (Distributor.pcs (dist s) t) = true \/ Distributor.pcs (dist s) t = Distributor.G1 ->
  acquires s (YDist (Distributor.LGo t)) = Some DistMu /\ step s (YDist (Distributor.LGo t)) <> None.
Proof.
  intros P [W RD] H. assert (Distributor.crashed (dist s) = None) as C by (unfold panicked in P; destruct (FileWatcher.crashed (watcher s)); [discriminate|]; destruct (Distributor.crashed (dist s)); [discriminate|reflexivity]).
  assert (X : returning (dist s) t = None /\ exists d, Distributor.step (dist s) (Distributor.LGo t) = Some d).
  { unfold returning, Distributor.step, Distributor.go, Distributor.is_free. rewrite C, W, RD. destruct (Distributor.pcs (dist s) t); destruct H as [H|H]; try discriminate H; split; try reflexivity; eexists; reflexivity. }
  destruct X as [X [d Y]]. split; [cbn; destruct (Distributor.pcs (dist s) t); destruct H as [H|H]; try discriminate H; reflexivity|].
  eapply moved; [exact P|cbn; rewrite X; reflexivity|reflexivity|apply one_run, Y|reflexivity|reflexivity].
Qed.
Lemma writers_first_proper n : proper (writers_first n).
Proof.
  constructor.
  - intros tr s l H. destruct l; try reflexivity. destruct l; try reflexivity. cbn in *. destruct (Distributor.pcs (dist s) t); try reflexivity; discriminate H.
  - intros tr s l m A H U. destruct (enabled _ _ H) as [P _]. destruct (writers_first n tr s l) eqn:E; [exists l; auto|].
    destruct l; try discriminate E. destruct l; try discriminate E. cbn in A, E. destruct (Distributor.pcs (dist s) t) eqn:Ep; try discriminate E. injection A as <-.
    apply Bool.negb_false_iff, existsb_exists in E. destruct E as (w & _ & E). destruct (lock_enabled s w P U (or_introl E)) as [X Y]. exists (YDist (Distributor.LGo w)). split; [exact X|]. split; [exact Y|].
    cbn. destruct (Distributor.pcs (dist s) w); try reflexivity; discriminate E.
Qed.
Lemma readers_first_proper n : proper (readers_first n).
Proof.
  constructor.
  - intros tr s l H. destruct l; try reflexivity. destruct l; try reflexivity. cbn in *. destruct (Distributor.pcs (dist s) t); try reflexivity; discriminate H.
  - intros tr s l m A H U. destruct (enabled _ _ H) as [P _]. destruct (readers_first n tr s l) eqn:E; [exists l; auto|].
    destruct l; try discriminate E. destruct l; try discriminate E. cbn in A, E. destruct (waits_for_lock (Distributor.pcs (dist s) t)) eqn:Ep; try discriminate E.
    assert (m = DistMu) as -> by (destruct (Distributor.pcs (dist s) t); try discriminate A; injection A as <-; reflexivity).
    apply Bool.negb_false_iff, existsb_exists in E. destruct E as (w & _ & E). assert (Distributor.pcs (dist s) w = Distributor.G1) as G by (destruct (Distributor.pcs (dist s) w); try discriminate E; reflexivity).
    destruct (lock_enabled s w P U (or_intror G)) as [X Y]. exists (YDist (Distributor.LGo w)). split; [exact X|]. split; [exact Y|]. cbn. rewrite G. reflexivity.
Qed.
