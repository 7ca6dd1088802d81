(** Property C116: reloading goes on, in executions that never end. *)
From Verif Require Import SpecServing SpecReload SystemProofs SystemRuns SystemFacts SystemServing P_Serving.
From Verif Require SystemReloadLive SystemTrace.
From Verif Require Import SystemQuiet SystemReload.
Import System.
Require Import Lia.
Ltac computed := vm_compute; reflexivity.

(** * C116 A change of the configuration takes effect, however busy the program is *)

(** In an infinite execution of the whole program, in which the goroutines that carry configurations are treated fairly and an RWMutex
    does not let new readers pass a waiting writer: once the server is started, every configuration read so far is installed in the end, in
    order, and the server receives every change of the address; whatever the clients, the databases, the sessions and the file do meanwhile. The program may
    only end by a panic. *)
Theorem C116_installed : forall st lb, execution step st lb -> reachable step init (st 0%nat) -> fair_roles st lb -> writers_first st lb ->
  forall i, main (st i) = RServe ->
  exists j, (i <= j)%nat /\ (panicked (st j) <> None \/
    (exists more, rev (SpecDistributor.installed (Distributor.hist (dist (st j)))) =
       (SpecWatcher.loaded (FileWatcher.hist (watcher (st i))) ++ SpecWatcher.good_reloads (FileWatcher.hist (watcher (st i)))) ++ more) /\
    (exists more, SpecDistributor.received 0 (Distributor.hist (dist (st j))) =
       address_changes None (SpecWatcher.loaded (FileWatcher.hist (watcher (st i))) ++ SpecWatcher.good_reloads (FileWatcher.hist (watcher (st i)))) ++ more)).
Proof. intros st lb EX R FR WF i M. exact (SystemReloadLive.ev_all st lb EX R FR WF i M). Qed.
Print Assumptions C116_installed.
(** Each of these addresses is passed to net.Listen; where that succeeds, the server listens. *)
Theorem C116_listened : forall st lb f, execution step st lb -> st 0%nat = Run f -> fair_roles st lb -> writers_first st lb ->
  forall i, main (st i) = RServe ->
  exists j, (i <= j)%nat /\ (panicked (st j) <> None \/ exists more tried,
    tried = address_changes None (SpecWatcher.loaded (FileWatcher.hist (watcher (st i))) ++ SpecWatcher.good_reloads (FileWatcher.hist (watcher (st i)))) ++ more /\
    length (attempts (before lb j)) = length tried /\ map snd (SpecServer.listened (Server.hist (srv (st j)))) = succeeded (attempts (before lb j)) tried).
Proof.
  intros st lb f EX I0 FR WF i M. assert (reachable step init (st 0%nat)) as R by (exists (Run f), []; split; [eexists; reflexivity|rewrite I0; reflexivity]).
  pose proof SystemReloadLive.good_dec as GD.
  assert (Fair.ev st SystemReloadLive.good i (fun s => exists k more, (i <= k)%nat /\ st k = s /\ up s /\ SpecDistributor.received 0 (Distributor.hist (dist s)) = address_changes None (read (st i)) ++ more)) as X.
  { apply (Fair.ev_bind st _ GD _ _ _ (SystemReloadLive.ev_up st lb EX R FR i M)). intros j Hj G U.
    destruct (SystemReloadLive.ev_all st lb EX R FR WF j (SystemReloadLive.serves st lb EX R i j Hj M)) as (k & Hk & [X|(_ & more & X)]); exists k; split; auto. right.
    destruct (SystemReloadLive.reads st lb EX R i j Hj M) as [y Y]. rewrite Y in X. destruct (SystemReloadLive.changes_app None (read (st i)) y) as [z Z]. rewrite Z, <- app_assoc in X.
    exists k, (z ++ more). split; [lia|]. split; [reflexivity|]. split; [exact (SystemReloadLive.ups st lb EX R j k Hk U)|exact X]. }
  destruct X as (k & Hk & [X|(k' & more & _ & _ & U & X)]); [exists k; auto|].
  destruct (SystemReloadLive.ev_A4 st lb EX R FR k U) as (j & Hj & [Y|(U1 & Y)]); exists j; (split; [lia|]); [left; exact Y|right].
  destruct (SystemReloadLive.recvs st lb EX R k j Hj) as [z Z]. rewrite X, <- app_assoc in Z. exists (more ++ z), (SpecDistributor.received 0 (Distributor.hist (dist (st j)))). split; [exact Z|].
  pose proof (SystemReloadLive.before_run st lb EX j) as B. rewrite I0 in B. destruct (SystemTrace.run_listens _ _ _ B) as (tried & T1 & T2 & T3). rewrite Y in T1. cbn in T1. rewrite app_nil_r in T1. rewrite T1. auto.
Qed.
Print Assumptions C116_listened.
(** A configuration written into the file while the watcher lives becomes, and then remains, the current one, unless the file changes again
    or fsnotify fails. *)
Theorem C116_takes_effect : forall st lb, execution step st lb -> reachable step init (st 0%nat) -> fair_roles st lb -> writers_first st lb ->
  forall i c, main (st i) = RServe -> FileWatcher.handler (watcher (st i)) <> FileWatcher.H_None -> FileWatcher.handler (watcher (st i)) <> FileWatcher.H_End ->
  lb i = Some (YWatcher (FileWatcher.LFile (Some c) [FileWatcher.OpWrite])) -> (forall k l, (i < k)%nat -> lb k = Some l -> undisturbed l) ->
  (exists j, (i < j)%nat /\ panicked (st j) <> None) \/
  exists j h, (i < j)%nat /\ forall k, (j <= k)%nat -> SpecDistributor.current (Distributor.hist (dist (st k))) = Some c /\
    rev (SpecDistributor.installed (Distributor.hist (dist (st k)))) = h ++ [c] /\
    SpecDistributor.received 0 (Distributor.hist (dist (st k))) = address_changes None (h ++ [c]).
Proof.
  intros st lb EX R FR WF i c M H1 H2 B UD. pose proof (EX i) as E. rewrite B in E.
  pose proof (SystemReloadLive.reach st lb EX R i) as RI. pose proof (change_coming _ _ _ RI M H1 H2 E) as C.
  set (st' := fun n => st (S i + n)%nat). set (lb' := fun n => lb (S i + n)%nat).
  destruct (SystemReloadLive.takes_hold st' lb') with (c := c) (i := 0%nat) as [(j & Hj & X)|(j & h & Hj & X)].
  - intros n. unfold st', lb'. rewrite Nat.add_succ_r. apply EX.
  - unfold st'. apply (SystemReloadLive.reach st lb EX R).
  - intros r n. destruct (FR r (S i + n)%nat) as (j & Hj & X). exists (j - S i)%nat. split; [lia|]. unfold st', lb'. replace (S i + (j - S i))%nat with j by lia. exact X.
  - intros n t X Y. apply (WF (S i + n)%nat t); assumption.
  - intros n l. apply UD. lia.
  - unfold st'. rewrite Nat.add_0_r. exact (serve_step _ _ _ RI M E).
  - unfold st'. rewrite Nat.add_0_r. exact C.
  - left. exists (S i + j)%nat. split; [lia|exact X].
  - right. exists (S i + j)%nat, h. split; [lia|]. intros k Hk. destruct (X (k - S i)%nat ltac:(lia)) as [Y Z]. unfold st', SystemReloadLive.inst in Y, Z. replace (S i + (k - S i))%nat with k in Y, Z by lia.
    split; [|auto]. unfold SpecDistributor.current. apply (f_equal (@rev config)) in Y. rewrite rev_involutive, rev_app_distr in Y. rewrite Y. reflexivity.
Qed.
Print Assumptions C116_takes_effect.

(** A client is connected, the file changes, the server listens at the new address; then nothing happens any more. *)
Definition moving (w : nat) : list label :=
  [YUpdate; YServer (Server.LListen 0 true); YServer (Server.LSpawn 0 w); YServer (Server.LGo w); YServer (Server.LGo w); YServer (Server.LCloseListener w None); YServer (Server.LGo w); YServer (Server.LGo w)].
Definition busy : list label := one_session ++ reloading cfgB ++ distributing ++ moving 4.
Definition busy_at (i : nat) : state := final (firstn i busy).
Definition busy_label (i : nat) : option label := nth_error busy i.
Lemma busy_prefix i : run step (Run (Some cfgA)) (firstn i busy) = Some (busy_at i).
Proof.
  apply final_run. assert (run step (Run (Some cfgA)) busy = Some (final busy)) as X by (apply final_run; computed).
  rewrite <- (firstn_skipn i busy), run_app in X. destruct (run step (Run (Some cfgA)) (firstn i busy)); [reflexivity|discriminate X].
Qed.
Lemma firstn_next {A} : forall i (ls : list A) l, nth_error ls i = Some l -> firstn (S i) ls = firstn i ls ++ [l].
Proof. induction i as [|i IH]; intros [|a ls] l E; try discriminate E; [injection E as ->; reflexivity|]. cbn [firstn app]. f_equal. apply IH, E. Qed.
Lemma busy_execution : execution step busy_at busy_label.
Proof.
  intros i. unfold busy_label. pose proof (busy_prefix (S i)) as X. destruct (nth_error busy i) as [l|] eqn:N.
  - rewrite (firstn_next i _ _ N), run_app, busy_prefix in X. apply run_one in X. exact X.
  - apply nth_error_None in N. unfold busy_at. rewrite !firstn_all2 by lia. reflexivity.
Qed.
Lemma busy_rest : at_rest (final busy).
Proof.
  apply rest_intro; [eapply run_reachable; apply final_run; computed|computed|..].
  - intros t. destruct t as [|[|[|[|[|[|[|t]]]]]]]; vm_compute; exact I.
  - intros t. destruct t as [|[|[|[|[|[|[|t]]]]]]]; first [left; computed|right; computed].
  - intros x E. vm_compute in E. injection E as <-. reflexivity.
  - computed.
  - intros l L. destruct l; try contradiction; computed.
  - intros c l C L. destruct c as [|c]; [|vm_compute in C; lia]; clear C; destruct l; try contradiction; try destruct d; try (destruct t as [|[|t]]); computed.
Qed.
Example C116_instance : execution step busy_at busy_label /\ busy_at 0%nat = Run (Some cfgA) /\ fair_roles busy_at busy_label /\ writers_first busy_at busy_label /\
  main (busy_at 52) = RServe /\ FileWatcher.handler (watcher (busy_at 52)) = FileWatcher.H_Select /\
  busy_label 52 = Some (YWatcher (FileWatcher.LFile (Some cfgB) [FileWatcher.OpWrite])) /\ (forall k l, (52 < k)%nat -> busy_label k = Some l -> undisturbed l) /\
  (forall k, panicked (busy_at k) = None) /\
  SpecDistributor.current (Distributor.hist (dist (busy_at 52))) = Some cfgA /\
  (forall k, (70 <= k)%nat -> rev (SpecDistributor.installed (Distributor.hist (dist (busy_at k)))) = [cfgA; cfgB] /\
     map snd (SpecServer.listened (Server.hist (srv (busy_at k)))) = [Listen cfgA; Listen cfgB]).
Proof.
  assert (forall k, (70 <= k)%nat -> busy_at k = final busy) as LATE by (intros k Hk; unfold busy_at; rewrite firstn_all2; [reflexivity|vm_compute; exact Hk]).
  split; [exact busy_execution|]. split; [computed|]. split; [|split].
  - intros r i. exists (i + 70)%nat. split; [lia|]. left. intros l A. rewrite LATE by lia. apply busy_rest. destruct r, l; try contradiction A; try exact I; destruct l; try contradiction A; exact I.
  - intros i t L G t'. assert (i < 70)%nat as Hi by (unfold busy_label in L; apply (nth_error_Some busy i); rewrite L; discriminate).
    assert (i = 45%nat) as ->.
    { revert L G. do 45 (destruct i as [|i]; [intros L G; vm_compute in L; try discriminate L; injection L as <-; vm_compute in G; discriminate G|]).
      destruct i as [|i]; [reflexivity|]. do 24 (destruct i as [|i]; [intros L G; vm_compute in L; try discriminate L; injection L as <-; vm_compute in G; discriminate G|]). lia. }
    destruct t' as [|[|[|[|[|t']]]]]; vm_compute; intros [].
  - do 3 (split; [computed|]). split; [|split; [|split; [computed|]]].
    + intros k l Hk. assert (k < 70 \/ 70 <= k)%nat as [H|H] by lia; [|intros L; change 70%nat with (length busy) in H; apply nth_error_None in H; unfold busy_label in L; congruence].
      do 53 (destruct k as [|k]; [lia|]). do 17 (destruct k as [|k]; [intros L; vm_compute in L; injection L as <-; exact I|]). lia.
    + intros k. destruct (panicked (busy_at k)) as [p|] eqn:P; [exfalso|reflexivity]. assert (k < 70 \/ 70 <= k)%nat as [H|H] by lia; [|rewrite (LATE k H) in P; vm_compute in P; discriminate P].
      do 70 (destruct k as [|k]; [vm_compute in P; discriminate P|]). lia.
    + intros k Hk. rewrite (LATE k Hk). split; computed.
Qed.
