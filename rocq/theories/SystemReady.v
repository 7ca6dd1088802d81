(** The program comes to rest, and at rest it accepts connections. *)
From Verif Require Export SpecReady SystemProofs SystemTrace SystemFacts SystemQuiet SystemBusy SystemServing.
From Verif Require ServerActs.
Require Import Lia.

(** *** The program's own actions, up to what does not matter for being able to act *)
Definition own_candidates (k n j m : nat) : list label :=
  candidates k n ++
  flat_map (fun t => [YServer (Server.LGo t); YServer (Server.LSpawn t n); YServer (Server.LCloseListener t None); YGet t; YServe t; YEnd t; YFire t; YClosed t]) (seq 0 j) ++
  flat_map (fun c => map (YSession c) [Session.LStart; Session.LClose 0 None; Session.LProc; Session.LRecv Session.Client; Session.LRecv Session.DB; Session.LIn Session.Client; Session.LIn Session.DB;
                                       Session.LSelect Session.Client; Session.LSelect Session.DB; Session.LTake Session.Client; Session.LTake Session.DB]) (seq 0 m).
Lemma own_candidate_pipeline k n j m l : In l (candidates k n) -> In l (own_candidates k n j m).
Proof. intros H. apply in_or_app. auto. Qed.
Lemma own_candidate_server k n j m t l : (t < j)%nat ->
  In l [YServer (Server.LGo t); YServer (Server.LSpawn t n); YServer (Server.LCloseListener t None); YGet t; YServe t; YEnd t; YFire t; YClosed t] -> In l (own_candidates k n j m).
Proof. intros H X. apply in_or_app. right. apply in_or_app. left. apply in_flat_map. exists t. split; [apply in_seq; lia|exact X]. Qed.
Lemma own_candidate_session k n j m c l : (c < m)%nat ->
  In l [Session.LStart; Session.LClose 0 None; Session.LProc; Session.LRecv Session.Client; Session.LRecv Session.DB; Session.LIn Session.Client; Session.LIn Session.DB;
        Session.LSelect Session.Client; Session.LSelect Session.DB; Session.LTake Session.Client; Session.LTake Session.DB] -> In (YSession c l) (own_candidates k n j m).
Proof. intros H X. apply in_or_app. right. apply in_or_app. right. apply in_flat_map. exists c. split; [apply in_seq; lia|apply in_map, X]. Qed.
Lemma own_of_pipeline l : pipeline l -> own l.
Proof. destruct l; try (intros; exact I); cbn; intros H; try contradiction; destruct l; try exact I; try contradiction. Qed.
Lemma own_candidate_own k n j m l : In l (own_candidates k n j m) -> own l.
Proof.
  intros H. apply in_app_or in H. destruct H as [H|H]; [apply own_of_pipeline; eapply candidate_pipeline, H|]. apply in_app_or in H. destruct H as [H|H].
  - apply in_flat_map in H. destruct H as (t & _ & H). repeat (destruct H as [<-|H]; [exact I|]). destruct H.
  - apply in_flat_map in H. destruct H as (c & _ & H). repeat (destruct H as [<-|H]; [exact I|]). destruct H.
Qed.
Lemma own_candidates_suffice s l s' k n j : reachable step init s -> unused s n = true -> idle_from (dist s) k -> (forall t, (j <= t)%nat -> Server.pcs (srv s) t = Server.Idle) -> own l -> step s l = Some s' ->
  exists l', In l' (own_candidates k n j (Server.next_conn (srv s))) /\ step s l' <> None.
Proof.
  intros R Hn Hk Hj L E. pose proof (reachable_calm _ R) as CA. pose proof (ca_srv _ CA) as CV. pose proof (unused_spec _ _ Hn) as (Hn1 & Hn2 & Hn3).
  assert (PL : pipeline l -> exists l', In l' (own_candidates k n j (Server.next_conn (srv s))) /\ step s l' <> None).
  { intros PL. destruct (candidates_suffice _ _ _ _ _ R Hn Hk PL E) as (l' & A & B). exists l'. split; [apply own_candidate_pipeline, A|exact B]. }
  assert (B : forall t, Server.pcs (srv s) t <> Server.Idle -> (t < j)%nat). { intros t X. destruct (Nat.lt_ge_cases t j) as [Y|Y]; [exact Y|]. destruct X. apply Hj, Y. }
  assert (HE : In l (own_candidates k n j (Server.next_conn (srv s))) -> exists l', In l' (own_candidates k n j (Server.next_conn (srv s))) /\ step s l' <> None) by (intros X; exists l; split; [exact X|congruence]).
  destruct (step_moves _ _ _ E) as (PN & m & P & E1 & E2 & E3 & E4 & E5 & Em).
  assert (KK : forall t p, Server.pcs (srv s) t = p -> worker p \/ in_loop p).
  { intros t p <-. destruct (Nat.eq_dec t 0) as [->|X]; [|left; apply (cv_worker _ CV), X]. destruct (cv_main _ CV) as [M'|M']; [left; rewrite M'; exact I|right; exact M']. }
  destruct l; try (apply PL; exact I); cbn in L.
  - apply PL. destruct l; try contradiction; exact I.
  - dplan P. runs. destruct l; try contradiction.
    + apply HE, (own_candidate_server k n j _ t); [|cbn; tauto]. apply B. intros X. unfold Server.step, Server.go in E3. rewrite X in E3. destruct (Server.crashed (srv s)); discriminate.
    + destruct t; [apply PL; exact I|]. exfalso. unfold Server.step in E3. destruct (Server.crashed (srv s)); [discriminate|]. pose proof (cv_worker _ CV (S t) ltac:(lia)) as W.
      destruct (Server.pcs (srv s) (S t)); try discriminate. destruct W.
    + exists (YServer (Server.LSpawn t n)). assert (Server.pcs (srv s) t <> Server.Idle /\ exists v, Server.step (srv s) (Server.LSpawn t n) = Some v) as [T [v V]].
      { unfold Server.step in *. destruct (Server.crashed (srv s)); [discriminate|]. rewrite Hn3. destruct (Server.pcs (srv s) child); try discriminate.
        destruct (Server.pcs (srv s) t); try discriminate; (split; [discriminate|]); eexists; reflexivity. }
      split; [apply (own_candidate_server k n j _ t); [apply B, T|cbn; tauto]|].
      eapply moved; [exact PN|cbn; rewrite Hn; reflexivity|reflexivity|reflexivity|apply one_run, V|reflexivity].
    + exists (YServer (Server.LCloseListener t None)). assert (Server.pcs (srv s) t <> Server.Idle /\ exists v, Server.step (srv s) (Server.LCloseListener t None) = Some v) as [T [v V]].
      { unfold Server.step in *. destruct (Server.crashed (srv s)); [discriminate|]. destruct (Server.pcs (srv s) t); try discriminate; (split; [discriminate|]); destruct (Server.listener (srv s)); try discriminate; eexists; reflexivity. }
      split; [apply (own_candidate_server k n j _ t); [apply B, T|cbn; tauto]|].
      eapply moved; [exact PN|reflexivity|reflexivity|reflexivity|apply one_run, V|reflexivity].
  - dplan P. runs. apply andb_prop in Heqb. destruct Heqb as [B1 B2]. apply Nat.ltb_lt in B1. destruct (session_alone_inv _ c R) as (_ & _ & A1 & _).
    destruct l; try contradiction; try (apply HE, own_candidate_session; [exact B1|]; try destruct d; cbn; tauto).
    destruct t as [|t]; [|unfold Session.step, Session.go_close in E4; rewrite A1 in E4; destruct (Session.crashed (sess s c)); discriminate].
    exists (YSession c (Session.LClose 0 None)). split; [apply own_candidate_session; [exact B1|cbn; tauto]|].
    assert (exists x, Session.step (sess s c) (Session.LClose 0 None) = Some x) as [x X].
    { unfold Session.step, Session.go_close in *. destruct (Session.crashed (sess s c)); [discriminate|]. destruct (Session.close_pc (sess s c) 0%nat); try discriminate; eauto.
      - destruct (Session.conns (sess s c) Session.Client); eauto.
      - destruct (Session.conns (sess s c) Session.DB); eauto. }
    eapply moved; [exact PN|cbn -[Nat.ltb]; apply Nat.ltb_lt in B1; rewrite B1; cbn in B2 |- *; rewrite B2; reflexivity|reflexivity|reflexivity|reflexivity|apply one_run, X].
  - apply HE, (own_candidate_server k n j _ t); [apply B; intros X; cbn in P; rewrite X in P; discriminate|cbn; tauto].
  - apply HE, (own_candidate_server k n j _ t); [apply B; intros X; cbn in P; rewrite X in P; discriminate|cbn; tauto].
  - apply HE, (own_candidate_server k n j _ t); [apply B; intros X; cbn in P; rewrite X in P; discriminate|cbn; tauto].
  - apply HE, (own_candidate_server k n j _ t); [apply B; intros X; cbn in P; rewrite X in P; discriminate|cbn; tauto].
  - apply HE, (own_candidate_server k n j _ t); [apply B; intros X; cbn in P; rewrite X in P; discriminate|cbn; tauto].
  - exfalso. assert (exists ls c, mv m = Server.LPick t c :: ls) as (ls & c0 & X) by (clear - P; dplan P; eauto). rewrite X in E3. cbn in E3. clear - E3 KK.
    destruct (Server.step (srv s) (Server.LPick t c0)) as [v|] eqn:H; [|discriminate]. clear E3. vstep H; match goal with E : Server.pcs _ _ = _ |- _ => apply KK in E; destruct E as [[]|[]] end.
  - exfalso. dplan P. apply KK in Heqp. destruct Heqp as [[]|[]].
  - exfalso. dplan P. apply KK in Heqp. destruct Heqp as [[]|[]].
  - exfalso. dplan P. apply KK in Heqp. destruct Heqp as [[]|[]].
  - exfalso. dplan P. apply KK in Heqp. destruct Heqp as [[]|[]].
  - exfalso. destruct (ca_main _ CA) as [[X _]|[X _]]; unfold plan in P; rewrite X in P; discriminate P.
Qed.
(** *** The program comes to rest *)
Lemma comes_to_rest s : reachable step init s -> exists ls s', Forall own ls /\ run step s ls = Some s' /\ at_rest s'.
Proof.
  intros R. destruct (own_bounded s R) as [n Hn]. revert s R Hn. induction n as [n IH] using lt_wf_ind. intros s R Hn.
  destruct (DistributorDead.fi_bound _ (DistributorDead.reachable_full _ (pt_dist _ (reachable_parts _ R)))) as [k Hk].
  destruct (ServerMore.reachable_fin _ (pt_srv _ (reachable_parts _ R))) as [j Hj]. destruct (free_number s R) as [f Hf].
  destruct (candidate_or_quiet s (own_candidates k f j (Server.next_conn (srv s)))) as [(l & A & B)|Q].
  - destruct (step s l) as [s1|] eqn:E; [|congruence]. apply own_candidate_own in A.
    destruct (IH (pred n)) with (s := s1) as (ls & s' & F & Hr & Q).
    + pose proof (Hn [l] s1 ltac:(cbn; rewrite E; reflexivity) ltac:(repeat constructor; exact A)) as X. cbn in X. lia.
    + eapply reachable_step; eassumption.
    + intros ls s' H F. pose proof (Hn (l :: ls) s' ltac:(cbn; rewrite E; exact H) ltac:(constructor; assumption)) as X. cbn in X. lia.
    + exists (l :: ls), s'. split; [constructor; assumption|]. split; [cbn; rewrite E; exact Hr|exact Q].
  - exists [], s. split; [constructor|]. split; [reflexivity|]. intros l L. destruct (step s l) as [s'|] eqn:E; [exfalso|reflexivity].
    destruct (own_candidates_suffice _ _ _ _ _ _ R Hf Hk Hj L E) as (l' & A & B). apply B, Q, A.
Qed.

(** *** What becomes of the listeners *)
Record ready_inv (v : Server.state) : Prop := {
  ry_serve : forall l, (l < Server.next_lis v)%nat -> (exists t, ServerProofs.own_lis (Server.pcs v t) = Some l) \/ exists t r, In (Server.HRet t (Server.CServe l) r) (Server.hist v);
  ry_inst : forall l, (l < Server.next_lis v)%nat -> (exists t, ServerListen.pre_lis (Server.pcs v t) = Some l) \/ In l (SpecServer.installed (Server.hist v));
  ry_some : SpecServer.installed (Server.hist v) <> [] -> Server.listener v <> None;
  ry_listened : forall l, (l < Server.next_lis v)%nat <-> exists a, In (l, a) (SpecServer.listened (Server.hist v))
}.
Lemma ready_frame v v' : (forall l, (exists t, ServerProofs.own_lis (Server.pcs v t) = Some l) -> (exists t, ServerProofs.own_lis (Server.pcs v' t) = Some l) \/ exists t r, In (Server.HRet t (Server.CServe l) r) (Server.hist v')) ->
  (forall l, (exists t, ServerListen.pre_lis (Server.pcs v t) = Some l) -> (exists t, ServerListen.pre_lis (Server.pcs v' t) = Some l) \/ In l (SpecServer.installed (Server.hist v'))) ->
  (forall l, In l (SpecServer.installed (Server.hist v)) -> In l (SpecServer.installed (Server.hist v'))) -> (Server.listener v <> None -> Server.listener v' <> None) ->
  (SpecServer.installed (Server.hist v') <> [] -> SpecServer.installed (Server.hist v) <> [] \/ Server.listener v' <> None) ->
  (exists h, Server.hist v' = h ++ Server.hist v) -> Server.next_lis v' = Server.next_lis v -> SpecServer.listened (Server.hist v') = SpecServer.listened (Server.hist v) -> ready_inv v -> ready_inv v'.
Proof.
  intros H1 H2 H3 H4 H5 (h & H6) H7 H8 [I1 I2 I3 I4]. constructor; rewrite ?H7, ?H8; auto.
  - intros l L. destruct (I1 l L) as [X|(t & r & X)]; [auto|]. right. exists t, r. rewrite H6. apply in_or_app. auto.
  - intros l L. destruct (I2 l L) as [X|X]; auto.
  - intros X. destruct (H5 X) as [Y|Y]; auto.
Qed.
Lemma ready_move v v' t p : Server.pcs v' = upd (Server.pcs v) t p -> ServerProofs.own_lis p = ServerProofs.own_lis (Server.pcs v t) -> ServerListen.pre_lis p = ServerListen.pre_lis (Server.pcs v t) ->
  Server.listener v' = Server.listener v -> SpecServer.installed (Server.hist v') = SpecServer.installed (Server.hist v) -> (exists h, Server.hist v' = h ++ Server.hist v) ->
  Server.next_lis v' = Server.next_lis v -> SpecServer.listened (Server.hist v') = SpecServer.listened (Server.hist v) -> ready_inv v -> ready_inv v'.
Proof.
  intros H1 H2 H3 H4 H5 H6 H7 H8. apply ready_frame; rewrite ?H4, ?H5; auto; intros l (t1 & X); left; exists t1; rewrite H1; unfold upd; destruct (Nat.eqb_spec t1 t) as [->|_]; congruence.
Qed.
Ltac grown := first [exists []; reflexivity|eexists [_]; reflexivity|eexists [_; _]; reflexivity].
Lemma ready_step v l v' : calm_srv v -> Server.step v l = Some v' -> calm_server_label l -> ready_inv v -> ready_inv v'.
Proof.
  intros CV H L HI. pose proof (cv_shut _ CV) as SH. vstep H; cbn in L; try contradiction; try (rewrite SH in *; discriminate).
  all: try match goal with E : Server.pcs ?v ?t = ?p |- _ =>
     lazymatch p with Server.Idle => fail | _ =>
     let X := fresh in let Y := fresh in let I5 := fresh in pose proof (cv_main _ CV) as I5; destruct (Nat.eq_dec t 0) as [->|X]; [rewrite E in I5|pose proof (cv_worker _ CV _ X) as Y; rewrite E in Y]; cbn in *; try (destruct I5; [discriminate|contradiction]); try contradiction end end.
  all: try exact HI.
  all: try solve [match goal with E : Server.pcs ?v ?t = _ |- _ => eapply (ready_move v _ t); [reflexivity|rewrite E; reflexivity|rewrite E; reflexivity|reflexivity|reflexivity|grown|reflexivity|reflexivity|exact HI] end].
  all: try solve [eapply (ready_frame v); cbn; auto; try grown; try congruence; intros l1 (t1 & X);
    (destruct (Nat.eq_dec t1 t) as [->|D]; [match goal with E : Server.pcs _ _ = _ |- _ => rewrite E in X end; cbn in X; try discriminate X; injection X as <-; right; eauto|left; exists t1; unfold upd; destruct (Nat.eqb_spec t1 t); [contradiction|exact X]])].
  - apply (ready_frame v); cbn; auto; try grown; try congruence.
    + intros l1 (t1 & X). left. exists t1. unfold upd. destruct (Nat.eqb_spec t1 t) as [->|_]; [rewrite Heqp in X|]; exact X.
    + intros l1 (t1 & X). destruct (Nat.eq_dec t1 t) as [->|D]; [rewrite Heqp in X; injection X as <-; right; apply in_or_app; right; left; reflexivity|].
      left. exists t1. unfold upd. destruct (Nat.eqb_spec t1 t); [contradiction|exact X].
    + intros l1 X. apply in_or_app. auto.
    + right. discriminate.
  - destruct HI as [I1 I2 I3 I4].
    constructor; cbn; auto.
    + intros l1 Hl. destruct (Nat.eq_dec l1 (Server.next_lis v)) as [->|D]; [left; exists 0%nat; unfold upd; reflexivity|].
      destruct (I1 l1 ltac:(lia)) as [(t1 & X)|(t1 & r & X)]; [left; exists t1; unfold upd; destruct (Nat.eqb_spec t1 0%nat) as [->|_]; [rewrite Heqp in X; discriminate X|exact X]|right; eauto].
    + intros l1 Hl. destruct (Nat.eq_dec l1 (Server.next_lis v)) as [->|D]; [left; exists 0%nat; unfold upd; reflexivity|].
      destruct (I2 l1 ltac:(lia)) as [(t1 & X)|X]; [left; exists t1; unfold upd; destruct (Nat.eqb_spec t1 0%nat) as [->|_]; [rewrite Heqp in X; discriminate X|exact X]|right; eauto].
    + intros l1. split.
      * intros Hl. destruct (Nat.eq_dec l1 (Server.next_lis v)) as [->|D]; [eexists; apply in_or_app; right; left; reflexivity|].
        destruct (proj1 (I4 l1) ltac:(lia)) as [a X]. exists a. apply in_or_app. auto.
      * intros (a & X). apply in_app_or in X. destruct X as [X|[X|[]]]; [|injection X as <- _; lia]. pose proof (proj2 (I4 l1) (ex_intro _ a X)). lia.
  - apply (ready_frame v); cbn; auto; try grown; try congruence; intros l1 (t1 & X); left.
    all: destruct (Nat.eq_dec t1 0%nat) as [->|D]; [rewrite Heqp0 in X; exists child; unfold upd; rewrite Nat.eqb_refl; exact X|].
    all: exists t1; unfold upd; destruct (Nat.eqb_spec t1 child) as [->|_]; [rewrite Heqp in X; discriminate X|]; destruct (Nat.eqb_spec t1 0%nat); [contradiction|exact X].
  - apply (ready_frame v); cbn; auto; try grown; try congruence; intros l1 (t1 & X); left; exists t1; unfold upd.
    all: destruct (Nat.eqb_spec t1 child) as [->|_]; [rewrite Heqp in X; discriminate X|]; destruct (Nat.eqb_spec t1 t) as [->|_]; [rewrite Heqp0 in X; exact X|exact X].
Qed.
Lemma reachable_ready s : reachable step init s -> ready_inv (srv s).
Proof.
  revert s. apply (sys_induct (fun s => ready_inv (srv s))); [intros f; constructor; cbn; intros; try lia; try tauto; split; [lia|intros (a & [])]|].
  intros s l s' R U E. destruct (step_moves _ _ _ E) as (_ & m & P & _ & _ & E3 & _).
  pose proof (reachable_calm _ R) as CA. pose proof (ca_srv _ CA) as CV. destruct (calm_plan _ _ _ _ CA P E3) as (_ & C2 & _).
  destruct C2 as [C2|[c C2]].
  - destruct (mv_shape _ _ _ CA P) as [X|[[l1 X]|[c1 X]]]; rewrite X in E3, C2.
    + apply run_none in E3. rewrite E3. exact U.
    + apply run_one in E3. inversion C2; subst. eapply ready_step; eauto.
    + inversion C2; subst. contradiction.
  - rewrite C2 in E3. apply run_two in E3. destruct E3 as (v1 & X & Y).
    assert (Server.pcs (srv s) 0%nat = Server.A4) as Z.
    { clear - P C2. dplan P; try discriminate C2; try assumption; try reflexivity. all: match goal with H : _ = true |- _ => injection C2 as ->; discriminate H end. }
    rewrite (calm_update _ _ _ _ CV Z X Y). eapply (ready_move (srv s) _ 0%nat); [reflexivity|rewrite Z; reflexivity|rewrite Z; reflexivity|reflexivity|reflexivity|grown|reflexivity|reflexivity|exact U].
Qed.

(** *** At rest *)
Section Rest.
Context (s : state) (R : reachable step init s) (P : panicked s = None) (Q : at_rest s).
Lemma rest_lis_owner t l : ServerProofs.own_lis (Server.pcs (srv s) t) = Some l -> Server.pcs (srv s) t = Server.S5 l.
Proof.
  intros O. pose proof (ca_srv _ (reachable_calm _ R)) as CA. pose proof (rest_go s R P Q t) as G. unfold Server.go, Server.lock in G. rewrite (rest_mutex s R P Q) in G.
  destruct (Server.pcs (srv s) t) eqn:Ep; try discriminate O; cbn in O; injection O as ->; try (specialize (G I); discriminate G); try reflexivity; exfalso.
  - destruct (free_number s R) as [n U]. pose proof (rest_server s P Q (Server.LSpawn t n) I U) as X. destruct (unused_spec _ _ U) as (_ & _ & U').
    unfold Server.step in X. rewrite (cv_crash _ CA), U', Ep in X. discriminate X.
  - destruct (Server.listener (srv s)) eqn:El; [|specialize (G I); discriminate G].
    pose proof (rest_server s P Q (Server.LCloseListener t None) I eq_refl) as X. unfold Server.step in X. rewrite (cv_crash _ CA), Ep, El in X. discriminate X.
  - destruct (free_number s R) as [n U]. pose proof (rest_server s P Q (Server.LSpawn t n) I U) as X. destruct (unused_spec _ _ U) as (_ & _ & U').
    unfold Server.step in X. rewrite (cv_crash _ CA), U', Ep in X. discriminate X.
Qed.
Lemma rest_listens l a : In (l, a) (SpecServer.listened (Server.hist (srv s))) ->
  exists l1 a1, In (l1, a1) (SpecServer.listened (Server.hist (srv s))) /\ Server.listener (srv s) = Some l1 /\
    (forall l2 a2, In (l2, a2) (SpecServer.listened (Server.hist (srv s))) -> (Server.lis_open (srv s) l2 = true <-> l2 = l1)) /\
    ((exists t, Server.pcs (srv s) t = Server.S5 l1) \/ exists t r, In (Server.HRet t (Server.CServe l1) r) (Server.hist (srv s))).
Proof.
  intros H. pose proof (reachable_ready _ R) as RI. pose proof (ServerListen.reachable_lis _ (pt_srv _ (reachable_parts _ R))) as LI.
  assert (IN : forall l, (l < Server.next_lis (srv s))%nat -> In l (SpecServer.installed (Server.hist (srv s)))).
  { intros l2 L2. destruct (ry_inst _ RI l2 L2) as [(t & X)|X]; [|exact X]. assert (ServerProofs.own_lis (Server.pcs (srv s) t) = Some l2) as Y by (destruct (Server.pcs (srv s) t); exact X || discriminate X).
    apply rest_lis_owner in Y. rewrite Y in X. discriminate X. }
  pose proof (proj2 (ry_listened _ RI l) (ex_intro _ a H)) as L. pose proof (IN _ L) as J.
  destruct (Server.listener (srv s)) as [l1|] eqn:E; [|exfalso; apply (ry_some _ RI); [intros X; rewrite X in J; destruct J|exact E]].
  destruct (ServerListen.la_last _ LI _ E) as [pre X].
  assert (L1 : (l1 < Server.next_lis (srv s))%nat) by (apply (ServerProofs.oi_inst_lt _ (ServerProofs.reachable_own _ (pt_srv _ (reachable_parts _ R)))); rewrite X; apply in_or_app; right; left; reflexivity).
  destruct (proj1 (ry_listened _ RI l1) L1) as [a1 A1]. exists l1, a1. split; [exact A1|]. split; [reflexivity|]. split.
  - intros l2 a2 H2. pose proof (proj2 (ry_listened _ RI l2) (ex_intro _ a2 H2)) as L2. split.
    + intros O. pose proof (ServerListen.la_open _ LI _ (IN _ L2) O) as Z. congruence.
    + intros ->. destruct (Server.lis_open (srv s) l1) eqn:O; [reflexivity|exfalso]. destruct (ServerListen.la_closed _ LI _ E O) as [t T].
      destruct (Server.pcs (srv s) t) eqn:Ep; try destruct T. pose proof (rest_lis_owner t l0 ltac:(rewrite Ep; reflexivity)). congruence.
  - destruct (ry_serve _ RI l1 L1) as [(t & T)|T]; [left; exists t; apply rest_lis_owner, T|right; exact T].
Qed.
End Rest.

(** *** One more connection *)
Lemma alone_server s l v : reachable step init s -> panicked s = None -> server_alone s l = true -> Server.step (srv s) l = Some v -> Server.next_conn v = Server.next_conn (srv s) \/ Server.next_conn v = S (Server.next_conn (srv s)) ->
  exists s', step s (YServer l) = Some s' /\ reachable step init s' /\ panicked s' = None /\ srv s' = v /\ dist s' = dist s /\ watcher s' = watcher s /\ main s' = main s /\ forall c, sess s' c = sess s c.
Proof.
  intros R P A E N. assert (X : step s (YServer l) <> None) by (eapply moved; [exact P|cbn; rewrite A; reflexivity|reflexivity|reflexivity|apply one_run, E|reflexivity]).
  destruct (step s (YServer l)) as [s'|] eqn:H; [clear X|congruence]. exists s'. split; [reflexivity|]. pose proof (reachable_step _ _ _ _ _ R H) as R'. split; [exact R'|].
  destruct (step_moves _ _ _ H) as (_ & m & PL & E1 & E2 & E3 & E4 & E5 & Em). cbn in PL. rewrite A in PL. injection PL as <-. cbn [mw md mv ms mc mr] in *. runs.
  assert (S : forall c, sess s' c = sess s c) by (intros c; destruct (Nat.eq_dec c 0) as [->|D]; auto).
  split; [|split; [congruence|]; auto 10].
  destruct (panicked s') as [p|] eqn:X; [exfalso|reflexivity]. destruct (panicked_session _ _ R' X) as (c & C1 & C2). rewrite S in C2.
  destruct (Nat.lt_ge_cases c (Server.next_conn (srv s))) as [L|L]; [rewrite (panic_session _ _ P L) in C2; discriminate C2|]. rewrite (lk_fresh _ (reachable_linked _ R) c L) in C2. discriminate C2.
Qed.
Lemma fresh_session s c : reachable step init s -> (Server.next_conn (srv s) <= c)%nat -> Server.remove_session c (Server.sessions (srv s)) = Server.sessions (srv s).
Proof.
  intros R L. pose proof (ServerSessions.sn_sub _ (ServerSessions.reachable_ses _ (pt_srv _ (reachable_parts _ R)))) as Y.
  pose proof (ServerProofs.oi_reg_lt _ (ServerProofs.reachable_own _ (pt_srv _ (reachable_parts _ R)))) as Z.
  unfold Server.remove_session. assert (W : forall x, In x (Server.sessions (srv s)) -> x <> c) by (intros x X; specialize (Z _ (Y _ X)); lia).
  clear - W. induction (Server.sessions (srv s)) as [|x xs IH]; cbn; [reflexivity|]. destruct (Nat.eqb_spec x c) as [->|_]; [exfalso; eapply W; [left|]; reflexivity|]. cbn. f_equal. apply IH. intros y Hy. apply W. right. exact Hy.
Qed.
Definition begun : Session.state := match run Session.step Session.NewSession [Session.LCallStart; Session.LStart] with Some x => x | None => Session.NewSession end.
Lemma one_more s t l : reachable step init s -> panicked s = None -> Server.mu (srv s) = None -> Server.pcs (srv s) t = Server.S5 l -> Server.lis_open (srv s) l = true ->
  exists v s', run step s (YServer (Server.LAccept t Server.AConn) :: YServer (Server.LSpawn t v) :: repeat (YServer (Server.LGo v)) 5 ++ [YServe v]) = Some s' /\
    panicked s' = None /\ Server.mu (srv s') = None /\ Server.pcs (srv s') t = Server.S5 l /\ Server.lis_open (srv s') l = true /\
    Server.pcs (srv s') v = Server.C6 (Server.next_conn (srv s)) /\ Server.next_conn (srv s') = S (Server.next_conn (srv s)) /\
    Server.sessions (srv s') = Server.next_conn (srv s) :: Server.sessions (srv s) /\
    (forall t', t' <> v -> Server.pcs (srv s') t' = Server.pcs (srv s) t') /\
    Session.start_pc (sess s' (Server.next_conn (srv s))) = Session.SRecv /\ Session.conns (sess s' (Server.next_conn (srv s))) Session.Client = Some (Session.NetConn (Frames.Reader [] None) true) /\
    (forall c, c <> Server.next_conn (srv s) -> sess s' c = sess s c) /\ dist s' = dist s /\ watcher s' = watcher s /\
    Distributor.pcs (dist s) v = Distributor.Idle /\ sess s' (Server.next_conn (srv s)) = begun.
Proof.
  intros R P M T O. pose proof (ca_srv _ (reachable_calm _ R)) as CV. set (c := Server.next_conn (srv s)). set (v0 := srv s) in *.
  destruct (free_number s R) as [v U]. destruct (unused_spec _ _ U) as (U1 & U2 & U3). assert (v <> t) as D by (intros ->; fold v0 in U3; congruence). pose proof (cv_shut _ CV) as SH. pose proof (cv_crash _ CV) as CR. fold v0 in SH, CR, U3.
  assert (EV : ev_fired (Server.shut_ev v0) = false) by (rewrite SH; reflexivity).
  set (v1 := Server.log (Server.goto (Server.new_conn v0) t (Server.S6 l c)) (Server.HAccept l c)).
  destruct (alone_server s (Server.LAccept t Server.AConn) v1 R P eq_refl) as (s1 & H1 & R1 & P1 & V1 & D1 & W1 & _ & S1).
  { unfold Server.step. fold v0. rewrite CR, T, O. reflexivity. } { right. reflexivity. }
  set (v2 := Server.log (Server.goto (Server.goto (Server.with_bg v1 v true (S (Server.wg v1))) t (Server.S5 l)) v (Server.C0 c)) (Server.HSpawn v)).
  assert (Uv : Server.pcs v1 v = Server.Idle) by (cbn; unfold upd; destruct (Nat.eqb_spec v t); [contradiction|exact U3]).
  destruct (alone_server s1 (Server.LSpawn t v) v2 R1 P1) as (s2 & H2 & R2 & P2 & V2 & D2 & W2 & _ & S2).
  { cbn. unfold unused. rewrite V1, D1. clear - U1 U2 Uv. destruct v; [destruct U1; reflexivity|]. rewrite U2, Uv. reflexivity. }
  { unfold Server.step. rewrite V1, Uv. cbn. rewrite CR. unfold upd at 1. rewrite Nat.eqb_refl. reflexivity. } { left. rewrite V1. reflexivity. }
  set (v3 := Server.goto v2 v (Server.C1 c)). destruct (alone_server s2 (Server.LGo v) v3 R2 P2) as (s3 & H3 & R3 & P3 & V3 & D3 & W3 & _ & S3).
  { cbn. rewrite V2. cbn. unfold upd. rewrite Nat.eqb_refl. reflexivity. }
  { unfold Server.step, Server.go. rewrite V2. cbn. rewrite CR. unfold upd at 1. rewrite Nat.eqb_refl, EV. reflexivity. } { left. rewrite V2. reflexivity. }
  set (v4 := Server.goto v3 v (Server.C2 c)). destruct (alone_server s3 (Server.LGo v) v4 R3 P3) as (s4 & H4 & R4 & P4 & V4 & D4 & W4 & _ & S4).
  { cbn. rewrite V3. cbn. unfold upd. rewrite Nat.eqb_refl. reflexivity. }
  { unfold Server.step, Server.go. rewrite V3. cbn. rewrite CR. unfold upd at 1. rewrite Nat.eqb_refl, EV. reflexivity. } { left. rewrite V3. reflexivity. }
  set (v5 := Server.goto (Server.with_mu v4 (Some v)) v (Server.C3 c)). destruct (alone_server s4 (Server.LGo v) v5 R4 P4) as (s5 & H5 & R5 & P5 & V5 & D5 & W5 & _ & S5).
  { cbn. rewrite V4. cbn. unfold upd. rewrite Nat.eqb_refl. reflexivity. }
  { unfold Server.step, Server.go, Server.lock. rewrite V4. cbn. rewrite CR. unfold upd at 1. rewrite Nat.eqb_refl, M. reflexivity. } { left. rewrite V4. reflexivity. }
  set (v6 := Server.log (Server.goto (Server.with_sessions v5 (c :: Server.remove_session c (Server.sessions v5))) v (Server.C4 c)) (Server.HRegister c)).
  destruct (alone_server s5 (Server.LGo v) v6 R5 P5) as (s6 & H6 & R6 & P6 & V6 & D6 & W6 & _ & S6).
  { cbn. rewrite V5. cbn. unfold upd. rewrite Nat.eqb_refl. reflexivity. }
  { unfold Server.step, Server.go. rewrite V5. cbn. rewrite CR. unfold upd at 1. rewrite Nat.eqb_refl. reflexivity. } { left. rewrite V5. reflexivity. }
  set (v7 := Server.goto (Server.with_mu v6 None) v (Server.C5 c)). destruct (alone_server s6 (Server.LGo v) v7 R6 P6) as (s7 & H7 & R7 & P7 & V7 & D7 & W7 & _ & S7).
  { cbn. rewrite V6. cbn. unfold upd. rewrite Nat.eqb_refl. reflexivity. }
  { unfold Server.step, Server.go, Server.unlock. rewrite V6. cbn. rewrite CR. unfold upd at 1. rewrite Nat.eqb_refl. reflexivity. } { left. rewrite V6. reflexivity. }
  assert (X : sess s7 c = Session.NewSession) by (rewrite S7, S6, S5, S4, S3, S2, S1; apply (lk_fresh _ (reachable_linked _ R)); apply Nat.le_refl).
  assert (T7 : Server.pcs (srv s7) v = Server.C5 c) by (rewrite V7; cbn; unfold upd; rewrite Nat.eqb_refl; reflexivity).
  assert (F7 : Server.s_fired (srv s7) c = false) by (rewrite (lk_fired _ (reachable_linked _ R7)), X; reflexivity).
  set (v8 := Server.goto v7 v (Server.C6 c)).
  assert (E8 : Server.step (srv s7) (Server.LGo v) = Some v8).
  { unfold Server.step, Server.go. rewrite T7, F7, V7. cbn. rewrite CR. reflexivity. }
  assert (Z : step s7 (YServe v) <> None).
  { eapply moved; [exact P7|cbn; rewrite T7; reflexivity|reflexivity|reflexivity|apply one_run, E8|cbn [mc ms]; rewrite X; reflexivity]. }
  destruct (step s7 (YServe v)) as [s8|] eqn:H8; [clear Z|congruence]. pose proof (reachable_step _ _ _ _ _ R7 H8) as R8.
  destruct (step_moves _ _ _ H8) as (_ & m & PL & A1 & A2 & A3 & A4 & A5 & _). cbn in PL. rewrite T7 in PL. injection PL as <-. cbn [mw md mv ms mc mr] in *. rewrite X in A4. cbn in A4. injection A4 as A4. runs. assert (V8 : srv s8 = v8) by congruence.
  assert (SO : forall c', c' <> c -> sess s8 c' = sess s c') by (intros c' Hc; rewrite A5 by exact Hc; rewrite S7, S6, S5, S4, S3, S2, S1; reflexivity).
  exists v, s8. split; [cbn [repeat app run]; rewrite H1, H2, H3, H4, H5, H6, H7, H8; reflexivity|].
  assert (NC : Server.next_conn (srv s8) = S c) by (rewrite V8; reflexivity).
  split.
  { destruct (panicked s8) as [p|] eqn:Y; [exfalso|reflexivity]. destruct (panicked_session _ _ R8 Y) as (c' & C1 & C2). destruct (Nat.eq_dec c' c) as [->|Dc]; [rewrite <- A4 in C2; discriminate C2|].
    rewrite SO in C2 by exact Dc. assert (c' < c)%nat as C3 by (rewrite NC in C1; clear - C1 Dc; lia). rewrite (panic_session s c' P C3) in C2. discriminate C2. }
  rewrite V8. split; [reflexivity|]. split; [cbn; unfold upd; destruct (Nat.eqb_spec t v); [congruence|]; rewrite Nat.eqb_refl; reflexivity|]. split; [exact O|].
  split; [cbn; unfold upd; rewrite Nat.eqb_refl; reflexivity|]. split; [reflexivity|]. split; [cbn; f_equal; apply (fresh_session s c R), Nat.le_refl|].
  split. { intros t' Ht. cbn. unfold upd. destruct (Nat.eqb_spec t' v); [contradiction|]. destruct (Nat.eqb_spec t' t) as [->|_]; [symmetry; exact T|reflexivity]. }
  rewrite <- A4. split; [reflexivity|]. split; [reflexivity|]. split; [exact SO|]. split; [congruence|]. split; [congruence|]. split; [exact U2|reflexivity].
Qed.

(** *** A client that says nothing *)
Lemma unanswered_step x l x' : SessionProofs.phase_inv x -> SessionTraffic.alone x -> unanswered x -> Session.step x l = Some x' ->
  (match l with Session.LArrive Session.Client _ | Session.LHangup Session.Client _ | Session.LReset Session.Client _ => False | Session.LCallClose _ => False | _ => True end) -> False.
Proof.
  intros [_ PH PC] [AL _] (r & S & C & F & I) H L. rewrite S in PH, PC. destruct PH as [(O1 & O2 & O3 & O4 & O5) D].
  assert (I1 : forall d, Session.in_pc x d = Session.IOff) by (intros []; assumption). assert (I2 : forall d, Session.out_pc x d = Session.OOff) by (intros []; assumption). unfold Session.step in H. destruct (Session.crashed x); [discriminate|].
  destruct l; try contradiction; try (rewrite S in H; discriminate H); try (destruct d; try contradiction; rewrite D in H; discriminate H).
  all: try (rewrite I1 in H; discriminate H).
  all: try (rewrite I2 in H; discriminate H).
  all: try (rewrite O5 in H; discriminate H).
  - unfold Session.go_start in H. rewrite S, C in H. unfold Session.recv_on in H. cbn [Session.is_open Session.rd] in H. unfold Conn.RecvStartupMessage in H.
    pose proof (FrameProofs.ReadStartupFrame_short _ I) as X. rewrite F in X. rewrite X in H. discriminate H.
  - unfold Session.start_write in H. rewrite S in H. discriminate H.
  - unfold Session.go_close in H. destruct t; [rewrite PC in H|rewrite AL in H]; discriminate H.
Qed.
Lemma silent_stays c ls : forall s1 s2, reachable step init s1 -> unanswered (sess s1 c) -> run step s1 ls = Some s2 -> Forall (fun l => ~ client_acts c l) ls -> sess s2 c = sess s1 c.
Proof.
  induction ls as [|l ls IH]; cbn; intros s1 s2 R U H F; [injection H as <-; reflexivity|]. destruct (step s1 l) as [s|] eqn:E; [|discriminate]. inversion F as [|? ? F1 F2]; subst.
  assert (sess s c = sess s1 c) as X; [|rewrite <- X; apply (IH s s2); [eapply reachable_step; eassumption|rewrite X; exact U|exact H|exact F2]].
  destruct (step_moves _ _ _ E) as (_ & m & P & _ & _ & E3 & E4 & E5 & _). destruct (Nat.eq_dec c (mc m)) as [->|D]; [|apply E5, D].
  destruct (calm_plan _ _ _ _ (reachable_calm _ R) P E3) as (_ & _ & N). destruct (session_alone_inv s1 (mc m) R) as (AI & _ & AL). pose proof (SessionPipe.pp_phase _ (SessionLife.al_pipes _ AI)) as PH.
  destruct (ms m) as [|x xs] eqn:M; [apply run_none in E4; exact E4|]. exfalso. cbn in E4. destruct (Session.step (sess s1 (mc m)) x) as [y|] eqn:Y; [|discriminate].
  eapply unanswered_step; [exact PH|exact AL|exact U|exact Y|]. destruct x; try exact I; try (destruct d; [|exact I]).
  4: { eapply N. left. reflexivity. }
  all: apply F1; clear - P M; dplan P; cbn in M; try discriminate M; injection M as -> _; reflexivity.
Qed.
Lemma unanswered_session s c : reachable step init s -> unanswered (sess s c) -> (c < Server.next_conn (srv s))%nat /\ In c (Server.sessions (srv s)) /\ exists t, Server.pcs (srv s) t = Server.C6 c.
Proof.
  intros R (r & S & _). pose proof (reachable_linked _ R) as LK. pose proof (lk_owner _ LK c) as O. rewrite S in O. destruct O as [t O].
  assert (Server.pcs (srv s) t = Server.C6 c) as T.
  { assert (ServerProofs.own_conn (Server.pcs (srv s) t) = Some c) as W by (destruct (Server.pcs (srv s) t); try destruct O; reflexivity).
    pose proof (lk_agree _ LK t c W) as A. destruct (Server.pcs (srv s) t); try destruct O; try reflexivity; cbn in A; destruct A as [A _]; congruence. }
  split; [apply (ServerProofs.oi_conn_lt _ (ServerProofs.reachable_own _ (pt_srv _ (reachable_parts _ R))) t); rewrite T; reflexivity|]. split; [eapply in_table; eassumption|eauto].
Qed.
Lemma silent_crowd s t l k : reachable step init s -> panicked s = None -> unlocked s -> in_accept s t l -> exists ls s',
  run step s ls = Some s' /\ panicked s' = None /\ unlocked s' /\ in_accept s' t l /\ Server.next_conn (srv s') = (Server.next_conn (srv s) + k)%nat /\
  Server.sessions (srv s') = rev (seq (Server.next_conn (srv s)) k) ++ Server.sessions (srv s) /\
  (forall c, (Server.next_conn (srv s) <= c < Server.next_conn (srv s) + k)%nat -> unanswered (sess s' c)) /\ Forall (fun x => own x \/ x = YServer (Server.LAccept t Server.AConn)) ls.
Proof.
  intros R P M [A O]. induction k as [|k (ls & s1 & H & P1 & M1 & [A1 O1] & N1 & T1 & S1 & F1)].
  - exists [], s. rewrite Nat.add_0_r. repeat split; auto. intros c X. lia.
  - assert (R1 : reachable step init s1) by (eapply reachable_run; eassumption).
    destruct (one_more s1 t l R1 P1 M1 A1 O1) as (v & s2 & H2 & P2 & M2 & A2 & O2 & _ & N2 & T2 & _ & Z1 & Z2 & Z3 & _).
    exists (ls ++ YServer (Server.LAccept t Server.AConn) :: YServer (Server.LSpawn t v) :: repeat (YServer (Server.LGo v)) 5 ++ [YServe v]), s2.
    split; [rewrite run_app, H; exact H2|]. split; [exact P2|]. split; [exact M2|]. split; [split; assumption|]. split; [lia|]. split.
    + rewrite T2, T1, N1. rewrite seq_S, rev_app_distr. reflexivity.
    + split.
      * intros c X. destruct (Nat.eq_dec c (Server.next_conn (srv s1))) as [->|D]; [|rewrite Z3 by exact D; apply S1; lia].
        exists (Frames.Reader [] None). split; [exact Z1|]. split; [exact Z2|]. split; [reflexivity|]. left. cbn. lia.
      * apply Forall_app. split; [exact F1|]. constructor; [right; reflexivity|]. cbn. repeat (constructor; [left; exact I|]). constructor.
Qed.
