(** Configurations on their way from the file to the server and the sessions. *)
From Verif Require Export SystemSessions.
From Verif Require DistributorSubs.
Require Import Lia.

(** *** What each goroutine is doing in the distributor *)
Definition asks (s : state) (t : tid) : Prop :=
  exists c w, Server.pcs (srv s) t = Server.C6 c /\ Session.start_pc (sess s c) = Session.SGet w /\ Session.cached (sess s c) = None.
Definition duty (s : state) (t : tid) : Prop :=
  match Distributor.pcs (dist s) t with
  | Distributor.Idle => True
  | Distributor.S0 _ _ Distributor.STop | Distributor.S1 _ _ Distributor.STop | Distributor.S2 _ _ Distributor.STop | Distributor.S3 _ _ Distributor.STop _
  | Distributor.S4 _ _ Distributor.STop | Distributor.S5 _ Distributor.STop => Server.pcs (srv s) t = Server.A3
  | Distributor.G0 | Distributor.G1 | Distributor.G2 | Distributor.G3 (Some _) => asks s t
  | Distributor.M0 | Distributor.M1 _ | Distributor.M2 _ | Distributor.M3 _ _ _ | Distributor.M4 _ _ _ _ => Server.pcs (srv s) t = Server.Idle
  | _ => False
  end.
(** no configuration yet: nothing was listened on, nobody was accepted *)
Definition blank (s : state) : Prop :=
  (forall t, t <> 0%nat -> Server.pcs (srv s) t = Server.Idle) /\ match Server.pcs (srv s) 0%nat with Server.A5 _ | Server.A6 _ => False | _ => True end.
Record duties (s : state) : Prop := {
  du_duty : forall t, duty s t;
  du_blank : Distributor.last (dist s) = None -> blank s
}.
Lemma expected_none ch h : SpecDistributor.installed h = [] -> SpecDistributor.expected ch h = [].
Proof.
  induction h as [|e h IH]; cbn; [reflexivity|]. destruct e; auto; try discriminate. intros E. rewrite (IH E). unfold SpecDistributor.current. rewrite E. reflexivity.
Qed.
Lemma nothing_queued s : reachable step init s -> Distributor.last (dist s) = None -> forall x, Distributor.chans (dist s) 0%nat = Some x -> Distributor.ch_queue x = [].
Proof.
  intros R L x Hx. pose proof (pt_dist _ (reachable_parts _ R)) as RD. pose proof (DistributorProofs.mi_last _ (DistributorProofs.reachable_mon _ RD)) as M. rewrite L in M.
  unfold SpecDistributor.current in M. destruct (SpecDistributor.installed _) eqn:E; [|discriminate]. apply (expected_none 0) in E.
  rewrite (DistributorSubs.si_sent _ (DistributorSubs.reachable_subs _ RD)) in E. apply app_eq_nil in E. destruct E as [E _].
  destruct (DistributorSubs.reachable_fifo _ RD 0%nat) as [F _]. rewrite E in F. symmetry in F. apply app_eq_nil in F. destruct F as [_ F]. unfold DistributorSubs.queue in F. rewrite Hx in F. exact F.
Qed.
(** the last configuration is never forgotten *)
Lemma last_grows d l d' : Distributor.step d l = Some d' -> Distributor.last d' = None -> Distributor.last d = None.
Proof. intros H. ddstep H; cbn; auto; try congruence. Qed.
Lemma last_grows_run d ls d' : run Distributor.step d ls = Some d' -> Distributor.last d' = None -> Distributor.last d = None.
Proof.
  revert d. induction ls as [|l ls IH]; cbn; intros d H; [congruence|]. destruct (Distributor.step d l) as [d1|] eqn:E; [|discriminate]. intros X. eapply last_grows; eauto.
Qed.
Lemma duty_keep s s' t : duty s t -> Distributor.pcs (dist s') t = Distributor.pcs (dist s) t ->
  (Server.pcs (srv s) t = Server.A3 -> Distributor.pcs (dist s) t <> Distributor.Idle -> Server.pcs (srv s') t = Server.A3) ->
  (Server.pcs (srv s) t = Server.Idle -> Distributor.pcs (dist s) t <> Distributor.Idle -> Server.pcs (srv s') t = Server.Idle) ->
  (asks s t -> Distributor.pcs (dist s) t <> Distributor.Idle -> asks s' t) -> duty s' t.
Proof.
  unfold duty. intros H -> H1 H2 H3. destruct (Distributor.pcs (dist s) t); auto; try (apply H1; [exact H|discriminate]); try (apply H2; [exact H|discriminate]); try (apply H3; [exact H|discriminate]).
  - destruct snapshot; auto. apply H3; [exact H|discriminate].
  - destruct k; auto. apply H1; [exact H|discriminate].
  - destruct k; auto. apply H1; [exact H|discriminate].
  - destruct k; auto. apply H1; [exact H|discriminate].
  - destruct k; auto. apply H1; [exact H|discriminate].
  - destruct k; auto. apply H1; [exact H|discriminate].
  - destruct k; auto. apply H1; [exact H|discriminate].
Qed.
(** the server alone *)
Lemma duty_server s l v' : reachable step init s -> server_alone s l = true -> Server.step (srv s) l = Some v' -> (forall t, duty s t) -> forall t,
  (Server.pcs (srv s) t = Server.A3 -> Distributor.pcs (dist s) t <> Distributor.Idle -> Server.pcs v' t = Server.A3) /\
  (Server.pcs (srv s) t = Server.Idle -> Distributor.pcs (dist s) t <> Distributor.Idle -> Server.pcs v' t = Server.Idle) /\
  (forall c, Server.pcs (srv s) t = Server.C6 c -> Server.pcs v' t = Server.C6 c).
Proof.
  intros R A H D t. pose proof (ca_srv _ (reachable_calm _ R)) as CV. pose proof (cv_shut _ CV) as SH.
  assert (U : forall p child, l = Server.LSpawn p child -> Server.pcs (srv s) child = Server.Idle /\ Distributor.pcs (dist s) child = Distributor.Idle) by (intros p child ->; apply unused_spec in A; tauto).
  vstep H; cbn in A; try discriminate A.
  all: cbn; unfold upd; repeat (eqs; cbn); try solve [repeat split; intros; auto; try congruence].
  all: repeat match goal with E : Server.pcs _ _ = _ |- _ => rewrite E in * end; try discriminate A.
  all: try solve [repeat split; intros; try discriminate; try congruence].
  all: try solve [destruct (U _ _ eq_refl); repeat split; intros; try discriminate; congruence].
Qed.
Lemma duty_dist s l d' : reachable step init s -> duties s -> dist_alone s l = true -> Distributor.step (dist s) l = Some d' -> forall s', srv s' = srv s -> (forall c, sess s' c = sess s c) -> dist s' = d' ->
  forall t, duty s' t.
Proof.
  intros R [D B] A H s' E1 E2 E3 t. pose proof (ca_dist _ (reachable_calm _ R)) as [CD1 CD2 _]. pose proof (ca_srv _ (reachable_calm _ R)) as CV.
  assert (AK : forall t, asks s t -> asks s' t) by (intros t1 (c & w & X1 & X2 & X3); exists c, w; rewrite E1, E2; auto).
  assert (AL : forall t, asks s t -> Distributor.last (dist s) <> None).
  { intros t1 (c & w & X1 & _) X. destruct (B X) as [B1 B2]. destruct (Nat.eq_dec t1 0) as [->|Hn]; [destruct (cv_main _ CV) as [M|M]; rewrite X1 in M; [discriminate M|exact M]|rewrite (B1 _ Hn) in X1; discriminate X1]. }
  assert (K : forall t', Distributor.pcs d' t' = Distributor.pcs (dist s) t' -> duty s' t') by (intros t' X; apply (duty_keep s); rewrite ?E1, ?E3; auto).
  pose proof D as D0.
  ddstep H; cbn in A; try discriminate A.
  all: repeat match goal with E : Distributor.pcs (dist ?s) ?t = ?p |- _ => lazymatch goal with _ : Distributor.pcs (dist s) t = p /\ True |- _ => fail | _ => let X := fresh "DU" in pose proof (D t) as X; unfold duty in X; rewrite E in X; assert (Distributor.pcs (dist s) t = p /\ True) by (split; [exact E|exact I]) end end.
  all: try contradiction.
  all: unfold returning in A; repeat match goal with E : Distributor.pcs (dist ?s) ?t = ?p |- _ => rewrite E in * end; cbn in A; try discriminate A.
  all: try (rewrite CD1 in *; cbn in *; discriminate).
  all: try (rewrite CD2 in *; cbn in *; discriminate).
  all: try (destruct k; try contradiction; try discriminate A).
  all: unfold duty; rewrite E3, E1; cbn; unfold upd; repeat (eqs; cbn); auto.
  all: try solve [specialize (D t); unfold duty in D; repeat match goal with |- context [match ?x with _ => _ end] => destruct x; auto; try contradiction end].
  all: try solve [match goal with X : asks _ ?t |- context [Distributor.last ?d] => specialize (AL _ X); destruct (Distributor.last d); auto end].
  apply unused_spec in A. tauto.
Qed.
Lemma duty_pair s s' t c : reachable step init s -> (forall t, duty s t) -> ServerProofs.own_conn (Server.pcs (srv s) t) = Some c ->
  (forall t', t' <> t -> Distributor.pcs (dist s') t' = Distributor.pcs (dist s) t' /\ Server.pcs (srv s') t' = Server.pcs (srv s) t') ->
  Distributor.pcs (dist s') t = Distributor.Idle -> (forall c', c' <> c -> sess s' c' = sess s c') -> forall t', duty s' t'.
Proof.
  intros R D O F E S t'. destruct (Nat.eq_dec t' t) as [->|Hn]; [unfold duty; rewrite E; exact I|]. destruct (F _ Hn) as [F1 F2].
  apply (duty_keep s); auto; rewrite ?F2; auto. intros (c' & w & X1 & X2 & X3) _. exists c', w. rewrite F2, S; auto.
  intros ->. apply Hn. apply (ServerProofs.oi_conn _ (ServerProofs.reachable_own _ (pt_srv _ (reachable_parts _ R))) t' t c); [rewrite X1; reflexivity|exact O].
Qed.
Lemma duty_idle s t : duty s t -> match Server.pcs (srv s) t with Server.A3 | Server.Idle | Server.C6 _ => False | _ => True end -> Distributor.pcs (dist s) t = Distributor.Idle.
Proof.
  unfold duty. intros D H. destruct (Distributor.pcs (dist s) t); auto; try contradiction; try (destruct k; try contradiction); try (destruct snapshot; try contradiction).
  all: first [rewrite D in H; contradiction|destruct D as (? & ? & D & _); rewrite D in H; contradiction].
Qed.
Lemma blank_server v l v' : calm_srv v -> Server.step v l = Some v' -> calm_server_label l ->
  (forall t, t <> 0%nat -> Server.pcs v t = Server.Idle) /\ match Server.pcs v 0%nat with Server.A5 _ | Server.A6 _ => False | _ => True end ->
  (forall t, t <> 0%nat -> Server.pcs v' t = Server.Idle) /\ match Server.pcs v' 0%nat with Server.A5 _ | Server.A6 _ => False | _ => True end.
Proof.
  intros [I1 I2 I3 I4 IS I5 I6] H L [B1 B2]. vstep H; cbn in L; try contradiction; try (rewrite I1 in *; discriminate).
  all: try match goal with E : Server.pcs ?v ?t = ?p |- _ => lazymatch p with Server.Idle => fail | _ => destruct (Nat.eq_dec t 0) as [->|X]; [rewrite E in B2, I5|rewrite (B1 _ X) in E; discriminate E] end end; try contradiction; cbn in *; try (destruct I5; [discriminate|contradiction]).
  all: split; [intros t1 Ht1; specialize (B1 t1 Ht1)|]; unfold upd; repeat (eqs; cbn); auto; try congruence; try exact I.
  all: try (subst; contradiction).
  all: try (destruct L; contradiction).
Qed.
Lemma no_pick s t c m v' : calm_srv (srv s) -> plan s (YPick t c) = Some m -> run Server.step (srv s) (mv m) = Some v' -> False.
Proof.
  intros CV P E3. assert (exists ls, mv m = Server.LPick t c :: ls) as (ls & X) by (clear - P; dplan P; eauto). rewrite X in E3. cbn in E3.
  destruct (Server.step (srv s) (Server.LPick t c)) as [v|] eqn:H; [|discriminate]. clear E3 P X.
  vstep H; destruct (Nat.eq_dec t 0) as [->|N]; [destruct (cv_main _ CV) as [Y|Y]|pose proof (cv_worker _ CV _ N) as Y| |]; try (rewrite Heqp in Y; try discriminate Y; exact Y).
  - destruct (cv_main _ CV) as [Y|Y]; rewrite Heqp in Y; [discriminate Y|exact Y].
  - pose proof (cv_worker _ CV _ N) as Y. rewrite Heqp in Y. exact Y.
Qed.
Lemma duties_step s l s' : reachable step init s -> duties s -> step s l = Some s' -> duties s'.
Proof.
  intros R DU E. destruct (step_moves _ _ _ E) as (_ & m & P & _ & E2 & E3 & E4 & E5 & _). pose proof (reachable_calm _ R) as CA.
  pose proof (ca_srv _ CA) as CV. pose proof (ca_dist _ CA) as CD. pose proof (cv_main _ CV) as M. pose proof (cv_worker _ CV) as W.
  assert (K : forall t p, Server.pcs (srv s) t = p -> worker p \/ in_loop p).
  { intros t p <-. destruct (Nat.eq_dec t 0) as [->|X]; [|left; auto]. destruct M as [M'|M']; [left; rewrite M'; exact I|right; exact M']. }
  assert (SS : ms m = [] -> forall c, sess s' c = sess s c).
  { intros X c. destruct (Nat.eq_dec c (mc m)) as [->|Hc]; [|auto]. rewrite X in E4. apply run_none in E4. exact E4. }
  assert (VV : mv m = [] -> srv s' = srv s) by (intros X; rewrite X in E3; apply run_none in E3; exact E3).
  assert (DD : md m = [] -> dist s' = dist s) by (intros X; rewrite X in E2; apply run_none in E2; exact E2).
  pose proof (last_grows_run _ _ _ E2) as LG. pose proof (du_duty _ DU) as D.
  assert (BV : srv s' = srv s -> Distributor.last (dist s') = None -> blank s').
  { intros X Y. unfold blank. rewrite X. exact (du_blank _ DU (LG Y)). }
  (* nothing but the watcher moves *)
  assert (Same : srv s' = srv s -> dist s' = dist s -> (forall c, sess s' c = sess s c) -> duties s').
  { intros X1 X2 X3. constructor; [|auto]. intros t. apply (duty_keep s); rewrite ?X1, ?X2; auto. intros (c & w & Y) _. exists c, w. rewrite X1, X3. exact Y. }
  assert (BP : forall t c v', ServerProofs.own_conn (Server.pcs (srv s) t) = Some c -> Distributor.last (dist s) = None -> blank v').
  { intros t c v' X Y. exfalso. destruct (du_blank _ DU Y) as [B1 B2]. destruct (Nat.eq_dec t 0) as [->|Hn]; [|rewrite (B1 _ Hn) in X; discriminate X].
    destruct M as [M|M]; [rewrite M in X; discriminate X|]. destruct (Server.pcs (srv s) 0%nat); try contradiction; discriminate X. }
  destruct l.
  - dplan P. apply Same; auto.
  - dplan P. apply run_one in E2. constructor; [|apply BV; auto]. apply (duty_dist s l (dist s')); auto.
  - dplan P. apply run_one in E3. specialize (DD eq_refl). specialize (SS eq_refl). constructor.
    + intros t. destruct (duty_server _ _ _ R Heqb E3 D t) as (F1 & F2 & F3). apply (duty_keep s); rewrite ?DD; auto. intros (c & w & Y1 & Y2 & Y3) _. exists c, w. rewrite SS. auto.
    + rewrite DD. intros X. apply (blank_server _ _ _ CV E3); [|exact (du_blank _ DU X)]. destruct l; try discriminate Heqb; repeat constructor. apply unused_spec in Heqb. tauto.
  - dplan P. apply run_one in E4. specialize (DD eq_refl). specialize (VV eq_refl). constructor; [|auto]. apply andb_prop in Heqb. destruct Heqb as [_ HA].
    destruct (session_alone_inv _ c R) as (A1 & _ & A2). destruct (SessionAlone.self_step _ _ _ A1 A2 E4 HA) as (_ & _ & S3 & _).
    intros t. apply (duty_keep s); rewrite ?DD, ?VV; auto. intros (c' & w & Y1 & Y2 & Y3) _. exists c', w. rewrite VV. split; [exact Y1|].
    destruct (Nat.eq_dec c' c) as [->|Hc]; [auto|rewrite E5 by exact Hc; auto].
  - dplan P. apply run_one in E3. specialize (DD eq_refl). specialize (SS eq_refl). assert (X : Server.pcs (srv s) 0%nat = Server.Idle) by (destruct (ca_main _ CA) as [[_ X]|[X _]]; [exact X|congruence]).
    constructor.
    + intros t. assert (Y : t <> 0%nat -> Server.pcs (srv s') t = Server.pcs (srv s) t).
      { intros Hn. unfold Server.step in E3. rewrite (cv_crash _ CV), X in E3. injection E3 as <-. cbn. apply upd_other, Hn. }
      destruct (Nat.eq_dec t 0) as [->|Hn]; [|specialize (Y Hn); apply (duty_keep s); rewrite ?DD, ?Y; auto; intros (c' & w & Z) _; exists c', w; rewrite Y, SS; exact Z].
      pose proof (cd_pcs _ CD 0%nat) as Z. pose proof (D 0%nat) as Q. unfold duty in *. rewrite DD. rewrite X in Q.
      destruct (Distributor.pcs (dist s) 0%nat); auto; cbn in Z; try congruence; try (destruct k; try discriminate Q; contradiction); try (destruct snapshot; congruence); contradiction.
    + rewrite DD. intros Y. apply (blank_server _ _ _ CV E3); [reflexivity|exact (du_blank _ DU Y)].
  - (* Subscribe is called *)
    dplan P. apply run_two in E2. destruct E2 as (d1 & X1 & X2). specialize (VV eq_refl). specialize (SS eq_refl). constructor; [|auto].
    assert (Y : Distributor.pcs (dist s') = upd (Distributor.pcs (dist s)) 0%nat (Distributor.S0 0%nat [listen_changed] Distributor.STop)).
    { revert X1 X2. generalize (dist s'). intros d' X1 X2. ddstep X1. ddstep X2. reflexivity. }
    intros t. destruct (Nat.eq_dec t 0) as [->|Hn]; [unfold duty; rewrite Y, VV; exact Heqp|].
    apply (duty_keep s); rewrite ?Y, ?VV, ?upd_other by exact Hn; auto. intros (c' & w & Z) _. exists c', w. rewrite VV, SS. exact Z.
  - (* and returns *)
    assert (X : returning (dist s) 0 = Some Distributor.RNil /\ m = Moves [] [Distributor.LGo 0] [Server.LSubscribe 0 None] 0 [] (main s) /\ Server.pcs (srv s) 0%nat = Server.A3).
    { dplan P; auto. apply (returning_calm _ _ _ CD) in Heqo. destruct Heqo as [(? & ? & ?)|[(? & ? & ? & ?)|(? & ? & ?)]]; congruence. }
    destruct X as (X & -> & H0). cbn in E2, E3, E4, E5, SS, VV, DD. apply run_one in E2. apply run_one in E3. specialize (SS eq_refl).
    apply (returning_calm _ _ _ CD) in X. destruct X as [(_ & X & _)|[(X & _)|(X & _)]]; try (destruct X; reflexivity).
    assert (Y : Distributor.pcs (dist s') = upd (Distributor.pcs (dist s)) 0%nat Distributor.Idle).
    { revert E2 X. clear. generalize (dist s'). intros d' X1 X. ddstep X1; congruence || reflexivity. }
    assert (Z : Server.pcs (srv s') = upd (Server.pcs (srv s)) 0%nat Server.A4).
    { unfold Server.step in E3. rewrite (cv_crash _ CV), H0 in E3. injection E3 as <-. reflexivity. }
    constructor.
    + intros t. destruct (Nat.eq_dec t 0) as [->|Hn]; [unfold duty; rewrite Y, upd_same; exact I|].
      apply (duty_keep s); rewrite ?Y, ?Z, ?upd_other by exact Hn; auto. intros (c' & w & Q) _. exists c', w. rewrite Z, SS, upd_other by exact Hn. exact Q.
    + intros Q. apply (blank_server _ _ _ CV E3); [split; reflexivity|exact (du_blank _ DU (LG Q))].
  - (* the monitor receives *)
    dplan P. apply run_one in E2. specialize (VV eq_refl). specialize (SS eq_refl). constructor; [|auto].
    assert (Y : Distributor.pcs (dist s) t = Distributor.M0 /\ exists c, Distributor.pcs (dist s') = upd (Distributor.pcs (dist s)) t (Distributor.M1 c)).
    { revert E2. clear. generalize (dist s'). intros d' X1. ddstep X1. split; [first [assumption|reflexivity]|]. eexists. reflexivity. }
    destruct Y as [Y1 [c1 Y2]]. intros t'. destruct (Nat.eq_dec t' t) as [->|Hn].
    + specialize (D t). unfold duty in *. rewrite Y2, upd_same, VV. rewrite Y1 in D. exact D.
    + apply (duty_keep s); rewrite ?Y2, ?VV, ?upd_other by exact Hn; auto. intros (c' & w & Z) _. exists c', w. rewrite VV, SS. exact Z.
  - (* the server receives *)
    dplan P. apply run_one in E2. apply run_two in E3. destruct E3 as (v1 & X & Y). pose proof (calm_update _ _ _ _ CV Heqp X Y) as Z. specialize (SS eq_refl).
    assert (Q : Distributor.pcs (dist s') = Distributor.pcs (dist s) /\ Distributor.last (dist s') = Distributor.last (dist s)).
    { revert E2. clear. generalize (dist s'). intros d' X1. ddstep X1. auto. }
    destruct Q as [Q1 Q2]. constructor.
    + intros t. destruct (Nat.eq_dec t 0) as [->|Hn].
      * unfold duty. rewrite Q1, (duty_idle s 0%nat); [exact I|apply D|]. rewrite Heqp. exact I.
      * apply (duty_keep s); rewrite ?Q1, ?Z; cbn; rewrite ?upd_other by exact Hn; auto. intros (c' & w & T) _. exists c', w. rewrite Z, SS. cbn. rewrite upd_other by exact Hn. exact T.
    + rewrite Q2. intros T. pose proof (nothing_queued _ R T _ Heqo) as N. discriminate N.
  - (* a session asks *)
    dplan P. apply run_one in E2. specialize (VV eq_refl). specialize (SS eq_refl). constructor; [|auto].
    assert (Y : Distributor.pcs (dist s') = upd (Distributor.pcs (dist s)) t Distributor.G0).
    { revert E2. clear. generalize (dist s'). intros d' X1. ddstep X1. reflexivity. }
    assert (AK : forall t, asks s t -> asks s' t) by (intros t1 (c1 & w1 & Z); exists c1, w1; rewrite VV, SS; auto).
    intros t'. destruct (Nat.eq_dec t' t) as [->|Hn].
    + unfold duty. rewrite Y, upd_same. apply AK. exists c, w. auto.
    + apply (duty_keep s); rewrite ?Y, ?VV, ?upd_other by exact Hn; auto.
  - (* and is answered *)
    assert (X : exists c r, Server.pcs (srv s) t = Server.C6 c /\ returning (dist s) t <> None /\ m = Moves [] [Distributor.LGo t] [] c [Session.LConfig E0 r] (main s))
      by (dplan P; eexists; eexists; split; try reflexivity; split; try reflexivity; congruence).
    destruct X as (c & r & Hp & Hr & ->). cbn in E2, E3, E4, E5, SS, VV, DD. apply run_one in E2. specialize (VV eq_refl). constructor; [|auto].
    assert (Y : Distributor.pcs (dist s') = upd (Distributor.pcs (dist s)) t Distributor.Idle).
    { destruct (returning (dist s) t) as [r1|] eqn:Q; [|congruence]. apply (returning_calm _ _ _ CD) in Q.
      destruct Q as [(-> & Q & _)|[(_ & c1 & Q & _)|(_ & ch & Q)]].
      - destruct M as [M|M]; rewrite Hp in M; [discriminate M|contradiction].
      - revert E2 Q. clear. generalize (dist s'). intros d' X1 X. ddstep X1; congruence || reflexivity.
      - specialize (D t). unfold duty in D. rewrite Q in D. destruct D. }
    apply (duty_pair s s' t c R D); auto.
    + rewrite Hp. reflexivity.
    + intros t' Hn. rewrite Y, VV, upd_other by exact Hn. auto.
    + rewrite Y. apply upd_same.
  - (* a session begins *)
    dplan P. apply run_one in E3. specialize (DD eq_refl). unfold Server.step, Server.go in E3. rewrite (cv_crash _ CV), Heqp in E3. injection E3 as E3. constructor.
    + apply (duty_pair s s' t c R D); auto; [rewrite Heqp; reflexivity| |].
      * intros t' Hn. rewrite DD, <- E3. split; [reflexivity|]. cbn. apply upd_other, Hn.
      * rewrite DD. apply duty_idle; [apply D|rewrite Heqp; exact I].
    + rewrite DD. intros X. apply (BP t c s'); [rewrite Heqp; reflexivity|exact X].
  - (* ends *)
    dplan P. apply run_one in E3. specialize (DD eq_refl). specialize (SS eq_refl). unfold Server.step, Server.go in E3. rewrite (cv_crash _ CV), Heqp in E3. injection E3 as E3. constructor.
    + apply (duty_pair s s' t c R D); auto; [rewrite Heqp; reflexivity| |].
      * intros t' Hn. rewrite DD, <- E3. split; [reflexivity|]. cbn. apply upd_other, Hn.
      * rewrite DD. specialize (D t). unfold duty, asks in D. destruct (Distributor.pcs (dist s) t); auto; try contradiction; try (destruct k; try contradiction); try (destruct snapshot; try contradiction);
          first [congruence|destruct D as (c1 & w1 & D1 & D2 & _); congruence].
    + rewrite DD. intros X. apply (BP t c s'); [rewrite Heqp; reflexivity|exact X].
  - assert (X : exists c r, Server.pcs (srv s) t = Server.C7 c r /\ md m = [] /\ mv m = [Server.LGo t] /\ mc m = c) by (clear - P; dplan P; eauto 6).
    destruct X as (c & r & Hp & X1 & X2 & X3). specialize (DD X1). rewrite X2 in E3. rewrite X3 in E5. apply run_one in E3.
    unfold Server.step, Server.go in E3. rewrite (cv_crash _ CV), Hp in E3. injection E3 as E3. constructor.
    + apply (duty_pair s s' t c R D); auto; [rewrite Hp; reflexivity| |].
      * intros t' Hn. rewrite DD, <- E3. split; [reflexivity|]. destruct (Server.s_fired (srv s) c); cbn; apply upd_other, Hn.
      * rewrite DD. apply duty_idle; [apply D|rewrite Hp; exact I].
    + rewrite DD. intros X. apply (BP t c s'); [rewrite Hp; reflexivity|exact X].
  - dplan P. apply run_one in E3. specialize (DD eq_refl). unfold Server.step, Server.go in E3. rewrite (cv_crash _ CV), Heqp in E3. injection E3 as E3. constructor.
    + apply (duty_pair s s' t c R D); auto; [rewrite Heqp; reflexivity| |].
      * intros t' Hn. rewrite DD, <- E3. split; [reflexivity|]. cbn. apply upd_other, Hn.
      * rewrite DD. apply duty_idle; [apply D|rewrite Heqp; exact I].
    + rewrite DD. intros X. apply (BP t c s'); [rewrite Heqp; reflexivity|exact X].
  - exfalso. eapply no_pick; eassumption.
  - exfalso. dplan P. apply K in Heqp. destruct Heqp as [[]|[]].
  - exfalso. dplan P. apply K in Heqp. destruct Heqp as [[]|[]].
  - exfalso. dplan P. apply K in Heqp. destruct Heqp as [[]|[]].
  - exfalso. dplan P. apply K in Heqp. destruct Heqp as [[]|[]].
  - exfalso. destruct (ca_main _ CA) as [[X _]|[X _]]; unfold plan in P; rewrite X in P; discriminate P.
Qed.
Lemma reachable_duties s : reachable step init s -> duties s.
Proof.
  revert s. apply sys_induct; [|apply duties_step]. intros f. constructor; [intros t; exact I|]. intros _. split; [intros; reflexivity|exact I].
Qed.
