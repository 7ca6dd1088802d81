(** What becomes of the accepted connections. *)
From Verif Require Import SystemQuiet SystemBusy SpecServing.
From Verif Require SessionFacts FrameProofs ConnProofs SessionReason SessionMore.
Require Import Lia.

(** *** The server keeps every connection until ServeConn returns *)
Definition kept (v : Server.state) (c : nat) : Prop :=
  serve_results c (Server.hist v) = [] /\ ((Server.next_conn v <= c)%nat /\ ~ In c (accepted (Server.hist v)) /\ (forall t, ServerProofs.own_conn (Server.pcs v t) <> Some c) \/
    (c < Server.next_conn v)%nat /\ In c (accepted (Server.hist v)) /\ exists t, ServerProofs.own_conn (Server.pcs v t) = Some c) \/
  exists r, serve_results c (Server.hist v) = [r] /\ (c < Server.next_conn v)%nat /\ In c (accepted (Server.hist v)) /\ forall t, ServerProofs.own_conn (Server.pcs v t) <> Some c.
Lemma kept_same v v' c : serve_results c (Server.hist v') = serve_results c (Server.hist v) -> accepted (Server.hist v') = accepted (Server.hist v) -> Server.next_conn v' = Server.next_conn v ->
  (forall t, ServerProofs.own_conn (Server.pcs v t) = Some c -> exists t', ServerProofs.own_conn (Server.pcs v' t') = Some c) ->
  (forall t, ServerProofs.own_conn (Server.pcs v' t) = Some c -> exists t', ServerProofs.own_conn (Server.pcs v t') = Some c) -> kept v c -> kept v' c.
Proof.
  intros H1 H2 H3 H4 H5 [[A [(B & C & D)|(B & C & t & D)]]|(r & A & B & C & D)]; unfold kept; rewrite H1, H2, H3.
  - left. split; [exact A|]. left. repeat split; auto. intros t E. destruct (H5 _ E) as [t' X]. apply (D t' X).
  - left. split; [exact A|]. right. repeat split; auto. apply (H4 _ D).
  - right. exists r. repeat split; auto. intros t E. destruct (H5 _ E) as [t' X]. apply (D t' X).
Qed.
Lemma kept_move v v' t p c : Server.pcs v' = upd (Server.pcs v) t p -> ServerProofs.own_conn p = ServerProofs.own_conn (Server.pcs v t) ->
  serve_results c (Server.hist v') = serve_results c (Server.hist v) -> accepted (Server.hist v') = accepted (Server.hist v) -> Server.next_conn v' = Server.next_conn v ->
  kept v c -> kept v' c.
Proof.
  intros H1 H2 H3 H4 H5. apply kept_same; auto; intros t1 X; exists t1; revert X; rewrite H1; unfold upd; destruct (Nat.eqb t1 t) eqn:E; auto;
    apply Nat.eqb_eq in E; subst t1; congruence.
Qed.
Lemma kept_ret v v' t c0 r c : ServerProofs.own_inv v -> Server.pcs v t = Server.CRet c0 r -> Server.pcs v' = upd (Server.pcs v) t Server.Idle ->
  serve_results c (Server.hist v') = serve_results c (Server.hist v) ++ (if Nat.eqb c c0 then [r] else []) -> accepted (Server.hist v') = accepted (Server.hist v) ->
  Server.next_conn v' = Server.next_conn v -> kept v c -> kept v' c.
Proof.
  intros HO Hp H1 H2 H3 H4 I. destruct (Nat.eqb c c0) eqn:Ec.
  - apply Nat.eqb_eq in Ec. subst c0. assert (O : ServerProofs.own_conn (Server.pcs v t) = Some c) by (rewrite Hp; reflexivity).
    destruct I as [[A [(B & C & D)|(B & C & D)]]|(r' & A & B & C & D)]; [exfalso; apply (D t O)| |exfalso; apply (D t O)].
    right. exists r. rewrite H2, H3, H4, A. repeat split; auto. intros t1. rewrite H1. unfold upd. destruct (Nat.eqb t1 t) eqn:E; [discriminate|].
    intros X. apply Nat.eqb_neq in E. apply E. apply (ServerProofs.oi_conn _ HO t1 t c X O).
  - rewrite app_nil_r in H2. revert I. apply kept_same; auto; intros t1; rewrite H1; unfold upd; intros X.
    + exists t1. destruct (Nat.eqb t1 t) eqn:E; [|exact X]. apply Nat.eqb_eq in E. subst t1. rewrite Hp in X. injection X as ->. rewrite Nat.eqb_refl in Ec. discriminate Ec.
    + exists t1. destruct (Nat.eqb t1 t); [discriminate X|exact X].
Qed.
Lemma kept_step v l v' : reachable Server.step Server.init v -> Server.step v l = Some v' -> (forall t, l <> Server.LServeConn t) -> (forall c, kept v c) -> forall c, kept v' c.
Proof.
  intros R H N I c. specialize (I c). pose proof (ServerProofs.reachable_own _ R) as HO.
  vstep H; try solve [exfalso; eapply N; reflexivity].
  all: try solve [exact I].
  all: try solve [match goal with E : Server.pcs ?v ?t = _ |- _ => eapply (kept_move v _ t); [reflexivity|rewrite E; reflexivity|reflexivity|reflexivity|reflexivity|exact I] end].
  - eapply (kept_ret v _ t c0 r); try eassumption; try reflexivity.
  - eapply (kept_ret v _ t c0 r); try eassumption; try reflexivity.
  - revert I. apply kept_same; try reflexivity; cbn; intros t1; unfold upd; intros X.
    + exists t1. destruct (Nat.eqb t1 child) eqn:E1; [apply Nat.eqb_eq in E1; subst t1; rewrite Heqp in X; discriminate X|].
      destruct (Nat.eqb t1 t) eqn:E2; [apply Nat.eqb_eq in E2; subst t1; rewrite Heqp0 in X; discriminate X|exact X].
    + exists t1. destruct (Nat.eqb t1 child); [discriminate X|]. destruct (Nat.eqb t1 t); [discriminate X|exact X].
  - revert I. apply kept_same; try reflexivity; cbn; intros t1; unfold upd; intros X.
    + destruct (Nat.eqb t1 t) eqn:E2; [apply Nat.eqb_eq in E2; subst t1|].
      * rewrite Heqp0 in X. injection X as ->. exists child. rewrite Nat.eqb_refl. reflexivity.
      * exists t1. destruct (Nat.eqb t1 child) eqn:E1; [apply Nat.eqb_eq in E1; subst t1; rewrite Heqp in X; discriminate X|]. rewrite E2. exact X.
    + destruct (Nat.eqb t1 child); [injection X as ->; exists t; rewrite Heqp0; reflexivity|]. destruct (Nat.eqb t1 t); [discriminate X|eauto].
  - assert (O : ServerProofs.own_conn (Server.pcs v t) = None) by (rewrite Heqp; reflexivity).
    destruct (Nat.eq_dec c (Server.next_conn v)) as [->|Hc].
    + destruct I as [[A [(B & C & D)|(B & C & D)]]|(r' & A & B & C & D)]; [|lia|lia]. left. split; [exact A|]. right. cbn. rewrite in_app_iff. cbn. repeat split; auto.
      exists t. unfold upd. rewrite Nat.eqb_refl. reflexivity.
    + destruct I as [[A [(B & C & D)|(B & C & t1 & D)]]|(r' & A & B & C & D)]; unfold kept; cbn; rewrite in_app_iff; cbn.
      * left. split; [exact A|]. left. repeat split; [lia|intros [X|[X|[]]]; [tauto|lia]|]. intros t1. unfold upd. destruct (Nat.eqb t1 t); cbn; [congruence|apply D].
      * left. split; [exact A|]. right. repeat split; auto. exists t1. unfold upd. destruct (Nat.eqb t1 t) eqn:E; [|exact D]. apply Nat.eqb_eq in E. congruence.
      * right. exists r'. split; [exact A|]. split; [lia|]. split; [apply in_or_app; auto|]. intros t1. unfold upd. destruct (Nat.eqb t1 t); cbn; [congruence|apply D].
Qed.
Lemma reachable_kept s : reachable step init s -> forall c, kept (srv s) c.
Proof.
  intros R. revert s R. apply (sys_induct (fun s => forall c, kept (srv s) c)).
  - intros f c. left. split; [reflexivity|]. left. cbn. repeat split; [lia|tauto|discriminate].
  - intros s l s' R I E. destruct (step_moves _ _ _ E) as (_ & m & P & E1 & E2 & E3 & E4 & _ & _).
    pose proof (pt_srv _ (reachable_parts _ R)) as RV.
    assert (N : Forall (fun l => forall t, l <> Server.LServeConn t) (mv m)).
    { clear - P. dplan P; repeat (apply Forall_cons; [try discriminate|]); try apply Forall_nil. intros t ->. discriminate Heqb. }
    clear - E3 N I RV. revert E3 N I RV. generalize (srv s). induction (mv m) as [|x xs IH]; intros v Hr N I RV; [apply run_none in Hr; rewrite Hr; exact I|].
    cbn in Hr. destruct (Server.step v x) as [v1|] eqn:Ex; [|discriminate]. inversion N; subst. apply (IH v1 Hr); auto.
    + eapply kept_step; eauto.
    + eapply reachable_step; eassumption.
Qed.

(** *** A session that is over *)
Lemma done_stays x l x' r : Session.start_pc x = Session.SDone r -> Session.step x l = Some x' -> Session.start_pc x' = Session.SDone r.
Proof. intros E H. SessionProofs.dstep H; cbn; congruence. Qed.
Lemma done_stays_run ls : forall x x' r, Session.start_pc x = Session.SDone r -> run Session.step x ls = Some x' -> Session.start_pc x' = Session.SDone r.
Proof.
  induction ls as [|l ls IH]; intros x x' r E H; [apply run_none in H; congruence|]. cbn in H. destruct (Session.step x l) as [x1|] eqn:S1; [|discriminate].
  eapply IH; [eapply done_stays; eassumption|exact H].
Qed.
Lemma serve_results_in c h r : In r (serve_results c h) -> exists t, In (Server.HRet t (Server.CServeConn c) r) h.
Proof.
  induction h as [|e h IH]; cbn; [tauto|]. intros H.
  assert (In r (serve_results c h) -> exists t, e = Server.HRet t (Server.CServeConn c) r \/ In (Server.HRet t (Server.CServeConn c) r) h) as K.
  { intros X. destruct (IH X) as [t Y]. eauto. }
  destruct e; auto. destruct c0; auto. rewrite in_app_iff in H. destruct H as [H|H]; [auto|].
  destruct (Nat.eqb c c0) eqn:E; [|destruct H]. apply Nat.eqb_eq in E. subst c0. destruct H as [->|[]]. eauto.
Qed.
Lemma over_done s : reachable step init s -> forall t c r, In (Server.HRet t (Server.CServeConn c) r) (Server.hist (srv s)) -> Session.start_pc (sess s c) = Session.SDone r.
Proof.
  revert s. apply (sys_induct (fun s => forall t c r, In (Server.HRet t (Server.CServeConn c) r) (Server.hist (srv s)) -> Session.start_pc (sess s c) = Session.SDone r)).
  - intros f t c r [].
  - intros s l s' R I E t c r H. destruct (step_moves _ _ _ E) as (_ & m & P & E1 & E2 & E3 & E4 & E5 & _).
    assert (D : Session.start_pc (sess s c) = Session.SDone r).
    { pose proof (reachable_linked _ R) as LK. pose proof (ca_srv _ (reachable_calm _ R)) as CA.
      assert (In (Server.HRet t (Server.CServeConn c) r) (Server.hist (srv s)) \/ Server.pcs (srv s) t = Server.CRet c r) as [X|X]; [|apply (I _ _ _ X)|].
      - dplan P; cbn [mv] in E3; runs; auto.
        all: try solve [left; congruence].
        all: try solve [rewrite E3 in H; auto].
        all: try solve [edestruct ServerMore.step_ret as [X|(X & _)]; [exact E3|exact H|left; exact X|right; exact X]].
        + left. rewrite (calm_update _ _ _ _ CA Heqp H0 H1) in H. exact H.
        + exfalso. destruct (cv_main _ CA) as [X|X]; rewrite Heqp in X; [discriminate X|destruct X].
      - pose proof (lk_agree _ LK t c) as A. rewrite X in A. apply A. reflexivity. }
    destruct (Nat.eq_dec c (mc m)) as [->|Hc]; [|rewrite E5; auto]. eapply done_stays_run; eassumption.
Qed.

(** nobody connects to the database after the session was closed *)
Lemma not_late ls : forall x, run Session.step Session.NewSession ls = Some x -> Forall (fun l => ~ SpecSession.calls_close l) ls -> ~ SpecSession.late_connect (Session.hist x).
Proof.
  induction ls as [|l ls IH] using rev_ind; intros x H F.
  - apply run_none in H. subst x. intros (h1 & h2 & E & _). destruct h1; discriminate E.
  - rewrite run_app in H. destruct (run Session.step Session.NewSession ls) as [x1|] eqn:E1; [|discriminate]. apply run_one in H. apply Forall_app in F. destruct F as [F1 F2].
    specialize (IH _ eq_refl F1). destruct (SessionTraffic.alone_run _ _ E1 F1) as (AI & _ & _ & AL).
    pose proof (SessionLife.al_pipes _ AI) as PI. pose proof (SessionProofs.ki_init _ (SessionPipe.pp_close _ PI)) as KI.
    assert (K : (exists es, Session.hist x = es ++ Session.hist x1 /\ Forall (fun e => e <> Session.HConnected) es) \/
      Session.hist x = Session.HConnected :: Session.hist x1 /\ Session.closed x1 = EvInit).
    { SessionProofs.dstep H; cbn; try solve [left; first [exists []; split; [reflexivity|]|eexists [_]; split; [reflexivity|]|eexists [_; _]; split; [reflexivity|]|eexists [_; _; _]; split; [reflexivity|]]; repeat (apply Forall_cons; [discriminate|]); apply Forall_nil].
      right. split; [reflexivity|]. exact AL. }
    intros (h1 & h2 & E & N). destruct K as [(es & E' & Fe)|[E' C]]; rewrite E' in E.
    + apply IH. clear - E Fe N. revert h1 E. induction Fe as [|e es Ne Fe IHe]; intros h1 E; [exists h1, h2; auto|].
      destruct h1 as [|e1 h1]; [injection E as -> _; congruence|]. injection E as _ E. eauto.
    + destruct h1 as [|e1 h1]; [injection E as <-; apply N, (KI C)|]. injection E as _ E. apply IH. exists h1, h2. auto.
Qed.
Lemma never_late s c : reachable step init s -> ~ SpecSession.late_connect (Session.hist (sess s c)).
Proof. intros (s0 & ls & [f ->] & H). destruct (session_traces _ _ _ H c) as (xs & X1 & X2 & _). eapply not_late; eassumption. Qed.
Lemma session_reachable s c : reachable step init s -> reachable Session.step Session.init (sess s c).
Proof. intros (s0 & ls & [f ->] & H). destruct (session_traces _ _ _ H c) as (xs & X1 & X2 & _). eexists _, _. split; [reflexivity|exact X1]. Qed.

Lemma done_fired x : reachable Session.step Session.init x -> forall r, Session.start_pc x = Session.SDone r -> Session.closed x <> EvInit.
Proof.
  intros H. apply (reachable_invariant Session.step Session.init (fun x => SessionLife.all_inv x /\ forall r, Session.start_pc x = Session.SDone r -> Session.closed x <> EvInit)) in H; [apply H| |].
  - intros ? ->. split; [apply SessionLife.all_init|]. discriminate.
  - intros y l y' [A I] S. split; [eapply SessionLife.all_step; eassumption|]. pose proof (SessionProofs.ki_ret _ (SessionPipe.pp_close _ (SessionLife.al_pipes _ A))) as K.
    SessionProofs.dstep S; cbn; auto; try congruence; intros ? X; try discriminate X; try (apply (I _ X)).
    all: try match goal with E : Session.close_pc _ _ = Session.KRet _ |- _ => rewrite (K _ _ E); discriminate end.
    all: try match goal with E : ev_fired ?e = true |- ?e <> _ => intros Z; rewrite Z in E; discriminate E end.
Qed.
Lemma over_closed s t c r : reachable step init s -> In (Server.HRet t (Server.CServeConn c) r) (Server.hist (srv s)) ->
  SpecSession.start_results (Session.hist (sess s c)) = [r] /\ r <> None /\ ~ In c (Server.sessions (srv s)) /\
  conn_is false (sess s c) Session.Client /\ (Session.conns (sess s c) Session.DB = None \/ conn_is false (sess s c) Session.DB).
Proof.
  intros R H. pose proof (over_done _ R _ _ _ H) as D. pose proof (session_reachable _ c R) as RX. destruct (session_alone_inv _ c R) as (AI & _ & AL1 & AL2).
  pose proof (SessionLife.li_result _ (SessionLife.al_life _ AI)) as LR. rewrite D in LR.
  assert (N : r <> None) by (apply (SessionReason.never_nil _ r RX); rewrite LR; left; reflexivity).
  pose proof (pt_srv _ (reachable_parts _ R)) as RV. destruct (ServerMore.cr_res _ (ServerMore.reachable_cnres _ RV) _ _ _ H) as (S1 & S2 & S3).
  pose proof (SessionProofs.ph_close _ (SessionPipe.pp_phase _ (SessionLife.al_pipes _ AI))) as PC. rewrite D in PC.
  split; [exact LR|]. split; [exact N|]. split.
  { intros I. destruct (ServerSessions.sn_serv _ (ServerSessions.reachable_ses _ RV) c I) as [t' Ht]. apply (S3 t'). destruct (Server.pcs (srv s) t'); try discriminate Ht; exact Ht. }
  destruct (SessionMore.released _ RX) as ((k & K1 & K2) & _ & K3).
  - pose proof (done_fired _ RX _ D) as DF. pose proof (SessionProofs.ki_once _ (SessionPipe.pp_close _ (SessionLife.al_pipes _ AI))) as [_ KO]. specialize (KO DF).
    intros Z. rewrite Z in KO. discriminate KO.
  - intros [|t0]; [exact PC|apply AL1].
  - split; [destruct k as [k0 b]; cbn in K2; subst b; exists k0; exact K1|]. destruct (Session.conns (sess s c) Session.DB) as [[k0 b]|] eqn:E; [|auto]. right.
    destruct (K3 _ eq_refl) as [Z|Z]; [cbn in Z; subst b; exists k0; exact E|exfalso; apply (never_late _ c R Z)].
Qed.
Lemma has_own v t c : has_conn v t c <-> ServerProofs.own_conn (Server.pcs v t) = Some c.
Proof. unfold has_conn. destruct (Server.pcs v t); cbn; split; try tauto; try discriminate; congruence. Qed.
Lemma fate s c : reachable step init s -> In c (accepted (Server.hist (srv s))) ->
  ((exists t, has_conn (srv s) t c /\ forall t', has_conn (srv s) t' c -> t' = t) /\ serve_results c (Server.hist (srv s)) = []) \/ over s c.
Proof.
  intros R A. destruct (reachable_kept _ R c) as [[B [(C & D & E)|(C & D & t & E)]]|(r & B & C & D & E)]; [tauto| |].
  - left. split; [|exact B]. exists t. rewrite has_own. split; [exact E|]. intros t' X. apply has_own in X.
    apply (ServerProofs.oi_conn _ (ServerProofs.reachable_own _ (pt_srv _ (reachable_parts _ R))) t' t c X E).
  - right. destruct (serve_results_in c (Server.hist (srv s)) r) as [t H]; [rewrite B; left; reflexivity|]. destruct (over_closed _ _ _ _ R H) as (F1 & F2 & F3 & F4 & F5).
    exists r. repeat split; auto. intros t' X. apply has_own in X. apply (E t' X).
Qed.

(** *** Nothing left to do *)
Lemma untouched s : reachable step init s -> main s = RPrepare -> srv s = Server.NewServer.
Proof.
  revert s. apply (sys_induct (fun s => main s = RPrepare -> srv s = Server.NewServer)); [reflexivity|].
  intros s l s' R I E M. destruct (step_moves _ _ _ E) as (_ & m & P & E1 & E2 & E3 & E4 & _ & E6). pose proof (reachable_calm _ R) as CA.
  assert (main s = RPrepare) as M0 by (destruct (ca_main _ CA) as [[X _]|[X _]]; [exact X|exfalso; rewrite E6 in M; dplan P; cbn in M; congruence]).
  specialize (I M0). destruct (ca_main _ CA) as [[_ C0]|[X _]]; [|congruence].
  rewrite E6 in M. dplan P; rewrite I in *; cbn [mv] in E3; runs; try congruence; cbn in *; try discriminate.
  all: try solve [destruct l; try discriminate; cbn in E3; try discriminate; destruct (Nat.eqb _ _); discriminate].
Qed.

Section Rest.
Context (s : state) (R : reachable step init s) (P : panicked s = None) (Q : at_rest s).
Lemma rest_quiet : quiet s.
Proof. intros l L. apply Q. destruct l; try exact I; try contradiction; destruct l; try exact I; try contradiction. Qed.
Lemma rest_server l : own (YServer l) -> server_alone s l = true -> Server.step (srv s) l = None.
Proof.
  intros L A. destruct (stuck s (YServer l) _ P ltac:(cbn; rewrite A; reflexivity) (Q _ L)) as [X|[X|[X|X]]]; try discriminate X. apply run1, X.
Qed.
Lemma rest_session c l : own (YSession c l) -> (c < Server.next_conn (srv s))%nat -> session_alone (sess s c) l = true -> Session.step (sess s c) l = None.
Proof.
  intros L C A. apply Nat.ltb_lt in C.
  destruct (stuck s (YSession c l) _ P ltac:(cbn; rewrite C, A; reflexivity) (Q _ L)) as [X|[X|[X|X]]]; try discriminate X. apply run1, X.
Qed.
Lemma rest_go t : match Server.pcs (srv s) t with Server.A7 _ | Server.ARet _ | Server.C5 _ | Server.C7 _ _ | Server.C8 _ _ | Server.K5 _ _ _ | Server.KRet _ => False | _ => True end ->
  Server.go (srv s) t = None.
Proof.
  intros A. pose proof (rest_server (Server.LGo t) I) as X. unfold Server.step in X. rewrite (cv_crash _ (ca_srv _ (reachable_calm _ R))) in X. apply X. cbn.
  destruct (Server.pcs (srv s) t); try reflexivity; contradiction.
Qed.
Lemma rest_mutex : Server.mu (srv s) = None.
Proof.
  destruct (Server.mu (srv s)) as [t|] eqn:E; [|reflexivity]. exfalso. apply (ServerProofs.reachable_lock _ (pt_srv _ (reachable_parts _ R))) in E.
  pose proof (rest_go t) as G. pose proof (ca_srv _ (reachable_calm _ R)) as CA. unfold Server.go in G.
  destruct (Nat.eq_dec t 0) as [->|Ht].
  { destruct (cv_main _ CA) as [X|X]; [rewrite X in E; destruct E|]. destruct (Server.pcs (srv s) 0%nat); try contradiction. }
  pose proof (cv_worker _ CA t Ht) as W. destruct (Server.pcs (srv s) t) eqn:Ep; cbn in E, W; try contradiction; try (specialize (G I); discriminate G).
  destruct (Server.listener (srv s)) eqn:El; [|specialize (G I); discriminate G].
  pose proof (rest_server (Server.LCloseListener t None) I eq_refl) as X. unfold Server.step in X. rewrite (cv_crash _ CA), Ep, El in X. discriminate X.
Qed.
Lemma rest_loop c : (c < Server.next_conn (srv s))%nat -> Server.pcs (srv s) 0%nat = Server.A4.
Proof.
  intros C. apply (quiet_loop s R P rest_quiet). destruct (ca_main _ (reachable_calm _ R)) as [[M _]|[_ X]]; [|exact X].
  rewrite (untouched s R M) in C. cbn in C. lia.
Qed.
(** whoever has a connection is in session.Start *)
Lemma rest_owner t c : ServerProofs.own_conn (Server.pcs (srv s) t) = Some c -> Server.pcs (srv s) t = Server.C6 c.
Proof.
  intros O. pose proof (ca_srv _ (reachable_calm _ R)) as CA. pose proof (rest_go t) as G. unfold Server.go, Server.lock in G. rewrite rest_mutex in G.
  pose proof (reachable_linked _ R) as LK. pose proof (lk_agree _ LK t c O) as A. pose proof (lk_fired _ LK c) as F.
  pose proof (ServerProofs.oi_conn_lt _ (ServerProofs.reachable_own _ (pt_srv _ (reachable_parts _ R))) t c O) as L. pose proof (panic_session s c P L) as PS.
  destruct (session_alone_inv _ c R) as (AI & _ & AL1 & AL2). pose proof (SessionProofs.ph_close _ (SessionPipe.pp_phase _ (SessionLife.al_pipes _ AI))) as PC.
  destruct (Server.pcs (srv s) t) eqn:Ep; try discriminate O; cbn in O; injection O as ->; try (specialize (G I); discriminate G); try reflexivity; exfalso; cbn in A.
  - destruct (free_number s R) as [n U]. pose proof (rest_server (Server.LSpawn t n) I U) as X. destruct (unused_spec _ _ U) as (_ & _ & U').
    unfold Server.step in X. rewrite (cv_crash _ CA), U', Ep in X. discriminate X.
  - rewrite A in AL2. destruct (stuck s (YServe t) _ P ltac:(cbn; rewrite Ep; reflexivity) (Q (YServe t) I)) as [X|[X|[X|X]]]; try discriminate X.
    + apply run1 in X. unfold Server.step, Server.go in X. rewrite (cv_crash _ CA), Ep in X. discriminate X.
    + cbn [mc ms] in X. cbn in X. unfold Session.step in X. rewrite PS, A in X. cbn in X. rewrite PS in X. rewrite AL2 in X. discriminate X.
  - destruct A as (A1 & A2 & A3). destruct (stuck s (YFire t) _ P ltac:(cbn; rewrite Ep, A3; reflexivity) (Q (YFire t) I)) as [X|[X|[X|X]]]; try discriminate X; apply run1 in X.
    + unfold Server.step, Server.go in X. rewrite (cv_crash _ CA), Ep in X. discriminate X.
    + cbn [mc] in X. unfold Session.step, Session.go_close in X. rewrite PS, A2, A3 in X. discriminate X.
  - destruct A as (A1 & A2). rewrite A1 in PC.
    assert (match Session.close_pc (sess s c) 0%nat with Session.KRet _ => True | _ => False end \/ match Session.close_pc (sess s c) 0%nat with Session.KRet _ => False | _ => True end /\ Session.go_close (sess s c) 0 None <> None) as [X|[X0 X]].
    { unfold Session.go_close. destruct (Session.close_pc (sess s c) 0%nat); try contradiction; try congruence; auto; right; (split; [exact I|]); try discriminate.
      - destruct (Session.conns _ _); discriminate.
      - destruct (Session.conns _ _); discriminate. }
    + destruct (Session.close_pc (sess s c) 0%nat) eqn:Ek; try contradiction.
      destruct (stuck s (YClosed t) _ P ltac:(cbn; rewrite Ep, Ek; reflexivity) (Q (YClosed t) I)) as [Y|[Y|[Y|Y]]]; try discriminate Y; apply run1 in Y.
      * unfold Server.step, Server.go in Y. rewrite (cv_crash _ CA), Ep in Y. discriminate Y.
      * cbn [mc] in Y. unfold Session.step, Session.go_close in Y. rewrite PS, Ek, A1 in Y. discriminate Y.
    + assert (Session.step (sess s c) (Session.LClose 0 None) = Session.go_close (sess s c) 0 None) as SE by (unfold Session.step; rewrite PS; reflexivity).
      apply X. rewrite <- SE. apply (rest_session c (Session.LClose 0 None) I L). cbn. destruct (Session.close_pc (sess s c) 0%nat); try reflexivity; try contradiction; congruence.
Qed.
Lemma startup_blocked r : Conn.RecvStartupMessage r = Frames.Blocked -> SpecFrames.frame_incomplete 4 (concat (Frames.chunks r)) /\ Frames.fin r = None.
Proof.
  unfold Conn.RecvStartupMessage. intros H. destruct (FrameProofs.frame_total 4 (concat (Frames.chunks r)) ltac:(lia)) as [(f & rest & Hf)|Hi].
  - destruct (FrameProofs.ReadStartupFrame_ok _ _ _ Hf) as (r' & E & _). rewrite E in H. discriminate.
  - split; [exact Hi|]. pose proof (FrameProofs.ReadStartupFrame_short _ Hi) as X. destruct (Frames.fin r); [|reflexivity]. destruct X as (r' & E & _). rewrite E in H. discriminate.
Qed.
(** and session.Start waits *)
Lemma rest_waits t c : Server.pcs (srv s) t = Server.C6 c -> waits (sess s c).
Proof.
  intros Ep. assert (O : ServerProofs.own_conn (Server.pcs (srv s) t) = Some c) by (rewrite Ep; reflexivity).
  pose proof (ca_srv _ (reachable_calm _ R)) as CA. pose proof (lk_agree _ (reachable_linked _ R) t c O) as A. rewrite Ep in A. destruct A as [A CL].
  pose proof (ServerProofs.oi_conn_lt _ (ServerProofs.reachable_own _ (pt_srv _ (reachable_parts _ R))) t c O) as L. pose proof (panic_session s c P L) as PS.
  destruct (session_alone_inv _ c R) as (AI & _ & AL1 & AL2). pose proof (SessionLife.al_pipes _ AI) as PI.
  destruct (SessionPipe.pp_phase _ PI) as [PH1 PH2 PH3]. destruct (SessionProofs.ki_init _ (SessionPipe.pp_close _ PI) CL) as [SH _].
  assert (CO : exists r, Session.conns (sess s c) Session.Client = Some (Session.NetConn r true)).
  { unfold SessionProofs.shut in SH. cbn in SH. injection SH as SH _. destruct (Session.conns (sess s c) Session.Client) as [[r b]|]; [|discriminate SH]. injection SH as ->. eauto. }
  assert (DO : Session.conns (sess s c) Session.DB <> None -> conn_is true (sess s c) Session.DB).
  { destruct (Session.conns (sess s c) Session.DB) as [[r b]|] eqn:ED; [|congruence]. intros _. pose proof (SessionLife.al_db_open _ AI _ ED CL) as X. cbn in X. subst b. exists r. exact ED. }
  destruct CO as [r CO].
  assert (ST : Session.start_pc (sess s c) <> Session.SEntry -> Session.go_start (sess s c) = None).
  { intros N. pose proof (rest_session c Session.LStart I L) as X. unfold Session.step in X. rewrite PS in X. apply X. cbn. destruct (Session.start_pc (sess s c)); try reflexivity. congruence. }
  destruct (Session.start_pc (sess s c)) eqn:E; try contradiction.
  - apply (waits_startup _ r E CO); specialize (ST ltac:(discriminate)); unfold Session.go_start, Session.recv_on in ST; rewrite E, CO in ST; cbn in ST.
    all: destruct (Conn.RecvStartupMessage r) as [|x r'] eqn:ER; [apply (startup_blocked _ ER)|exfalso].
    all: unfold Conn.RecvStartupMessage in ER; destruct (Frames.ReadStartupFrame r) as [|y r1]; [discriminate ER|]; injection ER as ER <-.
    all: destruct x as [m| |]; try discriminate ST; destruct y as [f| |]; try discriminate ER; cbn in ER; destruct (ConnProofs.startup_sound _ _ ER) as (v & ps & b & l & tr & -> & _); discriminate ST.
  - apply (waits_refusal _ rest E). exists r. exact CO.
  - exfalso. specialize (ST ltac:(discriminate)). unfold Session.go_start in ST. rewrite E in ST. destruct (Session.cached (sess s c)) eqn:EC; [discriminate ST|].
    pose proof (rest_loop c L) as A4. destruct (quiet_dist_idle s R P rest_quiet A4 t) as [D|D].
    + destruct (stuck s (YGet t) _ P ltac:(cbn; rewrite Ep, D, E, EC; reflexivity) (Q (YGet t) I)) as [X|[X|[X|X]]]; try discriminate X; apply run1 in X.
      unfold Distributor.step in X. rewrite (dist_no_crash _ R), D in X. discriminate X.
    + pose proof (du_duty _ (reachable_duties _ R) t) as X. unfold duty in X. rewrite D, Ep in X. discriminate X.
  - apply (waits_dial _ _ _ E).
  - apply (waits_send _ _ E), DO, PH2.
  - apply (waits_traffic _ E), DO, PH2.
  - exfalso. destruct (stuck s (YEnd t) _ P ltac:(cbn; rewrite Ep, E, A; reflexivity) (Q (YEnd t) I)) as [X|[X|[X|X]]]; try discriminate X; apply run1 in X.
    unfold Server.step in X. rewrite (cv_crash _ CA), Ep in X. discriminate X.
Qed.
Lemma rest_traffic t c : Server.pcs (srv s) t = Server.C6 c -> Session.start_pc (sess s c) = Session.SWait -> traffic_waits (sess s c).
Proof.
  intros Ep E. assert (O : ServerProofs.own_conn (Server.pcs (srv s) t) = Some c) by (rewrite Ep; reflexivity).
  pose proof (lk_agree _ (reachable_linked _ R) t c O) as A. rewrite Ep in A. destruct A as [_ CL].
  pose proof (ServerProofs.oi_conn_lt _ (ServerProofs.reachable_own _ (pt_srv _ (reachable_parts _ R))) t c O) as L. pose proof (panic_session s c P L) as PS.
  destruct (SpecSession.exits (Session.hist (sess s c))) as [|[g r] gs] eqn:EX; [|eapply (tw_gone _ g r); rewrite EX; left; reflexivity].
  destruct (Session.out_pc (sess s c) Session.Client) eqn:O1; try solve [eapply tw_peer; exact O1].
  all: destruct (Session.out_pc (sess s c) Session.DB) eqn:O2; try solve [eapply tw_peer; exact O2].
  all: assert (SpecSession.quiescent (sess s c)) as QU by
    (intros l Hl; destruct l; try discriminate Hl; try (apply (rest_session c); [exact I|exact L|reflexivity]); unfold Session.step; rewrite PS; destruct d; rewrite ?O1, ?O2; reflexivity).
  all: apply tw_all; intros d; destruct (session_alone_inv _ c R) as (AI & _);
    destruct (SessionFacts.quiescent_done _ AI (conj E (conj CL (conj PS EX))) QU d) as (X1 & X2 & mid & rest & X3 & X4 & X5); exists mid, rest;
    repeat (split; [assumption|]); rewrite X2; unfold SessionPipe.total; rewrite X1; reflexivity.
Qed.
End Rest.
Lemma in_table s t c : reachable step init s -> Server.pcs (srv s) t = Server.C6 c -> In c (Server.sessions (srv s)).
Proof.
  intros R E. pose proof (ServerSessions.reachable_ses _ (pt_srv _ (reachable_parts _ R))) as S. pose proof (reachable_linked _ R) as LK.
  assert (M : ServerSessions.mid_conn (Server.pcs (srv s) t) = Some c) by (rewrite E; reflexivity).
  destruct (ServerSessions.sn_reg _ S c (ServerSessions.sn_mid _ S _ _ M)) as [X|X]; [exact X|]. exfalso.
  pose proof (lk_agree _ LK t c ltac:(rewrite E; reflexivity)) as A. rewrite E in A. destruct A as [_ A]. rewrite (lk_fired _ LK), A in X. discriminate X.
Qed.
Lemma accepted_all s : reachable step init s -> accepted (Server.hist (srv s)) = seq 0 (Server.next_conn (srv s)).
Proof.
  revert s. apply (sys_induct (fun s => accepted (Server.hist (srv s)) = seq 0 (Server.next_conn (srv s)))); [reflexivity|].
  intros s l s' R I E. destruct (step_moves _ _ _ E) as (_ & m & P & E1 & E2 & E3 & E4 & _ & _).
  assert (N : Forall (fun l => forall t, l <> Server.LServeConn t) (mv m)).
  { clear - P. dplan P; repeat (apply Forall_cons; [try discriminate|]); try apply Forall_nil. intros t ->. discriminate Heqb. }
  clear - E3 N I. revert E3 N I. generalize (srv s). induction (mv m) as [|x xs IH]; intros v Hr N I; [apply run_none in Hr; rewrite Hr; exact I|].
  cbn in Hr. destruct (Server.step v x) as [v1|] eqn:Ex; [|discriminate]. inversion N; subst. apply (IH v1 Hr); auto. clear - Ex I H1.
  vstep Ex; cbn [accepted Server.hist Server.next_conn Server.log Server.goto Server.new_conn Server.ret]; try exact I; try solve [exfalso; eapply H1; reflexivity].
  rewrite I. symmetry. apply (seq_S (Server.next_conn v) 0).
Qed.

(** a way to see that nothing is left to do *)
Lemma rest_intro s : reachable step init s -> main s = RServe ->
  (forall t, match Server.pcs (srv s) t with Server.Idle | Server.A4 | Server.S5 _ => True | Server.C6 c =>
     match Session.start_pc (sess s c) with Session.SGet _ | Session.SDefer _ => False | _ => True end | _ => False end) ->
  (forall t, Distributor.pcs (dist s) t = Distributor.Idle \/ Distributor.pcs (dist s) t = Distributor.M0) ->
  (forall x, Distributor.chans (dist s) 0%nat = Some x -> Distributor.ch_queue x = []) -> FileWatcher.chan (watcher s) = [] ->
  (forall l, own (YWatcher l) -> FileWatcher.step (watcher s) l = None) ->
  (forall c l, (c < Server.next_conn (srv s))%nat -> own (YSession c l) -> Session.step (sess s c) l = None) -> at_rest s.
Proof.
  intros R M HS HD HC HW W X l L. destruct (step s l) as [s'|] eqn:E; [exfalso|reflexivity]. destruct (step_moves _ _ _ E) as (_ & m & P & E1 & E2 & E3 & E4 & _ & _).
  pose proof (ca_dist _ (reachable_calm _ R)) as CD.
  dplan P; try contradiction; cbn [mw md mv mc ms] in *; runs.
  all: try congruence.
  all: try solve [rewrite (W _ L) in E1; discriminate E1].
  all: try solve [match goal with E : Server.pcs (srv ?s) ?t = _ |- _ => specialize (HS t); rewrite E in HS; try contradiction; repeat match goal with E : Session.start_pc _ = _ |- _ => rewrite E in HS end; contradiction end].
  all: try solve [match goal with E : Distributor.chans (dist ?s) 0%nat = Some _ |- _ => apply HC in E; discriminate E end].
  all: try solve [apply andb_prop in Heqb; destruct Heqb as [B1 B2]; apply Nat.ltb_lt in B1; rewrite (X _ _ B1 L) in E4; discriminate E4].
  all: try solve [unfold returning in *; match goal with E : match Distributor.pcs (dist ?s) ?t with _ => _ end = _ |- _ => destruct (HD t) as [Z|Z]; rewrite Z in E; discriminate E end].
  all: try solve [destruct (HD 0%nat) as [Z|Z]; rewrite Z in *; try discriminate; unfold returning in *; rewrite Z in *; discriminate].
  - ddstep E2; try discriminate Heqb; try solve [match goal with E : Distributor.pcs _ ?t = _ |- _ => destruct (HD t); congruence end].
    all: first [rewrite (cd_src _ CD) in *; discriminate|rewrite (cd_closed _ CD) in *; discriminate|idtac "left"].
  - destruct (Server.step (srv s) l) as [v'|] eqn:EV; [|discriminate E3]. clear E3. vstep EV; try contradiction L; try discriminate Heqb; match goal with E : Server.pcs _ ?t = _ |- _ => specialize (HS t); rewrite E in HS; try contradiction end.
  - specialize (HC _ eq_refl). discriminate HC.
  - unfold Server.step in E3. destruct (Server.crashed (srv s)); [discriminate E3|]. specialize (HS t). destruct (Server.pcs (srv s) t); try discriminate E3; contradiction.
  - unfold Server.step in E3. destruct (Server.crashed (srv s)); [discriminate E3|]. specialize (HS t). destruct (Server.pcs (srv s) t); try discriminate E3; contradiction.
Qed.
