(** The server's view of a session (Server.v) and the session itself (Session.v), in the whole program. *)
From Verif Require Export SystemProofs SpecSystem.
From Verif Require SessionTraffic SessionAlone.
Require Import Lia.

(** *** Traces of the sessions: nobody calls Close *)
Lemma session_traces f ls s : run step (Run f) ls = Some s -> forall c, exists xs,
  run Session.step Session.NewSession xs = Some (sess s c) /\ Forall (fun l => ~ SpecSession.calls_close l) xs /\ (Forall sane ls -> Forall SpecSession.sane_label xs).
Proof.
  revert s. induction ls as [|l ls IH] using rev_ind; intros s H c.
  - cbn in H. injection H as <-. exists []. repeat split; constructor.
  - rewrite run_app in H. destruct (run step (Run f) ls) as [s1|] eqn:E; [|discriminate]. apply run_one in H.
    assert (reachable step init s1) as R by (exists (Run f), ls; split; [eexists; reflexivity|exact E]).
    destruct (step_moves _ _ _ H) as (_ & m & P & _ & _ & E3 & E4 & E5 & _). destruct (calm_plan _ _ _ _ (reachable_calm _ R) P E3) as (_ & _ & N).
    destruct (IH _ eq_refl c) as (xs & X1 & X2 & X3). destruct (Nat.eq_dec c (mc m)) as [->|Hc].
    + exists (xs ++ ms m). split; [rewrite run_app, X1; exact E4|]. split.
      * apply Forall_app. split; [exact X2|]. apply Forall_forall. intros y Hy Z. destruct y; try contradiction. eapply N, Hy.
      * intros F. apply Forall_app in F. destruct F as [F1 F2]. apply Forall_app. split; [auto|]. clear - P F2. inversion F2 as [|? ? S _]; subst.
        dplan P; repeat (apply Forall_cons; [try exact I; try exact S|]); try apply Forall_nil. destruct l; try exact I. apply andb_prop in Heqb. destruct Heqb as [_ X]. discriminate X.
    + exists xs. rewrite E5 by exact Hc. split; [exact X1|]. split; [exact X2|]. intros F. apply Forall_app in F. tauto.
Qed.
Lemma session_alone_inv s c : reachable step init s -> SessionLife.all_inv (sess s c) /\ SessionTraffic.pexit_ok (sess s c) /\ SessionTraffic.alone (sess s c).
Proof.
  intros (s0 & ls & [f ->] & H). destruct (session_traces _ _ _ H c) as (xs & X1 & X2 & _). eapply SessionTraffic.alone_run; eassumption.
Qed.

(** *** A connection's owner and its session *)
Definition agrees (p : Server.pc) (x : Session.state) : Prop :=
  match p with
  | Server.S6 _ _ | Server.C0 _ | Server.C1 _ | Server.C2 _ | Server.C3 _ | Server.C4 _ | Server.C5 _ => Session.start_pc x = Session.SIdle
  | Server.C6 _ =>
      match Session.start_pc x with Session.SIdle | Session.SEntry | Session.SDone _ => False | Session.SDefer _ => Session.close_pc x 0%nat = Session.K0 | _ => True end /\
      Session.closed x = EvInit
  | Server.C7 _ r => Session.start_pc x = Session.SDefer r /\ Session.close_pc x 0%nat = Session.K0 /\ Session.closed x = EvInit
  | Server.C8 _ r => Session.start_pc x = Session.SDefer r /\ Session.close_pc x 0%nat <> Session.K0
  | Server.C9 _ r | Server.C10 _ r | Server.C11 _ r | Server.CRet _ r => Session.start_pc x = Session.SDone r
  | _ => True
  end.
Definition running (p : Server.pc) (c : nat) : Prop := match p with Server.C6 c' | Server.C7 c' _ | Server.C8 c' _ => c' = c | _ => False end.
Record linked (s : state) : Prop := {
  lk_fresh : forall c, (Server.next_conn (srv s) <= c)%nat -> sess s c = Session.NewSession;
  lk_fired : forall c, Server.s_fired (srv s) c = ev_fired (Session.closed (sess s c));
  lk_agree : forall t c, ServerProofs.own_conn (Server.pcs (srv s) t) = Some c -> agrees (Server.pcs (srv s) t) (sess s c);
  lk_owner : forall c, match Session.start_pc (sess s c) with Session.SIdle | Session.SDone _ => True | _ => exists t, running (Server.pcs (srv s) t) c end
}.
(** server actions that do not concern a session *)
Lemma server_frame v l v' : calm_srv v -> Server.step v l = Some v' -> calm_server_label l \/ (exists c, l = Server.LConfig c) \/ l = Server.LRecv 0 ->
  (forall t, l = Server.LGo t -> match Server.pcs v t with Server.C5 _ | Server.C7 _ _ | Server.C8 _ _ => False | _ => True end) -> (forall t r, l <> Server.LEnd t r) -> (forall t c, l <> Server.LPick t c) ->
  Server.s_fired v' = Server.s_fired v /\ (Server.next_conn v <= Server.next_conn v')%nat /\
  (forall t c, ServerProofs.own_conn (Server.pcs v' t) = Some c ->
     (Server.next_conn v <= c)%nat /\ (exists l, Server.pcs v' t = Server.S6 l c) \/
     (exists t', ServerProofs.own_conn (Server.pcs v t') = Some c /\ (forall x, agrees (Server.pcs v t') x -> agrees (Server.pcs v' t) x))) /\
  (forall t c, running (Server.pcs v t) c -> Server.pcs v' t = Server.pcs v t) /\
  (forall t c, running (Server.pcs v' t) c -> Server.pcs v' t = Server.pcs v t).
Proof.
  intros I H L G1 G2 G3. pose proof (cv_shut _ I) as SH.
  vstep H; cbn in L.
  all: try (exfalso; destruct L as [L|[[? L]|L]]; try discriminate L; try contradiction; fail).
  all: try (exfalso; eapply G2; reflexivity).
  all: try (exfalso; eapply G3; reflexivity).
  all: try (match goal with E : Server.pcs ?v ?t = _, G1 : forall t, Server.LGo _ = _ -> _ |- _ => specialize (G1 t eq_refl); rewrite E in G1; cbn in G1; try contradiction end).
  all: cbn; rewrite ?SH in *; cbn.
  all: split; [reflexivity|]; split; [lia|]; split; [|split].
  all: intros t1 c1; unfold upd; repeat (eqs; cbn); intros X; try discriminate X; try contradiction; auto.
  all: try (right; exists t1; split; [exact X|auto]; fail).
  all: try (match goal with E : Server.pcs _ ?t = _ |- _ => right; exists t; rewrite E; split; [exact X|cbn; auto] end; fail).
  all: try congruence.
  all: try (match goal with E : Server.pcs ?v ?t = _, X : running (Server.pcs ?v ?t) _ |- _ => rewrite E in X; destruct X end).
  all: try (rewrite SH in *; discriminate).
  all: try (match goal with E : ev_fired EvInit = true |- _ => discriminate E end).
  left. injection X as <-. split; [lia|eauto].
Qed.
Lemma agrees_self p x l x' : SessionLife.all_inv x -> SessionTraffic.alone x -> Session.step x l = Some x' -> session_alone x l = true -> agrees p x -> agrees p x'.
Proof.
  intros HA HL H L X. destruct (SessionAlone.self_step _ _ _ HA HL H L) as (S1 & S2 & _).
  assert (C : Session.closed x = EvInit -> Session.closed x' = EvInit) by (intros E; rewrite E in S2; destruct (Session.closed x'); [reflexivity|discriminate S2|discriminate S2]).
  destruct p; try exact I; cbn in *; try (rewrite X in S1; exact S1).
  - destruct X as [X1 X2]. split; [|auto]. destruct (Session.start_pc x) eqn:Es; try contradiction; try (destruct (Session.start_pc x'); auto; fail).
    destruct S1 as [-> S1]. apply S1, X1.
  - destruct X as (X1 & X2 & X3). rewrite X1 in S1. destruct S1 as [S1 S3]. split; [exact S1|]. split; [apply S3, X2|auto].
  - destruct X as (X1 & X2). rewrite X1 in S1. destruct S1 as [S1 S3]. split; [exact S1|]. intros Y. apply X2, S3, Y.
Qed.
Lemma owner_self x l x' (P : Prop) : SessionLife.all_inv x -> SessionTraffic.alone x -> Session.step x l = Some x' -> session_alone x l = true ->
  match Session.start_pc x with Session.SIdle | Session.SDone _ => True | _ => P end ->
  match Session.start_pc x' with Session.SIdle | Session.SDone _ => True | _ => P end.
Proof.
  intros HA HL H L X. destruct (SessionAlone.self_step _ _ _ HA HL H L) as (S1 & _).
  destruct (Session.start_pc x) eqn:Es; try (rewrite S1; exact I); try (destruct (Session.start_pc x'); auto; fail).
Qed.
(** the watcher and the distributor have no part in this *)
Lemma linked_same s s' : linked s -> srv s' = srv s -> sess s' = sess s -> linked s'.
Proof. intros [I1 I2 I3 I4] E1 E2. constructor; rewrite E1, E2; assumption. Qed.
Lemma same_sess (f g : nat -> Session.state) c x : (forall c', c' <> c -> g c' = f c') -> g c = x -> x = f c -> forall c', g c' = f c'.
Proof. intros H1 <- H3 c'. destruct (Nat.eq_dec c' c) as [->|X]; auto. Qed.
Lemma linked_ext s s' : linked s -> srv s' = srv s -> (forall c, sess s' c = sess s c) -> linked s'.
Proof. intros [I1 I2 I3 I4] E1 E2. constructor; rewrite E1; intros; rewrite ?E2; auto. apply I4. Qed.
(** only the server moves, and no session is concerned *)
Lemma linked_server s s' l : reachable step init s -> linked s -> Server.step (srv s) l = Some (srv s') -> (forall c, sess s' c = sess s c) ->
  calm_server_label l \/ (exists c, l = Server.LConfig c) \/ l = Server.LRecv 0 ->
  (forall t, l = Server.LGo t -> match Server.pcs (srv s) t with Server.C5 _ | Server.C7 _ _ | Server.C8 _ _ => False | _ => True end) -> (forall t r, l <> Server.LEnd t r) -> (forall t c, l <> Server.LPick t c) ->
  linked s'.
Proof.
  intros R [I1 I2 I3 I4] H E L G1 G2 G3. destruct (server_frame _ _ _ (ca_srv _ (reachable_calm _ R)) H L G1 G2 G3) as (F1 & F2 & F3 & F4 & F5).
  constructor.
  - intros c Hc. rewrite E. apply I1. lia.
  - intros c. rewrite F1, E. apply I2.
  - intros t c Ho. rewrite E. destruct (F3 _ _ Ho) as [[A [y B]]|(t' & A & B)]; [rewrite B, (I1 _ A); reflexivity|]. apply B, I3, A.
  - intros c. rewrite E. specialize (I4 c). destruct (Session.start_pc (sess s c)); auto; destruct I4 as [t I4]; exists t; rewrite (F4 _ _ I4); exact I4.
Qed.
(** the server's goroutine [t] and its session [c] move together *)
Lemma linked_pair s s' t c p p' : reachable step init s -> linked s -> Server.pcs (srv s) t = p -> ServerProofs.own_conn p = Some c ->
  ServerProofs.own_conn p' = Some c -> (forall t0, Server.pcs (srv s') t0 = upd (Server.pcs (srv s)) t p' t0) -> Server.next_conn (srv s') = Server.next_conn (srv s) ->
  (forall c', c' <> c -> Server.s_fired (srv s') c' = Server.s_fired (srv s) c') -> Server.s_fired (srv s') c = ev_fired (Session.closed (sess s' c)) ->
  (forall c', c' <> c -> sess s' c' = sess s c') -> agrees p' (sess s' c) ->
  (match Session.start_pc (sess s' c) with Session.SIdle | Session.SDone _ => True | _ => running p' c end) -> linked s'.
Proof.
  intros R [I1 I2 I3 I4] Hp Ho Ho' Ep En Ef1 Ef2 Es Ha Hr. pose proof (ServerProofs.reachable_own _ (pt_srv _ (reachable_parts _ R))) as O.
  constructor.
  - intros c' Hc. rewrite En in Hc. rewrite Es; [auto|]. intros ->. assert (c < Server.next_conn (srv s))%nat by (apply (ServerProofs.oi_conn_lt _ O t); rewrite Hp; exact Ho). lia.
  - intros c'. destruct (Nat.eq_dec c' c) as [->|Hc]; [exact Ef2|]. rewrite Ef1, Es by exact Hc. apply I2.
  - intros t' c'. rewrite Ep. unfold upd. destruct (Nat.eqb_spec t' t) as [->|Ht]; [rewrite Ho'; intros X; injection X as <-; exact Ha|].
    intros X. rewrite Es; [auto|]. intros ->. apply Ht. apply (ServerProofs.oi_conn _ O t' t c); [exact X|rewrite Hp; exact Ho].
  - intros c'. destruct (Nat.eq_dec c' c) as [->|Hc].
    + assert (running p' c -> exists t0, running (Server.pcs (srv s') t0) c) as X by (intros X; exists t; rewrite Ep, upd_same; exact X).
      destruct (Session.start_pc (sess s' c)); auto.
    + rewrite Es by exact Hc. specialize (I4 c'). assert (forall t0, running (Server.pcs (srv s) t0) c' -> running (Server.pcs (srv s') t0) c') as X.
      { intros t0 X. rewrite Ep. unfold upd. destruct (Nat.eqb_spec t0 t) as [->|Ht]; [|exact X]. exfalso. rewrite Hp in X. destruct p; cbn in *; try contradiction; congruence. }
      destruct (Session.start_pc (sess s c')); auto; destruct I4 as [t0 I4]; eauto.
Qed.
Lemma linked_update s s' c : reachable step init s -> linked s -> Server.pcs (srv s) 0%nat = Server.A4 ->
  srv s' = Server.goto (Server.with_updates (srv s) true [] false) 0 (Server.A5 c) -> (forall c, sess s' c = sess s c) -> linked s'.
Proof.
  intros R [I1 I2 I3 I4] E Ev Es. constructor; rewrite Ev; cbn.
  - intros c' Hc. rewrite Es. auto.
  - intros c'. rewrite Es. auto.
  - intros t c'. rewrite Es. unfold upd. destruct (Nat.eqb_spec t 0) as [->|Ht]; [discriminate|apply I3].
  - intros c'. rewrite Es. specialize (I4 c'). assert (forall t0, running (Server.pcs (srv s) t0) c' -> running (upd (Server.pcs (srv s)) 0%nat (Server.A5 c) t0) c') as X.
    { intros t0 X. unfold upd. destruct (Nat.eqb_spec t0 0) as [->|Ht]; [|exact X]. rewrite E in X. destruct X. }
    destruct (Session.start_pc (sess s c')); auto; destruct I4 as [t0 I4]; eauto.
Qed.
Lemma linked_step s l s' : reachable step init s -> linked s -> step s l = Some s' -> linked s'.
Proof.
  intros R LK E. destruct (step_moves _ _ _ E) as (_ & m & P & _ & E2 & E3 & E4 & E5 & _). pose proof (reachable_calm _ R) as CA.
  pose proof (ca_srv _ CA) as CV. pose proof (cv_main _ CV) as M. pose proof (cv_worker _ CV) as W.
  assert (K : forall t p, Server.pcs (srv s) t = p -> worker p \/ in_loop p).
  { intros t p <-. destruct (Nat.eq_dec t 0) as [->|X]; [|left; auto]. destruct M as [M'|M']; [left; rewrite M'; exact I|right; exact M']. }
  assert (SS : ms m = [] -> forall c, sess s' c = sess s c).
  { intros X c. destruct (Nat.eq_dec c (mc m)) as [->|Hc]; [|auto]. rewrite X in E4. apply run_none in E4. exact E4. }
  assert (VV : mv m = [] -> srv s' = srv s) by (intros X; rewrite X in E3; apply run_none in E3; exact E3).
  destruct l.
  - dplan P. apply (linked_ext s); auto.
  - dplan P. apply (linked_ext s); auto.
  - dplan P. apply run_one in E3. apply (linked_server s s' l); auto.
    + left. destruct l; try discriminate Heqb; repeat constructor. apply unused_spec in Heqb. tauto.
    + intros t ->. cbn in Heqb. destruct (Server.pcs (srv s) t); try discriminate Heqb; exact I.
    + intros t r ->. discriminate Heqb.
    + intros t r ->. discriminate Heqb.
  - dplan P. apply andb_prop in Heqb. destruct Heqb as [H1 H2]. apply Nat.ltb_lt in H1. apply run_one in E4. specialize (VV eq_refl).
    destruct (session_alone_inv _ c R) as (A1 & _ & A2). destruct LK as [I1 I2 I3 I4]. destruct (SessionAlone.self_step _ _ _ A1 A2 E4 H2) as (_ & S2 & _).
    constructor; rewrite VV.
    + intros c' Hc. rewrite E5 by lia. auto.
    + intros c'. destruct (Nat.eq_dec c' c) as [->|Hc]; [rewrite S2; apply I2|rewrite E5 by exact Hc; apply I2].
    + intros t c' Ho. destruct (Nat.eq_dec c' c) as [->|Hc]; [eapply agrees_self; eauto|rewrite E5 by exact Hc; auto].
    + intros c'. destruct (Nat.eq_dec c' c) as [->|Hc]; [eapply owner_self; [exact A1|exact A2|exact E4|exact H2|apply I4]|rewrite E5 by exact Hc; apply I4].
  - dplan P. apply run_one in E3. apply (linked_server s s' (Server.LStart 0)); auto; try discriminate. left. reflexivity.
  - dplan P. apply (linked_ext s); auto.
  - dplan P; apply run_one in E3.
    + apply (returning_calm _ _ _ (ca_dist _ CA)) in Heqo. destruct Heqo as [(? & ? & ?)|[(? & ? & ? & ?)|(? & ? & ?)]]; congruence.
    + apply (linked_server s s' (Server.LSubscribe 0 None)); auto; try discriminate. left. split; reflexivity.
  - dplan P. apply (linked_ext s); auto.
  - dplan P. apply run_two in E3. destruct E3 as (v1 & X & Y). eapply linked_update; eauto. eapply calm_update; eassumption.
  - dplan P. apply (linked_ext s); auto.
  - assert (exists t' c r, Server.pcs (srv s) t' = Server.C6 c /\ m = Moves [] [Distributor.LGo t'] [] c [Session.LConfig E0 r] (main s)) as (t' & c & r & Hp & ->)
      by (dplan P; eauto 6). cbn in E2, E3, E4, E5, SS, VV. clear P. apply run_one in E4. specialize (VV eq_refl).
    destruct (SessionAlone.config_step _ _ _ _ E4) as (_ & _ & X & Y).
    pose proof (lk_agree _ LK t' c) as Z. rewrite Hp in Z. specialize (Z eq_refl). destruct Z as [_ Z].
    apply (linked_pair s s' t' c (Server.C6 c) (Server.C6 c)); auto; rewrite ?VV; auto.
    + intros t0. unfold upd. destruct (Nat.eqb_spec t0 t') as [->|]; auto.
    + rewrite X. apply (lk_fired _ LK).
    + cbn. split; [exact Y|congruence].
    + destruct (Session.start_pc (sess s' c)); cbn; auto.
  - dplan P. apply run_one in E3. apply run_two in E4. destruct E4 as (x1 & X1 & X2). destruct (session_alone_inv _ c R) as (_ & _ & A2).
    destruct (SessionAlone.begin_step _ _ _ A2 X1 X2) as (Y1 & Y2 & Y3 & Y4 & Y5). unfold Server.step, Server.go in E3. rewrite (cv_crash _ CV), Heqp, (lk_fired _ LK), Y4 in E3.
    injection E3 as E3.
    apply (linked_pair s s' t c (Server.C5 c) (Server.C6 c)); auto; rewrite <- ?E3; cbn; auto.
    + rewrite Y3. apply (lk_fired _ LK).
    + rewrite Y2. split; [exact I|congruence].
    + rewrite Y2. reflexivity.
  - dplan P. apply run_one in E3. specialize (SS eq_refl). unfold Server.step in E3. rewrite (cv_crash _ CV), Heqp in E3. injection E3 as E3.
    pose proof (lk_agree _ LK t c) as Z. rewrite Heqp in Z. specialize (Z eq_refl). cbn in Z. rewrite Heqs0 in Z.
    apply (linked_pair s s' t c (Server.C6 c) (Server.C7 c r)); auto; rewrite ?SS, <- ?E3; cbn; auto.
    + apply (lk_fired _ LK).
    + rewrite Heqs0. reflexivity.
  - assert (exists c r, Server.pcs (srv s) t = Server.C7 c r) as (c & r & Hp) by (clear - P; dplan P; eauto).
    pose proof (lk_agree _ LK t c) as Z. rewrite Hp in Z. specialize (Z eq_refl). destruct Z as (Z1 & Z2 & Z3).
    unfold plan in P. rewrite Hp, Z3 in P. injection P as <-. cbn in E5, E4, E3, SS, VV. apply run_one in E3. apply run_one in E4.
    destruct (SessionAlone.fire_step _ _ _ Z1 Z2 Z3 E4) as (Y1 & Y2 & Y3).
    unfold Server.step, Server.go in E3. rewrite (cv_crash _ CV), Hp, (lk_fired _ LK), Z3 in E3. injection E3 as E3.
    apply (linked_pair s s' t c (Server.C7 c r) (Server.C8 c r)); auto; rewrite <- ?E3; cbn; auto.
    + intros c' Hc. apply upd_other, Hc.
    + rewrite upd_same, Y3. reflexivity.
    + rewrite Y1, Y2. split; [reflexivity|discriminate].
    + rewrite Y1. reflexivity.
  - dplan P. apply run_one in E3. apply run_one in E4. pose proof (lk_agree _ LK t c) as Z. rewrite Heqp in Z. specialize (Z eq_refl). destruct Z as (Z1 & Z2).
    destruct (SessionAlone.done_step _ _ _ _ Z1 Heqk E4) as (Y1 & Y2).
    unfold Server.step, Server.go in E3. rewrite (cv_crash _ CV), Heqp in E3. injection E3 as E3.
    apply (linked_pair s s' t c (Server.C8 c r) (Server.C9 c r)); auto; rewrite <- ?E3; cbn; auto.
    + rewrite Y2. apply (lk_fired _ LK).
    + rewrite Y1. exact I.
  - exfalso. assert (exists ls c, mv m = Server.LPick t c :: ls) as (ls & c0 & X) by (clear - P; dplan P; eauto). rewrite X in E3. cbn in E3. clear - E3 K.
    destruct (Server.step (srv s) (Server.LPick t c0)) as [v|] eqn:H; [|discriminate]. clear E3. vstep H; match goal with E : Server.pcs _ _ = _ |- _ => apply K in E; destruct E as [[]|[]] end.
  - exfalso. dplan P. apply K in Heqp. destruct Heqp as [[]|[]].
  - exfalso. dplan P. apply K in Heqp. destruct Heqp as [[]|[]].
  - exfalso. dplan P. apply K in Heqp. destruct Heqp as [[]|[]].
  - exfalso. dplan P. apply K in Heqp. destruct Heqp as [[]|[]].
  - exfalso. destruct (ca_main _ CA) as [[X _]|[X _]]; unfold plan in P; rewrite X in P; discriminate P.
Qed.
Lemma reachable_linked s : reachable step init s -> linked s.
Proof.
  revert s. apply sys_induct; [|apply linked_step]. intros f. constructor; cbn; auto.
Qed.
