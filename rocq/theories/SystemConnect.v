(** A client that asks for the configured database is connected to it. *)
From Verif Require Import Fair SystemReloadLive SystemAttendLive SystemSettle SystemCrowd SessionTraffic.
From Verif Require Export SpecConnect SystemAttend.
Import SpecConnect SpecSettle SpecAttend System.
Require Import Lia.

(** *** What happens to a client's connection during the negotiation *)
Inductive client_move (x : Session.state) (k : Session.label) (x' : Session.state) : Prop :=
| cm_same r o o' : Session.conns x Session.Client = Some (Session.NetConn r o) -> Session.conns x' Session.Client = Some (Session.NetConn r o') -> negotiating x' ->
    SpecSession.startups (Session.hist x') = SpecSession.startups (Session.hist x) -> o' = o \/ (exists t e, k = Session.LClose t e) -> client_move x k x'
| cm_more cs b o : Session.conns x Session.Client = Some (Session.NetConn (Frames.Reader cs None) o) -> Session.conns x' Session.Client = Some (Session.NetConn (Frames.Reader (cs ++ [b]) None) o) ->
    negotiating x' -> SpecSession.startups (Session.hist x') = SpecSession.startups (Session.hist x) -> client_move x k x'
| cm_end cs e o : Session.conns x Session.Client = Some (Session.NetConn (Frames.Reader cs None) o) -> Session.conns x' Session.Client = Some (Session.NetConn (Frames.Reader cs (Some e)) o) ->
    negotiating x' -> SpecSession.startups (Session.hist x') = SpecSession.startups (Session.hist x) -> client_move x k x'
| cm_reset e o : k = Session.LReset Session.Client e -> Session.conns x' Session.Client = Some (Session.NetConn (Frames.Reader [] (Some e)) o) -> negotiating x' -> client_move x k x'
| cm_read r v ps r' : Session.start_pc x = Session.SRecv -> Session.conns x Session.Client = Some (Session.NetConn r true) ->
    Conn.RecvStartupMessage r = Frames.Done (Ok (Messages.StartupMessage v ps)) r' -> Session.conns x' Session.Client = Some (Session.NetConn r' true) ->
    SpecSession.startups (Session.hist x') = SpecSession.startups (Session.hist x) ++ [Messages.StartupMessage v ps] ->
    Session.start_pc x' = (if Z.eqb v ssl_request_code then Session.SDeny (Conn.SendByte "N") else if Z.eqb v 196608 then Session.SGet (Session.WDatabase v ps) else Session.SDefer (Some (ErrUnsupportedVersion v))) ->
    client_move x k x'
| cm_left r0 : leaving r0 x' ->
    (Session.start_pc x = Session.SEntry /\ ev_fired (Session.closed x) = true) \/
    (Session.start_pc x = Session.SRecv /\ exists n e r, Session.conns x Session.Client = Some n /\ Session.recv_on Conn.RecvStartupMessage n = Frames.Done (Err e) r) \/
    (exists e, k = Session.LStartWriteErr e) -> client_move x k x'.
Lemma client_moves x k x' : SessionLife.all_inv x -> negotiating x -> Session.step x k = Some x' -> client_move x k x'.
Proof.
  intros A N H. pose proof (SessionLife.al_pipes _ A) as PI. pose proof (SessionProofs.ph_phase _ (SessionPipe.pp_phase _ PI)) as PH.
  pose proof (SessionProofs.ph_client _ (SessionPipe.pp_phase _ PI)) as PC. destruct (Session.conns x Session.Client) as [[r o]|] eqn:C; [clear PC|destruct PC; reflexivity].
  assert (SessionProofs.off x) as (O1 & O2 & O3 & O4 & O5) by (unfold negotiating in N; destruct (Session.start_pc x); try contradiction; tauto). clear PH PI.
  unfold negotiating in N. SessionProofs.dstep H; cbn in *; try congruence; try contradiction.
  all: repeat match goal with E : Session.start_pc _ = _ |- _ => rewrite E in N end; try contradiction N.
  all: try (destruct d; congruence).
  all: try (eapply cm_same; cbn; [exact C|exact C|unfold negotiating; cbn; rewrite ?Heqs; auto|reflexivity|auto]; fail).
  - destruct d; [eapply cm_more; cbn; [exact Heqo1|reflexivity|exact N|reflexivity]|eapply cm_same; cbn; [exact C|exact C|exact N|reflexivity|auto]].
  - destruct d; [eapply cm_end; cbn; [exact Heqo1|reflexivity|exact N|reflexivity]|eapply cm_same; cbn; [exact C|exact C|exact N|reflexivity|auto]].
  - destruct d; [eapply cm_reset; cbn; [reflexivity|reflexivity|exact N]|eapply cm_same; cbn; [exact C|exact C|exact N|reflexivity|auto]].
  - eapply cm_left; [right; reflexivity|auto].
  - injection C as ->. unfold Session.recv_on in Heqo2. cbn in Heqo2. destruct o; [|discriminate]. eapply cm_read; cbn; eauto. unfold ssl_request_code. change 80877103 with Messages.SSLRequestMagic. change 196608 with Messages.DefaultProtocolVersion. rewrite Heqb. reflexivity.
  - injection C as ->. unfold Session.recv_on in Heqo2. cbn in Heqo2. destruct o; [|discriminate]. eapply cm_read; cbn; eauto. unfold ssl_request_code. change 80877103 with Messages.SSLRequestMagic. change 196608 with Messages.DefaultProtocolVersion. rewrite Heqb. apply Bool.negb_true_iff in Heqb0. rewrite Heqb0. reflexivity.
  - injection C as ->. unfold Session.recv_on in Heqo2. cbn in Heqo2. destruct o; [|discriminate]. eapply cm_read; cbn; eauto. unfold ssl_request_code. change 80877103 with Messages.SSLRequestMagic. change 196608 with Messages.DefaultProtocolVersion. rewrite Heqb. apply Bool.negb_false_iff in Heqb0. rewrite Heqb0. reflexivity.
  - eapply cm_left; [left; reflexivity|]. right. left. split; [assumption|]. eauto.
  - injection C as ->. eapply cm_same; cbn; [exact Heqo1|exact Heqo1|unfold negotiating; cbn; rewrite Heqs; exact I|reflexivity|auto].
  - injection C as -> <-. eapply cm_same; cbn; [exact Heqo1|exact Heqo1|exact I|reflexivity|auto].
  - injection C as -> <-. eapply cm_same; cbn; [exact Heqo1|exact Heqo1|exact I|reflexivity|auto].
  - eapply cm_left; [left; reflexivity|]. right. right. eauto.
  - injection C as ->. eapply cm_same; cbn; [exact Heqo1|reflexivity|exact N|reflexivity|right; eauto].
Qed.

(** *** It gets somewhere, whatever goes wrong *)
Definition on_its_way (n : nat) (x : Session.state) : Prop :=
  negotiating x -> (exists r o ss b more ps, Session.conns x Session.Client = Some (Session.NetConn r o) /\ concat (Frames.chunks r) = concat ss ++ b ++ more /\
    Forall (startup_wire ssl_request_code []) ss /\ startup_wire 196608 ps b /\ (length ss + length (SpecSession.startups (Session.hist x)) = n)%nat) \/
    exists r o, Session.conns x Session.Client = Some (Session.NetConn r o) /\ concat (Frames.chunks r) = [] /\ Frames.fin r <> None.
Lemma no_startup_in_nothing r m r' : Conn.RecvStartupMessage r = Frames.Done (Ok m) r' -> concat (Frames.chunks r) = [] -> False.
Proof. intros H E. apply SessionDecode.recv_startup_inv in H. destruct H as (_ & f & F & _). rewrite E in F. revert F. apply SessionDecode.frame_at_nil. lia. Qed.
(** what is read from such a stream *)
Lemma reads_next r ss b more ps v qs r' : concat (Frames.chunks r) = concat ss ++ b ++ more -> Forall (startup_wire ssl_request_code []) ss -> startup_wire 196608 ps b ->
  Conn.RecvStartupMessage r = Frames.Done (Ok (Messages.StartupMessage v qs)) r' ->
  (ss = [] /\ v = 196608 /\ qs = ps) \/ exists s ss', ss = s :: ss' /\ v = ssl_request_code /\ concat (Frames.chunks r') = concat ss' ++ b ++ more.
Proof.
  intros E F W H. destruct F as [|s ss' Ws F].
  - left. destruct (recv_startup_wire _ _ _ more r W E) as (r1 & X & _). rewrite X in H. injection H as <- <- _. auto.
  - right. exists s, ss'. cbn [concat] in E. rewrite <- app_assoc in E. destruct (recv_startup_wire _ _ _ _ r Ws E) as (r1 & X & Y & _). rewrite X in H. injection H as <- _ <-. auto.
Qed.
Lemma negotiating_before x k x' : Session.step x k = Some x' -> negotiating x' -> negotiating x.
Proof. unfold negotiating. intros H. SessionProofs.dstep H; cbn; auto; try contradiction; intros; repeat match goal with E : Session.start_pc _ = _ |- _ => rewrite E in * end; cbn in *; try contradiction; auto. Qed.
Lemma on_its_way_step n x k x' : SessionLife.all_inv x -> on_its_way n x -> Session.step x k = Some x' ->
  on_its_way n x' /\ (packets_left n x' <= packets_left n x)%nat /\
  (Session.start_pc x = Session.SRecv -> match Session.start_pc x' with Session.SDeny _ => True | _ => False end -> (packets_left n x' < packets_left n x)%nat).
Proof.
  intros A J H. enough (on_its_way n x' /\ (Session.start_pc x = Session.SRecv -> match Session.start_pc x' with Session.SDeny _ => True | _ => False end -> (length (SpecSession.startups (Session.hist x)) < n)%nat)) as [X Y].
  { split; [exact X|]. unfold packets_left. split; [pose proof (startups_step _ _ _ H); lia|]. intros P Q. pose proof (denied_count _ _ _ H P Q). specialize (Y P Q). lia. }
  assert (negotiating x \/ ~ negotiating x) as [N|N] by (unfold negotiating; destruct (Session.start_pc x); auto).
  2:{ split; [intros N'; destruct (N (negotiating_before _ _ _ H N'))|intros P; destruct N; unfold negotiating; rewrite P; exact I]. }
  specialize (J N).
  destruct (client_moves _ _ _ A N H) as [r o o' C C' N' S' _|cs b' o C C' N' S'|cs e o C C' N' S'|e o K C' N'|r v qs r' P C RD C' S' P'|r0 L _].
  - split; [intros _|intros P Q; pose proof (denied_count _ _ _ H P Q) as D; rewrite S' in D; lia]. rewrite S'. destruct J as [(r1 & o1 & ss & b & more & ps & C1 & J)|(r1 & o1 & C1 & J)]; rewrite C in C1; injection C1 as <- <-.
    + left. exists r, o', ss, b, more, ps. auto.
    + right. exists r, o'. auto.
  - split; [intros _|intros P Q; pose proof (denied_count _ _ _ H P Q) as D; rewrite S' in D; lia]. rewrite S'. destruct J as [(r1 & o1 & ss & b & more & ps & C1 & E & J)|(r1 & o1 & C1 & _ & J)]; rewrite C in C1; injection C1 as <- <-.
    + left. exists (Frames.Reader (cs ++ [b']) None), o, ss, b, (more ++ b'), ps. split; [exact C'|]. split; [|exact J]. cbn in *. rewrite concat_app, E. cbn. rewrite app_nil_r, <- !app_assoc. reflexivity.
    + destruct J. reflexivity.
  - split; [intros _|intros P Q; pose proof (denied_count _ _ _ H P Q) as D; rewrite S' in D; lia]. rewrite S'. destruct J as [(r1 & o1 & ss & b & more & ps & C1 & J)|(r1 & o1 & C1 & _ & J)]; rewrite C in C1; injection C1 as <- <-.
    + left. exists (Frames.Reader cs (Some e)), o, ss, b, more, ps. auto.
    + destruct J. reflexivity.
  - split; [intros _; right; exists (Frames.Reader [] (Some e)), o; repeat split; [exact C'|discriminate]|]. intros P Q. exfalso. rewrite K in H. clear - H P Q. SessionProofs.dstep H; cbn in *; rewrite P in Q; exact Q.
  - destruct J as [(r1 & o1 & ss & b & more & ps & C1 & E & F & W & L)|(r1 & o1 & C1 & E & _)]; rewrite C in C1; injection C1 as <- <-; [|destruct (no_startup_in_nothing _ _ _ RD E)].
    destruct (reads_next _ _ _ _ _ _ _ _ E F W RD) as [(-> & -> & ->)|(s & ss' & -> & -> & E')].
    + cbn in P'. unfold on_its_way, negotiating. rewrite P'. split; [|intros _ Q]; contradiction.
    + split; [intros _|intros _ _; cbn in L; lia]. left. exists r', true, ss', b, more, ps. rewrite S', app_length. inversion F; subst. cbn in *. repeat split; auto. lia.
  - unfold on_its_way, negotiating. destruct L as [L|L]; rewrite L; split; [| |contradiction|]; intros; contradiction.
Qed.
Lemma on_its_way_asked n x r : SessionLife.all_inv x -> on_its_way n x -> Session.start_pc x = Session.SRecv -> Session.conns x Session.Client = Some (Session.NetConn r true) ->
  Frames.fin r = None -> SpecFrames.frame_incomplete 4 (concat (Frames.chunks r)) -> False.
Proof.
  intros A J P C N I. destruct J as [(r1 & o1 & ss & b & more & ps & C1 & E & F & W & _)|(r1 & o1 & C1 & _ & J)]; [unfold negotiating; rewrite P; exact Logic.I| |]; rewrite C in C1; injection C1 as <- <-; [|contradiction].
  assert (exists m r', Conn.RecvStartupMessage r = Frames.Done (Ok m) r') as (m & r' & X).
  { destruct F as [|s ss' Ws F]; [destruct (recv_startup_wire _ _ _ more r W E) as (r1 & X & _); eauto|]. cbn [concat] in E. rewrite <- app_assoc in E. destruct (recv_startup_wire _ _ _ _ r Ws E) as (r1 & X & _). eauto. }
  apply SessionDecode.recv_startup_inv in X. destruct X as (_ & f & X & _). exact (FrameProofs.frame_at_not_incomplete 4 _ _ _ ltac:(lia) X I).
Qed.

(** *** Nothing turns it away *)
Definition hopeful (db : bytes) (x : Session.state) : Prop :=
  match Session.start_pc x with
  | Session.SIdle | Session.SEntry | Session.SRecv | Session.SDeny _ => asks_for_db db x
  | Session.SGet (Session.WDatabase v ps) => SpecSession.asks_for ps db
  | Session.SDefer _ | Session.SDone _ => False
  | _ => True
  end.
Definition harmless (k : Session.label) : Prop :=
  match k with Session.LStartWriteErr _ | Session.LDial (Some _) | Session.LReset Session.Client _ => False | Session.LConfig _ r => exists cfg, r = Ok cfg | _ => True end.
Lemma hopeful_step db x k x' : SessionLife.all_inv x -> pexit_ok x -> alone x -> hopeful db x -> Session.step x k = Some x' -> ~ SpecSession.calls_close k -> harmless k -> suits db x' ->
  hopeful db x'.
Proof.
  intros A PX AL HO H NC HA SU. pose proof (SessionLife.al_pipes _ A) as PI.
  assert (negotiating x \/ ~ negotiating x) as [N|N] by (unfold negotiating; destruct (Session.start_pc x); auto).
  - assert (asks_for_db db x) as AS by (unfold hopeful, negotiating in *; destruct (Session.start_pc x); try contradiction; exact HO). destruct AS as (r1 & ss & b & more & ps & C1 & E & F & W & Q).
    assert (forall t e, k <> Session.LClose t e) as NK.
    { intros t e ->. pose proof (SessionProofs.ph_close _ (SessionPipe.pp_phase _ PI)) as K0. destruct AL as [K1 _]. unfold Session.step, Session.go_close in H. destruct (Session.crashed x); [discriminate H|].
      assert (Session.close_pc x t = Session.KIdle) as K; [|rewrite K in H; discriminate H]. destruct t as [|t]; [|apply K1]. unfold negotiating in N. destruct (Session.start_pc x); try contradiction; exact K0. }
    assert (negotiating x' -> asks_for_db db x' -> hopeful db x') as G by (unfold hopeful, negotiating; destruct (Session.start_pc x'); auto; contradiction).
    destruct (client_moves _ _ _ A N H) as [r o o' C C' N' _ O|cs b' o C C' N' _|cs e o C C' N' _|e o K C' N'|r v qs r' P C RD C' _ P'|r0 L [[P X]|[(P & n & e & r & C & X)|(e & X)]]].
    + rewrite C in C1. injection C1 as -> ->. destruct O as [->|(t & e & X)]; [|destruct (NK _ _ X)]. apply G; [exact N'|]. exists r1, ss, b, more, ps. auto.
    + rewrite C in C1. injection C1 as <- ->. apply G; [exact N'|]. exists (Frames.Reader (cs ++ [b']) None), ss, b, (more ++ b'), ps. repeat split; auto. cbn in *. rewrite concat_app, E. cbn. rewrite app_nil_r, <- !app_assoc. reflexivity.
    + rewrite C in C1. injection C1 as <- ->. apply G; [exact N'|]. exists (Frames.Reader cs (Some e)), ss, b, more, ps. auto.
    + rewrite K in HA. destruct HA.
    + rewrite C in C1. injection C1 as ->. destruct (reads_next _ _ _ _ _ _ _ _ E F W RD) as [(-> & -> & ->)|(s & ss' & -> & -> & E')].
      * unfold hopeful. rewrite P'. exact Q.
      * apply G; [unfold negotiating; rewrite P'; exact I|]. inversion F; subst. exists r', ss', b, more, ps. auto.
    + exfalso. destruct AL as [_ K]. rewrite P in K. rewrite K in X. discriminate X.
    + exfalso. rewrite C1 in C. injection C as <-. unfold Session.recv_on in X. cbn in X.
      destruct F as [|s ss' Ws F]; [destruct (recv_startup_wire _ _ _ more r1 W E) as (r2 & Y & _)|cbn [concat] in E; rewrite <- app_assoc in E; destruct (recv_startup_wire _ _ _ _ r1 Ws E) as (r2 & Y & _)]; congruence.
    + rewrite X in HA. destruct HA.
  - assert (Session.start_pc x = Session.SWait \/ Session.start_pc x <> Session.SWait) as [P|P] by (destruct (Session.start_pc x); auto; right; discriminate).
    { destruct (stays_running x [k] x' A PX AL P) as (P' & _); [cbn; rewrite H; reflexivity|constructor; auto|]. unfold hopeful. rewrite P'. exact I. }
    pose proof (SessionPipe.pp_nego _ PI) as NE. unfold SessionPipe.nego_ok in NE. unfold hopeful, negotiating in *. clear A PX AL PI. SessionProofs.dstep H; cbn in *.
    all: try solve [congruence|contradiction|exact HO].
    all: repeat match goal with E : Session.start_pc _ = _ |- _ => rewrite E in * end; try solve [congruence|contradiction|exact HO|exact I].
    all: try (destruct (Session.start_pc x); solve [contradiction N; exact I|exact HO|exact I]).
    + destruct NE as (_ & _ & _ & NE & _). congruence.
    + exfalso. destruct (SU E a) as (p & P1 & P2); [cbn; apply in_or_app; right; left; reflexivity|]. rewrite (get_asks_for _ _ HO) in Heqb. replace a0 with p in Heqb by congruence. cbn [Session.want_name] in Heqb.
      rewrite P2 in Heqb. destruct (BufferProofs.bytes_eqb_spec db db) as [_|X]; [discriminate Heqb|destruct X; reflexivity].
    + destruct (SU E a) as (p & P1 & P2); [cbn; apply in_or_app; right; left; reflexivity|]. congruence.
    + destruct HA as [cfg HA]. discriminate HA.
Qed.
Lemma hopeful_run db ks x x' : SessionLife.all_inv x -> pexit_ok x -> alone x -> hopeful db x -> run Session.step x ks = Some x' -> Forall (fun k => ~ SpecSession.calls_close k /\ harmless k) ks ->
  suits db x' -> hopeful db x'.
Proof.
  revert x. induction ks as [|k ks IH]; intros x A PX AL HO H F SU; cbn in H; [injection H as <-; exact HO|]. destruct (Session.step x k) as [x1|] eqn:K; [|discriminate H]. inversion F as [|? ? [F1 F2] F3]; subst.
  pose proof (SessionLife.al_pipes _ A) as PI. apply (IH x1); auto; [eapply SessionLife.all_step; eassumption|eapply pexit_step; [apply (SessionPipe.pp_close _ PI)|eassumption|eassumption]|eapply alone_step; [apply (SessionPipe.pp_phase _ PI)| | |]; eassumption|].
  eapply hopeful_step; try eassumption. intros E cfg X. apply SU. revert X. revert H. clear. revert x1.
  induction ks as [|k ks IH]; intros x1 H X; cbn in H; [injection H as <-; exact X|]. destruct (Session.step x1 k) as [x2|] eqn:K; [|discriminate H]. apply (IH _ H). clear - K X.
  SessionProofs.dstep K; cbn; auto; apply in_or_app; left; exact X.
Qed.
(** what a session does in an action of the program *)
Lemma harmless_moves s l s' c : reachable step init s -> step s l = Some s' -> ~ goes_wrong c l ->
  exists ks, run Session.step (sess s c) ks = Some (sess s' c) /\ Forall (fun k => ~ SpecSession.calls_close k /\ harmless k) ks.
Proof.
  intros R H NG. destruct (step_moves _ _ _ H) as (_ & m & P & E1 & E2 & E3 & E4 & E5 & _). destruct (Nat.eq_dec c (mc m)) as [->|N]; [|exists []; rewrite (E5 _ N); split; [reflexivity|constructor]].
  exists (ms m). split; [exact E4|]. destruct (calm_plan _ _ _ _ (reachable_calm _ R) P E3) as (_ & _ & NC).
  assert (Forall (fun k => ~ SpecSession.calls_close k) (ms m)) as F1. { apply Forall_forall. intros k K X. destruct k; try contradiction X. exact (NC _ K). }
  enough (Forall harmless (ms m)) as F2. { apply Forall_forall. intros k K. rewrite Forall_forall in F1, F2. auto. }
  clear F1 NC E4 E5. pose proof (ca_dist _ (reachable_calm _ R)) as CD.
  dplan P; cbn [ms mc] in *; try solve [repeat constructor; eauto].
  - constructor; [|constructor]. apply andb_prop in Heqb. destruct Heqb as [_ X]. unfold harmless, goes_wrong in *. destruct l; auto; try discriminate X; try (destruct r; auto); destruct d; auto.
  - constructor; [eexists; reflexivity|constructor].
  - exfalso. unfold returning in Heqo. rewrite (cd_closed _ CD) in Heqo. pose proof (cd_pcs _ CD t) as K. pose proof (reachable_normal _ R t) as N.
    destruct (Distributor.pcs (dist s) t); try discriminate Heqo; try (destruct k; try discriminate Heqo); try destruct snapshot; try discriminate Heqo; try contradiction.
Qed.

Section Connect.
  Variables (st : nat -> state) (lb : nat -> option label) (c : nat) (db : bytes).
  Hypothesis EX : execution step st lb.
  Hypothesis R0 : reachable step init (st 0%nat).
  Hypothesis FR : fair_roles st lb.
  Hypothesis WF : writers_first st lb.
  Hypothesis FG : fair_goroutines st lb.
  Hypothesis FP : fair_peers c st lb.
  Let RC := reach st lb EX R0.
  Lemma stays_hopeful i j : (forall k l, (i <= k)%nat -> lb k = Some l -> ~ goes_wrong c l) -> (forall k, (i <= k)%nat -> suits db (sess (st k) c)) ->
    hopeful db (sess (st i) c) -> (i <= j)%nat -> hopeful db (sess (st j) c).
  Proof.
    intros NG SU HO. apply (Fair.kept step st lb EX (fun s => hopeful db (sess s c)) i HO). intros k l Hk X B E. destruct (session_alone_inv _ c (RC k)) as (A & PX & AL).
    destruct (harmless_moves _ _ _ c (RC k) E (NG _ _ Hk B)) as (ks & K & F). apply (hopeful_run db ks (sess (st k) c)); auto.
  Qed.
  Lemma connects i : In c (accepted (Server.hist (srv (st i)))) -> negotiating (sess (st i) c) -> asks_for_db db (sess (st i) c) ->
    (forall k l, (i <= k)%nat -> lb k = Some l -> ~ goes_wrong c l) -> (forall k, (i <= k)%nat -> suits db (sess (st k) c)) ->
    Fair.ev st good i (fun s => established (sess s c) /\ exists p ps, SpecSession.accepted (Session.hist (sess s c)) p ps /\ SpecSession.dials (Session.hist (sess s c)) = [SpecSession.address p]).
  Proof.
    intros A N AS NG SU. assert (hopeful db (sess (st i) c)) as HO by (unfold hopeful, negotiating in *; destruct (Session.start_pc (sess (st i) c)); try contradiction; exact AS).
    assert (exists n, on_its_way n (sess (st i) c)) as [n OW].
    { destruct AS as (r & ss & b & more & ps & C & E & F & W & _). exists (length ss + length (SpecSession.startups (Session.hist (sess (st i) c))))%nat. intros _. left. exists r, true, ss, b, more, ps. auto. }
    apply (ev_bind st good good_dec _ _ _ (SystemSettle.settles st lb c EX R0 FR WF FG FP (on_its_way n) (packets_left n) (on_its_way_step n) (on_its_way_asked n) i A OW)).
    intros j Hj G [O|W]; apply ev_now; pose proof (stays_hopeful i j NG SU HO Hj) as HJ.
    - exfalso. destruct (over_at c _ (RC j) O) as (r & _ & D). unfold hopeful in HJ. rewrite D in HJ. exact HJ.
    - split; [exact W|]. destruct (session_alone_inv _ c (RC j)) as (AI & _). pose proof (SessionPipe.pp_nego _ (SessionLife.al_pipes _ AI)) as NE. unfold SessionPipe.nego_ok in NE. unfold established in W. rewrite W in NE.
      destruct NE as (p & ps & X & Y & _). eauto.
  Qed.
End Connect.
