(** A client that asks for the configured database is connected to it; clients that then go away. *)
From Verif Require Export SystemReady SpecCrowd.
From Verif Require BufferProofs DsnProofs SessionPipe ConnFacts FrameProofs.
Require Import Lia.

(** *** One action of a session, of the distributor *)
Lemma calm_now s s' : reachable step init s' -> panicked s = None -> Server.next_conn (srv s') = Server.next_conn (srv s) -> forall c, Session.crashed (sess s' c) = None ->
  (forall c', c' <> c -> sess s' c' = sess s c') -> panicked s' = None.
Proof.
  intros R' P N c C S. destruct (panicked s') as [p|] eqn:X; [exfalso|reflexivity]. destruct (panicked_session _ _ R' X) as (c' & C1 & C2).
  destruct (Nat.eq_dec c' c) as [->|D]; [congruence|]. rewrite S in C2 by exact D. rewrite N in C1. rewrite (panic_session _ _ P C1) in C2. discriminate C2.
Qed.
Lemma alone_session s c l x : reachable step init s -> panicked s = None -> (c < Server.next_conn (srv s))%nat -> session_alone (sess s c) l = true -> Session.step (sess s c) l = Some x -> Session.crashed x = None ->
  exists s', step s (YSession c l) = Some s' /\ reachable step init s' /\ panicked s' = None /\ srv s' = srv s /\ dist s' = dist s /\ sess s' c = x /\ forall c', c' <> c -> sess s' c' = sess s c'.
Proof.
  intros R P L A E C. apply Nat.ltb_lt in L. assert (X : step s (YSession c l) <> None) by (eapply moved; [exact P|cbn -[Nat.ltb]; rewrite L, A; reflexivity|reflexivity|reflexivity|reflexivity|apply one_run, E]).
  destruct (step s (YSession c l)) as [s'|] eqn:H; [clear X|congruence]. exists s'. split; [reflexivity|]. pose proof (reachable_step _ _ _ _ _ R H) as R'. split; [exact R'|].
  destruct (step_moves _ _ _ H) as (_ & m & PL & E1 & E2 & E3 & E4 & E5 & Em). cbn -[Nat.ltb] in PL. rewrite L, A in PL. injection PL as <-. cbn [mw md mv ms mc mr] in *. runs.
  assert (Y : sess s' c = x) by congruence. split; [eapply (calm_now s); eauto; [congruence|rewrite Y; exact C]|]. auto 10.
Qed.
Lemma alone_dist s l d : reachable step init s -> panicked s = None -> dist_alone s l = true -> Distributor.step (dist s) l = Some d ->
  exists s', step s (YDist l) = Some s' /\ reachable step init s' /\ panicked s' = None /\ srv s' = srv s /\ dist s' = d /\ forall c, sess s' c = sess s c.
Proof.
  intros R P A E. assert (X : step s (YDist l) <> None) by (eapply moved; [exact P|cbn; rewrite A; reflexivity|reflexivity|apply one_run, E|reflexivity|reflexivity]).
  destruct (step s (YDist l)) as [s'|] eqn:H; [clear X|congruence]. exists s'. split; [reflexivity|]. pose proof (reachable_step _ _ _ _ _ R H) as R'. split; [exact R'|].
  destruct (step_moves _ _ _ H) as (_ & m & PL & E1 & E2 & E3 & E4 & E5 & Em). cbn in PL. rewrite A in PL. injection PL as <-. cbn [mw md mv ms mc mr] in *. runs.
  assert (S : forall c, sess s' c = sess s c) by (intros c; destruct (Nat.eq_dec c 0) as [->|D]; auto).
  split; [|split; [congruence|]; split; [congruence|exact S]].
  destruct (panicked s') as [p|] eqn:X; [exfalso|reflexivity]. destruct (panicked_session _ _ R' X) as (c & C1 & C2). rewrite S in C2.
  rewrite E3 in C1. rewrite (panic_session _ _ P C1) in C2. discriminate C2.
Qed.
(** *** Get, by goroutine [v] for session [c] *)
Lemma asked s v c w E cfg x : reachable step init s -> panicked s = None -> Server.pcs (srv s) v = Server.C6 c -> (c < Server.next_conn (srv s))%nat -> Distributor.pcs (dist s) v = Distributor.Idle ->
  Distributor.writer (dist s) = None -> Distributor.last (dist s) = Some cfg -> Session.start_pc (sess s c) = Session.SGet w -> Session.cached (sess s c) = None ->
  Session.step (sess s c) (Session.LConfig E (Ok cfg)) = Some x -> Session.crashed x = None ->
  exists s', run step s (YGet v :: repeat (YDist (Distributor.LGo v)) 3 ++ [YGot v E]) = Some s' /\ reachable step init s' /\ panicked s' = None /\ srv s' = srv s /\
    Distributor.writer (dist s') = None /\ Distributor.last (dist s') = Some cfg /\ sess s' c = x /\ forall c', c' <> c -> sess s' c' = sess s c'.
Proof.
  intros R P V L I W La S Ca E1 Cx. pose proof (dist_no_crash _ R) as DC. pose proof (cd_closed _ (ca_dist _ (reachable_calm _ R))) as DO. set (d := dist s) in *.
  set (d0 := Distributor.log (Distributor.with_pc d v Distributor.G0) (Distributor.HCall v Distributor.CGet)).
  assert (E0 : Distributor.step d (Distributor.LCall v Distributor.CGet) = Some d0) by (unfold Distributor.step; rewrite DC, I; reflexivity).
  assert (X : step s (YGet v) <> None) by (eapply moved; [exact P|unfold plan; fold d; rewrite V, I, S, Ca; reflexivity|reflexivity|apply one_run, E0|reflexivity|reflexivity]).
  destruct (step s (YGet v)) as [s0|] eqn:H0; [clear X|congruence]. pose proof (reachable_step _ _ _ _ _ R H0) as R0.
  destruct (step_moves _ _ _ H0) as (_ & m & PL & A1 & A2 & A3 & A4 & A5 & _). unfold plan in PL. fold d in PL. rewrite V, I, S, Ca in PL. injection PL as <-. cbn [mw md mv ms mc mr] in *. runs. fold d in A2.
  assert (D0 : dist s0 = d0) by congruence.
  assert (S0 : forall c', sess s0 c' = sess s c') by (intros c'; destruct (Nat.eq_dec c' 0) as [->|D]; auto).
  assert (P0 : panicked s0 = None) by (apply (calm_now s s0 R0 P ltac:(congruence) c); [rewrite S0; apply panic_session; assumption|auto]).
  assert (U : forall p, upd (Distributor.pcs d) v p v = p) by (intros p; unfold upd; rewrite Nat.eqb_refl; reflexivity).
  set (d1 := Distributor.with_pc d0 v Distributor.G1). destruct (alone_dist s0 (Distributor.LGo v) d1 R0 P0) as (s1 & H1 & R1 & P1 & V1 & D1 & S1).
  { cbn. unfold returning. rewrite D0. cbn. rewrite U, DO. reflexivity. } { rewrite D0. unfold Distributor.step, Distributor.go. cbn. rewrite DC, U, DO. reflexivity. }
  assert (U1 : forall p, Distributor.pcs (Distributor.with_pc d1 v p) v = p) by (intros p; cbn; unfold upd; rewrite Nat.eqb_refl; reflexivity).
  set (d2 := Distributor.with_pc (Distributor.with_readers d1 (v :: Distributor.readers d)) v Distributor.G2). destruct (alone_dist s1 (Distributor.LGo v) d2 R1 P1) as (s2 & H2 & R2 & P2 & V2 & D2 & S2).
  { cbn. unfold returning. rewrite D1. cbn. unfold upd at 1. rewrite Nat.eqb_refl. reflexivity. } { rewrite D1. unfold Distributor.step, Distributor.go. cbn. rewrite DC. unfold upd at 1. rewrite Nat.eqb_refl, W. reflexivity. }
  set (d3 := Distributor.with_pc (Distributor.with_readers d2 (Distributor.readers d)) v (Distributor.G3 (Some cfg))). destruct (alone_dist s2 (Distributor.LGo v) d3 R2 P2) as (s3 & H3 & R3 & P3 & V3 & D3 & S3).
  { cbn. unfold returning. rewrite D2. cbn. unfold upd at 1. rewrite Nat.eqb_refl. reflexivity. } { rewrite D2. unfold Distributor.step, Distributor.go. cbn. rewrite DC. unfold upd at 1. rewrite Nat.eqb_refl, La. reflexivity. }
  assert (VV : srv s3 = srv s) by congruence. assert (SS : forall c', sess s3 c' = sess s c') by (intros c'; rewrite S3, S2, S1; apply S0).
  assert (G : Distributor.pcs d3 v = Distributor.G3 (Some cfg)) by (cbn; unfold upd; rewrite Nat.eqb_refl; reflexivity).
  set (d4 := Distributor.ret d3 v (Distributor.RConfig cfg)). assert (E4 : Distributor.step (dist s3) (Distributor.LGo v) = Some d4) by (rewrite D3; unfold Distributor.step, Distributor.go; rewrite G; cbn; rewrite DC; reflexivity).
  assert (PL4 : plan s3 (YGot v E) = Some (Moves [] [Distributor.LGo v] [] c [Session.LConfig E (Ok cfg)] (main s3))) by (unfold plan, returning; rewrite VV, V, D3, G; reflexivity).
  assert (X : step s3 (YGot v E) <> None) by (eapply moved; [exact P3|exact PL4|reflexivity|apply one_run, E4|reflexivity|apply one_run; cbn [mc]; rewrite SS; exact E1]).
  destruct (step s3 (YGot v E)) as [s4|] eqn:H4; [clear X|congruence]. pose proof (reachable_step _ _ _ _ _ R3 H4) as R4.
  destruct (step_moves _ _ _ H4) as (_ & m & PL & B1 & B2 & B3 & B4 & B5 & _). rewrite PL4 in PL. injection PL as <-. cbn [mw md mv ms mc mr] in *. runs.
  assert (D4 : dist s4 = d4) by congruence. assert (Y : sess s4 c = x) by (rewrite SS in B4; congruence).
  exists s4. split; [cbn [repeat app run]; rewrite H0, H1, H2, H3, H4; reflexivity|]. split; [exact R4|].
  split; [apply (calm_now s3 s4 R4 P3 ltac:(congruence) c); [rewrite Y; exact Cx|exact B5]|]. split; [congruence|].
  rewrite D4. split; [exact W|]. split; [exact La|]. split; [exact Y|]. intros c' Hc. rewrite B5 by exact Hc. apply SS.
Qed.
Lemma get_asks_for ps v : SpecSession.asks_for ps v -> Messages.GetParameter ps (str "database") = v.
Proof.
  intros [(pre & post & -> & F)|[-> F]].
  - induction F as [|q pre Hq F IH]; cbn [app Messages.GetParameter]; [reflexivity|]. destruct (BufferProofs.bytes_eqb_spec (Messages.p_name q) (str "database")) as [X|X]; [destruct (Hq X)|exact IH].
  - induction F as [|q ps Hq F IH]; cbn [Messages.GetParameter]; [reflexivity|]. destruct (BufferProofs.bytes_eqb_spec (Messages.p_name q) (str "database")) as [X|X]; [destruct (Hq X)|exact IH].
Qed.
Lemma connected s t l E cfg p b : reachable step init s -> panicked s = None -> unlocked s -> in_accept s t l -> holds s cfg -> Session.parse_uri E (DatabaseURL cfg) = Ok p -> asks_right p b ->
  let c := Server.next_conn (srv s) in exists ls s',
  run step s ls = Some s' /\ reachable step init s' /\ panicked s' = None /\ unlocked s' /\ in_accept s' t l /\ holds s' cfg /\ Server.next_conn (srv s') = S c /\ Server.sessions (srv s') = c :: Server.sessions (srv s) /\
  fresh_relay (sess s' c) p b /\ (exists r, Session.conns (sess s' c) Session.Client = Some (Session.NetConn r true) /\ Frames.fin r = None /\ concat (Frames.chunks r) = []) /\
  Session.conns (sess s' c) Session.DB = Some (Session.NetConn (Frames.Reader [] None) true) /\ (forall d, Session.in_pc (sess s' c) d = Session.IRecv /\ Session.out_pc (sess s' c) d = Session.OTake /\ Session.chan_in (sess s' c) d = Session.Chan [] false /\ Session.chan_out (sess s' c) d = Session.Chan [] false) /\ Session.proc_pc (sess s' c) = Session.PSelect /\
  (forall c', c' <> c -> sess s' c' = sess s c') /\ Forall (fun x => own x \/ In x (outside_connects t c b)) ls.
Proof.
  intros R P M [A O] [La W] PU (ps & RP & AF) c. rewrite <- (DistributorProofs.mi_last _ (DistributorProofs.reachable_mon _ (pt_dist _ (reachable_parts _ R)))) in La.
  destruct (one_more s t l R P M A O) as (v & s0 & H0 & P0 & M0 & A0 & O0 & V0 & N0 & T0 & _ & _ & _ & S0 & D0 & _ & I0 & B0). fold c in V0, N0, T0, S0, B0. pose proof (reachable_run _ _ _ _ _ R H0) as R0.
  assert (LT : (c < Server.next_conn (srv s0))%nat) by (rewrite N0; lia).
  set (m := Messages.StartupMessage 196608 ps).
  destruct (SessionTraffic.recv_startup_wire 196608 ps b [] (Frames.Reader [b] None) RP) as (r' & ER & SR & FR & Hb); [reflexivity|].
  assert (crashed_begun : Session.crashed begun = None) by reflexivity.
  set (x1 := Session.log (Session.with_conn begun Session.Client (Session.NetConn (Frames.Reader [b] None) true)) (Session.HArrive Session.Client b)).
  destruct (alone_session s0 c (Session.LArrive Session.Client b) x1 R0 P0 LT) as (s1 & H1 & R1 & P1 & V1 & D1 & X1 & S1); [reflexivity|rewrite B0; reflexivity|reflexivity|].
  set (x2 := Session.with_start (Session.log (Session.with_conn x1 Session.Client (Session.NetConn r' true)) (Session.HStartup m)) (Session.SGet (Session.WDatabase 196608 ps))).
  destruct (alone_session s1 c Session.LStart x2 R1 P1) as (s2 & H2 & R2 & P2 & V2 & D2 & X2 & S2); [rewrite V1; exact LT|rewrite X1; reflexivity|rewrite X1|reflexivity|].
  { unfold Session.step, Session.go_start. cbn [x1 begun run Session.step Session.NewSession Session.crashed]. cbn. unfold Session.recv_on. cbn. rewrite ER. reflexivity. }
  set (x3 := Session.with_start (Session.with_cached (Session.log x2 (Session.HConfig E (Ok cfg))) p) (Session.SGet (Session.WHost m))).
  assert (VV2 : srv s2 = srv s0) by congruence. assert (DD2 : dist s2 = dist s) by congruence.
  destruct (asked s2 v c (Session.WDatabase 196608 ps) E cfg x3 R2 P2) as (s3 & H3 & R3 & P3 & V3 & W3 & L3 & X3 & S3);
    [rewrite VV2; exact V0|rewrite VV2; exact LT|rewrite DD2; exact I0|rewrite DD2; exact W|rewrite DD2; exact La|rewrite X2; reflexivity|rewrite X2; reflexivity| |reflexivity|].
  { rewrite X2. unfold Session.step. cbn -[bytes_eqb Session.got]. rewrite PU. unfold Session.got. cbn [Session.want_name]. rewrite (get_asks_for _ _ AF). rewrite DsnProofs.bytes_eqb_refl. reflexivity. }
  assert (LT3 : (c < Server.next_conn (srv s3))%nat) by (rewrite V3, VV2; exact LT).
  set (x4 := Session.with_start x3 (Session.SGet (Session.WPort m (Dsn.get p (str "host"))))).
  destruct (alone_session s3 c Session.LStart x4 R3 P3 LT3) as (s4 & H4 & R4 & P4 & V4 & D4 & X4 & S4); [rewrite X3; reflexivity|rewrite X3; reflexivity|reflexivity|].
  set (x5 := Session.log (Session.with_start x4 (Session.SDial m (SpecSession.address p))) (Session.HDial (SpecSession.address p))).
  destruct (alone_session s4 c Session.LStart x5 R4 P4) as (s5 & H5 & R5 & P5 & V5 & D5 & X5 & S5); [rewrite V4; exact LT3|rewrite X4; reflexivity|rewrite X4|reflexivity|].
  { unfold x5. rewrite <- SessionPipe.join_address. reflexivity. }
  set (x6 := Session.log (Session.with_start (Session.with_conn x5 Session.DB (Session.NetConn (Frames.Reader [] None) true)) (Session.SSend b)) Session.HConnected).
  destruct (alone_session s5 c (Session.LDial None) x6 R5 P5) as (s6 & H6 & R6 & P6 & V6 & D6 & X6 & S6); [rewrite V5, V4; exact LT3|reflexivity|rewrite X5|reflexivity|].
  { unfold x6. rewrite <- Hb. reflexivity. }
  set (x7 := match Session.start_write x6 (length b) with Some x => x | None => x6 end).
  assert (Z : exists z, b = z :: tl b) by (rewrite <- Hb; cbv [Conn.SendMessage Frames.Bytes]; cbn; eauto).
  assert (E7 : Session.start_write x6 (length b) = Some (Session.with_start (Session.with_proc (Session.with_out (Session.with_out (Session.with_in (Session.with_in (Session.log x6 (Session.HSent Session.DB b)) Session.Client Session.IRecv) Session.DB Session.IRecv) Session.Client Session.OTake) Session.DB Session.OTake) Session.PSelect) Session.SWait)).
  { unfold Session.start_write. cbn -[firstn skipn Session.write_ok]. rewrite firstn_all, skipn_all. unfold Session.write_ok. rewrite Nat.leb_refl. destruct Z as [z ->]. reflexivity. }
  destruct (alone_session s6 c (Session.LStartWrite (length b)) x7 R6 P6) as (s7 & H7 & R7 & P7 & V7 & D7 & X7 & S7); [rewrite V6, V5, V4; exact LT3|reflexivity|rewrite X6; unfold x7; rewrite E7; exact E7|unfold x7; rewrite E7; reflexivity|].
  unfold x7 in X7. rewrite E7 in X7. clear x7.
  assert (VV : srv s7 = srv s0) by congruence. assert (DD : dist s7 = dist s3) by congruence.
  exists ((YServer (Server.LAccept t Server.AConn) :: YServer (Server.LSpawn t v) :: repeat (YServer (Server.LGo v)) 5 ++ [YServe v]) ++
    YSession c (Session.LArrive Session.Client b) :: YSession c Session.LStart :: (YGet v :: repeat (YDist (Distributor.LGo v)) 3 ++ [YGot v E]) ++
    [YSession c Session.LStart; YSession c Session.LStart; YSession c (Session.LDial None); YSession c (Session.LStartWrite (length b))]), s7. split. { rewrite run_app, H0. cbn [run]. rewrite H1, H2. rewrite run_app, H3. cbn [run]. rewrite H4, H5, H6, H7. reflexivity. }
  split; [exact R7|]. split; [exact P7|]. unfold unlocked, in_accept, holds. rewrite <- (DistributorProofs.mi_last _ (DistributorProofs.reachable_mon _ (pt_dist _ (reachable_parts _ R7)))). rewrite VV, DD. split; [exact M0|]. split; [split; assumption|]. split; [split; assumption|]. split; [exact N0|]. split; [exact T0|].
  rewrite X7. split.
  { repeat split. - eexists. reflexivity. - eexists. reflexivity. }
  split; [exists r'; auto|]. split; [reflexivity|]. split; [intros []; repeat split; reflexivity|]. split; [reflexivity|]. split.
  { intros c' Hc. rewrite S7, S6, S5, S4, S3, S2, S1, S0 by exact Hc. reflexivity. }
  cbn [app repeat]. repeat (apply Forall_cons; [first [left; exact I|right; cbn [outside_connects In]; auto 6]|]). apply Forall_nil.
Qed.
(** *** Both peers go away *)
Lemma eof_recv cs : concat cs = [] -> exists r', Conn.RecvMessage (Frames.Reader cs (Some EOF)) = Frames.Done (Err EOF) r' /\ Frames.fin r' = Some EOF.
Proof.
  intros H. pose proof (FrameProofs.ReadStandardFrame_short (Frames.Reader cs (Some EOF))) as X. cbn in X. rewrite H in X. destruct X as (r' & E & _ & F); [left; cbn; lia|].
  exists r'. unfold Conn.RecvMessage. rewrite E. auto.
Qed.
Lemma gone_away s c p b r : reachable step init s -> panicked s = None -> (c < Server.next_conn (srv s))%nat -> fresh_relay (sess s c) p b ->
  Session.conns (sess s c) Session.Client = Some (Session.NetConn r true) -> Frames.fin r = None -> concat (Frames.chunks r) = [] ->
  Session.conns (sess s c) Session.DB = Some (Session.NetConn (Frames.Reader [] None) true) ->
  (forall d, Session.in_pc (sess s c) d = Session.IRecv /\ Session.out_pc (sess s c) d = Session.OTake /\ Session.chan_in (sess s c) d = Session.Chan [] false /\ Session.chan_out (sess s c) d = Session.Chan [] false) -> Session.proc_pc (sess s c) = Session.PSelect ->
  exists s', run step s (outside_leaves c ++ [YSession c (Session.LRecv Session.Client); YSession c (Session.LRecv Session.DB)]) = Some s' /\ reachable step init s' /\ panicked s' = None /\
    srv s' = srv s /\ dist s' = dist s /\ abandoned (sess s' c) /\ forall c', c' <> c -> sess s' c' = sess s c'.
Proof.
  intros R P L ((HS & HC & HX & HE) & _) C1 F1 K1 C2 IO PP. set (x := sess s c) in *. destruct r as [cs f]. cbn in F1, K1. subst f.
  destruct (eof_recv cs K1) as (r1 & E1 & G1). destruct (eof_recv [] eq_refl) as (r2 & E2 & G2).
  destruct (IO Session.Client) as (I1 & O1 & Q1 & Q2). destruct (IO Session.DB) as (I2 & O2 & Q3 & Q4).
  set (y1 := Session.with_conn x Session.Client (Session.NetConn (Frames.Reader cs (Some EOF)) true)).
  destruct (alone_session s c (Session.LHangup Session.Client EOF) y1 R P L) as (s1 & H1 & R1 & P1 & V1 & D1 & X1 & S1); [reflexivity|unfold Session.step; fold x; rewrite HX, C1; reflexivity|exact HX|].
  set (y2 := Session.with_conn y1 Session.DB (Session.NetConn (Frames.Reader [] (Some EOF)) true)).
  destruct (alone_session s1 c (Session.LHangup Session.DB EOF) y2 R1 P1) as (s2 & H2 & R2 & P2 & V2 & D2 & X2 & S2); [rewrite V1; exact L|reflexivity|rewrite X1; unfold Session.step; cbn; rewrite HX, C2; reflexivity|exact HX|].
  set (y3 := Session.finish (Session.with_conn y2 Session.Client (Session.NetConn r1 true)) (Session.GIn Session.Client) (Some EOF)).
  destruct (alone_session s2 c (Session.LRecv Session.Client) y3 R2 P2) as (s3 & H3 & R3 & P3 & V3 & D3 & X3 & S3); [rewrite V2, V1; exact L|reflexivity|rewrite X2|exact HX|].
  { unfold Session.step. cbn -[Session.finish]. rewrite HX, I1. unfold Session.recv_on. cbn -[Session.finish]. rewrite E1. reflexivity. }
  set (y4 := Session.finish (Session.with_conn y3 Session.DB (Session.NetConn r2 true)) (Session.GIn Session.DB) (Some EOF)).
  destruct (alone_session s3 c (Session.LRecv Session.DB) y4 R3 P3) as (s4 & H4 & R4 & P4 & V4 & D4 & X4 & S4); [rewrite V3, V2, V1; exact L|reflexivity|rewrite X3|exact HX|].
  { unfold Session.step. cbn. rewrite HX, I2. unfold Session.recv_on. cbn. rewrite E2. reflexivity. }
  exists s4. split; [cbn [outside_leaves app run]; rewrite H1, H2, H3, H4; reflexivity|]. split; [exact R4|]. split; [exact P4|]. split; [congruence|]. split; [congruence|]. split.
  - rewrite X4. unfold abandoned, conn_is. cbn. rewrite HS, HE, O1, O2, PP. split; [reflexivity|]. split; [eauto|]. split; [eauto|]. split; [reflexivity|].
    split; [|repeat (split; [reflexivity|]); intros [] Hl; try discriminate Hl; try destruct d; unfold Session.step; cbn; rewrite ?HX, ?O1, ?O2, ?PP, ?Q1, ?Q2, ?Q3, ?Q4; reflexivity].
    intros z [] Hz; cbn in Hz; injection Hz as <-; assumption.
  - intros c' Hc. rewrite S4, S3, S2, S1 by exact Hc. reflexivity.
Qed.
Lemma crowd s t l E cfg p b k : reachable step init s -> panicked s = None -> unlocked s -> in_accept s t l -> holds s cfg -> Session.parse_uri E (DatabaseURL cfg) = Ok p -> asks_right p b ->
  exists ls s', run step s ls = Some s' /\ reachable step init s' /\ panicked s' = None /\ unlocked s' /\ in_accept s' t l /\ holds s' cfg /\
  Server.next_conn (srv s') = (Server.next_conn (srv s) + k)%nat /\ Server.sessions (srv s') = rev (seq (Server.next_conn (srv s)) k) ++ Server.sessions (srv s) /\
  (forall c, (Server.next_conn (srv s) <= c < Server.next_conn (srv s) + k)%nat -> abandoned (sess s' c)) /\
  (forall c, (c < Server.next_conn (srv s))%nat -> sess s' c = sess s c) /\
  Forall (fun x => own x \/ exists c, In x (outside_connects t c b ++ outside_leaves c)) ls.
Proof.
  intros R P M A Ho PU AR. induction k as [|k (ls & s1 & H & R1 & P1 & M1 & A1 & Ho1 & N1 & T1 & B1 & S1 & F1)].
  - exists [], s. rewrite Nat.add_0_r. split; [reflexivity|]. split; [exact R|]. split; [exact P|]. split; [exact M|]. split; [exact A|]. split; [exact Ho|]. split; [reflexivity|]. split; [reflexivity|]. split; [intros c X; lia|]. split; [reflexivity|constructor].
  - destruct (connected s1 t l E cfg p b R1 P1 M1 A1 Ho1 PU AR) as (ls2 & s2 & H2 & R2 & P2 & M2 & A2 & Ho2 & N2 & T2 & FR & (r & C1 & C2 & C3) & C4 & C5 & C6 & S2 & F2). set (c := Server.next_conn (srv s1)) in *.
    destruct (gone_away s2 c p b r R2 P2 ltac:(rewrite N2; lia) FR C1 C2 C3 C4 C5 C6) as (s3 & H3 & R3 & P3 & V3 & D3 & AB & S3).
    exists (ls ++ ls2 ++ outside_leaves c ++ [YSession c (Session.LRecv Session.Client); YSession c (Session.LRecv Session.DB)]), s3.
    split; [rewrite run_app, H, run_app, H2; exact H3|]. split; [exact R3|]. split; [exact P3|]. unfold unlocked, in_accept, holds. rewrite V3, D3. split; [exact M2|]. split; [exact A2|]. split; [exact Ho2|].
    split; [rewrite N2, N1; lia|]. split; [rewrite T2, T1, N1, seq_S, rev_app_distr; reflexivity|]. split.
    + intros c' X. destruct (Nat.eq_dec c' c) as [->|D]; [exact AB|]. rewrite S3, S2 by exact D. apply B1. lia.
    + split; [intros c' X; rewrite S3, S2 by lia; apply S1, X|]. apply Forall_app. split; [exact F1|]. apply Forall_app. split.
      * eapply Forall_impl; [|exact F2]. intros x [X|X]; [auto|]. right. exists c. apply in_or_app. auto.
      * repeat (apply Forall_cons; [first [left; exact I|right; exists c; cbn; auto 8]|]). apply Forall_nil.
Qed.
(** *** At rest the distributor has a configuration *)
Lemma rest_holds s t l : reachable step init s -> panicked s = None -> at_rest s -> in_accept s t l -> exists cfg, holds s cfg.
Proof.
  intros R P Q [A _]. pose proof (rest_quiet s Q) as QQ. pose proof (reachable_calm _ R) as CA.
  destruct (ca_main _ CA) as [[X _]|[X L]]; [rewrite (untouched _ R X) in A; discriminate A|].
  pose proof (quiet_loop s R P QQ L) as V. pose proof (quiet_writer s R P QQ V) as W.
  destruct (Distributor.last (dist s)) as [cfg|] eqn:E.
  - exists cfg. split; [|exact W]. rewrite <- (DistributorProofs.mi_last _ (DistributorProofs.reachable_mon _ (pt_dist _ (reachable_parts _ R)))). exact E.
  - exfalso. destruct (du_blank _ (reachable_duties _ R) E) as [B _]. destruct (Nat.eq_dec t 0) as [->|D]; [rewrite V in A; discriminate A|rewrite (B t D) in A; discriminate A].
Qed.
