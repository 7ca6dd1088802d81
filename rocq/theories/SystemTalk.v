(** A client and the database talk to each other through the program. *)
From Verif Require Import Fair SystemReloadLive SystemAttendLive SystemConnect SystemCrowd SystemProofs SystemTrace SystemFacts SystemQuiet SystemBusy SystemServing SystemSessions SessionFlow SessionTraffic SessionCancel ConnFacts.
From Verif Require Export SpecTalk.
Import SpecTalk SpecConnect SpecSettle SpecAttend System.
Require Import Lia.

(** *** The bytes of messages *)
Lemma packets_decode (P : bytes -> Prop) (HP : forall l rest r, P l -> SpecFrames.stream r (l ++ rest) ->
    exists m r', Conn.RecvMessage r = Frames.Done (Ok m) r' /\ SpecFrames.stream r' rest /\ Frames.fin r' = Frames.fin r /\ Conn.SendMessage m = l) :
  forall ls more, Forall P ls -> exists ms, SpecSession.decodes_standard (concat ls ++ more) ms more /\ concat (map Conn.SendMessage ms) = concat ls.
Proof.
  induction ls as [|l ls IH]; intros more F; [exists []; split; [constructor|reflexivity]|]. inversion F as [|? ? Hl Hls]; subst. destruct (IH more Hls) as (ms & D & E).
  cbn [concat]. rewrite <- app_assoc. destruct (HP l (concat ls ++ more) (Frames.Reader [l ++ concat ls ++ more] None) Hl) as (m & r' & Er & Es & _ & Em).
  { unfold SpecFrames.stream. cbn. apply app_nil_r. }
  apply SessionDecode.recv_inv in Er. destruct Er as (_ & f & Ef & Ed). cbn in Ef. rewrite app_nil_r in Ef. unfold SpecFrames.stream in Es. rewrite Es in Ef.
  exists (m :: ms). split; [econstructor; eassumption|]. cbn. rewrite Em, E. reflexivity.
Qed.
(** one answer for every SSLRequest *)
Lemma ssl_exactly ss v pk more : Forall (startup_wire ssl_request_code []) ss -> packet_code v pk -> v <> ssl_request_code ->
  forall reqs m mid, SpecSession.decodes_startup (concat ss ++ pk ++ more) (reqs ++ [m]) mid -> Forall SpecSession.ssl_request reqs -> ~ SpecSession.ssl_request m -> length reqs = length ss.
Proof.
  intros Fs Hp Hv. induction Fs as [|l ss Hl Fs IH]; intros reqs m mid D F N; cbn [concat app] in D.
  - destruct reqs as [|q reqs]; [reflexivity|]. exfalso. inversion D as [|? f s' ? ? ? Hf Hm D']; subst. destruct (first_packet _ _ _ _ _ _ Hp Hf Hm) as (_ & _ & ps & ->).
    inversion F as [|? ? (q & X)]; subst. injection X as X _. contradiction.
  - rewrite <- app_assoc in D. pose proof (wire_packet _ _ _ Hl) as Pl. destruct reqs as [|q reqs]; inversion D as [|? f s' ? ? ? Hf Hm D']; subst; destruct (first_packet _ _ _ _ _ _ Pl Hf Hm) as (_ & -> & ps & ->).
    + destruct N. exists ps. reflexivity.
    + inversion F; subst. cbn. f_equal. exact (IH _ _ _ D' ltac:(assumption) N).
Qed.
Lemma arrived_step d x k x' : Session.step x k = Some x' -> exists more, SpecSession.arrived d (Session.hist x') = SpecSession.arrived d (Session.hist x) ++ more.
Proof.
  intros H. SessionProofs.dstep H; cbn; try (exists []; rewrite app_nil_r; reflexivity).
  all: destruct d; try destruct d0; cbn; try (exists []; rewrite app_nil_r; reflexivity); eexists; reflexivity.
Qed.

(** *** What keeps a session going *)
Definition smooth (k : Session.label) : Prop := harmless k /\ match k with Session.LReset _ _ | Session.LWriteErr _ _ => False | _ => True end.
Definition talks (db : bytes) (x : Session.state) : Prop := hopeful db x /\ only_in_exits x /\ forall d, intact d x.
Lemma in_exits_step x k x' : SessionProofs.close_inv x -> Session.closed x = EvInit -> only_in_exits x -> Session.step x k = Some x' -> smooth k -> only_in_exits x'.
Proof.
  intros CI CL E H [_ SM]. destruct (SessionProofs.ki_init _ CI CL) as [Hsh _]. unfold SessionProofs.shut in Hsh. cbn in Hsh. injection Hsh as _ C1 C2 C3 C4.
  SessionProofs.dstep H; try contradiction SM; unfold only_in_exits in *; cbn; try exact E.
  all: try (destruct d; congruence).
  all: intros g r0 X; apply in_app_or in X; destruct X as [X|[X|[]]]; [exact (E _ _ X)|injection X as <- _; eauto].
Qed.
Lemma still_open x d : SessionLife.all_inv x -> Session.closed x = EvInit -> forall c, Session.conns x d = Some c -> Session.is_open c = true.
Proof.
  intros A CL c C. destruct d; [|exact (SessionLife.al_db_open _ A _ C CL)].
  destruct (SessionProofs.ki_init _ (SessionPipe.pp_close _ (SessionLife.al_pipes _ A)) CL) as [Hsh _]. unfold SessionProofs.shut in Hsh. cbn in Hsh. rewrite C in Hsh. injection Hsh as X _ _ _ _. exact X.
Qed.
Lemma talks_step db x k x' : SessionLife.all_inv x -> pexit_ok x -> alone x -> talks db x -> Session.step x k = Some x' -> ~ SpecSession.calls_close k -> smooth k -> suits db x' -> Session.crashed x' = None ->
  talks db x'.
Proof.
  intros A PX AL (HO & E & I) H NC SM SU CR. pose proof (hopeful_step _ _ _ _ A PX AL HO H NC (proj1 SM) SU) as HO'.
  assert (Session.closed x = EvInit) as CL by (destruct AL as [_ CL]; unfold hopeful in HO; destruct (Session.start_pc x); try exact CL; contradiction).
  assert (forall t e, k <> Session.LClose t e) as NK.
  { intros t e ->. pose proof (SessionProofs.ph_close _ (SessionPipe.pp_phase _ (SessionLife.al_pipes _ A))) as K0. destruct AL as [K1 _]. unfold Session.step, Session.go_close in H. destruct (Session.crashed x); [discriminate H|].
    assert (Session.close_pc x t = Session.KIdle) as K; [|rewrite K in H; discriminate H]. destruct t as [|t]; [|apply K1]. unfold hopeful in HO. destruct (Session.start_pc x); try contradiction; exact K0. }
  split; [exact HO'|]. split; [exact (in_exits_step _ _ _ (SessionPipe.pp_close _ (SessionLife.al_pipes _ A)) CL E H SM)|].
  intros d. apply (intact_step d x k x' (SessionPipe.pp_phase _ (SessionLife.al_pipes _ A)) (SessionLife.al_dec _ A d)); auto.
  - apply still_open; assumption.
  - intros e ->. destruct SM as [_ []].
  - unfold hopeful in HO'. destruct (Session.start_pc x'); auto.
Qed.
Lemma talks_run db ks x x' : SessionLife.all_inv x -> pexit_ok x -> alone x -> talks db x -> run Session.step x ks = Some x' -> Forall (fun k => ~ SpecSession.calls_close k /\ smooth k) ks ->
  suits db x' -> Session.crashed x' = None -> talks db x'.
Proof.
  revert x. induction ks as [|k ks IH]; intros x A PX AL HO H F SU CR; cbn in H; [injection H as <-; exact HO|]. destruct (Session.step x k) as [x1|] eqn:K; [|discriminate H]. inversion F as [|? ? [F1 F2] F3]; subst.
  pose proof (SessionLife.al_pipes _ A) as PI. apply (IH x1); auto; [eapply SessionLife.all_step; eassumption|eapply pexit_step; [apply (SessionPipe.pp_close _ PI)|eassumption|eassumption]|eapply alone_step; [apply (SessionPipe.pp_phase _ PI)| | |]; eassumption|].
  assert (Session.crashed x1 = None) as C1. { destruct ks as [|k1 ks]; cbn in H; [injection H as <-; exact CR|]. unfold Session.step in H. destruct (Session.crashed x1); [discriminate H|reflexivity]. }
  eapply talks_step; try eassumption. intros E cfg X. apply SU. revert X. revert H. clear. revert x1.
  induction ks as [|k ks IH]; intros x1 H X; cbn in H; [injection H as <-; exact X|]. destruct (Session.step x1 k) as [x2|] eqn:K; [|discriminate H]. apply (IH _ H). clear - K X.
  SessionProofs.dstep K; cbn; auto; apply in_or_app; left; exact X.
Qed.
Lemma smooth_moves s l s' c : reachable step init s -> step s l = Some s' -> ~ breaks c l ->
  exists ks, run Session.step (sess s c) ks = Some (sess s' c) /\ Forall (fun k => ~ SpecSession.calls_close k /\ smooth k) ks.
Proof.
  intros R H NB. destruct (step_moves _ _ _ H) as (_ & m & P & E1 & E2 & E3 & E4 & E5 & _). destruct (Nat.eq_dec c (mc m)) as [->|N]; [|exists []; rewrite (E5 _ N); split; [reflexivity|constructor]].
  exists (ms m). split; [exact E4|]. destruct (calm_plan _ _ _ _ (reachable_calm _ R) P E3) as (_ & _ & NC).
  assert (Forall (fun k => ~ SpecSession.calls_close k) (ms m)) as F1. { apply Forall_forall. intros k K X. destruct k; try contradiction X. exact (NC _ K). }
  enough (Forall smooth (ms m)) as F2. { apply Forall_forall. intros k K. rewrite Forall_forall in F1, F2. auto. }
  clear F1 NC E4 E5. pose proof (ca_dist _ (reachable_calm _ R)) as CD. unfold smooth.
  dplan P; cbn [ms mc] in *; try solve [repeat constructor; eauto].
  - constructor; [|constructor]. apply andb_prop in Heqb. destruct Heqb as [_ X]. unfold harmless, breaks in *. destruct l; auto; try discriminate X; try (destruct r; auto); try (destruct d; auto); split; auto; apply NB; reflexivity.
  - constructor; [split; [eexists; reflexivity|exact I]|constructor].
  - exfalso. unfold returning in Heqo. rewrite (cd_closed _ CD) in Heqo. pose proof (cd_pcs _ CD t) as K. pose proof (reachable_normal _ R t) as N.
    destruct (Distributor.pcs (dist s) t); try discriminate Heqo; try (destruct k; try discriminate Heqo); try destruct snapshot; try discriminate Heqo; try contradiction.
Qed.
Lemma waiting_step s l s' c : reachable step init s -> step s l = Some s' -> Session.start_pc (sess s c) = Session.SWait -> Session.crashed (sess s c) = None ->
  match mine c l with Some x => Session.step (sess s c) x = Some (sess s' c) | None => sess s' c = sess s c end.
Proof.
  intros R E G1 G3. destruct (step_moves _ _ _ E) as (_ & m & P & _ & _ & E3 & E4 & E5 & _). pose proof (reachable_linked _ R) as LK. pose proof (reachable_calm _ R) as CA.
  destruct (calm_plan _ _ _ _ CA P E3) as (_ & C2 & _).
  destruct (Nat.eq_dec c (mc m)) as [->|N].
  - dplan P; cbn [mine]; runs; try congruence; try (rewrite Nat.eqb_refl; assumption); exfalso.
    all: try (unfold Session.step in E4; rewrite G3, G1 in E4; discriminate E4).
    all: try match goal with X : Server.pcs _ ?t = _ |- _ => pose proof (lk_agree _ LK t _ ltac:(rewrite X; reflexivity)) as AG; rewrite X in AG; cbn [agrees] in AG; destruct AG; congruence end.
    all: try match goal with X : Server.pcs _ ?t = _ |- _ => pose proof (lk_agree _ LK t _ ltac:(rewrite X; reflexivity)) as AG; rewrite X in AG; cbn [agrees] in AG; congruence end.
    all: destruct CA as [I1 _ _]; assert (W : worker (Server.pcs (srv s) t) \/ in_loop (Server.pcs (srv s) t))
      by (destruct (Nat.eq_dec t 0) as [->|D]; [destruct (cv_main _ I1) as [M|M]; [left; rewrite M; exact I|auto]|left; exact (cv_worker _ I1 t D)]).
    3: rewrite Heqp in W; destruct W as [[]|[]].
    all: unfold Server.step in E3; destruct (Server.crashed (srv s)); try discriminate E3; destruct (Server.pcs (srv s) t); try discriminate E3; destruct W as [[]|[]].
  - pose proof (E5 c N) as X. unfold mine. destruct l; try exact X. destruct (Nat.eqb_spec c0 c) as [->|]; [|exact X]. exfalso. apply N. dplan P. reflexivity.
Qed.

Section Talk.
  Variables (st : nat -> state) (lb : nat -> option label) (c : nat) (db : bytes).
  Hypothesis EX : execution step st lb.
  Hypothesis R0 : reachable step init (st 0%nat).
  Hypothesis FR : fair_roles st lb.
  Hypothesis WF : writers_first st lb.
  Hypothesis FG : fair_goroutines st lb.
  Hypothesis FP : fair_peers c st lb.
  Hypothesis SG : SpecLive.fair_goroutines (of_session c st) (lb_session c lb).
  Hypothesis SS : SpecLive.fair_select (of_session c st) (lb_session c lb).
  Variable i : nat.
  Hypothesis A : In c (accepted (Server.hist (srv (st i)))).
  Hypothesis N : negotiating (sess (st i) c).
  Hypothesis AS : asks_for_db db (sess (st i) c).
  Hypothesis NB : forall k l, (i <= k)%nat -> lb k = Some l -> ~ breaks c l.
  Hypothesis SU : forall k, (i <= k)%nat -> suits db (sess (st k) c).
  Let RC := reach st lb EX R0.
  Lemma talks_first : talks db (sess (st i) c).
  Proof.
    destruct (session_alone_inv _ c (RC i)) as (AI & _). pose proof (SessionLife.al_pipes _ AI) as PI. pose proof (SessionProofs.ph_phase _ (SessionPipe.pp_phase _ PI)) as PH.
    assert (SessionProofs.off (sess (st i) c) /\ Session.conns (sess (st i) c) Session.DB = None) as [(O1 & O2 & O3 & O4 & O5) ND] by (unfold negotiating in N; destruct (Session.start_pc (sess (st i) c)); try contradiction; exact PH).
    split; [unfold hopeful, negotiating in *; destruct (Session.start_pc (sess (st i) c)); try contradiction; exact AS|]. split.
    - intros g r X. exfalso. pose proof (SessionLife.li_gone _ (SessionLife.al_life _ AI) g) as [G _]. apply (in_map fst) in X. specialize (G X). destruct g as [[]|[]|]; cbn in G; congruence.
    - intros d. destruct (SessionLife.al_dec _ AI d) as [_ (mid & rest & D1 & D2 & U)]. exists mid, rest. split; [exact D1|]. split; [exact D2|]. unfold SessionDecode.reading, SessionDecode.unread in U.
      assert (Session.in_pc (sess (st i) c) d = Session.IOff) as O by (destruct d; assumption). rewrite O in U |- *.
      specialize (U ltac:(split; [discriminate|unfold negotiating in N; destruct (Session.start_pc (sess (st i) c)); try contradiction; exact I])).
      destruct d; [|rewrite ND in *; exact U]. destruct AS as (r & ss & b & more & ps & C & E & F & W & _). rewrite C in *. cbn in *. split; [|discriminate]. intros _. destruct U as [U|[U _]]; [exact U|exfalso].
      rewrite E in U. apply app_eq_nil in U. destruct U as [_ U]. apply app_eq_nil in U. destruct U as [U _]. apply wire_packet in W. apply (SessionCancel.packet_frame _ _ []) in W. rewrite U in W. apply SessionDecode.frame_at_nil in W; [exact W|lia].
  Qed.
  Lemma keeps_talking j : (i <= j)%nat -> Session.crashed (sess (st j) c) <> None \/ talks db (sess (st j) c).
  Proof.
    apply (Fair.kept step st lb EX (fun s => Session.crashed (sess s c) <> None \/ talks db (sess s c)) i (or_intror talks_first)). intros k l Hk X B E. destruct (session_alone_inv _ c (RC k)) as (AI & PX & AL).
    destruct (smooth_moves _ _ _ c (RC k) E (NB _ _ Hk B)) as (ks & K & F). destruct X as [X|X].
    - destruct ks as [|k1 ks]; cbn in K; [injection K as <-; auto|]. unfold Session.step in K. destruct (Session.crashed (sess (st k) c)); [discriminate K|congruence].
    - destruct (Session.crashed (sess (st (S k)) c)) eqn:CR; [left; discriminate|right]. apply (talks_run db ks (sess (st k) c)); auto.
  Qed.
  Lemma stays_established j j' : established (sess (st j) c) -> (j <= j')%nat -> established (sess (st j') c).
  Proof.
    intros W. apply (Fair.kept step st lb EX (fun s => established (sess s c)) j W). intros k l Hk X B E. destruct (session_alone_inv _ c (RC k)) as (AI & PX & AL).
    destruct (step_moves _ _ _ E) as (_ & m & P & _ & _ & E3 & E4 & E5 & _). destruct (Nat.eq_dec c (mc m)) as [->|D]; [|unfold established; rewrite (E5 _ D); exact X].
    destruct (calm_plan _ _ _ _ (reachable_calm _ (RC k)) P E3) as (_ & _ & NC). apply (stays_running _ _ _ AI PX AL X E4). apply Forall_forall. intros q K Y. destruct q; try contradiction Y. exact (NC _ K).
  Qed.
  Lemma arrives d j j' : (j <= j')%nat -> exists more, SpecSession.arrived d (Session.hist (sess (st j') c)) = SpecSession.arrived d (Session.hist (sess (st j) c)) ++ more.
  Proof.
    apply (Fair.kept step st lb EX (fun s => exists more, SpecSession.arrived d (Session.hist (sess s c)) = SpecSession.arrived d (Session.hist (sess (st j) c)) ++ more) j); [exists []; symmetry; apply app_nil_r|].
    intros k l Hk (more & X) B E. destruct (step_moves _ _ _ E) as (_ & m & P & _ & _ & E3 & E4 & E5 & _). destruct (Nat.eq_dec c (mc m)) as [->|D]; [|rewrite (E5 _ D); eauto].
    assert (forall ks x x', run Session.step x ks = Some x' -> exists b, SpecSession.arrived d (Session.hist x') = SpecSession.arrived d (Session.hist x) ++ b) as Y.
    { induction ks as [|q ks IH]; intros x x' H; cbn in H; [injection H as <-; exists []; symmetry; apply app_nil_r|]. destruct (Session.step x q) as [x1|] eqn:Q; [|discriminate H].
      destruct (arrived_step d _ _ _ Q) as (b1 & E1). destruct (IH _ _ H) as (b2 & E2). exists (b1 ++ b2). rewrite E2, E1, app_assoc. reflexivity. }
    destruct (Y _ _ _ E4) as (b & Z). exists (more ++ b). rewrite Z, X, app_assoc. reflexivity.
  Qed.
  Lemma crash_is_panic j : (i <= j)%nat -> Session.crashed (sess (st j) c) <> None -> panicked (st j) <> None.
  Proof.
    intros Hj CR PN. apply CR. apply panic_session; [exact PN|]. pose proof (acc_later st lb EX R0 c i j A Hj) as X. rewrite accepted_all in X by exact (RC j). apply in_seq in X. lia.
  Qed.
  (** what is complete is delivered *)
  Lemma talk_delivered d ms j : (i <= j)%nat -> established (sess (st j) c) -> (exists rest, complete d (Session.hist (sess (st j) c)) ms rest) ->
    exists j', (j <= j')%nat /\ (panicked (st j') <> None \/ established (sess (st j') c) /\ delivered d (Session.hist (sess (st j') c)) ms).
  Proof.
    intros Hj W (rest & C). set (x := fun n => of_session c st (j + n)). set (xl := fun n => lb_session c lb (j + n)).
    assert (forall n, Session.crashed (x n) = None -> fine (x n)) as OK.
    { intros n CR. pose proof (stays_established j (j + n) W ltac:(lia)) as Wn. destruct (keeps_talking (j + n) ltac:(lia)) as [X|(_ & X & Y)]; [contradiction|]. split; [|exact Y].
      destruct (session_alone_inv _ c (RC (j + n)%nat)) as (_ & _ & _ & CL). unfold established in Wn. rewrite Wn in CL. repeat split; assumption. }
    assert (forall n, reachable Session.step Session.init (x n)) as RX by (intros n; apply (pt_sess _ (reachable_parts _ (RC (j + n)%nat)))).
    destruct (SessionFlow.ev_delivered x xl RX OK) with (d := d) (ms := ms) (i := 0%nat) (rest := rest) as (n & _ & D).
    - intros n [(P & _ & CR & _) _] _. unfold x, xl, of_session, lb_session in *. replace (j + S n)%nat with (S (j + n)) by lia. pose proof (EX (j + n)%nat) as E. destruct (lb (j + n)%nat) as [l|]; [|rewrite E; reflexivity].
      exact (waiting_step _ _ _ c (RC _) E P CR).
    - intros g n. destruct (SG g (j + n)%nat) as (m & M & X). exists (m - j)%nat. split; [lia|]. unfold x, xl. replace (j + (m - j))%nat with m by lia. exact X.
    - intros e n. destruct (SS e (j + n)%nat) as (m & M & X). exists (m - j)%nat. split; [lia|]. unfold x, xl. replace (j + (m - j))%nat with m by lia. destruct X as [X|X]; [left; exact X|right].
      intros k Hk. apply X. lia.
    - unfold x. rewrite Nat.add_0_r. exact C.
    - exists (j + n)%nat. split; [lia|]. destruct D as [D|D]; [left; apply crash_is_panic; [lia|exact D]|right]. split; [apply (stays_established j); [exact W|lia]|exact D].
  Qed.
  Lemma comes_to_be k : (i <= k)%nat -> exists j, (k <= j)%nat /\ (panicked (st j) <> None \/ established (sess (st j) c)).
  Proof.
    intros Hk. assert (forall k l, (i <= k)%nat -> lb k = Some l -> ~ goes_wrong c l) as NG.
    { intros q l Hq L X. apply (NB _ _ Hq L). unfold goes_wrong, breaks in *. destruct l; auto. destruct l; try destruct r; try destruct d; auto; contradiction. }
    destruct (connects st lb c db EX R0 FR WF FG FP i A N AS NG SU) as (j & Hj & X).
    assert (k <= j \/ j <= k)%nat as [L|L] by lia; [exists j; split; [exact L|]; destruct X as [X|[X _]]; auto|]. exists k. split; [lia|]. destruct X as [X|[X _]]; [left|right; exact (stays_established j k X L)].
    apply (Fair.kept step st lb EX (fun s => panicked s <> None) j X); [|exact L]. intros q l _ Y _ E. exfalso. unfold step in E. destruct (panicked (st q)); [discriminate E|congruence].
  Qed.
  (** the startup packet that the session accepted *)
  Lemma negotiated x ss ps b more : SessionLife.all_inv x -> established x -> Forall (startup_wire ssl_request_code []) ss -> startup_wire 196608 ps b ->
    SpecSession.arrived Session.Client (Session.hist x) = concat ss ++ b ++ more ->
    SpecSession.base Session.DB (Session.hist x) = b /\ SpecSession.base Session.Client (Session.hist x) = repeat "N"%byte (length ss) /\
    SpecSession.decodes_startup (SpecSession.arrived Session.Client (Session.hist x)) (SpecSession.startups (Session.hist x)) more.
  Proof.
    intros AI W F Wb E. pose proof (SessionPipe.pp_nego _ (SessionLife.al_pipes _ AI)) as NE. unfold SessionPipe.nego_ok in NE. unfold established in W. rewrite W in NE.
    destruct NE as (p & qs & ((reqs & Fr & SE) & _) & _ & CO). destruct (SessionLife.al_dec _ AI Session.Client) as [_ (mid & rest & D1 & _)]. cbn in D1.
    assert (~ SpecSession.ssl_request (Messages.StartupMessage 196608 qs)) as NS by (intros (? & X); discriminate X).
    rewrite SE in D1. destruct (startup_conform ss b 196608 ps F Wb ltac:(discriminate) _ _ _ _ D1 Fr NS [] more ltac:(rewrite app_nil_r; exact E)) as (_ & M & SM). rewrite app_nil_r in M. subst mid.
    split; [|split; [|rewrite SE; exact D1]].
    - unfold SpecSession.base. rewrite CO, SE, last_last. exact SM.
    - unfold SpecSession.base. f_equal. rewrite E in D1. rewrite <- (ssl_exactly ss 196608 b more F (wire_packet _ _ _ Wb) ltac:(discriminate) _ _ _ D1 Fr NS), SE.
      rewrite <- (SessionMore.ssl_all reqs Fr). unfold SpecSession.ssl_count. rewrite filter_app, app_length. cbn. apply Nat.add_0_r.
  Qed.
  Lemma request_served k ss ps b ls more : (i <= k)%nat -> SpecSession.arrived Session.Client (Session.hist (sess (st k) c)) = concat ss ++ b ++ concat ls ++ more ->
    Forall (startup_wire ssl_request_code []) ss -> startup_wire 196608 ps b -> Forall frontend_packet ls ->
    exists j, (k <= j)%nat /\ (panicked (st j) <> None \/ exists rest, SpecSession.sent Session.DB (Session.hist (sess (st j) c)) = b ++ concat ls ++ rest).
  Proof.
    intros Hk E F Wb P. destruct (comes_to_be k Hk) as (j & Hj & [X|W]); [exists j; auto|]. destruct (arrives Session.Client k j Hj) as (m2 & E2). rewrite E, <- !app_assoc in E2.
    destruct (session_alone_inv _ c (RC j)) as (AI & _). destruct (negotiated _ _ _ _ _ AI W F Wb E2) as (_ & _ & D). destruct (packets_decode frontend_packet frontend_forwarded ls (more ++ m2) P) as (ms & D2 & D3).
    destruct (talk_delivered Session.Client ms j ltac:(lia) W) as (j' & Hj' & [X|[W' DE]]); [exists (more ++ m2), (concat ls ++ more ++ m2); auto|exists j'; split; [lia|auto]|].
    exists j'. split; [lia|]. right. destruct DE as (r & DE). cbn [Session.other] in DE. destruct (arrives Session.Client j j' Hj') as (m3 & E3). rewrite E2, <- !app_assoc in E3.
    destruct (session_alone_inv _ c (RC j')) as (AI' & _). destruct (negotiated _ _ _ _ _ AI' W' F Wb E3) as (B & _). exists r. rewrite DE, B, D3. reflexivity.
  Qed.
  Lemma answer_served k ss ps b more ls more' : (i <= k)%nat -> SpecSession.arrived Session.Client (Session.hist (sess (st k) c)) = concat ss ++ b ++ more ->
    Forall (startup_wire ssl_request_code []) ss -> startup_wire 196608 ps b -> SpecSession.arrived Session.DB (Session.hist (sess (st k) c)) = concat ls ++ more' -> Forall backend_packet ls ->
    exists j, (k <= j)%nat /\ (panicked (st j) <> None \/ exists rest, SpecSession.sent Session.Client (Session.hist (sess (st j) c)) = repeat "N"%byte (length ss) ++ concat ls ++ rest).
  Proof.
    intros Hk E F Wb ED P. destruct (comes_to_be k Hk) as (j & Hj & [X|W]); [exists j; auto|]. destruct (arrives Session.DB k j Hj) as (m2 & E2). rewrite ED, <- !app_assoc in E2.
    destruct (packets_decode backend_packet backend_forwarded ls (more' ++ m2) P) as (ms & D2 & D3).
    destruct (talk_delivered Session.DB ms j ltac:(lia) W) as (j' & Hj' & [X|[W' DE]]); [exists (more' ++ m2), (concat ls ++ more' ++ m2); rewrite E2; split; [constructor|exact D2]|exists j'; split; [lia|auto]|].
    exists j'. split; [lia|]. right. destruct DE as (r & DE). cbn [Session.other] in DE. destruct (arrives Session.Client k j' ltac:(lia)) as (m3 & E3). rewrite E, <- !app_assoc in E3.
    destruct (session_alone_inv _ c (RC j')) as (AI' & _). destruct (negotiated _ _ _ _ _ AI' W' F Wb E3) as (_ & B & _). exists r. rewrite DE, B, D3. reflexivity.
  Qed.
End Talk.
