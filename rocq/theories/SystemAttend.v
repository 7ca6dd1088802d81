(** The goroutine of a connection, one action at a time. *)
From Verif Require Import Fair.
From Verif Require Export SystemReload SystemServing SpecAttend.
Require Import Lia.

Lemma acting_dec s t l : acting s t l \/ ~ acting s t l.
Proof.
  unfold acting. destruct (acts_dec (Thread t) l) as [A|A]; [auto|].
  assert (forall c, has_conn (srv s) t c \/ ~ has_conn (srv s) t c) as H.
  { intros c. unfold has_conn. destruct (Server.pcs (srv s) t); auto; match goal with |- ?a = ?b \/ _ => destruct (Nat.eq_dec a b); auto end. }
  destruct l; try (right; tauto); try (destruct l; try (right; tauto)); try (destruct (Nat.eq_dec t0 t); [left; auto|right; tauto]); try (destruct (H c); [left; auto|right; tauto]).
  destruct t0; [destruct (H c); [left; auto|right; tauto]|right; tauto].
Qed.

(** *** The server's goroutines: only their own actions move them *)
Definition steady (p : Server.pc) : Prop :=
  match p with
  | Server.S2 _ | Server.S3 _ | Server.S4 _ | Server.S6 _ _ | Server.C0 _ | Server.C1 _ | Server.C2 _ | Server.C3 _ | Server.C4 _ | Server.C5 _ | Server.C6 _ | Server.C7 _ _ | Server.C8 _ _
  | Server.C9 _ _ | Server.C10 _ _ | Server.C11 _ _ | Server.CRet _ _ => True
  | _ => False
  end.
Definition elsewhere (t : tid) (l : Server.label) : Prop :=
  match l with
  | Server.LGo u | Server.LCloseListener u _ | Server.LEnd u _ => u <> t
  | Server.LSpawn u n => u <> t /\ n <> t
  | Server.LListen _ _ | Server.LAccept _ _ | Server.LStart _ | Server.LConfig _ | Server.LWatchdog _ | Server.LQuit _ => True
  | Server.LSubscribe u _ | Server.LRecv u => u <> t
  | _ => False
  end.
Lemma elsewhere_step v l v' t : Server.step v l = Some v' -> Server.shut_ev v = EvInit -> elsewhere t l -> steady (Server.pcs v t) -> Server.pcs v' t = Server.pcs v t.
Proof.
  intros H SH L B. vstep H; cbn in *; auto; unfold upd; repeat (eqs; cbn); auto; try contradiction; try congruence.
  all: try (destruct L; congruence).
  all: try (match goal with E : Server.pcs _ _ = _ |- _ => rewrite E in B; contradiction B end).
Qed.
Lemma steady_keep s l s' t : reachable step init s -> step s l = Some s' -> ~ acting s t l -> steady (Server.pcs (srv s) t) -> Server.pcs (srv s') t = Server.pcs (srv s) t.
Proof.
  intros R E N B. pose proof (ca_srv _ (reachable_calm _ R)) as CV. destruct (step_moves _ _ _ E) as (_ & m & P & _ & _ & E3 & _).
  assert (t <> 0%nat) as T0. { intros ->. destruct (cv_main _ CV) as [X|X]; [rewrite X in B; exact B|]. destruct (Server.pcs (srv s) 0%nat); contradiction. }
  assert (UN : forall n, unused s n = true -> n <> t). { intros n Hn ->. destruct (unused_spec _ _ Hn) as (_ & _ & X). rewrite X in B. exact B. }
  assert (W : forall u p, Server.pcs (srv s) u = p -> worker p \/ in_loop p).
  { intros u p <-. destruct (Nat.eq_dec u 0) as [->|X]; [|left; apply (cv_worker _ CV u X)]. destruct (cv_main _ CV) as [M|M]; [left; rewrite M; exact I|right; exact M]. }
  pose proof (cv_main _ CV) as CM. clear E. unfold acting in N.
  dplan P; runs; try (rewrite E3; reflexivity).
  all: try match goal with E : Server.pcs _ _ = ?p |- _ => let X := fresh in pose proof (W _ _ E) as X; cbn in X; destruct X; try contradiction end.
  all: try (apply (elsewhere_step _ _ _ _ E3 (cv_shut _ CV)); [|exact B]; cbn; auto).
  all: try (intros ->; apply N; cbn; auto; fail).
  all: try (exfalso; destruct (ca_main _ (reachable_calm _ R)) as [[X _]|[X _]]; congruence).
  - destruct l; try discriminate Heqb; cbn in *; auto; try (intros ->; tauto).
  - rewrite (calm_update _ _ _ _ CV Heqp H H0). cbn. apply upd_other, T0.
  - exfalso. clear - E3 W. revert E3. generalize (srv s'). intros v' H. vstep H; destruct (W _ _ Heqp) as [[]|[]].
  - exfalso. clear - E3 W. revert E3. generalize (srv s'). intros v' H. vstep H; destruct (W _ _ Heqp) as [[]|[]].
Qed.

(** *** session.Start: only its own actions move it *)
Definition idle_start (x : Session.state) : Prop :=
  match Session.start_pc x with
  | Session.SDeny _ | Session.SDial _ _ | Session.SSend _ => True
  | Session.SRecv | Session.SWait => Session.go_start x = None
  | _ => False
  end.
Lemma idle_dec x : idle_start x \/ ~ idle_start x.
Proof. unfold idle_start. destruct (Session.start_pc x); auto; destruct (Session.go_start x); auto; right; discriminate. Qed.
Definition same_start (x x' : Session.state) : Prop :=
  Session.start_pc x' = Session.start_pc x /\ Session.cached x' = Session.cached x /\ Session.close_pc x' 0%nat = Session.close_pc x 0%nat.
Lemma same_start_step x l x' : Session.step x l = Some x' -> match l with Session.LStart | Session.LClose 0 _ | Session.LConfig _ _ | Session.LCallStart => False | _ => True end ->
  ~ idle_start x -> same_start x x'.
Proof.
  intros H L N. unfold idle_start in N. unfold same_start.
  SessionProofs.dstep H; cbn in *; try contradiction; auto; repeat split; auto.
  all: try (match goal with E : Session.start_pc _ = _ |- _ => rewrite E in N; exfalso; apply N; exact I end).
  all: try (destruct t; [contradiction|reflexivity]).
Qed.
Lemma sess_keep s l s' t c : reachable step init s -> step s l = Some s' -> ~ acting s t l -> has_conn (srv s) t c -> ~ idle_start (sess s c) -> same_start (sess s c) (sess s' c).
Proof.
  intros R E N HC NI. pose proof (ca_srv _ (reachable_calm _ R)) as CV. destruct (step_moves _ _ _ E) as (_ & m & P & _ & _ & E3 & E4 & E5 & _).
  destruct (Nat.eq_dec c (mc m)) as [->|Hc]; [|rewrite E5 by exact Hc; repeat split].
  assert (OW : forall u, has_conn (srv s) u (mc m) -> u = t).
  { intros u X. apply has_own in X. apply has_own in HC. apply (ServerProofs.oi_conn _ (ServerProofs.reachable_own _ (pt_srv _ (reachable_parts _ R))) u t (mc m) X HC). }
  assert (W : forall u p, Server.pcs (srv s) u = p -> worker p \/ in_loop p).
  { intros u p <-. destruct (Nat.eq_dec u 0) as [->|X]; [|left; apply (cv_worker _ CV u X)]. destruct (cv_main _ CV) as [M|M]; [left; rewrite M; exact I|right; exact M]. }
  clear E E5. unfold acting in N. unfold has_conn in OW.
  dplan P; try (runs; rewrite E4; repeat split; fail).
  all: try (exfalso; match goal with E : Server.pcs _ ?u = _ |- _ => specialize (OW u); rewrite E in OW; specialize (OW eq_refl); apply N; cbn; auto end; fail).
  all: try (exfalso; match goal with E : Server.pcs _ ?u = _ |- _ => destruct (W _ _ E) as [[]|[]] end; fail).
  - apply run_one in E4. apply (same_start_step _ _ _ E4); [|exact NI]. apply andb_prop in Heqb. destruct Heqb as [_ X].
    destruct l; try discriminate X; auto; try tauto. destruct t0; [tauto|exact I].
  - exfalso. runs. clear - E3 W. revert E3. generalize (srv s'). intros v' H. vstep H; destruct (W _ _ Heqp) as [[]|[]].
  - exfalso. runs. clear - E3 W. revert E3. generalize (srv s'). intros v' H. vstep H; destruct (W _ _ Heqp) as [[]|[]].
Qed.
(** in session.Start, nothing to do: it waits *)
Lemma idle_hold s t c : reachable step init s -> panicked s = None -> Server.pcs (srv s) t = Server.C6 c -> idle_start (sess s c) -> on_hold s c.
Proof.
  intros R P Ep ID. assert (O : ServerProofs.own_conn (Server.pcs (srv s) t) = Some c) by (rewrite Ep; reflexivity).
  pose proof (lk_agree _ (reachable_linked _ R) t c O) as A. rewrite Ep in A. destruct A as [A CL].
  pose proof (ServerProofs.oi_conn_lt _ (ServerProofs.reachable_own _ (pt_srv _ (reachable_parts _ R))) t c O) as L. pose proof (panic_session s c P L) as PS.
  destruct (session_alone_inv _ c R) as (AI & _ & AL1 & AL2). pose proof (SessionLife.al_pipes _ AI) as PI.
  destruct (SessionPipe.pp_phase _ PI) as [PH1 PH2 PH3]. destruct (SessionProofs.ki_init _ (SessionPipe.pp_close _ PI) CL) as [SH _].
  assert (CO : exists r, Session.conns (sess s c) Session.Client = Some (Session.NetConn r true)).
  { unfold SessionProofs.shut in SH. cbn in SH. injection SH as SH _. destruct (Session.conns (sess s c) Session.Client) as [[r b]|]; [|discriminate SH]. injection SH as ->. eauto. }
  assert (DO : Session.conns (sess s c) Session.DB <> None -> conn_is true (sess s c) Session.DB).
  { destruct (Session.conns (sess s c) Session.DB) as [[r b]|] eqn:ED; [|congruence]. intros _. pose proof (SessionLife.al_db_open _ AI _ ED CL) as X. cbn in X. subst b. exists r. exact ED. }
  destruct CO as [r CO]. unfold on_hold, Session.step. rewrite PS. unfold idle_start in ID.
  destruct (Session.start_pc (sess s c)) eqn:E; try contradiction.
  - split; [|exact ID]. pose proof ID as ST. apply (waits_startup _ r E CO); unfold Session.go_start, Session.recv_on in ST; rewrite E, CO in ST; cbn in ST.
    all: destruct (Conn.RecvStartupMessage r) as [|x r'] eqn:ER; [apply (startup_blocked _ ER)|exfalso].
    all: unfold Conn.RecvStartupMessage in ER; destruct (Frames.ReadStartupFrame r) as [|y r1]; [discriminate ER|]; injection ER as ER <-.
    all: destruct x as [m| |]; try discriminate ST; destruct y as [f| |]; try discriminate ER; cbn in ER; destruct (ConnProofs.startup_sound _ _ ER) as (v & ps & b & l & tr & -> & _); discriminate ST.
  - split; [|unfold Session.go_start; rewrite E; reflexivity]. apply (waits_refusal _ rest E). exists r. exact CO.
  - split; [|unfold Session.go_start; rewrite E; reflexivity]. apply (waits_dial _ _ _ E).
  - split; [|unfold Session.go_start; rewrite E; reflexivity]. apply (waits_send _ _ E), DO, PH2.
  - split; [|exact ID]. apply (waits_traffic _ E), DO, PH2.
Qed.

(** *** What is left to do for a connection *)
Definition grank (p : Distributor.pc) : nat := match p with Distributor.Idle => 6 | Distributor.G0 => 5 | Distributor.G1 => 4 | Distributor.G2 => 3 | _ => 2 end.
Definition wrank (w : Session.want) : nat := match w with Session.WDatabase _ _ => 50 | Session.WHost _ => 40 | Session.WPort _ _ => 30 end.
Definition strank (s : state) (t : tid) (x : Session.state) : nat :=
  match Session.start_pc x with
  | Session.SRecv => 60
  | Session.SGet w => wrank w + match Session.cached x with None => grank (Distributor.pcs (dist s) t) | Some _ => 0 end
  | Session.SWait => 21
  | _ => 20
  end.
Definition klrank (k : Session.kpc) : nat :=
  match k with Session.K1 => 8 | Session.K2 => 7 | Session.K3 _ => 6 | Session.K4 _ => 5 | Session.K5 _ => 4 | Session.K6 _ => 3 | Session.K7 _ => 2 | _ => 1 end.
Definition lrank (s : state) (t : tid) : nat :=
  match Server.pcs (srv s) t with
  | Server.S6 _ _ => 96 | Server.C0 _ => 95 | Server.C1 _ => 94 | Server.C2 _ => 93 | Server.C3 _ => 92 | Server.C4 _ => 91 | Server.C5 _ => 90
  | Server.C6 c => strank s t (sess s c) | Server.C7 _ _ => 19 | Server.C8 c _ => 5 + klrank (Session.close_pc (sess s c) 0%nat)
  | Server.C9 _ _ => 4 | Server.C10 _ _ => 3 | Server.C11 _ _ => 2 | Server.CRet _ _ => 1
  | _ => 0
  end.
Lemma dist_keep s l s' t c : reachable step init s -> step s l = Some s' -> ~ acting s t l -> Server.pcs (srv s) t = Server.C6 c -> Distributor.pcs (dist s') t = Distributor.pcs (dist s) t.
Proof.
  intros R E N V. assert (NA : ~ acts (Thread t) l) by (unfold acting in N; tauto).
  destruct (Distributor.pcs (dist s) t) eqn:D; try (rewrite <- D; apply (keep_pc s l); auto; rewrite D; discriminate).
  assert (t <> 0%nat) as T0. { intros ->. destruct (cv_main _ (ca_srv _ (reachable_calm _ R))) as [X|X]; rewrite V in X; [discriminate X|destruct X]. }
  destruct (dist_cases _ _ _ R E) as [X|[(l1 & X & C)|[-> X]]]; [rewrite X; exact D| |].
  - assert (G : l <> YGet t) by (intros ->; apply N; right; reflexivity).
    assert (UN : forall n, unused s n = true -> n <> t). { intros n Hn ->. destruct (unused_spec _ _ Hn) as (_ & _ & Y). congruence. }
    clear E. pose proof (reachable_normal _ R) as NN. revert X. generalize (dist s'). intros d' H.
    ddstep H; cbn in C; try contradiction; cbn; unfold upd; repeat (eqs; cbn); auto; try congruence.
    all: at_normal NN.
    all: try (destruct C as [_ C]; destruct (G C)).
    rewrite Heqp in C. destruct C as [_ C]. destruct (UN _ C eq_refl).
  - destruct (step_moves _ _ _ E) as (_ & m & P & _ & E2 & _). dplan P. apply run_two in E2. destruct E2 as (d1 & X1 & X2).
    revert X2. generalize (dist s'). intros d' X2. ddstep X1. ddstep X2; cbn; unfold upd; eqs; auto; congruence.
Qed.
Lemma conn_steady v t c : has_conn v t c -> steady (Server.pcs v t).
Proof. unfold has_conn. destruct (Server.pcs v t); cbn; tauto. Qed.
(** what others do leaves it as it is *)
Definition asleep (s : state) (t : tid) (c : nat) : Prop := Server.pcs (srv s) t = Server.C6 c /\ idle_start (sess s c).
Lemma asleep_dec s t c : asleep s t c \/ ~ asleep s t c.
Proof.
  unfold asleep. destruct (idle_dec (sess s c)); [|tauto]. destruct (Server.pcs (srv s) t); try (right; intros [X _]; discriminate X). destruct (Nat.eq_dec c0 c) as [->|X]; [auto|right; intros [Y _]; congruence].
Qed.
Lemma conn_keep s l s' t c : reachable step init s -> step s l = Some s' -> ~ acting s t l -> has_conn (srv s) t c -> ~ asleep s t c ->
  has_conn (srv s') t c /\ lrank s' t = lrank s t.
Proof.
  intros R E N HC NA. pose proof (steady_keep _ _ _ _ R E N (conn_steady _ _ _ HC)) as K.
  split; [unfold has_conn; rewrite K; exact HC|]. unfold lrank. rewrite K.
  destruct (Server.pcs (srv s) t) eqn:V; auto; unfold has_conn in HC; rewrite V in HC; subst.
  - assert (~ idle_start (sess s c)) as NI by (intros X; apply NA; split; auto).
    destruct (sess_keep _ _ _ _ _ R E N ltac:(unfold has_conn; rewrite V; reflexivity) NI) as (K1 & K2 & K3).
    unfold strank. rewrite K1, K2, (dist_keep _ _ _ _ _ R E N V). reflexivity.
  - assert (~ idle_start (sess s c)) as NI.
    { pose proof (lk_agree _ (reachable_linked _ R) t c ltac:(rewrite V; reflexivity)) as A. rewrite V in A. destruct A as (A & _). unfold idle_start. rewrite A. tauto. }
    destruct (sess_keep _ _ _ _ _ R E N ltac:(unfold has_conn; rewrite V; reflexivity) NI) as (K1 & K2 & K3). rewrite K3. reflexivity.
Qed.
(** it can act, but for the locks *)
Definition can_act (s : state) (t : tid) : Prop := exists l, acting s t l /\ step s l <> None.
Definition waits_mutex (s : state) (t : tid) : Prop := match Server.pcs (srv s) t with Server.C2 _ | Server.C9 _ _ => True | _ => False end.
Definition waits_read (s : state) (t : tid) : Prop := Distributor.pcs (dist s) t = Distributor.G1.
Lemma server_acts s t v' : panicked s = None -> Server.step (srv s) (Server.LGo t) = Some v' -> server_alone s (Server.LGo t) = true -> can_act s t.
Proof. intros P H A. exists (YServer (Server.LGo t)). split; [left; reflexivity|]. eapply server_can; eassumption. Qed.
Lemma session_can s t c l x' : panicked s = None -> has_conn (srv s) t c -> (c < Server.next_conn (srv s))%nat -> session_alone (sess s c) l = true -> Session.step (sess s c) l = Some x' ->
  match l with Session.LStart | Session.LClose 0 _ => True | _ => False end -> can_act s t.
Proof.
  intros P HC L A H LL. exists (YSession c l). split; [right; destruct l; try contradiction; [exact HC|destruct t0; [exact HC|contradiction]]|]. apply Nat.ltb_lt in L.
  intros Q. destruct (stuck s (YSession c l) _ P ltac:(cbn; rewrite L, A; reflexivity) Q) as [X|[X|[X|X]]]; try discriminate X. cbn [mc ms] in X. apply run1 in X. congruence.
Qed.
Lemma conn_able s t c : reachable step init s -> panicked s = None -> up s -> has_conn (srv s) t c -> ~ asleep s t c ->
  (waits_mutex s t -> Server.mu (srv s) = None) -> (waits_read s t -> Distributor.writer (dist s) = None) -> can_act s t.
Proof.
  intros R P U HC NA LM LR. pose proof HC as O. apply has_own in O. pose proof (ca_srv _ (reachable_calm _ R)) as CA. pose proof (cv_crash _ CA) as CC.
  pose proof (reachable_linked _ R) as LK. pose proof (lk_agree _ LK t c O) as A. pose proof (lk_fired _ LK c) as F.
  pose proof (ServerProofs.oi_conn_lt _ (ServerProofs.reachable_own _ (pt_srv _ (reachable_parts _ R))) t c O) as L. pose proof (panic_session s c P L) as PS.
  destruct (session_alone_inv _ c R) as (AI & _ & AL1 & AL2). pose proof (SessionProofs.ph_close _ (SessionPipe.pp_phase _ (SessionLife.al_pipes _ AI))) as PC.
  assert (G : forall v', server_alone s (Server.LGo t) = true -> Server.go (srv s) t = Some v' -> can_act s t).
  { intros v' H1 H2. eapply server_acts; [exact P| |exact H1]. unfold Server.step. rewrite CC. exact H2. }
  unfold server_alone, Server.go, Server.lock in G. unfold waits_mutex in LM.
  destruct (Server.pcs (srv s) t) eqn:Ep; try discriminate O; cbn in O; injection O as ->; cbn in A; try (eapply G; reflexivity).
  - destruct (free_number s R) as [n UN]. destruct (unused_spec _ _ UN) as (_ & _ & U'). exists (YServer (Server.LSpawn t n)). split; [left; reflexivity|].
    eapply server_can; [exact P|exact UN|]. unfold Server.step. rewrite CC, U', Ep. reflexivity.
  - rewrite (LM I) in G. eapply G; reflexivity.
  - rewrite A in AL2. exists (YServe t). split; [right; reflexivity|]. intros Q.
    destruct (stuck s (YServe t) _ P ltac:(cbn; rewrite Ep; reflexivity) Q) as [X|[X|[X|X]]]; try discriminate X.
    + apply run1 in X. unfold Server.step, Server.go in X. rewrite CC, Ep in X. discriminate X.
    + cbn [mc ms] in X. cbn in X. unfold Session.step in X. rewrite PS, A in X. cbn in X. rewrite PS in X. rewrite AL2 in X. discriminate X.
  - clear G. destruct A as [A CL]. assert (NI : ~ idle_start (sess s c)) by (intros X; apply NA; split; auto).
    assert (ST : Session.start_pc (sess s c) <> Session.SEntry -> forall x', Session.go_start (sess s c) = Some x' -> can_act s t).
    { intros N x' X. eapply (session_can s t c Session.LStart); eauto; [cbn; destruct (Session.start_pc (sess s c)); auto; congruence|unfold Session.step; rewrite PS; exact X]. }
    unfold idle_start in NI. destruct (Session.start_pc (sess s c)) eqn:E; try contradiction; try (exfalso; apply NI; exact I).
    + destruct (Session.go_start (sess s c)) as [x'|] eqn:GS; [|destruct (NI eq_refl)]. eapply ST; [discriminate|reflexivity].
    + unfold Session.go_start in ST. rewrite E in ST. destruct (Session.cached (sess s c)) eqn:EC; [eapply ST; [discriminate|reflexivity]|].
      clear ST. pose proof (du_duty _ (reachable_duties _ R) t) as D. unfold duty in D. pose proof (dist_no_crash _ R) as DC. pose proof (ca_dist _ (reachable_calm _ R)) as CD. unfold waits_read in LR.
      assert (T0 : t <> 0%nat). { intros ->. unfold up in U. rewrite Ep in U. exact U. }
      assert (GD : forall d', returning (dist s) t = None -> Distributor.go (dist s) t = Some d' -> can_act s t).
      { intros d' H1 H2. exists (YDist (Distributor.LGo t)). split; [left; reflexivity|]. apply (dist_can s _ d' P); [cbn; rewrite H1; reflexivity|]. unfold Distributor.step. rewrite DC. exact H2. }
      unfold returning, Distributor.go in GD.
      destruct (Distributor.pcs (dist s) t) eqn:Ed; try contradiction; try congruence; try (destruct k; try contradiction; congruence).
      * exists (YGet t). split; [right; reflexivity|]. intros Q. destruct (stuck s (YGet t) _ P ltac:(cbn; rewrite Ep, Ed, E, EC; reflexivity) Q) as [X|[X|[X|X]]]; try discriminate X; apply run1 in X.
        unfold Distributor.step in X. rewrite DC, Ed in X. discriminate X.
      * rewrite (cd_closed _ CD) in GD. cbn in GD. eapply GD; reflexivity.
      * rewrite (LR eq_refl) in GD. eapply GD; reflexivity.
      * eapply GD; reflexivity.
      * destruct snapshot as [cfg|]; [|contradiction]. set (EE := Session.DsnEnv (fun _ => Err ErrConnClosed) None (fun x => x)).
        exists (YGot t EE). split; [left; reflexivity|]. intros Q.
        destruct (stuck s (YGot t EE) (Moves [] [Distributor.LGo t] [] c [Session.LConfig EE (Ok cfg)] (main s)) P ltac:(cbn; unfold returning; rewrite Ep, Ed; reflexivity) Q) as [X|[X|[X|X]]]; try discriminate X; apply run1 in X.
        -- unfold Distributor.step, Distributor.go in X. rewrite DC, Ed in X. discriminate X.
        -- cbn [mc] in X. unfold Session.step in X. rewrite PS, E, EC in X. destruct (Session.parse_uri EE (DatabaseURL cfg)); discriminate X.
    + destruct (Session.go_start (sess s c)) as [x'|] eqn:GS; [|destruct (NI eq_refl)]. eapply ST; [discriminate|reflexivity].
    + exists (YEnd t). split; [right; reflexivity|]. intros Q. destruct (stuck s (YEnd t) _ P ltac:(cbn; rewrite Ep, E, A; reflexivity) Q) as [X|[X|[X|X]]]; try discriminate X; apply run1 in X.
      unfold Server.step in X. rewrite CC, Ep in X. discriminate X.
  - destruct A as (A1 & A2 & A3). exists (YFire t). split; [right; reflexivity|]. intros Q.
    destruct (stuck s (YFire t) _ P ltac:(cbn; rewrite Ep, A3; reflexivity) Q) as [X|[X|[X|X]]]; try discriminate X; apply run1 in X.
    + unfold Server.step, Server.go in X. rewrite CC, Ep in X. discriminate X.
    + cbn [mc] in X. unfold Session.step, Session.go_close in X. rewrite PS, A2, A3 in X. discriminate X.
  - destruct A as (A1 & A2). rewrite A1 in PC.
    assert (match Session.close_pc (sess s c) 0%nat with Session.KRet _ => True | _ => False end \/ match Session.close_pc (sess s c) 0%nat with Session.KRet _ => False | _ => True end /\ Session.go_close (sess s c) 0 None <> None) as [X|[X0 X]].
    { unfold Session.go_close. destruct (Session.close_pc (sess s c) 0%nat); try contradiction; try congruence; auto; right; (split; [exact I|]); try discriminate.
      - destruct (Session.conns _ _); discriminate.
      - destruct (Session.conns _ _); discriminate. }
    + destruct (Session.close_pc (sess s c) 0%nat) eqn:Ek; try contradiction. exists (YClosed t). split; [right; reflexivity|]. intros Q.
      destruct (stuck s (YClosed t) _ P ltac:(cbn; rewrite Ep, Ek; reflexivity) Q) as [Y|[Y|[Y|Y]]]; try discriminate Y; apply run1 in Y.
      * unfold Server.step, Server.go in Y. rewrite CC, Ep in Y. discriminate Y.
      * cbn [mc] in Y. unfold Session.step, Session.go_close in Y. rewrite PS, Ek, A1 in Y. discriminate Y.
    + destruct (Session.go_close (sess s c) 0 None) as [x'|] eqn:GC; [|congruence].
      apply (session_can s t c (Session.LClose 0 None) x' P HC L); [|unfold Session.step; rewrite PS; exact GC|exact I].
      cbn. destruct (Session.close_pc (sess s c) 0%nat); try reflexivity; try contradiction; congruence.
  - rewrite (LM I) in G. eapply G; reflexivity.
Qed.
(** each of its actions leaves less to do *)
Definition lower (s' : state) (c n : nat) : Prop := exists t', has_conn (srv s') t' c /\ (lrank s' t' < n)%nat.
Lemma start_lower s s' t x x' : Session.step x Session.LStart = Some x' -> Session.crashed x' = None -> ~ idle_start x -> Session.start_pc x <> Session.SEntry ->
  Distributor.pcs (dist s') t = Distributor.pcs (dist s) t -> (strank s' t x' < strank s t x)%nat.
Proof.
  intros H CR NI NE D. unfold strank. rewrite D. unfold Session.step in H. destruct (Session.crashed x) eqn:C0; [discriminate|]. unfold Session.go_start in H.
  destruct (Session.start_pc x) eqn:E; try discriminate; try congruence.
  - destruct (Session.conns x Session.Client) as [k|]; [|discriminate]. destruct (Session.recv_on Conn.RecvStartupMessage k) as [|[m|e|p] r]; try discriminate.
    + destruct m; try discriminate. injection H as <-. unfold Session.negotiate, Session.leave. destruct (Z.eqb _ _); cbn; [lia|]. destruct (negb _); cbn; [lia|]. unfold grank. destruct (Session.cached x); [lia|]. destruct (Distributor.pcs (dist s) t); lia.
    + injection H as <-. cbn. lia.
    + injection H as <-. discriminate CR.
  - destruct (Session.cached x) eqn:CA; [|discriminate]. injection H as <-. unfold Session.got. destruct w; cbn.
    + destruct (bytes_eqb _ _); cbn; rewrite ?CA; lia.
    + rewrite CA. lia.
    + lia.
  - destruct (Session.all_exited x); [|discriminate]. injection H as <-. cbn. lia.
Qed.
Lemma config_lower s s' t E cfg x x' : Session.step x (Session.LConfig E (Ok cfg)) = Some x' -> Session.crashed x' = None -> (strank s' t x' < strank s t x)%nat.
Proof.
  intros H CR. unfold strank. unfold Session.step in H. destruct (Session.crashed x) eqn:C0; [discriminate|].
  destruct (Session.start_pc x) eqn:ES; try discriminate. destruct (Session.cached x) eqn:CA; [discriminate|]. destruct (Session.parse_uri E (DatabaseURL cfg)); try discriminate; injection H as <-.
  - assert (2 <= grank (Distributor.pcs (dist s) t))%nat by (unfold grank; destruct (Distributor.pcs (dist s) t); lia). unfold Session.got. destruct w; cbn; try lia. destruct (bytes_eqb _ _); cbn; lia.
  - assert (2 <= grank (Distributor.pcs (dist s) t))%nat by (unfold grank; destruct (Distributor.pcs (dist s) t); lia). destruct w; cbn; lia.
  - discriminate CR.
Qed.
Lemma close_lower x r x' : Session.step x (Session.LClose 0 r) = Some x' -> Session.crashed x' = None -> match Session.close_pc x 0%nat with Session.K0 | Session.KRet _ => False | _ => True end ->
  (klrank (Session.close_pc x' 0%nat) < klrank (Session.close_pc x 0%nat))%nat.
Proof.
  intros H CR N. unfold Session.step in H. destruct (Session.crashed x) eqn:C0; [discriminate|]. unfold Session.go_close in H.
  destruct (Session.close_pc x 0%nat) eqn:EK; try contradiction; try discriminate.
  all: try (destruct (Session.conns x _)); try (destruct (Session.chan_closed _)); injection H as <-; try discriminate CR; cbn; rewrite ?upd_same; cbn; lia.
Qed.
Lemma conn_do s l s' t c : reachable step init s -> panicked s' = None -> up s -> has_conn (srv s) t c -> ~ asleep s t c -> acting s t l -> step s l = Some s' ->
  over s' c \/ lower s' c (lrank s t).
Proof.
  intros R P' U HC NA A E. pose proof (reachable_step _ _ _ _ _ R E) as R'. pose proof HC as O. apply has_own in O. pose proof (ca_srv _ (reachable_calm _ R)) as CV. pose proof (ca_dist _ (reachable_calm _ R)) as CD.
  pose proof (lk_agree _ (reachable_linked _ R) t c O) as AG.
  assert (L : (c < Server.next_conn (srv s))%nat) by exact (ServerProofs.oi_conn_lt _ (ServerProofs.reachable_own _ (pt_srv _ (reachable_parts _ R))) t c O).
  assert (OW : forall u, has_conn (srv s) u c -> u = t).
  { intros u X. apply has_own in X. apply (ServerProofs.oi_conn _ (ServerProofs.reachable_own _ (pt_srv _ (reachable_parts _ R))) u t c X O). }
  assert (CR : forall t', has_conn (srv s') t' c -> Session.crashed (sess s' c) = None).
  { intros t' X. apply has_own in X. apply (panic_session s' c P'). exact (ServerProofs.oi_conn_lt _ (ServerProofs.reachable_own _ (pt_srv _ (reachable_parts _ R'))) t' c X). }
  assert (T0 : t <> 0%nat). { intros ->. unfold up in U. unfold has_conn in HC. destruct (Server.pcs (srv s) 0%nat); contradiction. }
  pose proof (du_duty _ (reachable_duties _ R) t) as D. unfold duty in D.
  assert (OV : over s' c \/ (forall u, ~ has_conn (srv s') u c) -> over s' c \/ lower s' c (lrank s t)).
  { intros [X|X]; [left; exact X|]. left. destruct (fate s' c R') as [[(u & Y & _) _]|Y]; [|destruct (X u Y)|exact Y].
    rewrite (accepted_all _ R'). apply in_seq. split; [lia|].
    assert (Server.next_conn (srv s) <= Server.next_conn (srv s'))%nat; [|cbn; lia]. clear - E.
    destruct (step_moves _ _ _ E) as (_ & m & _ & _ & _ & E3 & _). revert E3. generalize (srv s). induction (mv m) as [|y ys IH]; intros v H; [apply run_none in H; rewrite H; lia|].
    cbn in H. destruct (Server.step v y) as [v1|] eqn:S1; [|discriminate]. specialize (IH _ H). enough (Server.next_conn v <= Server.next_conn v1)%nat by lia. clear - S1. vstep S1; cbn; lia. }
  destruct (step_moves _ _ _ E) as (_ & m & P & _ & E2 & E3 & E4 & E5 & _). clear E. unfold acting in A.
  assert (SAME : ms m = [] -> forall k, sess s' k = sess s k).
  { intros M k. destruct (Nat.eq_dec k (mc m)) as [->|X]; [|auto]. rewrite M in E4. apply run_none in E4. exact E4. }
  dplan P; cbn in A; try (destruct A as [A|A]); try contradiction; try congruence; runs; try specialize (SAME eq_refl).
  - (* Get *)
    right. exists t. unfold has_conn, lrank. rewrite E3. split; [exact HC|].
    assert (K : asks s t /\ (grank (Distributor.pcs (dist s') t) < grank (Distributor.pcs (dist s) t))%nat).
    { revert E2. generalize (dist s'). intros d' H. destruct l; try contradiction; subst; ddstep H; try contradiction; cbn in *; try contradiction; rewrite ?upd_same; cbn; auto.
      all: try (destruct k; try contradiction; unfold has_conn in HC; rewrite D in HC; contradiction).
      all: try (unfold has_conn in HC; rewrite D in HC; contradiction).
      all: try (rewrite (cd_closed _ CD) in *; discriminate).
      all: try (split; [assumption|lia]).
      unfold returning in Heqb. rewrite Heqp in Heqb. discriminate Heqb. }
    destruct K as ((c0 & w & K1 & K2 & K3) & K4). rewrite K1. rewrite SAME. unfold strank. rewrite K2, K3. lia.
  - (* LGo, LSpawn *)
    assert (UN : forall u n, l = Server.LSpawn u n -> n <> t /\ n <> 0%nat).
    { intros u n ->. cbn in Heqb. destruct (unused_spec _ _ Heqb) as (X1 & _ & X2). split; [|exact X1]. intros ->. unfold has_conn in HC. rewrite X2 in HC. exact HC. }
    destruct l; try contradiction; subst.
    + assert (H : Server.go (srv s) t = Some (srv s')) by (unfold Server.step in E3; rewrite (cv_crash _ CV) in E3; exact E3). cbn in Heqb. unfold Server.go, Server.lock in H. unfold lower, has_conn, lrank in *.
      destruct (Server.pcs (srv s) t) eqn:V; try contradiction; try discriminate Heqb; subst; cbn in AG; rewrite ?(cv_shut _ CV) in H; cbn in H.
      all: try (destruct (Server.mu (srv s)); [discriminate H|]).
      all: try discriminate H; injection H as H.
      all: try (right; exists t; rewrite <- H; cbn; rewrite ?upd_same; cbn; split; [reflexivity|lia]).
      assert (PU : Server.pcs (srv s') = upd (Server.pcs (srv s)) t Server.Idle) by (rewrite <- H; unfold Server.ret; cbn; destruct (Server.bg (srv s) t); reflexivity).
      apply OV. right. intros u X. rewrite PU in X. unfold upd in X. destruct (Nat.eqb u t) eqn:EQ; [exact X|]. apply Nat.eqb_neq in EQ. apply EQ, OW. exact X.
    + exfalso. revert E3. generalize (srv s'). intros v' H. unfold has_conn in HC. vstep H; rewrite ?Heqp in *; contradiction.
    + destruct (UN _ _ eq_refl) as [U1 U2]. unfold lower, has_conn, lrank in *. revert E3. generalize (srv s'). intros v' H. vstep H; rewrite ?Heqp in *; try contradiction; cbn in *.
      right. exists child. rewrite upd_same. split; [exact HC|lia].
  - exfalso. destruct l; try contradiction. subst. revert E3. generalize (srv s'). intros v' H. unfold has_conn in HC. vstep H; try (rewrite Heqp in HC; exact HC); try (rewrite Heqp0 in HC; exact HC); exact HC.
  - (* session.Start, Close *)
    apply andb_prop in Heqb. destruct Heqb as [_ AL].
    assert (c0 = c) as ->. { clear - HC A. destruct l; try contradiction; [|destruct t0; [|contradiction]]; unfold has_conn in *; destruct (Server.pcs (srv s) t); try contradiction; congruence. }
    right. exists t. assert (HC' : has_conn (srv s') t c) by (rewrite E3; exact HC). split; [exact HC'|]. specialize (CR _ HC'). unfold lrank. rewrite E3.
    unfold has_conn in HC. assert (KI : forall r, l = Session.LClose 0 r -> Session.close_pc (sess s c) 0%nat <> Session.KIdle).
    { intros r -> K. unfold Session.step, Session.go_close in E4. rewrite K in E4. destruct (Session.crashed (sess s c)); discriminate E4. }
    assert (GS : l = Session.LStart -> match Session.start_pc (sess s c) with Session.SIdle | Session.SDefer _ | Session.SDone _ => False | _ => True end).
    { intros ->. unfold Session.step, Session.go_start in E4. destruct (Session.crashed (sess s c)); [discriminate E4|]. destruct (Session.start_pc (sess s c)); auto; discriminate E4. }
    destruct (session_alone_inv _ c R) as (AI & _). pose proof (SessionProofs.ph_close _ (SessionPipe.pp_phase _ (SessionLife.al_pipes _ AI))) as PC.
    destruct (Server.pcs (srv s) t) eqn:V; try contradiction; subst; cbn in AG.
    all: destruct l; try contradiction; [specialize (GS eq_refl)|destruct t0; [specialize (KI _ eq_refl)|contradiction]].
    all: try (rewrite ?AG in *; contradiction).
    all: try (destruct AG as [AG1 AG2]; rewrite ?AG1 in *; contradiction).
    + destruct AG as [AG1 AG2]. apply start_lower; auto; [intros X; apply NA; split; auto|intros X; rewrite X in AG1; exact AG1|rewrite E2; reflexivity].
    + exfalso. destruct AG as [AG1 AG2]. cbn in AL. destruct (Session.start_pc (sess s c)); try contradiction. rewrite AG1 in AL. discriminate AL.
    + exfalso. destruct AG as (_ & AG2 & _). cbn in AL. rewrite AG2 in AL. discriminate AL.
    + apply Nat.add_lt_mono_l. apply (close_lower _ r0); auto. cbn in AL. destruct (Session.close_pc (sess s c) 0%nat); auto; discriminate AL.
  - exfalso. subst. revert E2. generalize (dist s'). intros d' H. unfold has_conn in HC. ddstep H; rewrite D in HC; exact HC.
  - (* YGet *)
    subst t0. unfold has_conn in HC. rewrite Heqp in HC. subst c0. right. exists t. unfold has_conn, lrank. rewrite E3, Heqp. split; [reflexivity|]. rewrite SAME. unfold strank. rewrite Heqs0, Heqo, Heqp0.
    assert (Distributor.pcs (dist s') t = Distributor.G0) as ->; [|cbn; lia]. clear - E2. revert E2. generalize (dist s'). intros d' H. ddstep H; cbn; apply upd_same.
  - (* YGot *)
    subst t0. assert (c0 = c) by (unfold has_conn in HC; rewrite Heqp in HC; exact HC). subst c0. assert (HC' : has_conn (srv s') t c) by (rewrite E3; exact HC). specialize (CR _ HC').
    right. exists t. split; [exact HC'|]. unfold lrank. rewrite E3, Heqp. eapply config_lower; eassumption.
  - exfalso. unfold returning in Heqo. rewrite (cd_closed _ CD) in Heqo. pose proof (cd_pcs _ CD t0) as K. pose proof (reachable_normal _ R t0) as N. subst t0.
    destruct (Distributor.pcs (dist s) t); try discriminate Heqo; try (destruct k; try discriminate Heqo); try destruct snapshot; try discriminate Heqo; try contradiction.
  - (* YServe *)
    subst t0. assert (c0 = c) by (unfold has_conn in HC; rewrite Heqp in HC; exact HC). subst c0. rewrite Heqp in AG. cbn in AG. destruct (session_alone_inv _ c R) as (_ & _ & _ & AL2). rewrite AG in AL2.
    pose proof (lk_fired _ (reachable_linked _ R) c) as F. rewrite AL2 in F. cbn in F.
    assert (PU : Server.pcs (srv s') = upd (Server.pcs (srv s)) t (Server.C6 c)).
    { unfold Server.step, Server.go in E3. rewrite (cv_crash _ CV), Heqp, F in E3. injection E3 as E3. rewrite <- E3. reflexivity. }
    right. exists t. unfold has_conn, lrank. rewrite PU, upd_same, Heqp. split; [reflexivity|].
    assert (Session.start_pc (sess s' c) = Session.SRecv) as X; [|unfold strank; rewrite X; lia].
    match goal with H1 : Session.step (sess s c) Session.LCallStart = Some ?x, H2 : Session.step ?x Session.LStart = Some (sess s' c) |- _ => rename H1 into S1; rename H2 into S2 end.
    unfold Session.step in S1. rewrite AG in S1. destruct (Session.crashed (sess s c)) eqn:C0; [discriminate S1|]. injection S1 as <-. unfold Session.step, Session.go_start in S2. cbn in S2. rewrite C0, AL2 in S2. injection S2 as S2. rewrite <- S2. reflexivity.
  - (* YEnd *)
    subst t0. assert (c0 = c) by (unfold has_conn in HC; rewrite Heqp in HC; exact HC). subst c0. right. exists t.
    assert (PU : Server.pcs (srv s') = upd (Server.pcs (srv s)) t (Server.C7 c r)).
    { unfold Server.step in E3. rewrite (cv_crash _ CV), Heqp in E3. injection E3 as E3. rewrite <- E3. reflexivity. }
    unfold has_conn, lrank. rewrite PU, upd_same, Heqp. split; [reflexivity|]. unfold strank. rewrite Heqs0. lia.
  - (* YFire *)
    subst t0. assert (c0 = c) by (unfold has_conn in HC; rewrite Heqp in HC; exact HC). subst c0. right. exists t. rewrite Heqp in AG. destruct AG as (AG1 & AG2 & AG3).
    pose proof (lk_fired _ (reachable_linked _ R) c) as F. rewrite AG3 in F. cbn in F.
    assert (PU : Server.pcs (srv s') = upd (Server.pcs (srv s)) t (Server.C8 c r)).
    { unfold Server.step, Server.go in E3. rewrite (cv_crash _ CV), Heqp, F in E3. injection E3 as E3. rewrite <- E3. reflexivity. }
    unfold has_conn, lrank. rewrite PU, upd_same, Heqp. split; [reflexivity|].
    assert (Session.close_pc (sess s' c) 0%nat = Session.K1) as ->; [|cbn; lia].
    unfold Session.step, Session.go_close in E4. destruct (Session.crashed (sess s c)); [discriminate E4|]. rewrite AG2, AG3 in E4. injection E4 as E4. rewrite <- E4. reflexivity.
  - exfalso. subst t0. assert (c0 = c) by (unfold has_conn in HC; rewrite Heqp in HC; exact HC). subst c0. rewrite Heqp in AG. destruct AG as (AG1 & AG2 & AG3). congruence.
  - (* YClosed *)
    subst t0. assert (c0 = c) by (unfold has_conn in HC; rewrite Heqp in HC; exact HC). subst c0. right. exists t.
    assert (PU : Server.pcs (srv s') = upd (Server.pcs (srv s)) t (Server.C9 c r)).
    { unfold Server.step, Server.go in E3. rewrite (cv_crash _ CV), Heqp in E3. injection E3 as E3. rewrite <- E3. reflexivity. }
    unfold has_conn, lrank. rewrite PU, upd_same, Heqp. split; [reflexivity|]. lia.
Qed.

(** *** The server's mutex *)
Definition hrank (p : Server.pc) : nat :=
  match p with
  | Server.S2 _ => 3 | Server.S3 _ | Server.C3 _ | Server.C10 _ _ => 2 | Server.S4 _ | Server.C4 _ | Server.C11 _ _ => 1 | _ => 0
  end.
Lemma holder_pc s h : reachable step init s -> Server.mu (srv s) = Some h ->
  match Server.pcs (srv s) h with Server.S2 _ | Server.S3 _ | Server.S4 _ | Server.C3 _ | Server.C4 _ | Server.C10 _ _ | Server.C11 _ _ => True | _ => False end.
Proof.
  intros R E. apply (ServerProofs.reachable_lock _ (pt_srv _ (reachable_parts _ R))) in E. pose proof (ca_srv _ (reachable_calm _ R)) as CA.
  destruct (Nat.eq_dec h 0) as [->|Ht].
  { destruct (cv_main _ CA) as [X|X]; [rewrite X in E; destruct E|]. destruct (Server.pcs (srv s) 0%nat); try contradiction. }
  pose proof (cv_worker _ CA h Ht) as W. destruct (Server.pcs (srv s) h) eqn:Ep; cbn in E, W; try contradiction; exact I.
Qed.
Lemma holder_able s h : reachable step init s -> panicked s = None -> Server.mu (srv s) = Some h -> can_act s h.
Proof.
  intros R P E. pose proof (holder_pc _ _ R E) as HP. pose proof (cv_crash _ (ca_srv _ (reachable_calm _ R))) as CC.
  assert (G : forall v', server_alone s (Server.LGo h) = true -> Server.go (srv s) h = Some v' -> can_act s h).
  { intros v' H1 H2. eapply server_acts; [exact P| |exact H1]. unfold Server.step. rewrite CC. exact H2. }
  unfold server_alone, Server.go in G. destruct (Server.pcs (srv s) h) eqn:Ep; try contradiction; try (eapply G; reflexivity).
  destruct (Server.listener (srv s)) eqn:El; [|eapply G; reflexivity].
  exists (YServer (Server.LCloseListener h None)). split; [right; reflexivity|]. eapply server_can; [exact P|reflexivity|]. unfold Server.step. rewrite CC, Ep, El. reflexivity.
Qed.
Lemma holder_keep s l s' h : reachable step init s -> step s l = Some s' -> ~ acting s h l -> Server.mu (srv s) = Some h -> Server.mu (srv s') = Some h /\ Server.pcs (srv s') h = Server.pcs (srv s) h.
Proof.
  intros R E N M. pose proof (holder_pc _ _ R M) as HP.
  assert (Server.pcs (srv s') h = Server.pcs (srv s) h) as K by (apply (steady_keep _ _ _ _ R E N); destruct (Server.pcs (srv s) h); cbn; auto).
  split; [|exact K]. apply (ServerProofs.reachable_lock _ (pt_srv _ (reachable_parts _ (reachable_step _ _ _ _ _ R E)))). rewrite K. destruct (Server.pcs (srv s) h); try contradiction; exact I.
Qed.
Lemma holder_do s l s' h : reachable step init s -> step s l = Some s' -> acting s h l -> Server.mu (srv s) = Some h ->
  Server.mu (srv s') = None \/ Server.mu (srv s') = Some h /\ (hrank (Server.pcs (srv s') h) < hrank (Server.pcs (srv s) h))%nat.
Proof.
  intros R E A M. pose proof (holder_pc _ _ R M) as HP. pose proof (ca_srv _ (reachable_calm _ R)) as CV. pose proof (du_duty _ (reachable_duties _ R) h) as D. unfold duty in D.
  assert (T0 : h <> 0%nat). { intros ->. destruct (cv_main _ CV) as [X|X]; [rewrite X in HP; exact HP|]. destruct (Server.pcs (srv s) 0%nat); contradiction. }
  assert (AK : ~ asks s h). { intros (c & w & X & _). rewrite X in HP. exact HP. }
  assert (NS : forall c, has_conn (srv s) h c -> match Session.start_pc (sess s c) with Session.SIdle | Session.SDone _ => True | _ => False end /\ Session.close_pc (sess s c) 0%nat = Session.KIdle).
  { intros c X. pose proof X as O. apply has_own in O. pose proof (lk_agree _ (reachable_linked _ R) h c O) as AG.
    destruct (session_alone_inv _ c R) as (AI & _). pose proof (SessionProofs.ph_close _ (SessionPipe.pp_phase _ (SessionLife.al_pipes _ AI))) as PC.
    unfold has_conn in X. destruct (Server.pcs (srv s) h); try contradiction; cbn in AG; rewrite AG in *; auto. }
  destruct (step_moves _ _ _ E) as (_ & m & P & _ & E2 & E3 & E4 & _ & _). clear E. unfold acting in A.
  dplan P; cbn in A; try (destruct A as [A|A]); try contradiction; try congruence; runs.
  all: try (exfalso; subst; match goal with E : Server.pcs _ _ = _ |- _ => rewrite E in HP; exact HP end).
  - exfalso. revert E2. generalize (dist s'). intros d' H. destruct l; try contradiction; subst; ddstep H; try contradiction; cbn in *; try contradiction.
    all: try (destruct k; try contradiction); try (rewrite D in HP; exact HP); try (destruct snapshot; contradiction).
    all: try (destruct D; fail).
  - destruct l; try contradiction; subst; revert E3; generalize (srv s'); intros v' H; unfold Server.step in H; rewrite (cv_crash _ CV) in H; try (unfold Server.go in H);
      destruct (Server.pcs (srv s) h) eqn:Ep; try contradiction; try discriminate H; rewrite ?(cv_shut _ CV) in H; cbn in H.
    all: try (destruct (Server.pcs (srv s) child); discriminate H).
    all: repeat match type of H with context [match ?x with _ => _ end] => destruct x; try discriminate H end; injection H as <-; cbn; rewrite ?upd_same; cbn; auto.
  - destruct l; try contradiction; subst; revert E3; generalize (srv s'); intros v' H; unfold Server.step in H; rewrite (cv_crash _ CV) in H;
      destruct (Server.pcs (srv s) h) eqn:Ep; try contradiction; try discriminate H.
    all: repeat match type of H with context [match ?x with _ => _ end] => destruct x; try discriminate H end; injection H as <-; cbn; rewrite ?upd_same; cbn; auto.
  - exfalso. destruct l; try contradiction; [|destruct t; [|contradiction]]; destruct (NS _ A) as [X Y]; unfold Session.step, Session.go_start, Session.go_close in E4; rewrite ?Y in E4.
    all: destruct (Session.crashed (sess s c)); try discriminate E4; destruct (Session.start_pc (sess s c)); try contradiction; discriminate E4.
  - exfalso. subst. revert E2. generalize (dist s'). intros d' H. ddstep H; rewrite D in HP; exact HP.
Qed.
