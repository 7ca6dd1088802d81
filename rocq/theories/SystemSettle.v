(** A client that has said what it wants is connected or turned away. *)
From Verif Require Import Fair SystemReloadLive SystemAttendLive SessionCancel.
From Verif Require Export SpecSettle SystemAttend.
Import SpecSettle SpecAttend System.
Require Import Lia.

Lemma outside_dec c l : outside c l \/ ~ outside c l.
Proof. destruct l; auto. destruct l; auto; cbn; destruct (Nat.eq_dec c0 c); auto. Qed.
(** How much session.Start has before it, when [w] packets or bytes are still to be read *)
Definition rank (w : Session.state -> nat) (x : Session.state) : nat :=
  match Session.start_pc x with
  | Session.SIdle | Session.SEntry | Session.SRecv => 2 * w x + 4 | Session.SDeny _ => 2 * w x + 5
  | Session.SGet _ => 3 | Session.SDial _ _ => 2 | Session.SSend _ => 1
  | Session.SWait | Session.SDefer _ | Session.SDone _ => 0
  end.
Definition to_write (x : Session.state) : nat := match Session.start_pc x with Session.SDeny b | Session.SSend b => length b | _ => 0 end.
Definition busy (x : Session.state) : Prop := match Session.start_pc x with Session.SDeny _ | Session.SSend _ | Session.SDial _ _ => True | _ => False end.
Definition outer (k : Session.label) : Prop := match k with Session.LStartWrite _ | Session.LStartWriteErr _ | Session.LDial _ => True | _ => False end.
Lemma rank_step w x k x' : Session.step x k = Some x' -> (w x' <= w x)%nat ->
  (Session.start_pc x = Session.SRecv -> match Session.start_pc x' with Session.SDeny _ => True | _ => False end -> (w x' < w x)%nat) -> (rank w x' <= rank w x)%nat.
Proof.
  intros H L D. unfold rank. SessionProofs.dstep H; cbn [Session.start_pc Session.with_start Session.log Session.with_conn Session.crash Session.leave Session.with_close Session.with_in Session.with_out Session.with_proc Session.finish] in *.
  all: repeat match goal with E : Session.start_pc _ = _ |- _ => rewrite E in * end.
  all: cbn in *; try lia.
  all: repeat match goal with E : Session.start_pc _ = _ |- _ => rewrite E in * end.
  all: try (destruct (Session.start_pc x); lia).
  all: try specialize (D eq_refl I); try lia.
Qed.
Lemma outer_moves w x k x' : Session.step x k = Some x' -> outer k -> (w x' <= w x)%nat ->
  (rank w x' < rank w x)%nat \/ busy x' /\ rank w x' = rank w x /\ (to_write x' < to_write x)%nat.
Proof.
  intros H O L. destruct k; try contradiction O; SessionProofs.dstep H; unfold rank, busy, to_write in *; cbn in *.
  all: repeat match goal with E : Session.start_pc _ = _ |- _ => rewrite E in * end.
  all: try (left; lia).
  all: assert (S (length l) < length rest)%nat by (apply (f_equal (@length _)) in Heql; rewrite skipn_length in Heql; cbn in Heql; unfold Session.write_ok in Heqb; apply andb_prop in Heqb; destruct Heqb as [X Y];
    apply Nat.leb_le in X; apply Bool.orb_prop in Y; destruct Y as [Y|Y]; [apply Nat.eqb_eq in Y; lia|]; destruct n; [discriminate Y|lia]).
  - match goal with L : (?a <= ?b)%nat |- _ => assert (a < b \/ a = b)%nat as [X|X] by lia end; [left; lia|right; rewrite X; auto].
  - right. auto.
Qed.
Lemma outer_not x k x' : Session.step x k = Some x' -> ~ outer k -> busy x -> Session.start_pc x' = Session.start_pc x.
Proof.
  intros H O B. unfold busy in B. SessionProofs.dstep H; cbn in *; try congruence; try contradiction.
  all: try (destruct O; exact I).
  all: repeat match goal with E : Session.start_pc _ = _ |- _ => rewrite E in * end; try contradiction B; auto.
Qed.

(** a session's moves in an action that isn't [outside] are not either *)
Lemma inner_moves s l s' c : step s l = Some s' -> ~ outside c l -> exists ks, run Session.step (sess s c) ks = Some (sess s' c) /\ Forall (fun k => ~ outer k) ks.
Proof.
  intros E N. destruct (step_moves _ _ _ E) as (_ & m & P & _ & _ & _ & E4 & E5 & _). destruct (Nat.eq_dec c (mc m)) as [->|D]; [|exists []; rewrite (E5 _ D); auto].
  exists (ms m). split; [exact E4|]. clear - P N. dplan P; repeat constructor; cbn; auto.
  all: intros X; apply N; cbn; destruct l; try contradiction X; reflexivity.
Qed.
Lemma outer_move s l s' c : step s l = Some s' -> outside c l -> exists k, outer k /\ Session.step (sess s c) k = Some (sess s' c).
Proof.
  intros E O. destruct l; try contradiction O. assert (c0 = c /\ outer l) as [-> X] by (destruct l; try contradiction O; cbn in *; auto). exists l. split; [exact X|].
  destruct (step_moves _ _ _ E) as (_ & m & P & _ & _ & _ & E4 & _). dplan P. apply run_one in E4. exact E4.
Qed.
Lemma busy_able s c : good s -> (c < Server.next_conn (srv s))%nat -> busy (sess s c) -> exists l, outside c l /\ step s l <> None.
Proof.
  intros G L B. pose proof (panic_session _ _ G L) as X. assert (exists k x', outer k /\ Session.step (sess s c) k = Some x' /\ session_alone (sess s c) k = true) as (k & x' & O & K & A).
  { unfold busy in B. unfold Session.step. destruct (Session.start_pc (sess s c)) eqn:Y; try contradiction.
    - exists (Session.LStartWriteErr EOF). eexists. split; [exact I|]. split; [rewrite X; reflexivity|reflexivity].
    - exists (Session.LDial (Some EOF)). eexists. split; [exact I|]. split; [rewrite X; reflexivity|reflexivity].
    - exists (Session.LStartWriteErr EOF). eexists. split; [exact I|]. split; [rewrite X; reflexivity|reflexivity]. }
  exists (YSession c k). split; [destruct k; try contradiction O; reflexivity|]. apply Nat.ltb_lt in L. intros Q.
  destruct (stuck s (YSession c k) _ G ltac:(cbn; rewrite L, A; reflexivity) Q) as [Z|[Z|[Z|Z]]]; try discriminate Z. cbn [mc ms] in Z. apply run1 in Z. congruence.
Qed.

(** *** A client that has sent its packet *)
Definition began (n : nat) (v : Z) (x : Session.state) : Prop := client_began (Session.hist x) n v /\ v <> ssl_request_code.
Definition packets_left (n : nat) (x : Session.state) : nat := n - length (SpecSession.startups (Session.hist x)).
Lemma arrived_step x k x' : Session.step x k = Some x' -> exists more, SpecSession.arrived Session.Client (Session.hist x') = SpecSession.arrived Session.Client (Session.hist x) ++ more.
Proof.
  intros H. SessionProofs.dstep H; cbn; try (exists []; rewrite app_nil_r; reflexivity).
  all: try (eexists; reflexivity).
  all: destruct d; cbn; try (exists []; rewrite app_nil_r; reflexivity); eexists; reflexivity.
Qed.
Lemma nothing_read x : SessionLife.all_inv x -> match Session.start_pc x with Session.SRecv | Session.SDeny _ => True | _ => False end ->
  Forall SpecSession.ssl_request (SpecSession.startups (Session.hist x)) /\
  exists mid, SpecSession.decodes_startup (SpecSession.arrived Session.Client (Session.hist x)) (SpecSession.startups (Session.hist x)) mid /\ SessionDecode.unread x Session.Client mid.
Proof.
  intros A P. pose proof (SessionLife.al_pipes _ A) as PI. pose proof (SessionPipe.pp_nego _ PI) as N. unfold SessionPipe.nego_ok in N.
  pose proof (SessionProofs.ph_phase _ (SessionPipe.pp_phase _ PI)) as PH. destruct (SessionLife.al_dec _ A Session.Client) as [D1 (mid & rest & D2 & D3 & D4)].
  assert (SessionProofs.off x /\ Forall SpecSession.ssl_request (SpecSession.startups (Session.hist x))) as [O F] by (destruct (Session.start_pc x); try contradiction; tauto).
  split; [exact F|]. destruct O as (O & _). rewrite (D1 O) in D3. inversion D3; subst. eexists. split; [exact D2|]. apply D4. unfold SessionDecode.reading. rewrite O.
  split; [discriminate|]. destruct (Session.start_pc x); try contradiction; exact I.
Qed.
Lemma began_leaves n v x : SessionLife.all_inv x -> began n v x -> match Session.start_pc x with Session.SRecv | Session.SDeny _ => True | _ => False end ->
  (length (SpecSession.startups (Session.hist x)) <= n)%nat /\ exists f rest, SpecFrames.frame_at 4 (f ++ rest) f rest /\ SessionDecode.unread x Session.Client (f ++ rest).
Proof.
  intros A [(ss & pk & more & L & F & P & E) V] S. destruct (nothing_read _ A S) as (FS & mid & D & U). rewrite E in D.
  destruct (ssl_leaves _ _ _ _ F P V _ _ D FS) as (LL & w & pk' & more' & -> & PW & _). split; [lia|]. exists pk', more'. split; [eapply packet_frame; exact PW|exact U].
Qed.
Lemma denied_count x k x' : Session.step x k = Some x' -> Session.start_pc x = Session.SRecv -> match Session.start_pc x' with Session.SDeny _ => True | _ => False end ->
  length (SpecSession.startups (Session.hist x')) = S (length (SpecSession.startups (Session.hist x))).
Proof.
  intros H P Q. SessionProofs.dstep H; cbn in *; try contradiction; try congruence; repeat match goal with E : Session.start_pc _ = _ |- _ => rewrite E in Q end; try contradiction.
  all: rewrite app_length; cbn; lia.
Qed.
Lemma began_step n v x k x' : SessionLife.all_inv x -> began n v x -> Session.step x k = Some x' ->
  began n v x' /\ (packets_left n x' <= packets_left n x)%nat /\
  (Session.start_pc x = Session.SRecv -> match Session.start_pc x' with Session.SDeny _ => True | _ => False end -> (packets_left n x' < packets_left n x)%nat).
Proof.
  intros A B H. assert (began n v x') as B'.
  { destruct B as [(ss & pk & more & L & F & P & E) V]. split; [|exact V]. destruct (arrived_step _ _ _ H) as (m & X). exists ss, pk, (more ++ m). repeat split; auto. rewrite X, E, !app_assoc. reflexivity. }
  split; [exact B'|]. unfold packets_left. split; [pose proof (startups_step _ _ _ H); lia|]. intros P Q. pose proof (denied_count _ _ _ H P Q).
  destruct (began_leaves n v x' (SessionLife.all_step _ _ _ A H) B') as [L _]; [destruct (Session.start_pc x'); auto|]. lia.
Qed.
Lemma began_asked n v x r : SessionLife.all_inv x -> began n v x -> Session.start_pc x = Session.SRecv -> Session.conns x Session.Client = Some (Session.NetConn r true) ->
  Frames.fin r = None -> SpecFrames.frame_incomplete 4 (concat (Frames.chunks r)) -> False.
Proof.
  intros A B P C N I. destruct (began_leaves n v x A B) as (_ & f & rest & F & U); [rewrite P; exact Logic.I|]. unfold SessionDecode.unread in U. rewrite C in U. cbn in U.
  destruct U as [U|[_ U]]; [|contradiction]. rewrite U in I. exact (FrameProofs.frame_at_not_incomplete 4 _ _ _ ltac:(lia) F I).
Qed.
(** *** A client that has gone *)
Definition gone (x : Session.state) : Prop := exists r b, Session.conns x Session.Client = Some (Session.NetConn r b) /\ Frames.fin r <> None.
Definition bytes_left (x : Session.state) : nat := match Session.conns x Session.Client with Some n => length (concat (Frames.chunks (Session.rd n))) | None => 0 end.
Lemma frame_shorter hdr a f rest : (4 <= hdr)%nat -> SpecFrames.frame_at hdr a f rest -> (length rest < length a)%nat.
Proof. intros Hh (tag & len & body & L & -> & -> & _ & (Hl & _) & _). rewrite !app_length, Hl. lia. Qed.
Lemma startup_shorter n y r : Session.recv_on Conn.RecvStartupMessage n = Frames.Done y r ->
  Frames.fin r = Frames.fin (Session.rd n) /\ (length (concat (Frames.chunks r)) <= length (concat (Frames.chunks (Session.rd n))))%nat /\
  (forall m, y = Ok m -> (length (concat (Frames.chunks r)) < length (concat (Frames.chunks (Session.rd n))))%nat).
Proof.
  unfold Session.recv_on, Conn.RecvStartupMessage. destruct (Session.is_open n); [|intros H; injection H as <- <-; repeat split; [lia|discriminate]].
  destruct (Frames.ReadStartupFrame (Session.rd n)) as [|z r1] eqn:E; [discriminate|]. intros H. injection H as H <-.
  destruct (FrameProofs.ReadStartupFrame_inv _ _ _ E) as (Hf & [(f & -> & Hx)|(e & -> & _ & _ & ->)]); (split; [exact Hf|]).
  - pose proof (frame_shorter 4 _ _ _ ltac:(lia) Hx). split; [lia|auto].
  - split; [cbn; lia|]. intros m X. subst y. discriminate X.
Qed.
Lemma message_shorter n y r : Session.recv_on Conn.RecvMessage n = Frames.Done y r ->
  Frames.fin r = Frames.fin (Session.rd n) /\ (length (concat (Frames.chunks r)) <= length (concat (Frames.chunks (Session.rd n))))%nat.
Proof.
  unfold Session.recv_on, Conn.RecvMessage. destruct (Session.is_open n); [|intros H; injection H as <- <-; split; [reflexivity|lia]].
  destruct (Frames.ReadStandardFrame (Session.rd n)) as [|z r1] eqn:E; [discriminate|]. intros H. injection H as H <-.
  destruct (FrameProofs.ReadStandardFrame_inv _ _ _ E) as (Hf & [(f & -> & Hx)|(e & -> & _ & _ & ->)]); (split; [exact Hf|]).
  - pose proof (frame_shorter 5 _ _ _ ltac:(lia) Hx). lia.
  - cbn; lia.
Qed.
Lemma gone_step x k x' : SessionLife.all_inv x -> gone x -> Session.step x k = Some x' ->
  gone x' /\ (bytes_left x' <= bytes_left x)%nat /\
  (Session.start_pc x = Session.SRecv -> match Session.start_pc x' with Session.SDeny _ => True | _ => False end -> (bytes_left x' < bytes_left x)%nat).
Proof.
  intros A (r & b & C & F) H. unfold gone, bytes_left. SessionProofs.dstep H; cbn in *.
  all: try (split; [exists r, b; auto|]; split; [lia|]; intros P Q; first [congruence|contradiction|rewrite P in Q; contradiction|rewrite P in *; congruence]; fail).
  1-3, 13-14: destruct d; unfold Session.supd; cbn.
  all: try (split; [exists r, b; auto|]; split; [lia|]; intros P Q; rewrite P in Q; contradiction).
  all: try (rewrite C in Heqo0; injection Heqo0 as -> ->; cbn in F; destruct F; reflexivity).
  all: try (rewrite C in Heqo0; discriminate Heqo0).
  all: try discriminate C.
  all: try match type of C with Some _ = Some _ => injection C as ->; match goal with E : Session.conns _ Session.Client = Some _ |- _ => rename E into C end end.
  all: try match type of C with Some _ = Some _ => injection C as -> ->; match goal with E : Session.conns _ Session.Client = Some _ |- _ => rename E into C end end.
  all: repeat match goal with E : Session.conns ?y Session.Client = Some ?n, C : Session.conns ?y Session.Client = Some (Session.NetConn _ _) |- _ => is_var n; rewrite C in E; injection E as <- end.
  all: try rewrite C.
  all: cbn [Session.rd Session.is_open] in *.
  all: try (match goal with E : Session.recv_on Conn.RecvMessage _ = _ |- _ => apply message_shorter in E; cbn in E; destruct E as (F1 & F2) end;
    split; [do 2 eexists; split; [reflexivity|congruence]|]; split; [exact F2|intros P Q; rewrite P in Q; contradiction]).
  all: try (match goal with E : Session.recv_on Conn.RecvStartupMessage _ = Frames.Done _ ?rest |- context [Session.NetConn ?rest _] => apply startup_shorter in E; cbn in E; destruct E as (F1 & F2 & F3) end;
    split; [do 2 eexists; split; [reflexivity|congruence]|]; split; [exact F2|intros P Q; try contradiction; eapply F3; reflexivity]).
  all: try solve [split; [do 2 eexists; split; [reflexivity|first [exact F|discriminate]]|]; split; [lia|]; intros P Q; first [discriminate P|rewrite P in Q; contradiction|congruence]].
  split; [do 2 eexists; split; [reflexivity|exact F]|]. split; [lia|]. intros P Q. rewrite Heqs in Q. contradiction.
Qed.
Lemma gone_asked x r : SessionLife.all_inv x -> gone x -> Session.start_pc x = Session.SRecv -> Session.conns x Session.Client = Some (Session.NetConn r true) ->
  Frames.fin r = None -> SpecFrames.frame_incomplete 4 (concat (Frames.chunks r)) -> False.
Proof. intros _ (r' & b & C & F) _ C' N _. rewrite C in C'. injection C' as -> _. contradiction. Qed.

Section Settle.
  Variables (st : nat -> state) (lb : nat -> option label) (c : nat).
  Hypothesis EX : execution step st lb.
  Hypothesis R0 : reachable step init (st 0%nat).
  Hypothesis FR : fair_roles st lb.
  Hypothesis WF : writers_first st lb.
  Hypothesis FG : fair_goroutines st lb.
  Hypothesis FP : fair_peers c st lb.
  Notation Ev := (Fair.ev st good).
  Let RC := reach st lb EX R0.
  Section Drive.
    Variables (J : Session.state -> Prop) (w : Session.state -> nat).
    Hypothesis JS : forall x k x', SessionLife.all_inv x -> J x -> Session.step x k = Some x' ->
      J x' /\ (w x' <= w x)%nat /\ (Session.start_pc x = Session.SRecv -> match Session.start_pc x' with Session.SDeny _ => True | _ => False end -> (w x' < w x)%nat).
    Hypothesis JA : forall x r, SessionLife.all_inv x -> J x -> Session.start_pc x = Session.SRecv -> Session.conns x Session.Client = Some (Session.NetConn r true) ->
      Frames.fin r = None -> SpecFrames.frame_incomplete 4 (concat (Frames.chunks r)) -> False.
    Lemma down_step n x k x' : SessionLife.all_inv x -> J x /\ (rank w x <= n)%nat -> Session.step x k = Some x' -> J x' /\ (rank w x' <= n)%nat.
    Proof. intros A [X Y] H. destruct (JS _ _ _ A X H) as (Z1 & Z2 & Z3). split; [exact Z1|]. pose proof (rank_step w _ _ _ H Z2 Z3). lia. Qed.
    Lemma busy_run r n : forall ks x x', SessionLife.all_inv x -> J x -> busy x -> rank w x = r -> to_write x = n -> run Session.step x ks = Some x' -> Forall (fun k => ~ outer k) ks ->
      J x' /\ (busy x' /\ rank w x' = r /\ to_write x' = n \/ (rank w x' < r)%nat).
    Proof.
      induction ks as [|k ks IH]; intros x x' A X B E1 E2 H F; cbn in H; [injection H as <-; auto|]. destruct (Session.step x k) as [x1|] eqn:K; [|discriminate H]. inversion F; subst.
      pose proof (outer_not _ _ _ K ltac:(assumption) B) as P. destruct (down_step (rank w x) _ _ _ A (conj X (Nat.le_refl _)) K) as [Y Z].
      assert (rank w x1 = rank w x \/ rank w x1 < rank w x)%nat as [D|D] by lia.
      - apply (IH x1); auto; [eapply SessionLife.all_step; eassumption|unfold busy; rewrite P; exact B|unfold to_write; rewrite P; reflexivity].
      - assert (J x' /\ (rank w x' <= rank w x1)%nat) as [U V]; [|split; [exact U|right; lia]]. pose proof (SessionLife.all_step _ _ _ A K) as A1.
        apply (run_invariant Session.step (fun y => SessionLife.all_inv y /\ J y /\ (rank w y <= rank w x1)%nat)) with (s := x1) (ls := ks); auto.
        intros y l y' (I1 & I2) I3. split; [eapply SessionLife.all_step; eassumption|eapply down_step; eassumption].
    Qed.
    Lemma acc_lt i : In c (accepted (Server.hist (srv (st i)))) -> (c < Server.next_conn (srv (st i)))%nat.
    Proof. rewrite (accepted_all _ (RC i)), in_seq. lia. Qed.
    (** a peer or net.Dial gets session.Start further *)
    Lemma ev_outside r : forall i, In c (accepted (Server.hist (srv (st i)))) /\ J (sess (st i) c) /\ busy (sess (st i) c) /\ rank w (sess (st i) c) = r ->
      Ev i (fun s => In c (accepted (Server.hist (srv s))) /\ J (sess s c) /\ (rank w (sess s c) < r)%nat).
    Proof.
      apply (ev_measure st good good_dec (fun s => to_write (sess s c)) (fun s => In c (accepted (Server.hist (srv s))) /\ J (sess s c) /\ busy (sess s c) /\ rank w (sess s c) = r)).
      intros i G (A & X & B & E). set (n := to_write (sess (st i) c)).
      apply (wait step st lb good EX good_dec (outside c) (fun s => In c (accepted (Server.hist (srv s))) /\ J (sess s c) /\ busy (sess s c) /\ rank w (sess s c) = r /\ to_write (sess s c) = n)
        _ i (outside_dec c) (FP i)); [unfold n; auto| | |].
      - intros k _ Gk (A' & X' & B' & _). apply busy_able; auto. apply acc_lt. exact A'.
      - intros k l _ Gk (A' & X' & B' & E' & T') _ ST N. destruct (inner_moves _ _ _ c ST N) as (ks & K & F). destruct (session_alone_inv _ c (RC k)) as (AI & _).
        pose proof (acc_later st lb EX R0 c k (S k) A' ltac:(lia)) as A1.
        destruct (busy_run r n ks _ _ AI X' B' E' T' K F) as (Y & [(Z1 & Z2 & Z3)|Z]); [left; auto|right; left; auto].
      - intros k l _ Gk (A' & X' & B' & E' & T') _ ST O. destruct (outer_move _ _ _ c ST O) as (k' & O' & K). destruct (session_alone_inv _ c (RC k)) as (AI & _).
        pose proof (acc_later st lb EX R0 c k (S k) A' ltac:(lia)) as A1.
        destruct (JS _ _ _ AI X' K) as (Y1 & Y2 & _). destruct (outer_moves w _ _ _ K O' Y2) as [Z|(Z1 & Z2 & Z3)]; [left|right]; repeat split; auto; lia.
    Qed.
    Lemma drive i : In c (accepted (Server.hist (srv (st i)))) -> J (sess (st i) c) -> Ev i (fun s => In c (accepted (Server.hist (srv s))) /\ rank w (sess s c) = 0%nat).
    Proof.
      intros A X. revert i A X. enough (forall i, In c (accepted (Server.hist (srv (st i)))) /\ J (sess (st i) c) -> Ev i (fun s => In c (accepted (Server.hist (srv s))) /\ rank w (sess s c) = 0%nat)) as Z by auto.
      apply (ev_measure st good good_dec (fun s => rank w (sess s c)) (fun s => In c (accepted (Server.hist (srv s))) /\ J (sess s c))). intros i _ (A & X).
      apply (ev_bind st good good_dec _ _ _ (ev_attended st lb EX R0 FR WF FG c i A)). intros j Hj G T. pose proof (acc_later st lb EX R0 c i j A Hj) as Aj.
      destruct (held st lb EX R0 (fun x => J x /\ (rank w x <= rank w (sess (st i) c))%nat) c i j (down_step _) (conj X (Nat.le_refl _)) Hj) as [Xj Lj].
      destruct (Nat.eq_dec (rank w (sess (st j) c)) 0) as [Z|Z]; [apply ev_now; auto|]. destruct T as [T|[T _]].
      - exfalso. destruct (over_at c _ (RC j) T) as (r & _ & W). apply Z. unfold rank. rewrite W. reflexivity.
      - assert (busy (sess (st j) c)) as B.
        { unfold busy. destruct T as [r E1 E2 E3 E4|? E|? ? E|? E|E]; rewrite ?E; auto.
          - exfalso. destruct (session_alone_inv _ c (RC j)) as (AI & _). exact (JA _ _ AI Xj E1 E2 E3 E4).
          - apply Z. unfold rank. rewrite E. reflexivity. }
        apply (ev_bind st good good_dec _ _ _ (ev_outside _ j (conj Aj (conj Xj (conj B eq_refl))))). intros k Hk Gk (Y1 & Y2 & Y3). apply ev_now. right. repeat split; auto. lia.
    Qed.
    Lemma settles i : In c (accepted (Server.hist (srv (st i)))) -> J (sess (st i) c) -> Ev i (fun s => over s c \/ established (sess s c)).
    Proof.
      intros A X. apply (ev_bind st good good_dec _ _ _ (drive i A X)). intros j Hj G (Aj & Z). unfold rank in Z. destruct (Session.start_pc (sess (st j) c)) eqn:E; try (exfalso; lia).
      - apply ev_now. right. exact E.
      - apply (ev_mono st good good_dec _ _ _ (ev_left st lb EX R0 FR WF FG c r j (or_introl E) Aj)). tauto.
      - apply (ev_mono st good good_dec _ _ _ (ev_left st lb EX R0 FR WF FG c r j (or_intror E) Aj)). tauto.
    Qed.
  End Drive.
  Lemma spoken i : In c (accepted (Server.hist (srv (st i)))) -> spoke (sess (st i) c) -> Ev i (fun s => over s c \/ established (sess s c)).
  Proof.
    intros A [(n & v & X & V)|X].
    - apply (settles (began n v) (packets_left n) (began_step n v) (began_asked n v)); [exact A|split; assumption].
    - apply (settles gone bytes_left gone_step gone_asked); assumption.
  Qed.
  Lemma refused i n v : In c (accepted (Server.hist (srv (st i)))) -> client_began (Session.hist (sess (st i) c)) n v -> v <> ssl_request_code -> v <> 196608 -> Ev i (fun s => over s c).
  Proof.
    intros A X V V'. apply (ev_bind st good good_dec _ _ _ (spoken i A (or_introl (ex_intro _ n (ex_intro _ v (conj X V)))))). intros j Hj G [O|W]; [apply ev_now; exact O|]. exfalso.
    destruct (held st lb EX R0 (began n v) c i j (fun x k x' P Q R => proj1 (began_step n v x k x' P Q R)) (conj X V) Hj) as [Y _]. destruct Y as (ss & pk & more & Ln & Fs & Hp & E).
    destruct (session_alone_inv _ c (RC j)) as (AI & _). pose proof (SessionPipe.pp_nego _ (SessionLife.al_pipes _ AI)) as N. unfold SessionPipe.nego_ok in N. rewrite W in N.
    destruct N as (p & ps & ((reqs & F & ES) & _) & _). destruct (SessionLife.al_dec _ AI Session.Client) as [_ (mid & rest & D & _)]. rewrite E, ES in D.
    destruct (read_only _ _ _ _ Fs Hp V _ _ _ D F) as (ps' & Z); [|injection Z as Z _; congruence]. intros (q & Z). discriminate Z.
  Qed.
End Settle.
