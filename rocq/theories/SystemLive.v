(** A session of the program over infinite executions. *)
From Verif Require Import SpecExecution SessionLive SystemProofs SystemTrace SystemFacts SystemQuiet SystemBusy SystemServing SystemCrowd.
Require Import Lia.

Lemma its_step s l s' c : reachable step init s -> step s l = Some s' -> healthy (sess s c) ->
  match mine c l with Some x => Session.step (sess s c) x = Some (sess s' c) | None => sess s' c = sess s c end.
Proof.
  intros R E H. destruct (step_moves _ _ _ E) as (_ & m & P & _ & _ & E3 & E4 & E5 & _). pose proof (reachable_linked _ R) as LK. pose proof (reachable_calm _ R) as CA.
  destruct (calm_plan _ _ _ _ CA P E3) as (_ & C2 & _).
  destruct (Nat.eq_dec c (mc m)) as [->|N].
  - dplan P; cbn [mine]; runs; try congruence; try (rewrite Nat.eqb_refl; assumption); exfalso; destruct H as (G1 & G2 & G3 & G4).
    all: try (unfold Session.step in E4; rewrite G3, G1 in E4; discriminate E4).
    all: try match goal with X : Server.pcs _ ?t = _ |- _ => pose proof (lk_agree _ LK t _ ltac:(rewrite X; reflexivity)) as AG; rewrite X in AG; cbn [agrees] in AG; destruct AG; congruence end.
    all: try match goal with X : Server.pcs _ ?t = _ |- _ => pose proof (lk_agree _ LK t _ ltac:(rewrite X; reflexivity)) as AG; rewrite X in AG; cbn [agrees] in AG; congruence end.
    all: destruct CA as [I1 _ _]; assert (W : worker (Server.pcs (srv s) t) \/ in_loop (Server.pcs (srv s) t))
      by (destruct (Nat.eq_dec t 0) as [->|D]; [destruct (cv_main _ I1) as [M|M]; [left; rewrite M; exact I|auto]|left; exact (cv_worker _ I1 t D)]).
    3: rewrite Heqp in W; destruct W as [[]|[]].
    all: unfold Server.step in E3; destruct (Server.crashed (srv s)); try discriminate E3; destruct (Server.pcs (srv s) t); try discriminate E3; destruct W as [[]|[]].
  - pose proof (E5 c N) as X. unfold mine. destruct l; try exact X. destruct (Nat.eqb_spec c0 c) as [->|]; [|exact X]. exfalso. apply N. dplan P. reflexivity.
Qed.

(** what ends its health *)
Lemma sys_unhealthy s l s' c : reachable step init s -> step s l = Some s' -> healthy (sess s c) -> ~ healthy (sess s' c) ->
  (exists d r, l = YSession c (LRecv d) /\ conns (sess s c) d = Some (NetConn r true) /\ forall m r', Conn.RecvMessage r <> Done (Ok m) r') \/ (exists d e, l = YSession c (LWriteErr d e)).
Proof.
  intros R E H N. pose proof (its_step _ _ _ c R E H) as X. pose proof (pt_sess _ (reachable_parts _ R) c) as RS. destruct (mine c l) as [x|] eqn:M; [|rewrite X in N; contradiction].
  assert (l = YSession c x) as -> by (destruct l; try discriminate M; cbn in M; destruct (Nat.eqb_spec c0 c) as [->|]; congruence).
  destruct (unhealthy _ _ _ RS H X N) as [(d & k & -> & C & U)|[(d & e & ->)|(t & r & ->)]]; [left|right; eauto|exfalso].
  - destruct (hf_conn _ (healthy_facts _ RS H) d) as (r & C'). rewrite C in C'. injection C' as ->. exists d, r. auto.
  - destruct (session_alone_inv _ c R) as (_ & _ & HL1 & _). destruct H as (G1 & _ & G3 & _). pose proof (SessionProofs.ph_close _ (SessionPipe.pp_phase _ (SessionLife.al_pipes _ (SessionLife.reachable_all _ RS)))) as HL2. rewrite G1 in HL2. unfold Session.step, go_close in X. rewrite G3 in X. destruct t as [|t]; [rewrite HL2 in X|rewrite HL1 in X]; discriminate X.
Qed.

(** an infinite execution of the program is one of the session, as long as it is healthy *)
Lemma sys_reach st lb : execution step st lb -> reachable step init (st 0%nat) -> forall i, reachable step init (st i).
Proof. intros EX R0 i. induction i as [|i IH]; [exact R0|]. pose proof (EX i) as X. destruct (lb i) as [l|]; [exact (reachable_step _ _ _ _ _ IH X)|rewrite X; exact IH]. Qed.
Lemma its_execution c st lb : execution step st lb -> reachable step init (st 0%nat) -> forall i, healthy (of_session c st i) ->
  match lb_session c lb i with Some l => Session.step (of_session c st i) l = Some (of_session c st (S i)) | None => of_session c st (S i) = of_session c st i end.
Proof.
  intros EX R0 i H. pose proof (EX i) as X. unfold lb_session, of_session in *. destruct (lb i) as [l|]; [|rewrite X; reflexivity].
  exact (its_step _ _ _ _ (sys_reach _ _ EX R0 i) X H).
Qed.
Lemma sys_delivered c st lb : execution step st lb -> reachable step init (st 0%nat) -> fair_goroutines (of_session c st) (lb_session c lb) -> fair_select (of_session c st) (lb_session c lb) ->
  forall d ms i rest, complete d (hist (of_session c st i)) ms rest -> exists j, (i <= j)%nat /\ (~ healthy (of_session c st j) \/ delivered d (hist (of_session c st j)) ms).
Proof.
  intros EX R0 FG FS d ms i rest C. refine (ev_delivered _ _ _ (fun j H _ => its_execution c _ _ EX R0 j H) FG FS d ms i rest C).
  intros j. apply (pt_sess _ (reachable_parts _ (sys_reach _ _ EX R0 j))).
Qed.

(** *** Executions that repeat a sequence of actions forever *)
Section Cycle.
Context {S L : Type}.
Variable step : S -> L -> option S.
Variable C : S -> Prop.
Variable ls : list L.
Hypothesis nonempty : ls <> [].
Hypothesis again : forall s, C s -> exists s', run step s ls = Some s' /\ C s'.
Fixpoint laps (s : S) (k : nat) : S := match k with O => s | Datatypes.S k => match run step (laps s k) ls with Some s' => s' | None => s end end.
Definition moment (s : S) (n : nat) : S := match run step (laps s (n / length ls)) (firstn (n mod length ls) ls) with Some s' => s' | None => s end.
Definition action (n : nat) : option L := nth_error ls (n mod length ls).
Lemma laps_ok s k : C s -> C (laps s k) /\ run step (laps s k) ls = Some (laps s (Datatypes.S k)).
Proof.
  intros H. assert (C (laps s k)) as X. { induction k as [|k IH]; [exact H|]. cbn. destruct (again _ IH) as (s' & E & G). rewrite E. exact G. }
  split; [exact X|]. cbn. destruct (again _ X) as (s' & E & _). rewrite E. reflexivity.
Qed.
Lemma len : length ls <> 0%nat. Proof. destruct ls; [congruence|discriminate]. Qed.
Lemma firstn_next (l : list L) k x : nth_error l k = Some x -> firstn (Datatypes.S k) l = firstn k l ++ [x].
Proof. revert l. induction k as [|k IH]; intros [|y l] H; try discriminate H; cbn in *; [congruence|]. f_equal. apply IH, H. Qed.
Lemma some_prefix s l t : run step s (l ++ t) <> None -> run step s l <> None.
Proof. rewrite run_app. destruct (run step s l); congruence. Qed.
Lemma cycle_at s k : C s -> moment s (k * length ls) = laps s k.
Proof. intros H. unfold moment. rewrite Nat.div_mul, Nat.mod_mul by apply len. reflexivity. Qed.
Lemma cycle_in s k j : (j < length ls)%nat -> moment s (k * length ls + j) = match run step (laps s k) (firstn j ls) with Some s' => s' | None => s end /\ action (k * length ls + j) = nth_error ls j.
Proof.
  intros H. unfold moment, action. replace ((k * length ls + j) / length ls)%nat with k by (rewrite Nat.add_comm, Nat.div_add, Nat.div_small by (assumption || apply len); reflexivity).
  replace ((k * length ls + j) mod length ls)%nat with j by (rewrite Nat.add_comm, Nat.mod_add, Nat.mod_small by (assumption || apply len); reflexivity). auto.
Qed.
Lemma cycle_execution s : C s -> execution step (moment s) action.
Proof.
  intros H n. rewrite (Nat.div_mod n (length ls) len). rewrite (Nat.mul_comm (length ls)). set (k := (n / length ls)%nat). assert (n mod length ls < length ls)%nat as J by (apply Nat.mod_upper_bound, len).
  set (j := (n mod length ls)%nat) in *. destruct (cycle_in s k j J) as [E1 E2]. rewrite E1, E2. destruct (laps_ok s k H) as [_ R].
  destruct (nth_error ls j) as [x|] eqn:N; [|apply nth_error_None in N; lia]. pose proof (firstn_next _ _ _ N) as F.
  assert (run step (laps s k) (firstn (Datatypes.S j) ls) <> None) as Y by (apply (some_prefix _ _ (skipn (Datatypes.S j) ls)); rewrite firstn_skipn; congruence).
  rewrite F, run_app in Y. destruct (run step (laps s k) (firstn j ls)) as [s1|] eqn:R1; [|congruence]. cbn in Y. destruct (step s1 x) as [s2|] eqn:R2; [|congruence]. f_equal.
  destruct (Nat.eq_dec (Datatypes.S j) (length ls)) as [Q|Q].
  - replace (Datatypes.S (k * length ls + j)) with (Datatypes.S k * length ls)%nat by lia. rewrite cycle_at by exact H. rewrite Q, firstn_all in F. rewrite F, run_app, R1 in R. cbn [run] in R. rewrite R2 in R. congruence.
  - replace (Datatypes.S (k * length ls + j)) with (k * length ls + Datatypes.S j)%nat by lia. rewrite (proj1 (cycle_in s k (Datatypes.S j) ltac:(lia))), F, run_app, R1. cbn. rewrite R2. reflexivity.
Qed.
End Cycle.

(** *** A session that has nothing to do *)
Record resting (x : Session.state) : Prop := {
  rs_healthy : healthy x; rs_in : forall d, in_pc x d = IRecv; rs_out : forall d, out_pc x d = OTake; rs_proc : proc_pc x = PSelect;
  rs_cin : forall d, chan_in x d = Session.Chan [] false; rs_cout : forall d, chan_out x d = Session.Chan [] false;
  rs_conn : forall d, conns x d = Some (NetConn (Frames.Reader [] None) true) }.
Lemma resting_idle x g l : resting x -> acts_as g l -> Session.step x l = None.
Proof.
  intros [(A1 & A2 & A3 & A4) B1 B2 B3 B4 B5 B6] H. unfold Session.step. rewrite A3. destruct g, l; try contradiction; rewrite ?B1, ?B2, ?B3, ?B4, ?B5, ?B6; reflexivity.
Qed.
(** a message [b] passes from [d] *)
Definition passes (d : side) (b : bytes) : list Session.label := [LArrive d b; LRecv d; LIn d; LSelect d; LProc; LTake (other d); LWrite (other d) (length b)].
Lemma run_cons {S L} (f : S -> L -> option S) x l y ls z : f x l = Some y -> run f y ls = Some z -> run f x (l :: ls) = Some z.
Proof. cbn. intros ->. auto. Qed.
Lemma resting_pass x d b m : resting x -> Conn.RecvMessage (Frames.Reader [b] None) = Done (Ok m) (Frames.Reader [] None) -> SendMessage m = b -> b <> [] ->
  exists x', run Session.step x (passes d b) = Some x' /\ resting x'.
Proof.
  intros [(A1 & A2 & A3 & A4) B1 B2 B3 B4 B5 B6] R SM NE. unfold passes.
  assert (write_ok (length b) b = true) as W by (unfold write_ok; rewrite Nat.leb_refl; destruct b; [congruence|reflexivity]).
  destruct d; (eexists; split;
    [do 7 (eapply run_cons; [unfold Session.step; cbn -[Conn.RecvMessage write_ok SendMessage firstn skipn]; rewrite ?A3, ?B1, ?B2, ?B3, ?B4, ?B5, ?B6; unfold recv_on; cbn -[Conn.RecvMessage write_ok SendMessage firstn skipn]; rewrite ?R, ?SM, ?W, ?skipn_all, ?firstn_all; reflexivity|]); reflexivity|]).
  all: constructor; try (intros []); cbn; auto; repeat split; cbn; auto.
Qed.
(** doing it in the program *)
Lemma lift_run ls : forall s c x, reachable step init s -> panicked s = None -> (c < Server.next_conn (srv s))%nat -> Forall (fun l => internal l = true \/ exists d b, l = LArrive d b) ls ->
  run Session.step (sess s c) ls = Some x -> Session.crashed x = None ->
  exists s', run step s (map (YSession c) ls) = Some s' /\ reachable step init s' /\ panicked s' = None /\ srv s' = srv s /\ sess s' c = x.
Proof.
  induction ls as [|l ls IH]; intros s c x R P L F E K; [exists s; cbn in E; injection E as E; auto|]. inversion F as [|? ? A F']; subst. cbn in E. destruct (Session.step (sess s c) l) as [y|] eqn:Y; [|discriminate].
  assert (session_alone (sess s c) l = true) as AL by (destruct A as [A|(d & b & ->)]; [destruct l; try discriminate A|]; reflexivity).
  assert (Session.crashed y = None) as Ky. { destruct ls as [|l' ls]; [cbn in E; congruence|]. cbn in E. unfold Session.step in E. destruct (Session.crashed y); [discriminate E|reflexivity]. }
  destruct (alone_session _ _ _ _ R P L AL Y Ky) as (s1 & E1 & R1 & P1 & V1 & _ & S1 & _). rewrite <- V1 in L. rewrite <- S1 in E. destruct (IH _ _ _ R1 P1 L F' E K) as (s' & Q1 & Q2 & Q3 & Q4 & Q5).
  exists s'. cbn. rewrite E1. repeat split; auto. congruence.
Qed.
Definition at_ease (c : nat) (s : state) : Prop := reachable step init s /\ panicked s = None /\ (c < Server.next_conn (srv s))%nat /\ resting (sess s c).
Lemma ease_pass c s d b m : at_ease c s -> Conn.RecvMessage (Frames.Reader [b] None) = Done (Ok m) (Frames.Reader [] None) -> SendMessage m = b -> b <> [] ->
  exists s', run step s (map (YSession c) (passes d b)) = Some s' /\ at_ease c s'.
Proof.
  intros (R & P & L & X) H1 H2 H3. destruct (resting_pass _ d _ _ X H1 H2 H3) as (x & E & X').
  destruct (lift_run (passes d b) s c x R P L) as (s' & Q1 & Q2 & Q3 & Q4 & Q5); [|exact E|destruct X' as [(_ & _ & ? & _)]; assumption|].
  - unfold passes. constructor; [right; eauto|]. repeat (constructor; [left; reflexivity|]). constructor.
  - exists s'. split; [exact Q1|]. split; [exact Q2|]. split; [exact Q3|]. rewrite Q4, Q5. auto.
Qed.
