(** Invariants of the whole program. *)
From Verif Require Export System.
From Verif Require SpecWatcher WatcherProofs SpecDistributor DistributorProofs SpecServer ServerProofs SpecSession SessionProofs.
Require Import Lia.

(** *** One action of the system is a few actions of each component *)
Lemma step_moves s l s' : step s l = Some s' -> panicked s = None /\ exists m, plan s l = Some m /\
  run FileWatcher.step (watcher s) (mw m) = Some (watcher s') /\ run Distributor.step (dist s) (md m) = Some (dist s') /\
  run Server.step (srv s) (mv m) = Some (srv s') /\ run Session.step (sess s (mc m)) (ms m) = Some (sess s' (mc m)) /\
  (forall c, c <> mc m -> sess s' c = sess s c) /\ main s' = mr m.
Proof.
  unfold step. intros H. destruct (panicked s) eqn:Ep; [discriminate|]. split; [reflexivity|]. destruct (plan s l) as [m|]; [|discriminate]. exists m.
  destruct (run FileWatcher.step _ _) eqn:E1; [|discriminate]. destruct (run Distributor.step _ _) eqn:E2; [|discriminate].
  destruct (run Server.step _ _) eqn:E3; [|discriminate]. destruct (run Session.step _ _) eqn:E4; [|discriminate].
  injection H as <-. cbn. rewrite upd_same. repeat split. intros c Hc. apply upd_other, Hc.
Qed.
Lemma moves_step s l m w d v x : panicked s = None -> plan s l = Some m ->
  run FileWatcher.step (watcher s) (mw m) = Some w -> run Distributor.step (dist s) (md m) = Some d ->
  run Server.step (srv s) (mv m) = Some v -> run Session.step (sess s (mc m)) (ms m) = Some x ->
  step s l = Some (State w d v (upd (sess s) (mc m) x) (mr m)).
Proof. intros H1 H2 H3 H4 H5 H6. unfold step. rewrite H1, H2, H3, H4, H5, H6. reflexivity. Qed.

(** induction over reachable states, the state itself being reachable *)
Lemma sys_induct (P : state -> Prop) :
  (forall f, P (Run f)) -> (forall s l s', reachable step init s -> P s -> step s l = Some s' -> P s') ->
  forall s, reachable step init s -> P s.
Proof.
  intros Hi Hs s R. assert (reachable step init s /\ P s) as [_ X]; [|exact X]. revert s R. apply reachable_invariant.
  - intros s [f ->]. split; [apply reachable_init; eexists; reflexivity|apply Hi].
  - intros s l s' [R H] E. split; [eapply reachable_step; eassumption|eauto].
Qed.

(** *** Projections *)
Record parts (s : state) : Prop := {
  pt_watcher : reachable FileWatcher.step FileWatcher.from_cli (watcher s);
  pt_dist : reachable Distributor.step Distributor.init (dist s);
  pt_srv : reachable Server.step Server.init (srv s);
  pt_sess : forall c, reachable Session.step Session.init (sess s c)
}.
Lemma reachable_parts s : reachable step init s -> parts s.
Proof.
  revert s. apply sys_induct.
  - intros f. constructor; cbn; intros; apply reachable_init; try reflexivity. exists f. reflexivity.
  - intros s l s' _ [H1 H2 H3 H4] E. destruct (step_moves _ _ _ E) as (_ & m & _ & E1 & E2 & E3 & E4 & E5 & _).
    constructor; try (eapply reachable_run; eassumption). intros c. destruct (Nat.eq_dec c (mc m)) as [->|Hc]; [eapply reachable_run; [apply H4|exact E4]|].
    rewrite E5 by exact Hc. apply H4.
Qed.

(** *** Nobody closes anything *)
(** the pcs of Start before it returns; of the goroutines the server creates *)
Definition in_loop (p : Server.pc) : Prop :=
  match p with Server.A0 | Server.A1 | Server.A2 | Server.A3 | Server.A4 | Server.A5 _ | Server.A6 _ => True | _ => False end.
Definition worker (p : Server.pc) : Prop :=
  match p with
  | Server.Idle | Server.S0 _ | Server.S1 _ | Server.S2 _ | Server.S3 _ | Server.S4 _ | Server.S5 _ | Server.S6 _ _ | Server.SRet _ _
  | Server.C0 _ | Server.C1 _ | Server.C2 _ | Server.C3 _ | Server.C4 _ | Server.C5 _ | Server.C6 _ | Server.C7 _ _ | Server.C8 _ _
  | Server.C9 _ _ | Server.C10 _ _ | Server.C11 _ _ | Server.CRet _ _ => True
  | _ => False
  end.
Record calm_srv (v : Server.state) : Prop := {
  cv_shut : Server.shut_ev v = EvInit;
  cv_updates : Server.updates v = [];
  cv_closed : Server.updates_closed v = false;
  cv_crash : Server.crashed v = None;
  cv_start : match Server.pcs v 0%nat with Server.Idle | Server.A0 | Server.A1 => Server.start_ev v = EvInit | _ => True end;
  cv_main : Server.pcs v 0%nat = Server.Idle \/ in_loop (Server.pcs v 0%nat);
  cv_worker : forall t, t <> 0%nat -> worker (Server.pcs v t)
}.
Definition calm_server_label (l : Server.label) : Prop :=
  match l with
  | Server.LStart t => t = 0%nat
  | Server.LSubscribe t r => t = 0%nat /\ r = None
  | Server.LSpawn _ child => child <> 0%nat
  | Server.LClose _ | Server.LServe _ | Server.LServeConn _ | Server.LConfig _ | Server.LRecv _ => False
  | _ => True
  end.
Ltac vstep H := ServerProofs.dstep H.
Ltac eqs := ServerProofs.eqs.
Lemma calm_srv_step v l v' : calm_srv v -> Server.step v l = Some v' -> calm_server_label l -> calm_srv v'.
Proof.
  intros [I1 I2 I3 I4 IS I5 I6] H L. vstep H; cbn in L; try contradiction.
  all: try (rewrite I1 in *; discriminate).
  all: try match goal with E : Server.pcs ?v ?t = ?p |- _ =>
     lazymatch p with Server.Idle => fail | _ =>
     let X := fresh in let Y := fresh in destruct (Nat.eq_dec t 0) as [->|X]; [rewrite E in I5, IS|pose proof (I6 _ X) as Y; rewrite E in Y]; cbn in *; try (destruct I5; [discriminate|contradiction]); try contradiction end end.
  all: constructor; cbn; auto; try congruence; try (intros t1 Ht1; specialize (I6 t1 Ht1)); unfold upd; repeat (eqs; cbn; auto; try congruence; try contradiction).
  all: try (destruct L; congruence).
  all: try (rewrite I1; cbn; auto).
  all: try (subst; rewrite Heqp in *; auto).
Qed.
Definition calm_rest (p : Distributor.pc) (t : tid) : Prop :=
  match p with
  | Distributor.C0 _ | Distributor.C1 _ | Distributor.C2 _ | Distributor.C3 _ | Distributor.U0 _ | Distributor.U1 _ | Distributor.MExit => False
  | Distributor.S0 ch cs Distributor.STop | Distributor.S1 ch cs Distributor.STop | Distributor.S2 ch cs Distributor.STop
  | Distributor.S3 ch cs Distributor.STop _ | Distributor.S4 ch cs Distributor.STop => t = 0%nat /\ ch = 0%nat /\ cs = [listen_changed]
  | Distributor.S5 ch Distributor.STop => t = 0%nat /\ ch = 0%nat
  | Distributor.Idle => True
  | _ => t <> 0%nat
  end.
Record calm_dist (d : Distributor.state) : Prop := {
  cd_closed : Distributor.closed d = EvInit;
  cd_src : Distributor.src_closed d = false;
  cd_pcs : forall t, calm_rest (Distributor.pcs d t) t
}.
Definition calm_dist_label (l : Distributor.label) : Prop :=
  match l with
  | Distributor.LCloseSource => False
  | Distributor.LCall t k => t = 0%nat /\ k = Distributor.CSubscribe 0 [listen_changed] \/ t <> 0%nat /\ k = Distributor.CGet
  | Distributor.LCloseChan _ => False
  | _ => True
  end.
Ltac ddstep H := DistributorProofs.dstep H.
Lemma calm_dist_step d l d' : calm_dist d -> Distributor.step d l = Some d' -> calm_dist_label l ->
  (forall t n ch cs k, l = Distributor.LFresh t n -> Distributor.pcs d t = Distributor.S4 ch cs k -> n <> 0%nat) -> calm_dist d'.
Proof.
  intros [I1 I2 I3] H L F. ddstep H; cbn in L; try contradiction.
  all: try (rewrite I1 in *; discriminate).
  all: try (rewrite I2 in *; discriminate).
  all: repeat match goal with E : Distributor.pcs ?d ?t = ?p |- _ => lazymatch goal with _ : calm_rest p t |- _ => fail | _ => assert (calm_rest p t) by (rewrite <- E; apply I3) end end.
  all: repeat match goal with H : calm_rest (_ _) _ |- _ => cbn in H | H : calm_rest _ _ |- _ => cbn in H end; try contradiction.
  all: constructor; cbn; auto; try congruence; try (intros t1; specialize (I3 t1)); unfold upd; repeat (eqs; cbn; auto; try congruence; try contradiction).
  all: try solve [intuition (subst; auto; try congruence)].
  all: try solve [repeat match goal with |- context [match ?x with _ => _ end] => destruct x; cbn end; cbn in *; intuition (subst; auto; congruence)].
  all: eapply F; [reflexivity|eassumption].
Qed.

Ltac dplan H :=
  unfold plan in H;
  repeat (match type of H with
          | context [match ?x with _ => _ end] => first [is_var x; destruct x | destruct x eqn:?]
          end; try discriminate H);
  injection H as <-; cbn [mw md mv mc ms mr] in *.
(** a run of one label is a step; runs of no label change nothing *)
Lemma run_one {S L} (f : S -> L -> option S) s l s' : run f s [l] = Some s' -> f s l = Some s'.
Proof. cbn. destruct (f s l); congruence. Qed.
Lemma run_none {S L} (f : S -> L -> option S) s s' : run f s [] = Some s' -> s' = s.
Proof. cbn. congruence. Qed.
Lemma run_two {S L} (f : S -> L -> option S) s l1 l2 s' : run f s [l1; l2] = Some s' -> exists s1, f s l1 = Some s1 /\ f s1 l2 = Some s'.
Proof. cbn. destruct (f s l1) as [s1|]; [|discriminate]. destruct (f s1 l2) eqn:E; [|discriminate]. intros H. injection H as <-. eauto. Qed.
Ltac runs := repeat match goal with
  | H : run _ _ [] = Some _ |- _ => apply run_none in H
  | H : run _ _ [_] = Some _ |- _ => apply run_one in H
  | H : run _ _ [_; _] = Some _ |- _ => apply run_two in H; destruct H as (? & ? & ?)
  end.

Record calm (s : state) : Prop := {
  ca_srv : calm_srv (srv s);
  ca_dist : calm_dist (dist s);
  ca_main : main s = RPrepare /\ Server.pcs (srv s) 0%nat = Server.Idle \/ main s = RServe /\ in_loop (Server.pcs (srv s) 0%nat)
}.
(** a configuration handed to the server's loop *)
Lemma calm_update v c v1 v' : calm_srv v -> Server.pcs v 0%nat = Server.A4 -> Server.step v (Server.LConfig c) = Some v1 -> Server.step v1 (Server.LRecv 0) = Some v' ->
  v' = Server.goto (Server.with_updates v true [] false) 0 (Server.A5 c).
Proof.
  intros [I1 I2 I3 I4 _ I5 I6] E H1 H2. vstep H1; [congruence|]. unfold Server.step in H2. cbn in H2. rewrite Heqo, E in H2. injection H2 as <-. reflexivity.
Qed.
Lemma calm_update_calm v c : calm_srv v -> Server.pcs v 0%nat = Server.A4 -> calm_srv (Server.goto (Server.with_updates v true [] false) 0 (Server.A5 c)).
Proof.
  intros [I1 I2 I3 I4 IS I5 I6] E. constructor; cbn; auto. intros t Ht. rewrite upd_other by exact Ht. auto.
Qed.
Lemma unused_spec s n : unused s n = true -> n <> 0%nat /\ Distributor.pcs (dist s) n = Distributor.Idle /\ Server.pcs (srv s) n = Server.Idle.
Proof. unfold unused. destruct n; [discriminate|]. destruct (Distributor.pcs _ _); try discriminate. destruct (Server.pcs _ _); try discriminate. auto. Qed.
(** where the program counter of goroutine 0 goes *)
Lemma loop_step v l v' : calm_srv v -> Server.step v l = Some v' -> calm_server_label l ->
  (Server.pcs v 0%nat = Server.Idle -> (forall t, l <> Server.LStart t) -> Server.pcs v' 0%nat = Server.Idle) /\
  (in_loop (Server.pcs v 0%nat) -> in_loop (Server.pcs v' 0%nat)).
Proof.
  intros I H L. pose proof (calm_srv_step _ _ _ I H L) as I'. destruct (cv_main _ I') as [E|E].
  - split; [intros; exact E|]. intros X. exfalso. destruct I as [I1 I2 I3 I4 IS I5 I6].
    vstep H; cbn in L; try contradiction; cbn in E; unfold upd in E; repeat (eqs; cbn in *; try congruence); try (rewrite E in X; exact X).
    all: try match goal with E : Server.pcs ?v 0%nat = ?p |- _ => rewrite E in X; exact X end.
    all: try match goal with E : context [Server.bg] |- _ => cbn in E; unfold upd in E; cbn in E end.
    all: try (destruct (Nat.eq_dec t 0); [subst|]; cbn in *; congruence).
  - split; [|intros; exact E]. intros X N. exfalso. destruct I as [I1 I2 I3 I4 IS I5 I6].
    vstep H; cbn in L; try contradiction; cbn in E; unfold upd in E; repeat (eqs; cbn in *; try congruence); try (rewrite X in E; exact E).
    all: try match goal with N : forall t, Server.LStart ?a <> _ |- _ => eapply N; reflexivity end.
Qed.
Lemma returning_calm d t r : calm_dist d -> returning d t = Some r ->
  (t = 0%nat /\ Distributor.pcs d t = Distributor.S5 0 Distributor.STop /\ r = Distributor.RNil) \/
  (t <> 0%nat /\ exists c, Distributor.pcs d t = Distributor.G3 (Some c) /\ r = Distributor.RConfig c) \/
  (t <> 0%nat /\ exists ch, Distributor.pcs d t = Distributor.G8 ch r).
Proof.
  intros [I1 I2 I3] H. specialize (I3 t). unfold returning in H. rewrite I1 in H. cbn in H.
  destruct (Distributor.pcs d t) eqn:E; try discriminate; cbn in I3; try contradiction.
  - destruct snapshot; [|discriminate]. injection H as <-. right. left. eauto.
  - destruct k; discriminate.
  - destruct k; [|discriminate]. destruct I3 as [-> ->]. injection H as <-. auto.
  - injection H as <-. right. right. eauto.
Qed.
Definition calm_moves (s : state) (m : moves) : Prop :=
  Forall calm_dist_label (md m) /\ (Forall calm_server_label (mv m) \/ exists c, mv m = [Server.LConfig c; Server.LRecv 0]) /\
  (forall t, ~ In (Session.LCallClose t) (ms m)).
Lemma calm_plan s l m v' : calm s -> plan s l = Some m -> run Server.step (srv s) (mv m) = Some v' -> calm_moves s m.
Proof.
  intros [I1 I2 I3] P Hv. pose proof (cv_main _ I1) as M. pose proof (cv_worker _ I1) as W.
  assert (T : forall t c, Server.pcs (srv s) t = Server.C6 c -> t <> 0%nat) by (intros t c E ->; rewrite E in M; destruct M as [M|[]]; discriminate M).
  assert (K : forall t p, Server.pcs (srv s) t = p -> worker p \/ in_loop p).
  { intros t p <-. destruct (Nat.eq_dec t 0) as [->|X]; [|left; auto]. destruct M as [M|M]; [left; rewrite M; exact I|right; exact M]. }
  dplan P; unfold calm_moves; cbn [md mv ms].
  all: try match goal with E : Server.pcs _ _ = ?p |- _ => let X := fresh in pose proof (K _ _ E) as X; cbn in X; destruct X; try contradiction end.
  all: try (match goal with E : returning _ _ = Some _ |- _ => apply (returning_calm _ _ _ I2) in E; destruct E as [(? & ? & ?)|[(? & ? & ? & ?)|(? & ? & ?)]] end; try congruence).
  all: try (split; [repeat constructor; fail|split; [first [right; eexists; reflexivity|left; repeat constructor; fail]|intros t1 X; cbn in X; intuition discriminate]]; fail).
  - split; [|split; [left; constructor|intros t1 []]]. destruct l; try discriminate Heqb; repeat constructor.
  - split; [constructor|split; [left|intros t1 []]]. destruct l; try discriminate Heqb; repeat constructor. apply unused_spec in Heqb. tauto.
  - split; [constructor|split; [left; constructor|]]. intros t [->|[]]. apply andb_prop in Heqb. destruct Heqb as [_ X]. discriminate X.
  - split; [|split; [left; constructor|intros t1 []]]. constructor; [right; eauto|constructor].
  - exfalso. apply run_one in Hv. vstep Hv; match goal with E : Server.pcs _ _ = _ |- _ => apply K in E; destruct E as [[]|[]] end.
  - exfalso. apply run_one in Hv. vstep Hv; match goal with E : Server.pcs _ _ = _ |- _ => apply K in E; destruct E as [[]|[]] end.
Qed.

Lemma calm_dist_run d ls d' : calm_dist d -> run Distributor.step d ls = Some d' -> Forall calm_dist_label ls ->
  (forall t n ch cs k, In (Distributor.LFresh t n) ls -> ls = [Distributor.LFresh t n] /\ (Distributor.pcs d t = Distributor.S4 ch cs k -> n <> 0%nat)) -> calm_dist d'.
Proof.
  revert d. induction ls as [|l ls IH]; cbn; intros d I H F N; [congruence|]. destruct (Distributor.step d l) as [d1|] eqn:E; [|discriminate]. inversion F; subst.
  apply (IH d1); auto.
  - eapply calm_dist_step; try eassumption. intros t n ch cs k -> X. eapply N; [left; reflexivity|exact X].
  - intros t n ch cs k X. exfalso. destruct (N t n ch cs k (or_intror X)) as [Y _]. injection Y as -> ->. destruct X.
Qed.
Lemma calm_srv_run v ls v' : calm_srv v -> run Server.step v ls = Some v' -> Forall calm_server_label ls -> calm_srv v'.
Proof.
  revert v. induction ls as [|l ls IH]; cbn; intros v I H F; [congruence|]. destruct (Server.step v l) as [v1|] eqn:E; [|discriminate]. inversion F; subst.
  apply (IH v1); auto. eapply calm_srv_step; eassumption.
Qed.
Lemma loop_run v ls v' : calm_srv v -> run Server.step v ls = Some v' -> Forall calm_server_label ls ->
  (Server.pcs v 0%nat = Server.Idle -> (forall t, ~ In (Server.LStart t) ls) -> Server.pcs v' 0%nat = Server.Idle) /\ (in_loop (Server.pcs v 0%nat) -> in_loop (Server.pcs v' 0%nat)).
Proof.
  revert v. induction ls as [|l ls IH]; cbn; intros v I H F; [injection H as <-; auto|]. destruct (Server.step v l) as [v1|] eqn:E; [|discriminate]. inversion F; subst.
  destruct (IH v1 (calm_srv_step _ _ _ I E H2) H H3) as [A B]. destruct (loop_step _ _ _ I E H2) as [C D]. split; [intros X N|auto].
  apply A; [apply C; [exact X|intros t ->; eapply N; left; reflexivity]|intros t Y; eapply N; right; exact Y].
Qed.
Lemma calm_step s l s' : calm s -> step s l = Some s' -> calm s'.
Proof.
  intros I E. destruct (step_moves _ _ _ E) as (_ & m & P & _ & E2 & E3 & _ & _ & Em). destruct (calm_plan _ _ _ _ I P E3) as (C1 & C2 & _).
  destruct I as [I1 I2 I3]. constructor.
  - destruct C2 as [C2|[c C2]]; [eapply calm_srv_run; eassumption|]. rewrite C2 in E3. apply run_two in E3. destruct E3 as (v1 & A & B).
    assert (Server.pcs (srv s) 0%nat = Server.A4) as X by (clear A B E2 C1; dplan P; try discriminate C2; reflexivity).
    rewrite (calm_update _ _ _ _ I1 X A B). apply calm_update_calm; assumption.
  - eapply calm_dist_run; try eassumption. intros t n ch cs k X. clear C2 C1. dplan P; cbn in X; try (intuition discriminate).
    destruct X as [->|[]]. split; [reflexivity|]. intros Y. cbn in Heqb. rewrite Y in Heqb. apply unused_spec in Heqb. tauto.
  - rewrite Em. destruct C2 as [C2|[c C2]].
    + destruct (loop_run _ _ _ I1 E3 C2) as [A B]. clear C1 E2.
      assert (mr m = main s /\ (forall t, ~ In (Server.LStart t) (mv m)) \/ l = YRun) as [[-> X]| -> ].
      { clear A B E3. dplan P; try (left; split; [reflexivity|intros t1 X; cbn in X; intuition discriminate]); auto.
        - left. split; [reflexivity|]. intros t [->|[]]. discriminate Heqb.
        - destruct I3 as [[I3 X]|[I3 X]]; [congruence|]. destruct X.
        - destruct I3 as [[I3 X]|[I3 X]]; congruence.
        - destruct I3 as [[I3 X]|[I3 X]]; congruence. }
      * destruct I3 as [[I3 Y]|[I3 Y]]; [left|right]; auto.
      * dplan P. right. split; [reflexivity|]. apply run_one in E3. vstep E3. reflexivity.
    + right. dplan P; try discriminate C2; try (injection C2 as ->; discriminate Heqb). destruct I3 as [[I3 X]|[I3 X]]; [discriminate X|]. split; [exact I3|].
      apply run_two in E3. destruct E3 as (v1 & A & B). rewrite (calm_update _ _ _ _ I1 Heqp A B). exact I.
Qed.
Lemma reachable_calm s : reachable step init s -> calm s.
Proof.
  apply reachable_invariant; [|apply calm_step]. intros s0 [f ->]. constructor; cbn; auto.
  - constructor; cbn; auto.
  - constructor; cbn; auto.
Qed.
