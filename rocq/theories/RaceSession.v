(** Data races, session.go: dbConn (:27) and dbConnectionParams (:30).

    The shared variables are those that are neither channels nor synchronisation objects (Event, Mutex,
    WaitGroup, errgroup) and are written after the object containing them has been shared.  Which action
    accesses them follows the lines of the Go code; that no access of the model is left out is proved
    ([writes_declared], [reads_declared]). *)
From Verif Require Export SpecRace.
From Verif Require Import SessionProofs SessionTraffic.

Inductive var := VDbConn | VParams.
(** the goroutine of Start, callers of Close, the five goroutines of :95-99 *)
Inductive agent := AStart | AClose (t : tid) | APump (g : goroutine).
(** the goroutine that takes the action; the deferred Close (:83) is a call of Start's goroutine *)
Definition actor (l : label) : option agent :=
  match l with
  | LArrive _ _ | LHangup _ _ | LReset _ _ => None
  | LCallStart | LStart | LStartWrite _ | LStartWriteErr _ | LConfig _ _ | LDial _ => Some AStart
  | LCallClose t | LClose t _ => Some (match t with O => AStart | S _ => AClose t end)
  | LRecv d | LIn d => Some (APump (GIn d))
  | LSelect _ | LProc => Some (APump GProc)
  | LTake d | LWrite d _ | LWriteErr d _ => Some (APump (GOut d))
  end.
(** the accesses of an action, session.go:74-345 *)
Definition accesses (s : state) (l : label) (x : var) : option access :=
  match x, l with
  | VDbConn, LDial None => Some Wr                                                      (* :218 *)
  | VDbConn, (LStartWrite _ | LStartWriteErr _) => match start_pc s with SSend _ => Some Rd | _ => None end  (* :221 *)
  | VDbConn, LClose t _ => match close_pc s t with K3 _ => Some Rd | _ => None end      (* :132-133 *)
  | VDbConn, (LRecv DB | LWrite DB _ | LWriteErr DB _) => Some Rd                       (* :266, :288 *)
  | VParams, LStart => match start_pc s with SGet _ => Some Rd | _ => None end          (* :328, :344 *)
  | VParams, LConfig _ _ => Some Wr                                                     (* :328, :337, :344 *)
  | _, _ => None
  end.
(** the accesses of one goroutine *)
Definition touch (s : state) (l : label) (a : agent) (x : var) : option access :=
  match actor l, a with
  | Some AStart, AStart => accesses s l x
  | Some (AClose t), AClose t' => if Nat.eqb t t' then accesses s l x else None
  | Some (APump (GIn d)), APump (GIn d') => if side_eqb d d' then accesses s l x else None
  | Some (APump (GOut d)), APump (GOut d') => if side_eqb d d' then accesses s l x else None
  | Some (APump GProc), APump GProc => accesses s l x
  | _, _ => None
  end.
(** is there a database connection, i.e. is [dbConn] not nil? *)
Definition connected (s : state) : bool := match conns s DB with Some _ => true | None => false end.
(** equality of one of the variables; what has arrived on a connection is not part of [dbConn] *)
Definition same (x : var) (s s' : state) : Prop :=
  match x with VDbConn => connected s = connected s' | VParams => cached s = cached s' end.
(** the states differ at most in one of the variables (and, for [dbConn], in what it points to) *)
Definition alike (x : var) (s s' : state) : Prop :=
  start_pc s = start_pc s' /\ close_pc s = close_pc s' /\ in_pc s = in_pc s' /\ out_pc s = out_pc s' /\ proc_pc s = proc_pc s' /\
  closed s = closed s' /\ chan_in s = chan_in s' /\ chan_out s = chan_out s' /\ gerr s = gerr s' /\ crashed s = crashed s' /\ hist s = hist s' /\
  conns s Client = conns s' Client /\
  match x with VDbConn => cached s = cached s' | VParams => conns s DB = conns s' DB end.
(** the actions of the program; those of the network access [dbConn]'s connection but not the variable *)
Definition inside (l : label) : Prop := actor l <> None.

(** ** Proofs *)
Lemma declared s l x (P : option access -> Prop) : P None -> (forall a, P (touch s l a x)) -> P (accesses s l x).
Proof.
  intros Z N. destruct l; try (destruct x; exact Z); try exact (N AStart).
  - specialize (N (match t with O => AStart | S _ => AClose t end)). destruct t; cbn in *; rewrite ?Nat.eqb_refl in N; exact N.
  - specialize (N (APump (GIn d))). destruct d; exact N.
  - specialize (N (APump (GOut d))). destruct d; exact N.
  - specialize (N (APump (GOut d))). destruct d; exact N.
Qed.
Lemma session_writes_declared : writes_declared step touch same.
Proof.
  intros s l s' x H N. apply (declared _ _ _ (fun a => a <> Some Wr)) in N; [|discriminate]. unfold same, connected.
  dstep H; destruct x; cbn in *; unfold supd; sides; cbn in *; repeat match goal with E : conns _ _ = _ |- _ => rewrite E; clear E end; try reflexivity; try congruence.
Qed.
Lemma session_reads_declared : reads_declared step touch alike inside.
Proof.
  intros s1 s2 l x L A N. apply (declared _ _ _ (fun a => a = None)) in N; [|reflexivity].
  destruct s1 as [a1 a2 a3 a4 a5 a6 a7 a8 a9 a10 a11 a12 a13], s2 as [b1 b2 b3 b4 b5 b6 b7 b8 b9 b10 b11 b12 b13].
  unfold alike in A. cbn in A. destruct A as (-> & -> & -> & -> & -> & -> & -> & -> & -> & -> & -> & HC & A).
  unfold step. cbn. destruct b12; [exact I|].
  destruct x; [subst b7|].
  all: destruct l; try (exfalso; apply L; reflexivity); cbn in N; try discriminate N; sides; try discriminate N; cbn -[recv_on] in *; rewrite ?HC, ?A.
  all: unfold go_start, start_write, go_close, negotiate, got, leave, finish in *; cbv zeta; cbn -[recv_on] in *; rewrite ?HC, ?A.
  all: repeat match goal with |- context [match match ?m with _ => _ end with _ => _ end] => destruct m eqn:?; cbn -[recv_on] in *; try discriminate; try exact I end.
  all: repeat match goal with |- alike _ (match ?m with _ => _ end) _ => destruct m eqn:?; cbn -[recv_on] in * end.
  all: unfold alike; cbn; unfold supd; cbn; repeat split; auto; try congruence.
  all: unfold all_exited in *; cbn in *; congruence.
Qed.

(** *** The races *)
(** the accesses of session.go that do race: Start has connected to the database and sets [dbConn]
    (:218), a Close called by another goroutine looks whether it is set (:132) *)
Definition session_race (s : state) (x : var) (l l' : label) : Prop :=
  x = VDbConn /\ l = LDial None /\ (exists m addr, start_pc s = SDial m addr) /\
  exists t r e, l' = LClose (S t) r /\ close_pc s (S t) = K3 e.
Lemma touch_accesses s l a x : touch s l a x <> None -> touch s l a x = accesses s l x /\ actor l = Some a.
Proof.
  unfold touch. destruct (actor l) as [[|t|[d|d|]]|], a as [|t'|[d'|d'|]]; try tauto.
  - destruct (Nat.eqb_spec t t') as [->|]; [tauto|tauto].
  - destruct d, d'; cbn; tauto.
  - destruct d, d'; cbn; tauto.
Qed.
Lemma write_against s x a1 l1 a2 l2 : reachable step init s -> a1 <> a2 -> step s l1 <> None -> step s l2 <> None ->
  touch s l1 a1 x = Some Wr -> touch s l2 a2 x <> None -> session_race s x l1 l2.
Proof.
  intros R D E1 E2 T1 T2. pose proof (reachable_phase s R) as HP. pose proof (ph_phase _ HP) as P. clear HP R.
  destruct (touch_accesses s l1 a1 x) as [Y1 A1]; [congruence|]. destruct (touch_accesses _ _ _ _ T2) as [Y2 A2].
  rewrite Y1 in T1. rewrite Y2 in T2. clear Y1 Y2. unfold step in E1, E2. destruct (crashed s); [congruence|].
  destruct x.
  - destruct l1; cbn in T1; sides; try discriminate T1.
    all: repeat match type of T1 with context [match ?m with _ => _ end] => destruct m; try discriminate T1 end.
    injection A1 as <-. destruct (start_pc s) eqn:Es; try congruence. destruct P as [(_ & P1 & _ & P2 & _) _].
    destruct l2; cbn in T2; sides; try congruence; rewrite ?P1, ?P2 in E2; try congruence; try (cbn in A2; congruence).
    destruct t; [cbn in A2; congruence|]. destruct (close_pc s (S t)) eqn:Ek; try congruence.
    split; [reflexivity|]. split; [reflexivity|]. split; [eauto|]. exists t, r, err. auto.
  - exfalso. destruct l1; cbn in T1; sides; try discriminate T1; try (destruct (start_pc s); discriminate T1).
    injection A1 as <-. destruct l2; cbn in T2, A2; sides; try congruence.
Qed.
Lemma session_races s x a1 l1 a2 l2 : reachable step init s -> race step touch s x a1 l1 a2 l2 ->
  session_race s x l1 l2 \/ session_race s x l2 l1.
Proof.
  intros R (D & E1 & E2 & C). destruct (touch s l1 a1 x) as [[|]|] eqn:T1, (touch s l2 a2 x) as [[|]|] eqn:T2; cbn in C; try contradiction.
  all: first [left; eapply (write_against s x a1 l1 a2 l2); eauto; congruence | right; eapply (write_against s x a2 l2 a1 l1); eauto; congruence].
Qed.
(** a session that only its own Start closes *)
Lemma alone_no_race s x a1 l1 a2 l2 : reachable step init s -> (forall t, close_pc s (S t) = KIdle) -> ~ race step touch s x a1 l1 a2 l2.
Proof.
  intros R L H. apply session_races in H as [H|H]; [..|exact R].
  all: destruct H as (_ & _ & _ & t & r & e & _ & E); rewrite L in E; discriminate E.
Qed.
