(** Data races, server.go: Server.listener (:40) and Server.sessions (:43).

    The shared variables are those that are neither channels nor synchronisation objects (Event, Mutex,
    WaitGroup, errgroup) and are written after the object containing them has been shared.  Which action
    accesses them follows the lines of the Go code; that no access of the model is left out is proved
    ([writes_declared], [reads_declared]). *)
From Verif Require Export SpecRace.
From Verif Require Import ServerProofs.

Inductive var := VListener | VSessions.
(** the accesses at each point of server.go *)
Definition at_pc (p : pc) (x : var) : option access :=
  match p, x with
  | S2 _, VListener => Some Rd                    (* :275, :278 *)
  | S3 _, VListener => Some Wr                    (* :285 *)
  | K3, VListener => Some Wr                      (* :232-234 *)
  | K3, VSessions => Some Rd                      (* :238 *)
  | K4 _ [], VSessions => Some Wr                 (* :246 *)
  | K4 _ (_ :: _), VSessions => Some Rd           (* :238, the next iteration *)
  | C3 _, VSessions => Some Wr                    (* :311-315 *)
  | C10 _ _, VSessions => Some Wr                 (* :325 *)
  | _, _ => None
  end.
(** the accesses of goroutine [t] in an action, server.go:22-326 *)
Definition touch (s : state) (l : label) (t : tid) (x : var) : option access :=
  match actor l with Some t' => if Nat.eqb t t' then at_pc (pcs s t) x else None | None => None end.
(** equality of one of the variables *)
Definition same (x : var) (s s' : state) : Prop :=
  match x with VListener => listener s = listener s' | VSessions => sessions s = sessions s' end.
(** the states differ at most in one of the variables *)
Definition alike (x : var) (s s' : state) : Prop :=
  match x with VListener => s' = with_listener s (listener s') | VSessions => s' = with_sessions s (sessions s') end.

(** ** Proofs *)
Lemma server_writes_declared : writes_declared step touch same.
Proof.
  intros s l s' x H N. unfold same.
  assert (forall t, actor l = Some t -> at_pc (pcs s t) x <> Some Wr) as N'.
  { intros t E. specialize (N t). unfold touch in N. rewrite E, Nat.eqb_refl in N. exact N. }
  clear N. dstep H; cbn; try (specialize (N' _ eq_refl)); try match goal with E : pcs _ _ = _ |- _ => rewrite E in N' end; cbn in N'; destruct x; try reflexivity; try congruence.
Qed.
Lemma server_reads_declared : reads_declared step touch alike (fun _ => True).
Proof.
  intros s1 s2 l x _ A N.
  assert (forall t, actor l = Some t -> at_pc (pcs s1 t) x = None) as N'.
  { intros t E. specialize (N t). unfold touch in N. rewrite E, Nat.eqb_refl in N. exact N. }
  clear N. destruct x; cbn [alike] in A.
  - remember (listener s2) as v eqn:Ev. clear Ev. subst s2. unfold step, go, lock, unlock, ret. cbv zeta. cbn -[Nat.eqb existsb].
    destruct l; try specialize (N' _ eq_refl); try (cbn in *; destruct (crashed s1)); try exact I.
    all: repeat match goal with |- context [match match ?x with _ => _ end with _ => _ end] => destruct x eqn:?; cbn in *; try discriminate; try exact I; try reflexivity end.
    all: match goal with |- context [if ?b then _ else _] => destruct b; reflexivity end.
  - remember (sessions s2) as v eqn:Ev. clear Ev. subst s2. unfold step, go, lock, unlock, ret. cbv zeta. cbn -[Nat.eqb existsb].
    destruct l; try specialize (N' _ eq_refl); try (cbn in *; destruct (crashed s1)); try exact I.
    all: repeat match goal with |- context [match match ?x with _ => _ end with _ => _ end] => destruct x eqn:?; cbn in *; try discriminate; try exact I; try reflexivity end.
    all: match goal with |- context [if ?b then _ else _] => destruct b; reflexivity end.
Qed.
(** whoever accesses one of the variables holds the mutex *)
Lemma touch_section s l t x : touch s l t x <> None -> in_section (pcs s t).
Proof.
  unfold touch. destruct (actor l) as [t'|]; [|tauto]. destruct (Nat.eqb_spec t t'); [|tauto].
  destruct (pcs s t), x; cbn; tauto.
Qed.
Lemma server_race_free s x t1 l1 t2 l2 : reachable step init s -> ~ race step touch s x t1 l1 t2 l2.
Proof.
  intros R (D & _ & _ & C). pose proof (reachable_lock s R) as L.
  assert (touch s l1 t1 x <> None) as T1 by (intros E; rewrite E in C; exact C).
  assert (touch s l2 t2 x <> None) as T2 by (intros E; rewrite E in C; destruct (touch s l1 t1 x) as [[]|]; exact C).
  apply touch_section, L in T1. apply touch_section, L in T2. congruence.
Qed.
