(** Data races, config_distributor.go: lastConfig (:43) and subscriptions (:46).

    The shared variables are those that are neither channels nor synchronisation objects (Event, Mutex,
    WaitGroup, errgroup) and are written after the object containing them has been shared.  Which action
    accesses them follows the lines of the Go code; that no access of the model is left out is proved
    ([writes_declared], [reads_declared]). *)
From Verif Require Export SpecRace.
From Verif Require Import DistributorProofs.

Inductive var := VLast | VSubscriptions.
(** the goroutine that takes the action; in a hand-over the receiver accesses none of the variables *)
Definition actor (l : label) : option tid :=
  match l with
  | LCall t _ | LGo t | LFresh t _ | LHandoff t _ | LHandoffExt t | LClosedCase t | LSource t _ | LPick t _ => Some t
  | LNewChan _ _ | LCloseChan _ | LRecv _ | LCloseSource => None
  end.
(** the accesses at each point of config_distributor.go *)
Definition at_pc (p : pc) (x : var) : option access :=
  match p, x with
  | G2, VLast => Some Rd                          (* :77 *)
  | S2 _ _ _, VLast => Some Rd                    (* :102 *)
  | S3 _ _ _ _, VLast => Some Rd                  (* :103 *)
  | S4 _ _ _, VSubscriptions => Some Wr           (* :107-111 *)
  | G7 _ _, VSubscriptions => Some Wr             (* :145 *)
  | U1 _, VSubscriptions => Some Wr               (* :145 *)
  | C3 _, VSubscriptions => Some Wr               (* :138, :145 *)
  | M2 _, VLast => Some Wr                        (* :192-193 *)
  | M2 _, VSubscriptions => Some Rd               (* :208 *)
  | M3 _ _ _, VSubscriptions => Some Rd           (* :208, the next iteration *)
  | _, _ => None
  end.
(** the accesses of goroutine [t] in an action, config_distributor.go:66-230 *)
Definition touch (s : state) (l : label) (t : tid) (x : var) : option access :=
  match actor l with Some t' => if Nat.eqb t t' then at_pc (pcs s t) x else None | None => None end.
(** equality of one of the variables *)
Definition same (x : var) (s s' : state) : Prop :=
  match x with VLast => last s = last s' | VSubscriptions => subs s = subs s' end.
(** the states differ at most in one of the variables *)
Definition alike (x : var) (s s' : state) : Prop :=
  match x with VLast => s' = with_last s (last s') | VSubscriptions => s' = with_subs s (subs s') end.

(** ** Proofs *)
Lemma declared s l x (P : option access -> Prop) : (forall a, P (touch s l a x)) -> forall t, actor l = Some t -> P (at_pc (pcs s t) x).
Proof. intros N t E. specialize (N t). unfold touch in N. rewrite E, Nat.eqb_refl in N. exact N. Qed.
Lemma distributor_writes_declared : writes_declared step touch same.
Proof.
  intros s l s' x H N. unfold same. pose proof (declared _ _ _ (fun a => a <> Some Wr) N) as N'. clear N.
  dstep H; cbn; try (specialize (N' _ eq_refl)); repeat match goal with E : pcs _ _ = _ |- _ => rewrite E in N'; clear E end; cbn in N'; destruct x; try reflexivity; try congruence.
Qed.
Lemma distributor_reads_declared : reads_declared step touch alike (fun _ => True).
Proof.
  intros s1 s2 l x _ A N. pose proof (declared _ _ _ (fun a => a = None) N) as N'. clear N.
  destruct x; cbn [alike] in A.
  - remember (last s2) as v eqn:Ev. clear Ev. subst s2. unfold step, go, after_close, ret. cbn -[Nat.eqb].
    destruct l; try specialize (N' _ eq_refl); try (cbn in *; destruct (crashed s1)); try exact I.
    all: repeat match goal with
      | |- context [sending (pcs ?s ?t)] => destruct (pcs s t) eqn:?; cbn in *; try discriminate; try exact I; try reflexivity
      | |- context [match match ?x with _ => _ end with _ => _ end] => destruct x eqn:?; cbn in *; try discriminate; try exact I; try reflexivity end.
    all: repeat match goal with |- context [if ?b then _ else _] => destruct b; try reflexivity | k : skont |- _ => destruct k; try reflexivity | k : ckont |- _ => destruct k; try reflexivity end.
    all: unfold is_free in *; cbn in *; repeat match goal with E : context [match ?x with _ => _ end] |- _ => destruct x; try discriminate E end; try discriminate.
  - remember (subs s2) as v eqn:Ev. clear Ev. subst s2. unfold step, go, after_close, ret. cbn -[Nat.eqb].
    destruct l; try specialize (N' _ eq_refl); try (cbn in *; destruct (crashed s1)); try exact I.
    all: repeat match goal with
      | |- context [sending (pcs ?s ?t)] => destruct (pcs s t) eqn:?; cbn in *; try discriminate; try exact I; try reflexivity
      | |- context [match match ?x with _ => _ end with _ => _ end] => destruct x eqn:?; cbn in *; try discriminate; try exact I; try reflexivity end.
    all: repeat match goal with |- context [if ?b then _ else _] => destruct b; try reflexivity | k : skont |- _ => destruct k; try reflexivity | k : ckont |- _ => destruct k; try reflexivity end.
    all: try (destruct (last s1) as [c0|]; [destruct (shouldSendUpdatedConfig checks None c0)|]; reflexivity).
    all: unfold is_free in *; cbn in *; repeat match goal with E : context [match ?x with _ => _ end] |- _ => destruct x; try discriminate E end; try discriminate.
Qed.
(** whoever writes one of the variables holds the mutex, whoever reads one of them holds it or reads
    under the read lock *)
Lemma touch_write s l t x : touch s l t x = Some Wr -> in_write_section (pcs s t).
Proof.
  unfold touch. destruct (actor l) as [t'|]; [|discriminate]. destruct (Nat.eqb_spec t t'); [|discriminate].
  destruct (pcs s t), x; cbn; (tauto || discriminate).
Qed.
Lemma touch_any s l t x : touch s l t x <> None -> in_write_section (pcs s t) \/ in_read_section (pcs s t).
Proof.
  unfold touch. destruct (actor l) as [t'|]; [|tauto]. destruct (Nat.eqb_spec t t'); [|tauto].
  destruct (pcs s t), x; cbn; tauto.
Qed.
Lemma no_race s x t1 l1 t2 l2 : reachable step init s -> t1 <> t2 -> touch s l1 t1 x = Some Wr -> touch s l2 t2 x <> None -> False.
Proof.
  intros R D W T. pose proof (reachable_lock _ R) as L. apply touch_write, (li_writer _ L) in W. apply touch_any in T as [T|T].
  - apply (li_writer _ L) in T. congruence.
  - assert (In t2 (readers s)) as X by (apply (li_readers _ L); destruct (pcs s t2); cbn in T; tauto).
    rewrite (li_excl _ L) in X; [exact X|congruence].
Qed.
Lemma distributor_race_free s x t1 l1 t2 l2 : reachable step init s -> ~ race step touch s x t1 l1 t2 l2.
Proof.
  intros R (D & _ & _ & C). destruct (touch s l1 t1 x) as [[|]|] eqn:E1, (touch s l2 t2 x) as [[|]|] eqn:E2; cbn in C; try exact C.
  all: first [apply (no_race s x t1 l1 t2 l2 R D E1); congruence | apply (no_race s x t2 l2 t1 l1 R (not_eq_sym D) E2); congruence].
Qed.
