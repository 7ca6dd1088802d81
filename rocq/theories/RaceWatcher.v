(** Data races, file_watcher.go: the variable watcherError of Watch (:38) and fileWatcher.watchDone (:25).

    The shared variables are those that are neither channels nor synchronisation objects (Event, Mutex,
    WaitGroup, errgroup) and are written after the object containing them has been shared.  Which action
    accesses them follows the lines of the Go code; that no access of the model is left out is proved
    ([writes_declared], [reads_declared]). *)
From Verif Require Export SpecRace.
From Verif Require Import WatcherProofs.

Inductive var := VError | VDone.
(** the caller of Watch, the two goroutines of Watch, and callers of StopWatch *)
Inductive agent := AMain | AStarter | AHandler | AStop.
(** the goroutine that takes the action *)
Definition actor (l : label) : option agent :=
  match l with
  | LMain => Some AMain
  | LStarter _ => Some AStarter
  | LHandler | LEvent | LError _ | LEventsClosed | LErrorsClosed | LStopped => Some AHandler
  | LStop => Some AStop
  | LFile _ _ | LRecv => None
  end.
(** the accesses of an action, file_watcher.go:35-138 *)
Definition accesses (s : state) (l : label) (x : var) : option access :=
  match x, l with
  | VError, LMain => match main s with M_Wait => Some Rd | _ => None end                (* :132 *)
  | VError, LStarter r =>
      match starter s, r with
      | S_New, Some _ => Some Wr                                                        (* :50 *)
      | S_Add, _ => Some Wr                                                             (* :113 *)
      | S_Check, _ => Some Rd                                                           (* :123 *)
      | _, _ => None
      end
  | VError, LError _ => Some Wr                                                         (* :100 *)
  | VDone, LStarter _ => match starter s with S_Make => Some Wr | _ => None end         (* :62 *)
  | VDone, (LEvent | LError _ | LEventsClosed | LErrorsClosed | LStopped) => Some Rd    (* :106 *)
  | VDone, LStop => Some Rd                                                             (* :137 *)
  | _, _ => None
  end.
(** the accesses of one goroutine *)
Definition touch (s : state) (l : label) (a : agent) (x : var) : option access :=
  match actor l, a with
  | Some AMain, AMain | Some AStarter, AStarter | Some AHandler, AHandler | Some AStop, AStop => accesses s l x
  | _, _ => None
  end.
(** is there a channel in [watchDone]? *)
Definition has_done (s : state) : bool := match done s with ChNil => false | _ => true end.
(** equality of one of the variables; whether the channel is closed is not part of [watchDone] *)
Definition same (x : var) (s s' : state) : Prop :=
  match x with VError => werr s = werr s' | VDone => has_done s = has_done s' end.
(** the states differ at most in one of the variables *)
Definition alike (x : var) (s s' : state) : Prop :=
  match x with VError => s' = set_werr s (werr s') | VDone => s' = set_done s (done s') end.

(** ** Proofs *)
Lemma declared s l x (P : option access -> Prop) : P None -> (forall a, P (touch s l a x)) -> P (accesses s l x).
Proof. intros Z N. destruct l; cbn; first [exact (N AMain)|exact (N AStarter)|exact (N AHandler)|exact (N AStop)|destruct x; exact Z]. Qed.
Lemma watcher_writes_declared : writes_declared step touch same.
Proof.
  intros s l s' x H N. apply (declared _ _ _ (fun a => a <> Some Wr)) in N; [|discriminate].
  unfold same, has_done.
  dstep H; destruct x; cbn in *; rw; try reflexivity; try congruence.
Qed.
Lemma watcher_reads_declared : reads_declared step touch alike (fun _ => True).
Proof.
  intros s1 s2 l x _ A N. apply (declared _ _ _ (fun a => a = None)) in N; [|reflexivity].
  destruct x; cbn [alike] in A.
  - remember (werr s2) as v eqn:Ev. clear Ev. subst s2. unfold step, main_step, starter_step, handler_step, dispatch. cbn -[choose Nat.ltb].
    destruct (crashed s1); [exact I|].
    destruct l; cbn -[choose Nat.ltb] in *; try exact I; try discriminate.
    all: repeat match goal with |- context [match match ?x with _ => _ end with _ => _ end] => destruct x eqn:?; cbn -[choose Nat.ltb] in *; try discriminate; try exact I; try reflexivity end.
    all: repeat match goal with |- context [match ?b with _ => _ end] => destruct b; try reflexivity end.
  - remember (done s2) as v eqn:Ev. clear Ev. subst s2. unfold step, main_step, starter_step, handler_step, dispatch. cbn -[choose Nat.ltb].
    destruct (crashed s1); [exact I|].
    destruct l; cbn -[choose Nat.ltb] in *; try exact I; try discriminate.
    all: repeat match goal with |- context [match match ?x with _ => _ end with _ => _ end] => destruct x eqn:?; cbn -[choose Nat.ltb] in *; try discriminate; try exact I; try reflexivity end.
    all: repeat match goal with |- context [match ?b with _ => _ end] => destruct b; try reflexivity end.
Qed.

(** *** The races *)
(** the accesses of file_watcher.go that do race: [l] against [l'] *)
Definition watcher_race (s : state) (x : var) (l l' : label) : Prop :=
  match x with
  | VError => (exists e, l = LError e) /\                                    (* :100, the handler *)
      (l' = LMain /\ main s = M_Wait \/                                      (* :132, the caller of Watch *)
       exists r, l' = LStarter r /\ starter s = S_Add)                        (* :113, the starter *)
  | VDone => l = LStop /\ exists r, l' = LStarter r /\ starter s = S_Make   (* :137, :62 *)
  end.
(** the accesses that are possible, and what they say about the state *)
Definition possible (s : state) (x : var) (l : label) (a : agent) (k : access) : Prop :=
  match x with
  | VError =>
      l = LMain /\ a = AMain /\ k = Rd /\ main s = M_Wait /\ inited s = true \/
      (exists r, l = LStarter r) /\ a = AStarter /\ (k = Wr /\ (starter s = S_New \/ starter s = S_Add) \/ k = Rd /\ starter s = S_Check) \/
      (exists e, l = LError e) /\ a = AHandler /\ k = Wr /\ handler s = H_Select
  | VDone =>
      (exists r, l = LStarter r) /\ a = AStarter /\ k = Wr /\ starter s = S_Make \/
      a = AHandler /\ k = Rd /\ handler s = H_Select \/
      l = LStop /\ a = AStop /\ k = Rd
  end.
Lemma touch_possible s l a x k : step s l <> None -> touch s l a x = Some k -> possible s x l a k.
Proof.
  intros E T. unfold step in E. destruct (crashed s); [congruence|].
  destruct x, l; cbn in T; destruct a; try discriminate T; cbn.
  all: try (unfold main_step in E; destruct (main s) eqn:?; try discriminate T; injection T as <-; destruct (inited s) eqn:?; [tauto|congruence]).
  all: try (destruct (starter s) eqn:?; try discriminate T; try (destruct r; [|discriminate T]); injection T as <-; clear E; firstorder eauto; fail).
  all: injection T as <-; try (destruct (handler s) eqn:?; try congruence); clear E; firstorder eauto.
Qed.
Lemma watcher_races s x a1 l1 a2 l2 : reachable step init s -> race step touch s x a1 l1 a2 l2 ->
  watcher_race s x l1 l2 \/ watcher_race s x l2 l1.
Proof.
  intros R (D & E1 & E2 & C). pose proof (reachable_shape s R) as HS.
  pose proof (sh_hs _ HS) as S3. pose proof (sh_init _ HS) as S7. pose proof (sh_end _ HS) as S9. clear HS R.
  destruct (touch s l1 a1 x) as [k1|] eqn:T1; [|destruct C]. destruct (touch s l2 a2 x) as [k2|] eqn:T2; [|destruct k1; destruct C].
  apply (touch_possible _ _ _ _ _ E1) in T1. apply (touch_possible _ _ _ _ _ E2) in T2. clear E1 E2.
  destruct x; cbn in *.
  - destruct T1 as [(-> & -> & -> & M1 & I1)|[([r1 ->] & -> & [(-> & [Q1|Q1])|(-> & Q1)])|([e1 ->] & -> & -> & Q1)]],
      T2 as [(-> & -> & -> & M2 & I2)|[([r2 ->] & -> & [(-> & [Q2|Q2])|(-> & Q2)])|([e2 ->] & -> & -> & Q2)]]; cbn in C; try contradiction; try congruence.
    all: repeat match goal with Q : starter ?q = _ |- _ => rewrite Q in *; clear Q | Q : handler ?q = _ |- _ => rewrite Q in *; clear Q end; cbn in *; try congruence; eauto 8.
  - destruct T1 as [([r1 ->] & -> & -> & Q1)|[(-> & -> & Q1)|(-> & -> & ->)]],
      T2 as [([r2 ->] & -> & -> & Q2)|[(-> & -> & Q2)|(-> & -> & ->)]]; cbn in C; try contradiction; try congruence.
    all: repeat match goal with Q : starter ?q = _ |- _ => rewrite Q in *; clear Q | Q : handler ?q = _ |- _ => rewrite Q in *; clear Q end; cbn in *; try congruence; eauto 8.
Qed.
(** once Watch has returned, nothing races any more *)
Lemma watcher_no_race_later s r x a1 l1 a2 l2 : reachable step init s -> main s = M_Returned r -> ~ race step touch s x a1 l1 a2 l2.
Proof.
  intros R M H. apply watcher_races in H; [|exact R]. pose proof (reachable_shape s R) as HS. pose proof (sh_ret _ HS) as S8. pose proof (sh_init _ HS) as S7.
  rewrite M in S8. rewrite S8 in S7.
  destruct x; destruct H as [H|H]; cbn in H; firstorder; rewrite ?M in *; try discriminate; repeat match goal with Q : starter ?q = _ |- _ => rewrite Q in S7; discriminate S7 end.
Qed.
