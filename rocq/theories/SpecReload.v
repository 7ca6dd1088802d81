(** Fair infinite executions of the program: the goroutines that carry configurations from the file to the server. *)
From Verif Require Export SpecExecution.

(** The event handler of the file watcher (file_watcher.go:65-110), and the goroutine numbered [t] of the server and of the distributor; 0 is the one that
    runs Server.Start. *)
Inductive role := Handler | Thread (t : tid).
(** Their own actions. Accepting a connection is not among them (nobody need connect), nor is anything a session's goroutines do. *)
Definition acts (r : role) (l : label) : Prop :=
  match r, l with
  | Handler, YWatcher (FileWatcher.LHandler | FileWatcher.LEvent) => True
  | Thread t, YDist (Distributor.LGo t' | Distributor.LFresh t' _ | Distributor.LPick t' _) => t' = t
  | Thread t, YServer (Server.LGo t' | Server.LSpawn t' _ | Server.LListen t' _) => t' = t
  | Thread t, (YSource t' | YGot t' _) => t' = t
  | Thread t, (YSubscribe | YSubscribed | YUpdate) => t = 0%nat
  | _, _ => False
  end.
(** The scheduler is fair: whichever goroutine can act, acts or comes to a point where it cannot. *)
Definition fair_roles (st : nat -> state) (lb : nat -> option label) : Prop :=
  forall r i, exists j, (i <= j)%nat /\ ((forall l, acts r l -> step (st j) l = None) \/ exists l, lb j = Some l /\ acts r l).
(** waiting in Lock, config_distributor.go:98, 123, 135, 190 *)
Definition waits_to_write (p : Distributor.pc) : Prop :=
  match p with Distributor.S1 _ _ _ | Distributor.G6 _ _ | Distributor.U0 _ | Distributor.C2 _ | Distributor.M1 _ => True | _ => False end.
(** sync.RWMutex: "a blocked Lock call excludes new readers from acquiring the lock". *)
Definition writers_first (st : nat -> state) (lb : nat -> option label) : Prop :=
  forall i t, lb i = Some (YDist (Distributor.LGo t)) -> Distributor.pcs (dist (st i)) t = Distributor.G1 ->
  forall t', ~ waits_to_write (Distributor.pcs (dist (st i)) t').
(** the actions before moment [i], in order *)
Definition before (lb : nat -> option label) (i : nat) : list label := flat_map (fun k => match lb k with Some l => [l] | None => [] end) (seq 0 i).
