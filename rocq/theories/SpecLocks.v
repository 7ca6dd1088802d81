(** Vocabulary for whom a mutex lets in first. *)
From Verif Require Export SpecServing.

(** The two mutexes of the program: ConfigDistributor.mu (config_distributor.go:30), Server.mu (server.go:31) *)
Inductive mutex := DistMu | ServerMu.
(** The mutex that action [l] acquires. *)
Definition acquires (s : state) (l : label) : option mutex :=
  match l with
  | YDist (Distributor.LGo t) =>
      match Distributor.pcs (dist s) t with
      | Distributor.G1 | Distributor.S1 _ _ _ | Distributor.G6 _ _ | Distributor.U0 _ | Distributor.C2 _ | Distributor.M1 _ => Some DistMu
      | _ => None
      end
  | YServer (Server.LGo t) =>
      match Server.pcs (srv s) t with
      | Server.S1 _ | Server.C2 _ | Server.C9 _ _ | Server.K2 => Some ServerMu
      | _ => None
      end
  | _ => None
  end.
(** Nobody holds the mutex, not even for reading. *)
Definition unheld (s : state) (m : mutex) : Prop :=
  match m with
  | DistMu => Distributor.writer (dist s) = None /\ Distributor.readers (dist s) = []
  | ServerMu => Server.mu (srv s) = None
  end.
(** An arbiter decides, knowing all that happened, who may acquire a mutex and who has to wait although he could
    acquire it. All that is asked of it: it restrains only those who acquire a mutex, and a mutex that nobody
    holds and somebody could acquire may be acquired by one of them. *)
Definition arbiter := list label -> state -> label -> bool.
Record proper (a : arbiter) : Prop := {
  arb_only : forall tr s l, acquires s l = None -> a tr s l = true;
  arb_some : forall tr s l m, acquires s l = Some m -> step s l <> None -> unheld s m ->
    exists l', acquires s l' = Some m /\ step s l' <> None /\ a tr s l' = true
}.
(** A run of which arbiter [a] approves every action; [tr] is what happened before, oldest first. *)
Fixpoint approved (a : arbiter) (tr : list label) (s : state) (ls : list label) : Prop :=
  match ls with
  | [] => True
  | l :: ls' => a tr s l = true /\ match step s l with Some s' => approved a (tr ++ [l]) s' ls' | None => False end
  end.
(** No action of the program's own is left that the arbiter approves. *)
Definition at_rest_under (a : arbiter) (tr : list label) (s : state) : Prop := forall l, own l -> a tr s l = true -> step s l = None.

(** Go's RWMutex: who calls RLock waits while a writer waits. *)
Definition waits_for_lock (p : Distributor.pc) : bool :=
  match p with Distributor.S1 _ _ _ | Distributor.G6 _ _ | Distributor.U0 _ | Distributor.C2 _ | Distributor.M1 _ => true | _ => false end.
(** Among the first [n] goroutines: writers first; readers first. *)
Definition writers_first (n : nat) : arbiter := fun _ s l =>
  match l with
  | YDist (Distributor.LGo t) =>
      match Distributor.pcs (dist s) t with
      | Distributor.G1 => negb (existsb (fun t' => waits_for_lock (Distributor.pcs (dist s) t')) (seq 0 n))
      | _ => true
      end
  | _ => true
  end.
Definition readers_first (n : nat) : arbiter := fun _ s l =>
  match l with
  | YDist (Distributor.LGo t) =>
      if waits_for_lock (Distributor.pcs (dist s) t)
      then negb (existsb (fun t' => match Distributor.pcs (dist s) t' with Distributor.G1 => true | _ => false end) (seq 0 n))
      else true
  | _ => true
  end.
