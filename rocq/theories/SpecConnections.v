(** Vocabulary for what becomes of the connections of a server, read off the history (newest event first). *)
From Verif Require Export SpecServer.

(** Sessions closed; client connections closed. *)
Fixpoint fired (h : list event) : list nat :=
  match h with [] => [] | HSessionFired c :: h' => c :: fired h' | _ :: h' => fired h' end.
Fixpoint conns_closed (h : list event) : list nat :=
  match h with [] => [] | HConnClosed c :: h' => c :: conns_closed h' | _ :: h' => conns_closed h' end.
(** The session table: registered, not removed since, and not cleared since. *)
Fixpoint table (h : list event) : list nat :=
  match h with
  | [] => []
  | HRegister c :: h' => c :: filter (fun c' => negb (Nat.eqb c' c)) (table h')
  | HRemove c :: h' => filter (fun c' => negb (Nat.eqb c' c)) (table h')
  | HCleared :: h' => []
  | _ :: h' => table h'
  end.
(** Goroutine [t] is in a call, or was created by the server and has not finished. *)
Fixpoint inside (t : tid) (h : list event) : bool :=
  match h with
  | [] => false
  | (HCall t' _ | HSpawn t') :: h' => if Nat.eqb t' t then true else inside t h'
  | HRet t' _ _ :: h' => if Nat.eqb t' t then false else inside t h'
  | _ :: h' => inside t h'
  end.
(** During [ls] session.Start was about to return [r] to the ServeConn call for connection [c]. *)
Definition start_ended (ls : list label) (c : nat) (r : option error) : Prop :=
  exists ls1 t ls2 s1, ls = ls1 ++ LEnd t r :: ls2 /\ run step NewServer ls1 = Some s1 /\ pcs s1 t = C6 c.
