(** A client and the database talk to each other through the program. *)
From Verif Require Export SpecConnect SpecExecution.
Import SpecConnect System.

(** What can go wrong outside the program for connection [c]: a write fails, net.Dial fails, a connection is reset. That a peer hangs up isn't among it. *)
Definition breaks (c : nat) (l : label) : Prop :=
  match l with YSession c' (Session.LStartWriteErr _ | Session.LWriteErr _ _ | Session.LDial (Some _) | Session.LReset _ _) => c' = c | _ => False end.
