(** Vocabulary for a program that accepts, and for clients that say nothing. *)
From Verif Require Export SpecServing.
From Verif Require SpecServer.

(** Something comes from the client of connection [c]: bytes, or the end. *)
Definition client_acts (c : nat) (l : label) : Prop :=
  match l with
  | YSession c' (Session.LArrive Session.Client _ | Session.LHangup Session.Client _ | Session.LReset Session.Client _) => c' = c
  | _ => False
  end.
(** Start waits for (the rest of) a startup packet. *)
Definition unanswered (x : Session.state) : Prop :=
  exists r, Session.start_pc x = Session.SRecv /\ Session.conns x Session.Client = Some (Session.NetConn r true) /\ Frames.fin r = None /\ SpecFrames.frame_incomplete 4 (concat (Frames.chunks r)).
(** Goroutine [t] waits in Accept, on the open listener [l]. *)
Definition in_accept (s : state) (t : tid) (l : nat) : Prop := Server.pcs (srv s) t = Server.S5 l /\ Server.lis_open (srv s) l = true.
(** The server's mutex is free. *)
Definition unlocked (s : state) : Prop := Server.mu (srv s) = None.
