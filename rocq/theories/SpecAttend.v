(** Fair infinite executions of the program: the goroutines that accept and serve connections. *)
From Verif Require Export SpecReload SpecServing.

(** What goroutine [t] does, those of Serve and ServeConn in particular: besides [acts], it closes the replaced listener (server.go:277), calls Config.Get, and calls
    session.Start and the deferred Close, whose actions on the session of its connection are its own. What a session's five goroutines do is not part of it, nor is
    Accept, a write, or net.Dial. *)
Definition acting (s : state) (t : tid) (l : label) : Prop :=
  acts (Thread t) l \/
  match l with
  | YServer (Server.LCloseListener t' _) | YGet t' | YServe t' | YEnd t' | YFire t' | YClosed t' => t' = t
  | YSession c (Session.LStart | Session.LClose 0 _) => has_conn (srv s) t c
  | _ => False
  end.
(** Whoever is again and again able to act acts: a goroutine that waits for a mutex gets it in the end, if the mutex is freed again and again. *)
Definition fair_goroutines (st : nat -> state) (lb : nat -> option label) : Prop :=
  forall t i, (exists j l, (i <= j)%nat /\ lb j = Some l /\ acting (st j) t l) \/
              (exists j, (i <= j)%nat /\ forall k, (j <= k)%nat -> forall l, acting (st k) t l -> step (st k) l = None).
(** session.Start of connection [c] waits for a peer, for net.Dial or for the session's goroutines, and can do nothing by itself *)
Definition on_hold (s : state) (c : nat) : Prop := waits (sess s c) /\ Session.step (sess s c) Session.LStart = None.
(** the client's next packet is there, or the client has hung up *)
Definition asked (x : Session.state) : Prop :=
  exists r b, Session.conns x Session.Client = Some (Session.NetConn r b) /\ (Frames.fin r <> None \/ exists f rest, SpecFrames.frame_at 4 (concat (Frames.chunks r)) f rest).
(** session.Start calls net.Dial or has got past that, or is returning *)
Definition answered (x : Session.state) : Prop :=
  match Session.start_pc x with Session.SDial _ _ | Session.SSend _ | Session.SWait | Session.SDefer _ | Session.SDone _ => True | _ => False end.
