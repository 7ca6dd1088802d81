(** Fair infinite executions of the program: what session.Start of one connection waits for outside. *)
From Verif Require Export SpecCancel SpecAttend.

(** What session.Start of connection [c] waits for outside the program: a peer's taking (part of) what is written to it, the failure of that write, and
    net.Dial's return, with a connection or an error. *)
Definition outside (c : nat) (l : label) : Prop :=
  match l with YSession c' (Session.LStartWrite _ | Session.LStartWriteErr _ | Session.LDial _) => c' = c | _ => False end.
(** None of these is put off for ever: a write in session.Start and net.Dial return in the end. *)
Definition fair_peers (c : nat) (st : nat -> state) (lb : nat -> option label) : Prop :=
  forall i, exists j, (i <= j)%nat /\ ((forall l, outside c l -> step (st j) l = None) \/ exists l, lb j = Some l /\ outside c l).
(** The client has said what it wants: any number of SSLRequests, and then a packet that isn't one; or it has closed or lost its connection. *)
Definition spoke (x : Session.state) : Prop :=
  (exists n v, client_began (Session.hist x) n v /\ v <> ssl_request_code) \/
  (exists r b, Session.conns x Session.Client = Some (Session.NetConn r b) /\ Frames.fin r <> None).
(** session.Start has connected the client to its database: it waits for the five goroutines it has started *)
Definition established (x : Session.state) : Prop := Session.start_pc x = Session.SWait.
