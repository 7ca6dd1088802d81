(** A client that asks for the configured database. *)
From Verif Require Export SpecSettle.

(** session.Start has not asked for the configuration yet *)
Definition negotiating (x : Session.state) : Prop :=
  match Session.start_pc x with Session.SIdle | Session.SEntry | Session.SRecv | Session.SDeny _ => True | _ => False end.
(** What the client has sent and session.Start has not read yet begins with any number of SSLRequests and a StartupMessage of protocol 3.0 that asks for [db]. *)
Definition asks_for_db (db : bytes) (x : Session.state) : Prop :=
  exists r ss b more ps, Session.conns x Session.Client = Some (Session.NetConn r true) /\ concat (Frames.chunks r) = concat ss ++ b ++ more /\
    Forall (startup_wire ssl_request_code []) ss /\ startup_wire 196608 ps b /\ SpecSession.asks_for ps db.
(** What can go wrong outside the program for connection [c] until its session is established: a write fails, net.Dial fails, the client's connection is reset. *)
Definition goes_wrong (c : nat) (l : label) : Prop :=
  match l with YSession c' (Session.LStartWriteErr _ | Session.LDial (Some _) | Session.LReset Session.Client _) => c' = c | _ => False end.
(** The configuration the session got, if it has got one, has a connection string that is understood, for the database [db]. *)
Definition suits (db : bytes) (x : Session.state) : Prop :=
  forall E cfg, In (E, Ok cfg) (SpecSession.configs (Session.hist x)) -> exists p, Session.parse_uri E (DatabaseURL cfg) = Ok p /\ Dsn.get p (str "database") = db.
