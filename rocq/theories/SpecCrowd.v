(** Vocabulary for clients that come with a complete startup packet, and go. *)
From Verif Require Export SpecReady.
From Verif Require SpecSession SpecDistributor.

(** The distributor has the configuration [cfg], and nobody is changing it. *)
Definition holds (s : state) (cfg : config) : Prop := SpecDistributor.current (Distributor.hist (dist s)) = Some cfg /\ Distributor.writer (dist s) = None.
(** [b] are the bytes of a startup packet (protocol version 3.0) for the database the parameters [p] name. *)
Definition asks_right (p : Dsn.params) (b : bytes) : Prop :=
  exists ps, SpecSession.startup_wire 196608 ps b /\ SpecSession.asks_for ps (Dsn.get p (str "database")).
(** What the outside does for connection [c] to be established: it comes, the client sends [b], net.Dial succeeds, the
    database takes the startup packet. *)
Definition outside_connects (t : tid) (c : nat) (b : bytes) : list label :=
  [YServer (Server.LAccept t Server.AConn); YSession c (Session.LArrive Session.Client b); YSession c (Session.LDial None); YSession c (Session.LStartWrite (length b))].
(** Client and database of connection [c] go away. *)
Definition outside_leaves (c : nat) : list label :=
  [YSession c (Session.LHangup Session.Client EOF); YSession c (Session.LHangup Session.DB EOF)].
(** The session [x] is established with nothing to forward and a client that is there. *)
Definition fresh_relay (x : Session.state) (p : Dsn.params) (b : bytes) : Prop :=
  SpecSession.healthy x /\ conn_is true x Session.Client /\ conn_is true x Session.DB /\
  SpecSession.arrived Session.Client (Session.hist x) = b /\ SpecSession.dials (Session.hist x) = [SpecSession.address p] /\ SpecSession.sent Session.DB (Session.hist x) = b /\
  SpecSession.sent Session.Client (Session.hist x) = [].
(** Nobody is there any more: both peers have hung up, the goroutines that read from them have ended, for that reason;
    the program still has the session, both connections, and the goroutine of Start and three more, which have nothing to do. *)
Definition abandoned (x : Session.state) : Prop :=
  Session.start_pc x = Session.SWait /\ conn_is true x Session.Client /\ conn_is true x Session.DB /\
  SpecSession.exits (Session.hist x) = [(Session.GIn Session.Client, Some EOF); (Session.GIn Session.DB, Some EOF)] /\
  (forall r d, Session.conns x d = Some r -> Frames.fin (Session.rd r) = Some EOF) /\
  Session.out_pc x Session.Client = Session.OTake /\ Session.out_pc x Session.DB = Session.OTake /\ Session.proc_pc x = Session.PSelect /\
  SpecSession.quiescent x.
