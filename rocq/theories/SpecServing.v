(** Vocabulary for what becomes of the accepted connections. *)
From Verif Require Export SpecSystem.
From Verif Require SpecSession SpecFrames.

(** The program's own actions: all but changes of the file and errors of fsnotify, Accept, the arrival of
    bytes and the end of a connection, a peer's accepting or refusing what is written to it, and net.Dial. *)
Definition own (l : label) : Prop :=
  match l with
  | YWatcher (FileWatcher.LMain | FileWatcher.LStarter _ | FileWatcher.LHandler | FileWatcher.LEvent) => True
  | YServer (Server.LGo _ | Server.LSpawn _ _ | Server.LListen _ _ | Server.LCloseListener _ _) => True
  | YSession _ (Session.LStart | Session.LClose _ _ | Session.LRecv _ | Session.LIn _ | Session.LSelect _ | Session.LProc | Session.LTake _) => True
  | YWatcher _ | YServer _ | YSession _ _ => False
  | _ => True
  end.
(** None of them is left to do. *)
Definition at_rest (s : state) : Prop := forall l, own l -> step s l = None.

(** Goroutine [t] has connection [c]: it accepted it, or serves it. *)
Definition has_conn (v : Server.state) (t : tid) (c : nat) : Prop :=
  match Server.pcs v t with
  | Server.S6 _ c' | Server.C0 c' | Server.C1 c' | Server.C2 c' | Server.C3 c' | Server.C4 c' | Server.C5 c' | Server.C6 c' | Server.C7 c' _ | Server.C8 c' _
  | Server.C9 c' _ | Server.C10 c' _ | Server.C11 c' _ | Server.CRet c' _ => c' = c
  | _ => False
  end.
(** The proxy's end of the connection to a peer is open; closed. *)
Definition conn_is (b : bool) (x : Session.state) (d : Session.side) : Prop := exists r, Session.conns x d = Some (Session.NetConn r b).

(** All a session can be waiting for when the program has nothing to do. *)
Inductive waits (x : Session.state) : Prop :=
| waits_startup r : Session.start_pc x = Session.SRecv ->       (* the client's startup packet *)
    Session.conns x Session.Client = Some (Session.NetConn r true) -> Frames.fin r = None -> SpecFrames.frame_incomplete 4 (concat (Frames.chunks r)) -> waits x
| waits_refusal b : Session.start_pc x = Session.SDeny b -> conn_is true x Session.Client -> waits x    (* the client's reading the answer to an SSLRequest *)
| waits_dial m a : Session.start_pc x = Session.SDial m a -> waits x                                    (* net.Dial *)
| waits_send b : Session.start_pc x = Session.SSend b -> conn_is true x Session.DB -> waits x           (* the database's reading the startup packet *)
| waits_traffic : Session.start_pc x = Session.SWait -> conn_is true x Session.DB -> waits x.           (* established *)
(** An established session has nothing to do, but for this: *)
Inductive traffic_waits (x : Session.state) : Prop :=
| tw_peer d b : Session.out_pc x d = Session.OWrite b -> traffic_waits x                   (* a peer's reading what is written to it *)
| tw_gone g r : In (g, r) (SpecSession.exits (Session.hist x)) -> traffic_waits x          (* one of its goroutines ended *)
| tw_all : (forall d, exists mid rest,                                                     (* everything was forwarded: the rest of a message *)
    SpecSession.decodes_startup (SpecSession.arrived d (Session.hist x)) (match d with Session.Client => SpecSession.startups (Session.hist x) | Session.DB => [] end) mid /\
    SpecSession.decodes_standard mid (SpecSession.msgs d (Session.hist x)) rest /\ SpecFrames.frame_incomplete 5 rest /\
    SpecSession.sent (Session.other d) (Session.hist x) = SpecSession.base (Session.other d) (Session.hist x) ++ concat (map Conn.SendMessage (SpecSession.msgs d (Session.hist x)))) -> traffic_waits x.

(** The accepted connections; the results of ServeConn for connection [c]. *)
Fixpoint accepted (h : list Server.event) : list nat :=
  match h with
  | [] => []
  | Server.HAccept _ c :: h' => accepted h' ++ [c]
  | _ :: h' => accepted h'
  end.
Fixpoint serve_results (c : nat) (h : list Server.event) : list (option error) :=
  match h with
  | [] => []
  | Server.HRet _ (Server.CServeConn c') r :: h' => serve_results c h' ++ (if Nat.eqb c c' then [r] else [])
  | _ :: h' => serve_results c h'
  end.

(** Connection [c] is over: no goroutine has it, ServeConn returned exactly once, with the one result of
    session.Start, an error; both its connections are closed, it is out of the table. *)
Definition over (s : state) (c : nat) : Prop :=
  exists r, (forall t, ~ has_conn (srv s) t c) /\ serve_results c (Server.hist (srv s)) = [r] /\ r <> None /\
    SpecSession.start_results (Session.hist (sess s c)) = [r] /\ ~ In c (Server.sessions (srv s)) /\
    conn_is false (sess s c) Session.Client /\ (Session.conns (sess s c) Session.DB = None \/ conn_is false (sess s c) Session.DB).
