(** Model of pkg/server/run.go, [Run], as the command line calls it (pkg/cli/cli.go:139-147): the file
    watcher, the configuration distributor, the server and one session per accepted connection,
    running together.

    A system action is one action of one component, or a simultaneous action of several where they
    touch: a call of one into another, its return, a channel both use.  What was left open in the
    components is closed here: the server's Subscribe is the distributor's, its update channel is
    channel 0 of the distributor, the source is the watcher's configChan, a session's Get is the
    distributor's Get by the goroutine serving that session, and the Start and Close of a session
    (abstract in Server.v) are those of Session.v.  What remains open is the outside: the
    configuration file, fsnotify, net.Listen and Accept, the network, net.Dial, url.Parse.

    Goroutines: 0 is the one that called Run; the distributor's monitor and the goroutines the server
    creates have fresh numbers.  Connection [c] has session [c]; in a session, goroutine [S t] is the
    server's goroutine [t] calling Close.

    Simplifications: as in the components.  A call of session.Start together with its first check is
    one action.  Nobody calls StopWatch (cli.go keeps no reference to the watcher), and nothing
    outlives a panic. *)
From Verif Require Export Event Config.
From Verif Require FileWatcher Distributor Server Session.

(** The goroutine that called Run *)
Inductive rpc :=
| RPrepare                             (* cli.go:139, in prepareConfigChan *)
| RServe                               (* run.go:11 *)
| RCloseServer (r : option error)      (* run.go:9, deferred *)
| RCloseConfig (r : option error)      (* run.go:6, deferred *)
| RDone (r : option error).

(** the objects run.go:6-8 and cli.go:101-118 create, a session per connection (server.go:189), and the goroutine of Run *)
Record state := State {
  watcher : FileWatcher.state;
  dist : Distributor.state;
  srv : Server.state;
  sess : nat -> Session.state;
  main : rpc
}.

(** run.go:5-8, with the configuration file containing [f] *)
Definition Run (f : option config) : state :=
  State (FileWatcher.prepare f) Distributor.NewConfigDistributor Server.NewServer (fun _ => Session.NewSession) RPrepare.
(** executions start with any contents of the file *)
Definition init (s : state) : Prop := exists f, s = Run f.

(** server.go:89-91 *)
Definition listen_changed (old : option config) (new : config) : bool :=
  match old with None => true | Some o => negb (bytes_eqb (Listen o) (Listen new)) end.

(** scheduler and environment choices *)
Inductive label :=
| YWatcher (l : FileWatcher.label)          (* one component alone *)
| YDist (l : Distributor.label)
| YServer (l : Server.label)
| YSession (c : nat) (l : Session.label)
| YRun                                      (* cli.go:147 *)
| YSubscribe                                (* server.go:86-89: the call *)
| YSubscribed                               (* its return *)
| YSource (t : tid)                         (* config_distributor.go:183 receives from configChan *)
| YUpdate                                   (* server.go:103 *)
| YGet (t : tid)                            (* session.go:329: the call *)
| YGot (t : tid) (E : Session.dsn_env)      (* its return *)
| YServe (t : tid)                          (* server.go:207 calls session.Start *)
| YEnd (t : tid)                            (* session.Start is about to return *)
| YFire (t : tid)                           (* session.go:83, deferred Close: Fire *)
| YClosed (t : tid)                         (* session.Start returns *)
| YPick (t : tid) (c : nat)                 (* server.go:238-239 calls session.Close *)
| YPicked (t : tid)                         (* it returns *)
| YCloseUpdates                             (* server.go:87, deferred *)
| YStartReturned                            (* run.go:9, 11 *)
| YServerClosed                             (* run.go:6, 9 *)
| YReturned.

(** What each component does in a system action. *)
Record moves := Moves {
  mw : list FileWatcher.label;
  md : list Distributor.label;
  mv : list Server.label;
  mc : nat;                                 (* the session that moves *)
  ms : list Session.label;
  mr : rpc
}.

(** The result with which a call of the distributor is about to return. *)
Definition returning (d : Distributor.state) (t : tid) : option Distributor.result :=
  match Distributor.pcs d t with
  | Distributor.G0 => if ev_fired (Distributor.closed d) then Some Distributor.RClosed else None
  | Distributor.G3 (Some c) => Some (Distributor.RConfig c)
  | Distributor.G8 _ r => Some r
  | Distributor.S0 _ _ Distributor.STop => if ev_fired (Distributor.closed d) then Some Distributor.RClosed else None
  | Distributor.S5 _ Distributor.STop => Some Distributor.RNil
  | Distributor.C0 Distributor.CTop => match Distributor.closed d with EvFired => Some Distributor.RNil | _ => None end
  | Distributor.C3 Distributor.CTop => Some Distributor.RNil
  | _ => None
  end.
(** A number no goroutine has. *)
Definition unused (s : state) (n : tid) : bool :=
  match n, Distributor.pcs (dist s) n, Server.pcs (srv s) n with S _, Distributor.Idle, Server.Idle => true | _, _, _ => false end.

(** The server actions in which nobody else takes part *)
Definition server_alone (s : state) (l : Server.label) : bool :=
  match l with
  | Server.LGo t =>
      match Server.pcs (srv s) t with
      | Server.A7 _ | Server.ARet _ | Server.C5 _ | Server.C7 _ _ | Server.C8 _ _ | Server.K5 _ _ _ | Server.KRet _ => false
      | _ => true
      end
  | Server.LSpawn _ child => unused s child
  | Server.LQuit _ | Server.LListen _ _ | Server.LAccept _ _ | Server.LCloseListener _ _ | Server.LWatchdog _ => true
  | _ => false
  end.
(** the distributor actions in which nobody else takes part *)
Definition dist_alone (s : state) (l : Distributor.label) : bool :=
  match l with
  | Distributor.LGo t => match returning (dist s) t with None => true | Some _ => false end
  | Distributor.LFresh t n =>
      match Distributor.pcs (dist s) t with Distributor.S4 _ _ _ => unused s n | _ => true end
  | Distributor.LHandoff _ _ | Distributor.LClosedCase _ | Distributor.LPick _ _ => true
  | _ => false
  end.
(** the session actions in which nobody else takes part *)
Definition session_alone (x : Session.state) (l : Session.label) : bool :=
  match l with
  | Session.LCallStart | Session.LConfig _ _ | Session.LCallClose _ => false
  | Session.LStart => match Session.start_pc x with Session.SEntry => false | _ => true end
  | Session.LClose t _ => match Session.close_pc x t with Session.K0 | Session.KRet _ => false | _ => true end
  | _ => true
  end.
(** the watcher actions in which nobody else takes part (nobody calls StopWatch) *)
Definition watcher_alone (l : FileWatcher.label) : bool :=
  match l with FileWatcher.LRecv | FileWatcher.LStop => false | _ => true end.

(** which components move in a system action; each case cites the lines where they touch (see [label]) *)
Definition plan (s : state) (l : label) : option moves :=
  match l with
  | YWatcher l => if watcher_alone l then Some (Moves [l] [] [] 0 [] (main s)) else None
  | YDist l => if dist_alone s l then Some (Moves [] [l] [] 0 [] (main s)) else None
  | YServer l => if server_alone s l then Some (Moves [] [] [l] 0 [] (main s)) else None
  | YSession c l =>
      if (Nat.ltb c (Server.next_conn (srv s)) && session_alone (sess s c) l)%bool
      then Some (Moves [] [] [] c [l] (main s)) else None
  | YRun =>
      match main s, FileWatcher.main (watcher s) with
      | RPrepare, FileWatcher.M_Returned None => Some (Moves [] [] [Server.LStart 0] 0 [] RServe)
      | _, _ => None
      end
  | YSubscribe =>
      match Server.pcs (srv s) 0%nat, Distributor.pcs (dist s) 0%nat with
      | Server.A3, Distributor.Idle =>
          Some (Moves [] [Distributor.LNewChan 0 1; Distributor.LCall 0 (Distributor.CSubscribe 0 [listen_changed])] [] 0 [] (main s))
      | _, _ => None
      end
  | YSubscribed =>
      match Server.pcs (srv s) 0%nat, returning (dist s) 0 with
      | Server.A3, Some Distributor.RNil => Some (Moves [] [Distributor.LGo 0] [Server.LSubscribe 0 None] 0 [] (main s))
      | Server.A3, Some Distributor.RClosed => Some (Moves [] [Distributor.LGo 0] [Server.LSubscribe 0 (Some ErrConfigDistributorClosed)] 0 [] (main s))
      | _, _ => None
      end
  | YSource t =>
      match FileWatcher.chan (watcher s) with
      | c :: _ => Some (Moves [FileWatcher.LRecv] [Distributor.LSource t c] [] 0 [] (main s))
      | [] => None
      end
  | YUpdate =>
      match Server.pcs (srv s) 0%nat, Distributor.chans (dist s) 0%nat with
      | Server.A4, Some (Distributor.Chan _ (c :: _) _ _) =>
          Some (Moves [] [Distributor.LRecv 0] [Server.LConfig c; Server.LRecv 0] 0 [] (main s))
      | _, _ => None
      end
  | YGet t =>
      match Server.pcs (srv s) t, Distributor.pcs (dist s) t with
      | Server.C6 c, Distributor.Idle =>
          match Session.start_pc (sess s c), Session.cached (sess s c) with
          | Session.SGet _, None => Some (Moves [] [Distributor.LCall t Distributor.CGet] [] 0 [] (main s))
          | _, _ => None
          end
      | _, _ => None
      end
  | YGot t E =>
      match Server.pcs (srv s) t, returning (dist s) t with
      | Server.C6 c, Some (Distributor.RConfig cfg) => Some (Moves [] [Distributor.LGo t] [] c [Session.LConfig E (Ok cfg)] (main s))
      | Server.C6 c, Some Distributor.RClosed => Some (Moves [] [Distributor.LGo t] [] c [Session.LConfig E (Err ErrConfigDistributorClosed)] (main s))
      | _, _ => None
      end
  | YServe t =>
      match Server.pcs (srv s) t with
      | Server.C5 c => Some (Moves [] [] [Server.LGo t] c [Session.LCallStart; Session.LStart] (main s))
      | _ => None
      end
  | YEnd t =>
      match Server.pcs (srv s) t with
      | Server.C6 c =>
          match Session.start_pc (sess s c), Session.close_pc (sess s c) 0%nat with
          | Session.SDefer r, Session.K0 => Some (Moves [] [] [Server.LEnd t r] 0 [] (main s))
          | _, _ => None
          end
      | _ => None
      end
  | YFire t =>
      match Server.pcs (srv s) t with
      | Server.C7 c r =>
          match Session.closed (sess s c) with
          | EvInit => Some (Moves [] [] [Server.LGo t] c [Session.LClose 0 None] (main s))
          | EvFired => Some (Moves [] [] [Server.LGo t] c [Session.LClose 0 None; Session.LClose 0 None] (main s))
          | EvFiring _ => None
          end
      | _ => None
      end
  | YClosed t =>
      match Server.pcs (srv s) t with
      | Server.C8 c r =>
          match Session.close_pc (sess s c) 0%nat with
          | Session.KRet _ => Some (Moves [] [] [Server.LGo t] c [Session.LClose 0 None] (main s))
          | _ => None
          end
      | _ => None
      end
  | YPick t c =>
      match Session.closed (sess s c) with
      | EvInit => Some (Moves [] [] [Server.LPick t c] c [Session.LCallClose (S t); Session.LClose (S t) None] (main s))
      | EvFired => Some (Moves [] [] [Server.LPick t c] c [Session.LCallClose (S t); Session.LClose (S t) None; Session.LClose (S t) None] (main s))
      | EvFiring _ => None
      end
  | YPicked t =>
      match Server.pcs (srv s) t with
      | Server.K5 _ _ c =>
          match Session.close_pc (sess s c) (S t) with
          | Session.KRet _ => Some (Moves [] [] [Server.LGo t] c [Session.LClose (S t) None] (main s))
          | _ => None
          end
      | _ => None
      end
  | YCloseUpdates =>
      match Server.pcs (srv s) 0%nat with
      | Server.A7 _ => Some (Moves [] [Distributor.LCloseChan 0] [Server.LGo 0] 0 [] (main s))
      | _ => None
      end
  | YStartReturned =>
      match main s, Server.pcs (srv s) 0%nat with
      | RServe, Server.ARet r => Some (Moves [] [] [Server.LGo 0; Server.LClose 0] 0 [] (RCloseServer r))
      | _, _ => None
      end
  | YServerClosed =>
      match main s, Server.pcs (srv s) 0%nat with
      | RCloseServer r, Server.KRet _ => Some (Moves [] [Distributor.LCall 0 Distributor.CClose] [Server.LGo 0] 0 [] (RCloseConfig r))
      | _, _ => None
      end
  | YReturned =>
      match main s, returning (dist s) 0 with
      | RCloseConfig r, Some _ => Some (Moves [] [Distributor.LGo 0] [] 0 [] (RDone r))
      | _, _ => None
      end
  end.

(** Has any component panicked? *)
Definition panicked (s : state) : option panic :=
  match FileWatcher.crashed (watcher s), Distributor.crashed (dist s), Server.crashed (srv s) with
  | Some p, _, _ | None, Some p, _ | None, None, Some p => Some p
  | None, None, None =>
      fold_right (fun c r => match Session.crashed (sess s c) with Some p => Some p | None => r end) None
        (seq 0 (Server.next_conn (srv s)))
  end.

(** one system action: every component named in the plan moves *)
Definition step (s : state) (l : label) : option state :=
  match panicked s with Some _ => None | None =>
  match plan s l with None => None | Some m =>
  match run FileWatcher.step (watcher s) (mw m), run Distributor.step (dist s) (md m),
        run Server.step (srv s) (mv m), run Session.step (sess s (mc m)) (ms m) with
  | Some w, Some d, Some v, Some x => Some (State w d v (upd (sess s) (mc m) x) (mr m))
  | _, _, _, _ => None
  end end end.
