(** What the program writes to its log: every call of logrus at level Info or Error in pkg/server and
    pkg/cli.  Debug lines are not modelled: they appear only with -v (C69).

    A line is represented by the place that writes it and by the values it prints.  Simplifications:
    how logrus renders a line (time, level, quoting) is not modelled; the lines of session.go do not
    print which session they are about, nor does server.go:104-110 print the listener: the numbers
    [c] and [l] below are ours and tell who called.  The remote address printed by server.go:186 is
    represented by the connection.  Of a temporary error of Accept only the fact is kept. *)
From Verif Require Export System.
From Verif Require Frames Messages.

Inductive line :=
| LnInitializing (c : nat)                             (* session.go:75 *)
| LnClosed (c : nat)                                   (* session.go:76, deferred *)
| LnSessionError (c : nat) (e : error)                 (* session.go:105 *)
| LnCompleted (c : nat)                                (* session.go:107 *)
| LnClosing (c : nat)                                  (* session.go:123 *)
| LnDenySSL (c : nat)                                  (* session.go:163 *)
| LnForward (c : nat) (d : Session.side) (b : bytes)   (* session.go:306, 315: what came from [d] *)
| LnServing (a : bytes)                                (* server.go:104 *)
| LnCantListen (a : bytes)                             (* server.go:110 *)
| LnChangeError (l : nat)                              (* server.go:134 *)
| LnReady (l : nat)                                    (* server.go:138 *)
| LnAcceptError (l : nat) (e : option error)           (* server.go:155; None: a temporary error *)
| LnNewConnection (c : nat)                            (* server.go:186 *)
| LnServerClosing                                      (* server.go:221 *)
| LnCloseSessionError (c : nat) (e : error)            (* server.go:242 *)
| LnOldListenerError (l : nat) (e : error)             (* server.go:281 *)
| LnLoadError                                          (* watch_server_config.go:16 *)
| LnWatchError (e : option error).                     (* file_watcher.go:124 *)

(** session.go:74-345: the lines written when session [c] goes from [x] to [x'] by [l] *)
Definition session_lines (c : nat) (x : Session.state) (l : Session.label) (x' : Session.state) : list line :=
  match l with
  | Session.LCallStart => [LnInitializing c]
  | Session.LStart =>
      match Session.start_pc x, Session.start_pc x' with
      | Session.SEntry, Session.SDone _ => [LnClosed c]                      (* :79, :76 *)
      | Session.SRecv, Session.SDeny _ => [LnDenySSL c]                      (* :162-163 *)
      | Session.SWait, Session.SDefer (Some e) => [LnSessionError c e]       (* :104-105 *)
      | Session.SWait, Session.SDefer None => [LnCompleted c]                (* :107 *)
      | _, _ => []
      end
  | Session.LClose t _ =>
      match Session.close_pc x t, t with
      | Session.K1, _ => [LnClosing c]                                       (* :123, Fire has returned true *)
      | Session.KRet _, O => [LnClosed c]                                    (* :76, after the deferred Close of :83 *)
      | Session.KRet (Some e), S _ => [LnCloseSessionError c e]              (* server.go:239-243, the only other caller *)
      | _, _ => []
      end
  | Session.LSelect d =>
      match Session.queue (Session.chan_in x d) with m :: _ => [LnForward c d (Frames.Bytes (Messages.Frame m))] | [] => [] end
  | _ => []
  end.

(** server.go:74-326: the lines written when the server does [l] in [v] *)
Definition server_lines (v : Server.state) (l : Server.label) : list line :=
  match l with
  | Server.LRecv _ => match Server.updates v with cfg :: _ => [LnServing (Listen cfg)] | [] => [] end
  | Server.LListen t false => match Server.pcs v t with Server.A5 cfg => [LnCantListen (Listen cfg)] | _ => [] end
  | Server.LGo t =>
      match Server.pcs v t with
      | Server.S0 l => if ev_fired (Server.shut_ev v) then [LnChangeError l] else []
      | Server.S4 l => [LnReady l]
      | Server.C0 c => if ev_fired (Server.shut_ev v) then [] else [LnNewConnection c]
      | Server.K1 => [LnServerClosing]
      | _ => []
      end
  | Server.LAccept t a =>
      match Server.pcs v t, a with
      | Server.S5 l, Server.ATemporary => [LnAcceptError l None]
      | Server.S5 l, Server.AError e =>
          (* :154: not if the text says that the listener is closed *)
          if Server.lis_open v l then match e with ErrConnClosed => [] | _ => [LnAcceptError l (Some e)] end else []
      | _, _ => []
      end
  | Server.LCloseListener t (Some e) =>
      match Server.pcs v t, Server.listener v with Server.S2 _, Some old => [LnOldListenerError old e] | _, _ => [] end
  | _ => []
  end.

(** watch_server_config.go:12-21 and file_watcher.go:123-125 *)
Definition watcher_lines (w : FileWatcher.state) (l : FileWatcher.label) : list line :=
  match l with
  | FileWatcher.LHandler => match FileWatcher.handler w, FileWatcher.file w with FileWatcher.H_Read, None => [LnLoadError] | _, _ => [] end
  | FileWatcher.LStarter _ =>
      (* prints [err], the result of NewWatcher (:47), not [watcherError] *)
      match FileWatcher.starter w, FileWatcher.werr w with FileWatcher.S_Check, Some _ => [LnWatchError None] | _, _ => [] end
  | _ => []
  end.

(** the lines written along several actions of one component *)
Fixpoint along {S L} (step : S -> L -> option S) (lines : S -> L -> S -> list line) (s : S) (ls : list L) : list line :=
  match ls with
  | [] => []
  | l :: ls' => match step s l with Some s' => lines s l s' ++ along step lines s' ls' | None => [] end
  end.

(** the lines written in one action of the program (see System.plan) *)
Definition lines (s : state) (l : label) : list line :=
  match plan s l with
  | None => []
  | Some m =>
      along FileWatcher.step (fun w l _ => watcher_lines w l) (watcher s) (mw m) ++
      along Server.step (fun v l _ => server_lines v l) (srv s) (mv m) ++
      along Session.step (session_lines (mc m)) (sess s (mc m)) (ms m)
  end.

(** the log of an execution, oldest line first *)
Fixpoint written (s : state) (ls : list label) : list line :=
  match ls with
  | [] => []
  | l :: ls' => match step s l with Some s' => lines s l ++ written s' ls' | None => [] end
  end.
