(** Model of pkg/server/server.go as a labelled transition system.

    Any number of goroutines call Start, Serve, ServeConn and Close; further goroutines are created by
    [do].  One label is one atomic action.  External parties: the configuration distributor (result of
    Subscribe, configurations sent), net.Listen, the listeners (what Accept returns), the sessions.

    Simplifications.  Every call of Serve and ServeConn gets a listener or connection of its own.  A
    session is reduced to what server.go sees of it (Session.v has the rest): whether its closed event
    has fired, whether its client connection is closed, and a Start that returns at an arbitrary time
    with an arbitrary error.  Real time is not modelled: the watchdog may go off as soon as Close
    waits.  The test hooks are nil.  Log output is in Log.v, WaitGroup's misuse panic in WaitGroup.v.
    [start] and [shutdown] are the three-state events proved in C76. *)
From Verif Require Export Event Config.

Notation lid := nat (only parsing).   (* a listener *)
Notation cid := nat (only parsing).   (* an accepted connection, and its session *)

(** the API calls: server.go:74 Start, :129 Serve, :177 ServeConn, :215 Close *)
Inductive call := CStart | CServe (l : lid) | CServeConn (c : cid) | CClose.
(** What Accept returns *)
Inductive accepted := AConn | ATemporary | AError (e : error).

(** where a goroutine is in server.go; each constructor cites its line *)
Inductive pc :=
| Idle
(* Start *)
| A0                                  (* :76 *)
| A1                                  (* :81 *)
| A2                                  (* :81 inside Fire *)
| A3                                  (* :89 *)
| A4                                  (* :101 *)
| A5 (cfg : config)                   (* :107 *)
| A6 (l : lid)                        (* :115 *)
| A7 (r : option error)               (* :87, deferred *)
| ARet (r : option error)
(* Serve *)
| S0 (l : lid)                        (* :268 *)
| S1 (l : lid)                        (* :272 *)
| S2 (l : lid)                        (* :275-283 *)
| S3 (l : lid)                        (* :285 *)
| S4 (l : lid)                        (* :273, deferred *)
| S5 (l : lid)                        (* :150 *)
| S6 (l : lid) (c : cid)              (* :169 *)
| SRet (l : lid) (r : option error)
(* ServeConn *)
| C0 (c : cid)                        (* :179 *)
| C1 (c : cid)                        (* :304 *)
| C2 (c : cid)                        (* :308 *)
| C3 (c : cid)                        (* :311-315 *)
| C4 (c : cid)                        (* :309, deferred *)
| C5 (c : cid)                        (* :207, session.go:78 *)
| C6 (c : cid)                        (* :207, in Start *)
| C7 (c : cid) (r : option error)     (* session.go:83, deferred: Fire *)
| C8 (c : cid) (r : option error)     (* session.go:126-142 *)
| C9 (c : cid) (r : option error)     (* :322 *)
| C10 (c : cid) (r : option error)    (* :325 *)
| C11 (c : cid) (r : option error)    (* :323, deferred *)
| CRet (c : cid) (r : option error)
(* Close *)
| K0                                  (* :217 *)
| K1                                  (* :217 inside Fire *)
| K2                                  (* :229 *)
| K3                                  (* :232-235 *)
| K4 (r : option error) (todo : list cid)            (* :238 *)
| K5 (r : option error) (todo : list cid) (c : cid)  (* :239, session.go:126-142 *)
| K6 (r : option error)               (* :248 *)
| K7 (r : option error)               (* :257 *)
| K8 (r : option error)               (* :260 *)
| KRet (r : option error).

(** Ghost history, newest first. *)
Inductive event :=
| HCall (t : tid) (c : call)
| HRet (t : tid) (c : call) (r : option error)
| HStarted (t : tid)                        (* this Start call got past :81 *)
| HShutdown (t : tid)                       (* this Close call got past :217 *)
| HListen (l : lid) (addr : bytes)          (* net.Listen succeeded *)
| HInstall (l : lid)                        (* srv.listener = l *)
| HListenerClosed (t : tid) (l : lid) (r : option error)
| HAccept (l : lid) (c : cid)
| HRegister (c : cid)
| HRemove (c : cid)
| HSessionFired (c : cid)
| HConnClosed (c : cid)
| HCleared                                  (* :246 *)
| HSpawn (t : tid)
| HDone (t : tid)                           (* wg.Done *)
| HWaited (t : tid).                        (* wg.Wait returned *)

(** server.go:22-51 [Server], its listeners, connections, sessions and goroutines *)
Record state := State {
  start_ev : ev;
  shut_ev : ev;
  mu : option tid;
  listener : option lid;
  sessions : list cid;
  pcs : tid -> pc;
  bg : tid -> bool;                         (* created by [do], not finished *)
  wg : nat;
  lis_open : lid -> bool;
  next_lis : lid;
  conn_open : cid -> bool;
  s_fired : cid -> bool;                    (* the session's closed event *)
  next_conn : cid;
  subscribed : bool;
  updates : list config;                    (* serverConfigurationUpdates, capacity 1 *)
  updates_closed : bool;
  crashed : option panic;
  hist : list event
}.

(** server.go:54-60 [NewServer] *)
Definition NewServer : state :=
  State EvInit EvInit None None [] (fun _ => Idle) (fun _ => false) 0 (fun _ => false) 0 (fun _ => false) (fun _ => false) 0 false [] false None [].
(** executions start from NewServer (server.go:54-60) *)
Definition init (s : state) : Prop := s = NewServer.

(** scheduler and environment choices *)
Inductive label :=
| LStart (t : tid)                          (* calls *)
| LServe (t : tid)
| LServeConn (t : tid)
| LClose (t : tid)
| LGo (t : tid)                             (* the next action, if it is determined *)
| LSubscribe (t : tid) (r : option error)
| LRecv (t : tid)                           (* :103 *)
| LQuit (t : tid)                           (* :118 *)
| LListen (t : tid) (ok : bool)
| LSpawn (t child : tid)
| LAccept (t : tid) (a : accepted)
| LEnd (t : tid) (r : option error)         (* session.Start is about to return *)
| LCloseListener (t : tid) (r : option error)
| LPick (t : tid) (c : cid)                 (* the next session in map order *)
| LWatchdog (t : tid)
| LConfig (cfg : config).                   (* the distributor sends *)

(** goroutine [t] moves to [p] *)
Definition goto s t p := State (start_ev s) (shut_ev s) (mu s) (listener s) (sessions s) (upd (pcs s) t p) (bg s) (wg s) (lis_open s) (next_lis s) (conn_open s) (s_fired s) (next_conn s) (subscribed s) (updates s) (updates_closed s) (crashed s) (hist s).
(** [start] (server.go:34) *)
Definition with_start s e := State e (shut_ev s) (mu s) (listener s) (sessions s) (pcs s) (bg s) (wg s) (lis_open s) (next_lis s) (conn_open s) (s_fired s) (next_conn s) (subscribed s) (updates s) (updates_closed s) (crashed s) (hist s).
(** [shutdown] (server.go:37) *)
Definition with_shut s e := State (start_ev s) e (mu s) (listener s) (sessions s) (pcs s) (bg s) (wg s) (lis_open s) (next_lis s) (conn_open s) (s_fired s) (next_conn s) (subscribed s) (updates s) (updates_closed s) (crashed s) (hist s).
(** [mu] (server.go:31) *)
Definition with_mu s m := State (start_ev s) (shut_ev s) m (listener s) (sessions s) (pcs s) (bg s) (wg s) (lis_open s) (next_lis s) (conn_open s) (s_fired s) (next_conn s) (subscribed s) (updates s) (updates_closed s) (crashed s) (hist s).
(** [listener] (server.go:40) *)
Definition with_listener s l := State (start_ev s) (shut_ev s) (mu s) l (sessions s) (pcs s) (bg s) (wg s) (lis_open s) (next_lis s) (conn_open s) (s_fired s) (next_conn s) (subscribed s) (updates s) (updates_closed s) (crashed s) (hist s).
(** [sessions] (server.go:43) *)
Definition with_sessions s m := State (start_ev s) (shut_ev s) (mu s) (listener s) m (pcs s) (bg s) (wg s) (lis_open s) (next_lis s) (conn_open s) (s_fired s) (next_conn s) (subscribed s) (updates s) (updates_closed s) (crashed s) (hist s).
(** [wg] (server.go:28) and who is counted in it *)
Definition with_bg s t b n := State (start_ev s) (shut_ev s) (mu s) (listener s) (sessions s) (pcs s) (upd (bg s) t b) n (lis_open s) (next_lis s) (conn_open s) (s_fired s) (next_conn s) (subscribed s) (updates s) (updates_closed s) (crashed s) (hist s).
(** a net.Listener is open or closed *)
Definition with_lis s l b := State (start_ev s) (shut_ev s) (mu s) (listener s) (sessions s) (pcs s) (bg s) (wg s) (upd (lis_open s) l b) (next_lis s) (conn_open s) (s_fired s) (next_conn s) (subscribed s) (updates s) (updates_closed s) (crashed s) (hist s).
(** a listener is created (server.go:107, or by the caller of Serve) *)
Definition new_lis s := State (start_ev s) (shut_ev s) (mu s) (listener s) (sessions s) (pcs s) (bg s) (wg s) (upd (lis_open s) (next_lis s) true) (S (next_lis s)) (conn_open s) (s_fired s) (next_conn s) (subscribed s) (updates s) (updates_closed s) (crashed s) (hist s).
(** a connection is accepted (server.go:150, or made by the caller of ServeConn) *)
Definition new_conn s := State (start_ev s) (shut_ev s) (mu s) (listener s) (sessions s) (pcs s) (bg s) (wg s) (lis_open s) (next_lis s) (upd (conn_open s) (next_conn s) true) (s_fired s) (S (next_conn s)) (subscribed s) (updates s) (updates_closed s) (crashed s) (hist s).
(** a client connection is open or closed *)
Definition with_conn s c b := State (start_ev s) (shut_ev s) (mu s) (listener s) (sessions s) (pcs s) (bg s) (wg s) (lis_open s) (next_lis s) (upd (conn_open s) c b) (s_fired s) (next_conn s) (subscribed s) (updates s) (updates_closed s) (crashed s) (hist s).
(** a session's [closed] event fires (session.go:119) *)
Definition with_fired s c := State (start_ev s) (shut_ev s) (mu s) (listener s) (sessions s) (pcs s) (bg s) (wg s) (lis_open s) (next_lis s) (conn_open s) (upd (s_fired s) c true) (next_conn s) (subscribed s) (updates s) (updates_closed s) (crashed s) (hist s).
(** serverConfigurationUpdates (server.go:86) *)
Definition with_updates s sub q c := State (start_ev s) (shut_ev s) (mu s) (listener s) (sessions s) (pcs s) (bg s) (wg s) (lis_open s) (next_lis s) (conn_open s) (s_fired s) (next_conn s) sub q c (crashed s) (hist s).
(** a panic ends the program *)
Definition crash s p := State (start_ev s) (shut_ev s) (mu s) (listener s) (sessions s) (pcs s) (bg s) (wg s) (lis_open s) (next_lis s) (conn_open s) (s_fired s) (next_conn s) (subscribed s) (updates s) (updates_closed s) (Some p) (hist s).
(** record an event *)
Definition log s e := State (start_ev s) (shut_ev s) (mu s) (listener s) (sessions s) (pcs s) (bg s) (wg s) (lis_open s) (next_lis s) (conn_open s) (s_fired s) (next_conn s) (subscribed s) (updates s) (updates_closed s) (crashed s) (e :: hist s).

(** A call returns; for a goroutine created by [do] (:292-299) wg.Done follows. *)
Definition ret s t (c : call) (r : option error) : state :=
  let s := log (goto s t Idle) (HRet t c r) in
  if bg s t then log (with_bg s t false (Nat.pred (wg s))) (HDone t) else s.
(** srv.mu.Lock() *)
Definition lock s t p : option state := match mu s with None => Some (goto (with_mu s (Some t)) t p) | Some _ => None end.
(** srv.mu.Unlock() *)
Definition unlock s t p : state := goto (with_mu s None) t p.
(** [delete(srv.sessions, s)], server.go:325 *)
Definition remove_session (c : cid) (m : list cid) : list cid := filter (fun c' => negb (Nat.eqb c' c)) m.

(** the determined actions *)
Definition go s t : option state :=
  match pcs s t with
  | A0 => Some (goto s t (if ev_fired (shut_ev s) then ARet (Some ErrServerClosed) else A1))
  | A1 => match start_ev s with
          | EvInit => Some (log (goto (with_start s (EvFiring t)) t A2) (HStarted t))
          | EvFiring _ => None
          | EvFired => Some (goto s t (ARet (Some ErrServerAlreadyStarted)))
          end
  | A2 => Some (goto (with_start s EvFired) t A3)
  | A7 r => Some (goto (with_updates s (subscribed s) (updates s) true) t (ARet r))
  | ARet r => Some (ret s t CStart r)
  | S0 l => Some (goto s t (if ev_fired (shut_ev s) then SRet l (Some ErrServerClosed) else S1 l))
  | S1 l => lock s t (S2 l)
  | S2 l => match listener s with None => Some (goto s t (S3 l)) | Some _ => None end
  | S3 l => Some (log (goto (with_listener s (Some l)) t (S4 l)) (HInstall l))
  | S4 l => Some (unlock s t (S5 l))
  | SRet l r => Some (ret s t (CServe l) r)
  | C0 c => Some (goto s t (if ev_fired (shut_ev s) then CRet c (Some ErrServerClosed) else C1 c))
  | C1 c => Some (goto s t (if ev_fired (shut_ev s) then CRet c (Some ErrServerClosed) else C2 c))
  | C2 c => lock s t (C3 c)
  | C3 c => Some (log (goto (with_sessions s (c :: remove_session c (sessions s))) t (C4 c)) (HRegister c))
  | C4 c => Some (unlock s t (C5 c))
  | C5 c => Some (goto s t (if s_fired s c then C9 c (Some ErrSessionClosed) else C6 c))
  | C7 c r => Some (if s_fired s c then goto s t (C9 c r) else log (goto (with_fired s c) t (C8 c r)) (HSessionFired c))
  | C8 c r => Some (log (goto (with_conn s c false) t (C9 c r)) (HConnClosed c))
  | C9 c r => lock s t (C10 c r)
  | C10 c r => Some (log (goto (with_sessions s (remove_session c (sessions s))) t (C11 c r)) (HRemove c))
  | C11 c r => Some (unlock s t (CRet c r))
  | CRet c r => Some (ret s t (CServeConn c) r)
  | K0 => match shut_ev s with
          | EvInit => Some (log (goto (with_shut s (EvFiring t)) t K1) (HShutdown t))
          | EvFiring _ => None
          | EvFired => Some (goto s t (KRet None))
          end
  | K1 => Some (goto (with_shut s EvFired) t K2)
  | K2 => lock s t K3
  | K3 => match listener s with None => Some (goto s t (K4 None (sessions s))) | Some _ => None end
  | K4 r [] => Some (log (goto (with_sessions s []) t (K6 r)) HCleared)
  | K5 r todo c => Some (log (goto (with_conn s c false) t (K4 r todo)) (HConnClosed c))
  | K6 r => Some (unlock s t (K7 r))
  | K7 r => match wg s with O => Some (log (goto s t (K8 r)) (HWaited t)) | S _ => None end
  | K8 r => Some (goto s t (KRet r))
  | KRet r => Some (ret s t CClose r)
  | _ => None
  end.

(** one atomic action of server.go:74-326 or of the outside *)
Definition step (s : state) (l : label) : option state :=
  match crashed s with Some _ => None | None =>
  match l with
  | LStart t => match pcs s t with Idle => Some (log (goto s t A0) (HCall t CStart)) | _ => None end
  | LServe t => match pcs s t with Idle => let l := next_lis s in Some (log (goto (new_lis s) t (S0 l)) (HCall t (CServe l))) | _ => None end
  | LServeConn t => match pcs s t with Idle => let c := next_conn s in Some (log (goto (new_conn s) t (C0 c)) (HCall t (CServeConn c))) | _ => None end
  | LClose t => match pcs s t with Idle => Some (log (goto s t K0) (HCall t CClose)) | _ => None end
  | LGo t => go s t
  | LSubscribe t r =>
      match pcs s t with
      | A3 => match r with
              | None => Some (goto (with_updates s true (updates s) (updates_closed s)) t A4)
              | Some e => Some (goto s t (A7 (Some e)))
              end
      | _ => None
      end
  | LRecv t =>
      match pcs s t, updates s with
      | A4, cfg :: q => Some (goto (with_updates s (subscribed s) q (updates_closed s)) t (A5 cfg))
      | _, _ => None
      end
  | LQuit t =>
      match pcs s t with
      | A4 => if ev_done (shut_ev s) then Some (goto s t (A7 (Some ErrServerClosed))) else None
      | _ => None
      end
  | LListen t ok =>
      match pcs s t with
      | A5 cfg => if ok then let l := next_lis s in Some (log (goto (new_lis s) t (A6 l)) (HListen l (Listen cfg)))
                  else Some (goto s t A4)
      | _ => None
      end
  | LSpawn t child => (* :292-299 *)
      match pcs s child, pcs s t with
      | Idle, A6 l => Some (log (goto (goto (with_bg s child true (S (wg s))) t A4) child (S0 l)) (HSpawn child))
      | Idle, S6 l c => Some (log (goto (goto (with_bg s child true (S (wg s))) t (S5 l)) child (C0 c)) (HSpawn child))
      | _, _ => None
      end
  | LAccept t a =>
      match pcs s t with
      | S5 l =>
          match a with
          | AConn => if lis_open s l then let c := next_conn s in Some (log (goto (new_conn s) t (S6 l c)) (HAccept l c)) else None
          | ATemporary => if lis_open s l then Some s else None
          | AError e => Some (goto s t (SRet l (Some (if lis_open s l then e else ErrConnClosed))))
          end
      | _ => None
      end
  | LEnd t r => match pcs s t with C6 c => Some (goto s t (C7 c r)) | _ => None end
  | LCloseListener t r =>
      match pcs s t, listener s with
      | S2 l, Some old => Some (log (goto (with_lis s old false) t (S3 l)) (HListenerClosed t old r))
      | K3, Some l => Some (log (goto (with_listener (with_lis s l false) None) t (K4 r (sessions s))) (HListenerClosed t l r))
      | _, _ => None
      end
  | LPick t c =>
      match pcs s t with
      | K4 r todo =>
          if existsb (Nat.eqb c) todo then
            let todo' := remove_session c todo in
            Some (if s_fired s c then goto s t (K4 r todo') else log (goto (with_fired s c) t (K5 r todo' c)) (HSessionFired c))
          else None
      | _ => None
      end
  | LWatchdog t => match pcs s t with K7 _ | K8 _ => Some (crash s PanicWatchdog) | _ => None end
  | LConfig cfg =>
      if subscribed s then
        if updates_closed s then Some (crash s PanicSendClosed)
        else match updates s with [] => Some (with_updates s true [cfg] false) | _ => None end
      else None
  end end.
