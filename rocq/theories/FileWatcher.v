(** Model of pkg/cli/file_watcher.go (fileWatcher.Watch / StopWatch), pkg/cli/watch_server_config.go
    (the reload callback) and of prepareConfigChan (pkg/cli/cli.go:101-118), as one transition system:
    the calling goroutine, the goroutine started by Watch (the "starter"), the event handler it
    starts in turn, any number of callers of StopWatch, the file on disk and the server that
    receives the configurations.
    Simplifications: one Watch call per watcher (nothing calls it twice); fsnotify is an environment
    that may fail to start, may refuse the path, delivers any event masks once the path was added
    and may report any error; callbacks other than the configuration reload are opaque and may take
    any time to return; a data race on [watcherError] is an interleaving of single accesses. *)
From Verif Require Export Lts Config.

(** fsnotify.Op: a bit mask (uint32). fsnotify.Create = 1, fsnotify.Write = 2, fsnotify.Remove = 4 *)
Definition OpCreate : Z := 1.
(** fsnotify.Write, used at file_watcher.go:85 *)
Definition OpWrite : Z := 2.
(** fsnotify.Remove, used at file_watcher.go:90 *)
Definition OpRemove : Z := 4.

(** file_watcher.go:80, 85, 90: the three cases *)
Inductive kind := KCreate | KWrite | KRemove.
(** file_watcher.go:21-23: a callback is nil, some function, or the reload function of
    watch_server_config.go:12-21. *)
Inductive callback := CbNil | CbOther | CbReload.
(** file_watcher.go:21-23 *)
Record callbacks := Callbacks { OnCreate : callback; OnWrite : callback; OnRemove : callback }.

(** file_watcher.go:79-94: the [switch] choosing the callback. *)
Definition choose (cbs : callbacks) (op : Z) : option (kind * callback) :=
  if negb (Z.land op OpCreate =? 0) then Some (KCreate, OnCreate cbs)
  else if negb (Z.land op OpWrite =? 0) then Some (KWrite, OnWrite cbs)
  else if negb (Z.land op OpRemove =? 0) then Some (KRemove, OnRemove cbs)
  else None.

(** The goroutine that calls prepareConfigChan / Watch. *)
Inductive mpc :=
| M_Read                       (* cli.go:102: about to read the configuration *)
| M_Send (c : config)          (* cli.go:109: about to put it into the channel *)
| M_Watch                      (* about to call Watch *)
| M_Wait                       (* file_watcher.go:129: initWG.Wait() *)
| M_Failed                     (* cli.go:105: prepareConfigChan returned the read error *)
| M_Returned (r : option error). (* file_watcher.go:132 *)

(** The starter, file_watcher.go:46-126 *)
Inductive spc :=
| S_None
| S_New            (* :47 *)
| S_NewFailed      (* :51, after watcherError = err *)
| S_Make           (* :62 *)
| S_Spawn          (* :65 *)
| S_Add            (* :113 *)
| S_Init           (* :116 *)
| S_Wait           (* :119 *)
| S_Check          (* :123 *)
| S_Close          (* :55, deferred *)
| S_End.

(** The event handler, file_watcher.go:65-110 *)
Inductive hpc :=
| H_None
| H_Select              (* :70 *)
| H_Other (k : kind)    (* inside an opaque callback *)
| H_Read                (* watch_server_config.go:13 *)
| H_Send (c : config)   (* watch_server_config.go:20 *)
| H_End.

(** [w.watchDone], file_watcher.go:25 *)
Inductive chan_state := ChNil | ChOpen | ChClosed.

(** What happens, newest first in [hist]. *)
Inductive event :=
| WChange (f : option config)           (* the file's contents changed; None: unreadable or malformed *)
| WRead (f : option config)             (* readServerConfig in prepareConfigChan *)
| WReload (f : option config)           (* readServerConfig in the reload callback *)
| WSent (c : config)                    (* a configuration entered the channel *)
| WRecv (c : config)                    (* the server received one *)
| WMade                                 (* watchDone was created *)
| WAdd (r : option error)               (* result of watcher.Add *)
| WEvent (op : Z)                       (* the handler received an event *)
| WCall (k : kind)                      (* a callback was called *)
| WReturn (k : kind)                    (* an opaque callback returned *)
| WError (e : option error)             (* the handler received an error (None: channel closed) *)
| WStop                                 (* StopWatch closed watchDone *)
| WStopped                              (* the handler noticed *)
| WWatch                                (* Watch was called *)
| WWatchRet (r : option error)          (* Watch returned *)
| WLogged (r : option error)            (* file_watcher.go:124 logged r *)
| WClosed.                              (* the fsnotify watcher was closed *)

(** file_watcher.go:19-26 [fileWatcher], the variables of Watch (:38-59), the file, configChan (cli.go:108) and the goroutines *)
Record state := State {
  cbs : callbacks;
  main : mpc;
  inited : bool;              (* initWG's counter is 0 *)
  werr : option error;        (* watcherError *)
  done : chan_state;          (* w.watchDone *)
  starter : spc;
  handler : hpc;
  listening : bool;           (* watcher.Add succeeded *)
  wclosed : bool;             (* watcher.Close was called: Events and Errors are closed *)
  events : list Z;            (* events fsnotify has yet to deliver *)
  file : option config;       (* what readServerConfig would return now *)
  chan : list config;         (* configChan, capacity 1 *)
  crashed : option panic;
  hist : list event
}.

(** prepareConfigChan about to run: watch_server_config.go:11-12 sets OnWrite only. *)
Definition prepare (f : option config) : state :=
  State (Callbacks CbNil CbReload CbNil) M_Read false None ChNil S_None H_None false false [] f [] None [].
(** A fileWatcher with any callbacks, about to be started (file_watcher.go:29-31). *)
Definition watch (cb : callbacks) (f : option config) : state :=
  State cb M_Watch false None ChNil S_None H_None false false [] f [] None [].

Definition cap : nat := 1.   (* cli.go:108 *)

(** record an event *)
Definition log (s : state) (e : event) : state :=
  State (cbs s) (main s) (inited s) (werr s) (done s) (starter s) (handler s) (listening s) (wclosed s) (events s) (file s) (chan s) (crashed s) (e :: hist s).
(** the calling goroutine moves *)
Definition set_main (s : state) (p : mpc) : state :=
  State (cbs s) p (inited s) (werr s) (done s) (starter s) (handler s) (listening s) (wclosed s) (events s) (file s) (chan s) (crashed s) (hist s).
(** [initWG.Done()], file_watcher.go:51, 116 *)
Definition set_inited (s : state) : state :=
  State (cbs s) (main s) true (werr s) (done s) (starter s) (handler s) (listening s) (wclosed s) (events s) (file s) (chan s) (crashed s) (hist s).
(** [watcherError = e], file_watcher.go:50, 100, 113 *)
Definition set_werr (s : state) (e : option error) : state :=
  State (cbs s) (main s) (inited s) e (done s) (starter s) (handler s) (listening s) (wclosed s) (events s) (file s) (chan s) (crashed s) (hist s).
(** [w.watchDone], file_watcher.go:62, 137 *)
Definition set_done (s : state) (d : chan_state) : state :=
  State (cbs s) (main s) (inited s) (werr s) d (starter s) (handler s) (listening s) (wclosed s) (events s) (file s) (chan s) (crashed s) (hist s).
(** the starter moves *)
Definition set_starter (s : state) (p : spc) : state :=
  State (cbs s) (main s) (inited s) (werr s) (done s) p (handler s) (listening s) (wclosed s) (events s) (file s) (chan s) (crashed s) (hist s).
(** the handler moves *)
Definition set_handler (s : state) (p : hpc) : state :=
  State (cbs s) (main s) (inited s) (werr s) (done s) (starter s) p (listening s) (wclosed s) (events s) (file s) (chan s) (crashed s) (hist s).
(** watcher.Add succeeded, file_watcher.go:113 *)
Definition set_listening (s : state) : state :=
  State (cbs s) (main s) (inited s) (werr s) (done s) (starter s) (handler s) true (wclosed s) (events s) (file s) (chan s) (crashed s) (hist s).
(** watcher.Close, file_watcher.go:55 *)
Definition set_wclosed (s : state) : state :=
  State (cbs s) (main s) (inited s) (werr s) (done s) (starter s) (handler s) (listening s) true (events s) (file s) (chan s) (crashed s) (hist s).
(** watcher.Events, file_watcher.go:72 *)
Definition set_events (s : state) (es : list Z) : state :=
  State (cbs s) (main s) (inited s) (werr s) (done s) (starter s) (handler s) (listening s) (wclosed s) es (file s) (chan s) (crashed s) (hist s).
(** the file changes *)
Definition set_file (s : state) (f : option config) : state :=
  State (cbs s) (main s) (inited s) (werr s) (done s) (starter s) (handler s) (listening s) (wclosed s) (events s) f (chan s) (crashed s) (hist s).
(** configChan, cli.go:108-109, watch_server_config.go:20 *)
Definition set_chan (s : state) (q : list config) : state :=
  State (cbs s) (main s) (inited s) (werr s) (done s) (starter s) (handler s) (listening s) (wclosed s) (events s) (file s) q (crashed s) (hist s).
(** a run-time panic ends the program *)
Definition crash (s : state) (p : panic) : state :=
  State (cbs s) (main s) (inited s) (werr s) (done s) (starter s) (handler s) (listening s) (wclosed s) (events s) (file s) (chan s) (Some p) (hist s).

(** scheduler and environment choices *)
Inductive label :=
| LMain                                  (* the caller's next action *)
| LStarter (r : option error)            (* the starter's next action; r: result of NewWatcher / Add *)
| LHandler                               (* the handler's next action inside a callback *)
| LEvent                                 (* the handler's select takes the next file event *)
| LError (e : error)                     (* ... takes an fsnotify error *)
| LEventsClosed                          (* ... finds the event channel closed *)
| LErrorsClosed                          (* ... finds the error channel closed *)
| LStopped                               (* ... finds watchDone closed *)
| LStop                                  (* some goroutine calls StopWatch *)
| LFile (f : option config) (ops : list Z) (* the file changes; fsnotify will report [ops] if it watches *)
| LRecv.                                 (* the server receives from configChan *)

(** cli.go:101-118 and file_watcher.go:35-44, 128-133 *)
Definition main_step (s : state) : option state :=
  match main s with
  | M_Read => Some (log (set_main s (match file s with Some c => M_Send c | None => M_Failed end)) (WRead (file s)))
  | M_Send c => if (length (chan s) <? cap)%nat then Some (log (set_main (set_chan s (chan s ++ [c])) M_Watch) (WSent c)) else None
  | M_Watch => Some (log (set_starter (set_main s M_Wait) S_New) WWatch)
  | M_Wait => if inited s then Some (log (set_main s (M_Returned (werr s))) (WWatchRet (werr s))) else None
  | M_Failed | M_Returned _ => None
  end.

(** file_watcher.go:46-126. Line 124 prints [err], the result of NewWatcher, which is nil here. *)
Definition starter_step (s : state) (r : option error) : option state :=
  match starter s with
  | S_None | S_End => None
  | S_New => match r with
             | Some e => Some (set_starter (set_werr s (Some e)) S_NewFailed)
             | None => Some (set_starter s S_Make)
             end
  | S_NewFailed => Some (set_starter (set_inited s) S_End)
  | S_Make => Some (log (set_starter (set_done s ChOpen) S_Spawn) WMade)
  | S_Spawn => Some (set_starter (set_handler s H_Select) S_Add)
  | S_Add => let s1 := log (set_starter (set_werr s r) S_Init) (WAdd r) in
             Some (match r with None => set_listening s1 | Some _ => s1 end)
  | S_Init => Some (set_starter (set_inited s) S_Wait)
  | S_Wait => match handler s with H_End => Some (set_starter s S_Check) | _ => None end
  | S_Check => Some (match werr s with
                     | Some _ => log (set_starter s S_Close) (WLogged None)
                     | None => set_starter s S_Close
                     end)
  | S_Close => Some (log (set_starter (set_wclosed s) S_End) WClosed)
  end.

(** The chosen callback starts (file_watcher.go:79-94); a nil callback is skipped. *)
Definition dispatch (s : state) (op : Z) : state :=
  match choose (cbs s) op with
  | Some (k, CbOther) => log (set_handler s (H_Other k)) (WCall k)
  | Some (k, CbReload) => log (set_handler s H_Read) (WCall k)
  | Some (_, CbNil) | None => s
  end.

(** Inside a callback: watch_server_config.go:12-21, or an opaque callback returning. *)
Definition handler_step (s : state) : option state :=
  match handler s with
  | H_Other k => Some (log (set_handler s H_Select) (WReturn k))
  | H_Read => Some (log (set_handler s (match file s with Some c => H_Send c | None => H_Select end)) (WReload (file s)))
  | H_Send c => if (length (chan s) <? cap)%nat then Some (log (set_handler (set_chan s (chan s ++ [c])) H_Select) (WSent c)) else None
  | H_None | H_Select | H_End => None
  end.

(** one atomic action of file_watcher.go:35-138, watch_server_config.go:12-21, cli.go:101-118 or of the outside *)
Definition step (s : state) (l : label) : option state :=
  match crashed s with
  | Some _ => None
  | None =>
      match l with
      | LMain => main_step s
      | LStarter r => starter_step s r
      | LHandler => handler_step s
      | LEvent => match handler s, events s with
                  | H_Select, op :: es => if wclosed s then None else Some (dispatch (log (set_events s es) (WEvent op)) op)
                  | _, _ => None
                  end
      | LError e => match handler s with
                    | H_Select => if wclosed s then None else Some (log (set_handler (set_werr s (Some e)) H_End) (WError (Some e)))
                    | _ => None
                    end
      | LEventsClosed => match handler s with
                         | H_Select => if wclosed s then Some (set_handler s H_End) else None
                         | _ => None
                         end
      | LErrorsClosed => match handler s with
                         | H_Select => if wclosed s then Some (log (set_handler s H_End) (WError None)) else None
                         | _ => None
                         end
      | LStopped => match handler s, done s with
                    | H_Select, ChClosed => Some (log (set_handler s H_End) WStopped)
                    | _, _ => None
                    end
      | LStop => match done s with
                 | ChNil => Some (crash s PanicCloseNil)
                 | ChClosed => Some (crash s PanicCloseClosed)
                 | ChOpen => Some (log (set_done s ChClosed) WStop)
                 end
      | LFile f ops => Some (log (set_file (if listening s then set_events s (events s ++ ops) else s) f) (WChange f))
      | LRecv => match main s, chan s with
                 | M_Returned None, c :: q => Some (log (set_chan s q) (WRecv c))
                 | _, _ => None
                 end
      end
  end.

(** Every start considered: the command line, and a fileWatcher with any callbacks. *)
Definition from_cli (s : state) : Prop := exists f, s = prepare f.
(** executions start from prepareConfigChan or from a Watch call *)
Definition init (s : state) : Prop := from_cli s \/ exists cb f, s = watch cb f.
