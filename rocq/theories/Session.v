(** Model of pkg/server/session.go as a labelled transition system.

    Goroutines: the one that called Start, the five session goroutines Start runs in an errgroup, and
    any number of goroutines calling Close.  One label is one atomic action.  External parties: the
    two network peers (what arrives, when they hang up, how much of a write is accepted and when it
    fails), the configuration store, url.Parse/user.Current, net.Dial.

    Simplifications.  Start is called at most once per session (server.go:176 is its only caller).
    A receive ([RecvMessage]) is one action, performed when its last byte (or the end of the stream)
    is there: the bytes it reads earlier are seen by nobody else.  Writes are not atomic: each action
    hands over a part of the message.  [g.Go] x5 is one action; the scheduler may delay each
    goroutine arbitrarily.  Accesses to [dbConn] are sequentially consistent (in Go they race).
    [closed] is the three-state event proved in C76.  Only the log output of startProcessing is
    recorded.  [s.mu] is not modelled: only the goroutine of Start takes it. *)
From Verif Require Export Event Conn Dsn Config.

(** The two peers. *)
Inductive side := Client | DB.
(** the opposite peer: session.go:308, 317 forward to it *)
Definition other (d : side) : side := match d with Client => DB | DB => Client end.
(** equality of peers *)
Definition side_eqb (a b : side) : bool := match a, b with Client, Client | DB, DB => true | _, _ => false end.
(** update of a pair of fields (clientX, dbX) *)
Definition supd {A} (f : side -> A) (d : side) (a : A) : side -> A := fun d' => if side_eqb d' d then a else f d'.

(** A net.Conn: what can be read from it and whether the proxy has closed it. *)
Record conn := NetConn { rd : reader; is_open : bool }.
(** A chan pg.Message of capacity 64 (session.go:62-65). *)
Record chan := Chan { queue : list message; chan_closed : bool }.
(** session.go:62-65 *)
Definition capacity : nat := 64.

(** The five goroutines of session.go:95-99. *)
Inductive goroutine := GIn (d : side) | GOut (d : side) | GProc.

(** What ParseDatabaseURI depends on besides its argument. *)
Record dsn_env := DsnEnv {
  env_parse : bytes -> res url;
  env_user : option bytes;
  env_order : list (bytes * list bytes) -> list (bytes * list bytes)
}.
(** session.go:337: pg.ParseDatabaseURI in a given environment *)
Definition parse_uri (E : dsn_env) : bytes -> res params := ParseDatabaseURI (env_parse E) (env_user E) (env_order E).

(** Ghost history, newest first. *)
Inductive event :=
| HArrive (d : side) (b : bytes)          (* bytes arrived from a peer *)
| HSent (d : side) (b : bytes)            (* bytes handed to a peer *)
| HStartup (m : message)                  (* a startup packet was decoded *)
| HConfig (E : dsn_env) (r : res config)  (* cfg.Get() returned *)
| HDial (addr : bytes)                    (* net.Dial called *)
| HConnected                              (* dbConn set *)
| HMsg (d : side) (m : message)           (* a message was decoded by the in pump *)
| HLog (d : side) (b : bytes)             (* startProcessing logged the frame of a message from [d] *)
| HTake (d : side) (m : message)          (* the out pump took a message *)
| HExit (g : goroutine) (r : option error)
| HStartCall
| HStartRet (r : option error)
| HCloseCall (t : tid)
| HFire (t : tid)                         (* this Close call is the first *)
| HConnClosed (d : side) (r : option error)
| HChanClosed
| HCloseRet (t : tid) (r : option error).

(** Which connection parameter Start is asking for, and what it already has. *)
Inductive want := WDatabase (v : Z) (ps : list startup_param) | WHost (m : message) | WPort (m : message) (host : bytes).

(** The goroutine of Start. *)
Inductive spc :=
| SIdle
| SEntry                                  (* :78 *)
| SRecv                                   (* :155 *)
| SDeny (rest : bytes)                    (* :165 *)
| SGet (w : want)                         (* :181, :198, :204 *)
| SDial (m : message) (addr : bytes)      (* :211 *)
| SSend (rest : bytes)                    (* :221 *)
| SWait                                   (* :102 *)
| SDefer (r : option error)               (* :83, in the deferred Close *)
| SDone (r : option error).
(** A Close call. *)
Inductive kpc :=
| KIdle
| K0                                      (* :119 Fire *)
| K1                                      (* :119 inside Fire *)
| K2                                      (* :126-130 *)
| K3 (err : option error)                 (* :132-136 *)
| K4 (err : option error)                 (* :139 *)
| K5 (err : option error)                 (* :140 *)
| K6 (err : option error)                 (* :141 *)
| K7 (err : option error)                 (* :142 *)
| KRet (err : option error).
(** In pumps, out pumps, processing *)
Inductive ipc := IOff | IRecv | ISend (m : message) | IExit.
(** out pumps, session.go:244-261 and 277-294 *)
Inductive opc := OOff | OTake | OWrite (rest : bytes) | OExit.
(** startProcessing, session.go:297-320 *)
Inductive ppc := POff | PSelect | PSend (from : side) (m : message) | PExit.

(** session.go:16-49 [Session], the errgroup of :92 and the goroutines *)
Record state := State {
  start_pc : spc;
  close_pc : tid -> kpc;                  (* 0 is the goroutine of Start *)
  in_pc : side -> ipc;
  out_pc : side -> opc;
  proc_pc : ppc;
  closed : ev;
  cached : option params;                 (* dbConnectionParams *)
  conns : side -> option conn;            (* clientConn, dbConn *)
  chan_in : side -> chan;                 (* clientIn, dbIn *)
  chan_out : side -> chan;                (* clientOut, dbOut *)
  gerr : option error;                    (* errgroup.Group.err *)
  crashed : option panic;
  hist : list event
}.

(** the goroutine of Start moves *)
Definition with_start s p := State p (close_pc s) (in_pc s) (out_pc s) (proc_pc s) (closed s) (cached s) (conns s) (chan_in s) (chan_out s) (gerr s) (crashed s) (hist s).
(** a Close call moves *)
Definition with_close s t p := State (start_pc s) (upd (close_pc s) t p) (in_pc s) (out_pc s) (proc_pc s) (closed s) (cached s) (conns s) (chan_in s) (chan_out s) (gerr s) (crashed s) (hist s).
(** an in pump moves *)
Definition with_in s d p := State (start_pc s) (close_pc s) (supd (in_pc s) d p) (out_pc s) (proc_pc s) (closed s) (cached s) (conns s) (chan_in s) (chan_out s) (gerr s) (crashed s) (hist s).
(** an out pump moves *)
Definition with_out s d p := State (start_pc s) (close_pc s) (in_pc s) (supd (out_pc s) d p) (proc_pc s) (closed s) (cached s) (conns s) (chan_in s) (chan_out s) (gerr s) (crashed s) (hist s).
(** the processing goroutine moves *)
Definition with_proc s p := State (start_pc s) (close_pc s) (in_pc s) (out_pc s) p (closed s) (cached s) (conns s) (chan_in s) (chan_out s) (gerr s) (crashed s) (hist s).
(** [closed] (session.go:48) *)
Definition with_closed s e := State (start_pc s) (close_pc s) (in_pc s) (out_pc s) (proc_pc s) e (cached s) (conns s) (chan_in s) (chan_out s) (gerr s) (crashed s) (hist s).
(** [dbConnectionParams] (session.go:30) *)
Definition with_cached s p := State (start_pc s) (close_pc s) (in_pc s) (out_pc s) (proc_pc s) (closed s) (Some p) (conns s) (chan_in s) (chan_out s) (gerr s) (crashed s) (hist s).
(** [clientConn], [dbConn] (session.go:24, 27) *)
Definition with_conn s d c := State (start_pc s) (close_pc s) (in_pc s) (out_pc s) (proc_pc s) (closed s) (cached s) (supd (conns s) d (Some c)) (chan_in s) (chan_out s) (gerr s) (crashed s) (hist s).
(** [clientIn], [dbIn] (session.go:42, 44) *)
Definition with_chan_in s d c := State (start_pc s) (close_pc s) (in_pc s) (out_pc s) (proc_pc s) (closed s) (cached s) (conns s) (supd (chan_in s) d c) (chan_out s) (gerr s) (crashed s) (hist s).
(** [clientOut], [dbOut] (session.go:43, 45) *)
Definition with_chan_out s d c := State (start_pc s) (close_pc s) (in_pc s) (out_pc s) (proc_pc s) (closed s) (cached s) (conns s) (chan_in s) (supd (chan_out s) d c) (gerr s) (crashed s) (hist s).
(** the first error of the errgroup (session.go:92) *)
Definition with_gerr s e := State (start_pc s) (close_pc s) (in_pc s) (out_pc s) (proc_pc s) (closed s) (cached s) (conns s) (chan_in s) (chan_out s) e (crashed s) (hist s).
(** a run-time panic ends the program *)
Definition crash s p := State (start_pc s) (close_pc s) (in_pc s) (out_pc s) (proc_pc s) (closed s) (cached s) (conns s) (chan_in s) (chan_out s) (gerr s) (Some p) (hist s).
(** record an event *)
Definition log s e := State (start_pc s) (close_pc s) (in_pc s) (out_pc s) (proc_pc s) (closed s) (cached s) (conns s) (chan_in s) (chan_out s) (gerr s) (crashed s) (e :: hist s).

(** session.go:57-69 [NewSession]; nothing has arrived from the client yet *)
Definition NewSession : state :=
  State SIdle (fun _ => KIdle) (fun _ => IOff) (fun _ => OOff) POff EvInit None
    (fun d => match d with Client => Some (NetConn (Reader [] None) true) | DB => None end)
    (fun _ => Chan [] false) (fun _ => Chan [] false) None None [].
(** executions start from NewSession (session.go:57-69) *)
Definition init (s : state) : Prop := s = NewSession.

(** scheduler and environment choices *)
Inductive label :=
(* the network *)
| LArrive (d : side) (b : bytes)
| LHangup (d : side) (e : error)
| LReset (d : side) (e : error)           (* the unread bytes are lost too *)
(* Start *)
| LCallStart
| LStart
| LStartWrite (n : nat)
| LStartWriteErr (e : error)
| LConfig (E : dsn_env) (r : res config)
| LDial (r : option error)
(* Close; [r] is the result of closing a network connection *)
| LCallClose (t : tid)
| LClose (t : tid) (r : option error)
(* the session goroutines *)
| LRecv (d : side)
| LIn (d : side)
| LSelect (d : side)
| LProc
| LTake (d : side)
| LWrite (d : side) (n : nat)
| LWriteErr (d : side) (e : error).

(** Start returns [r]: the deferred Close runs first *)
Definition leave s (r : option error) : state := with_start (with_close s 0%nat K0) (SDefer r).

(** net.JoinHostPort: a host containing a colon is bracketed *)
Definition has_colon (h : bytes) : bool := existsb (fun c => byte_eqb c ":") h.
(** net.JoinHostPort, called at session.go:211 *)
Definition JoinHostPort (host port : bytes) : bytes :=
  if has_colon host then str "[" ++ host ++ str "]:" ++ port else host ++ str ":" ++ port.

(** session.go:187-192, 198-211: what Start does with a connection parameter *)
Definition got s (w : want) (v : bytes) : state :=
  match w with
  | WDatabase ver ps =>
      let dbName := GetParameter ps (str "database") in
      if bytes_eqb dbName v then with_start s (SGet (WHost (StartupMessage ver ps)))
      else leave s (Some (ErrDatabaseMismatch dbName v))
  | WHost m => with_start s (SGet (WPort m v))
  | WPort m host =>
      let addr := JoinHostPort host v in
      log (with_start s (SDial m addr)) (HDial addr)
  end.
(** the name given to getDBConnnectionParam *)
Definition want_name (w : want) : bytes :=
  match w with WDatabase _ _ => str "database" | WHost _ => str "host" | WPort _ _ => str "port" end.

(** session.go:161-183: the decoded startup packet *)
Definition negotiate s (v : Z) (ps : list startup_param) : state :=
  if Z.eqb v SSLRequestMagic then with_start s (SDeny (SendByte "N"))
  else if negb (Z.eqb v DefaultProtocolVersion) then leave s (Some (ErrUnsupportedVersion v))
  else with_start s (SGet (WDatabase v ps)).

(** errgroup.Group.Go: the goroutine [g] returned [r] *)
Definition finish s (g : goroutine) (r : option error) : state :=
  let s := match g with
    | GIn d => with_in s d IExit
    | GOut d => with_out s d OExit
    | GProc => with_proc s PExit
    end in
  log (with_gerr s match gerr s with None => r | Some e => Some e end) (HExit g r).
(** session.go:102: g.Wait() returns when all five goroutines have *)
Definition all_exited s : bool :=
  match in_pc s Client, in_pc s DB, out_pc s Client, out_pc s DB, proc_pc s with
  | IExit, IExit, OExit, OExit, PExit => true
  | _, _, _, _, _ => false
  end.

(** reading from a connection the proxy has closed *)
Definition recv_on {A} (receive : reader -> outcome (res A)) (c : conn) : outcome (res A) :=
  if is_open c then receive (rd c) else Done (Err ErrConnClosed) (rd c).

(** handing [n] bytes of [rest] to a peer *)
Definition write_ok (n : nat) (rest : bytes) : bool := Nat.leb n (length rest) && (Nat.eqb (length rest) 0 || negb (Nat.eqb n 0)).

(** one action of a Close call *)
Definition close_chan (c : chan) : chan := Chan (queue c) true.
(** session.go:117-147, one action of the Close call of [t]; [kpc] cites the lines *)
Definition go_close s t (r : option error) : option state :=
  match close_pc s t with
  | K0 => match closed s with
          | EvInit => Some (log (with_close (with_closed s (EvFiring t)) t K1) (HFire t))
          | EvFiring _ => None
          | EvFired => Some (with_close s t (KRet None))      (* :120 *)
          end
  | K1 => Some (with_close (with_closed s EvFired) t K2)
  | K2 => match conns s Client with
          | Some c => Some (log (with_close (with_conn s Client (NetConn (rd c) false)) t (K3 r)) (HConnClosed Client r))
          | None => Some (with_close s t (K3 None))
          end
  | K3 err => match conns s DB with
          | Some c => Some (log (with_close (with_conn s DB (NetConn (rd c) false)) t (K4 r)) (HConnClosed DB r))
          | None => Some (with_close s t (K4 err))
          end
  | K4 err => Some (if chan_closed (chan_in s Client) then crash s PanicCloseClosed
                    else log (with_close (with_chan_in s Client (close_chan (chan_in s Client))) t (K5 err)) HChanClosed)
  | K5 err => Some (if chan_closed (chan_out s Client) then crash s PanicCloseClosed
                    else log (with_close (with_chan_out s Client (close_chan (chan_out s Client))) t (K6 err)) HChanClosed)
  | K6 err => Some (if chan_closed (chan_in s DB) then crash s PanicCloseClosed
                    else log (with_close (with_chan_in s DB (close_chan (chan_in s DB))) t (K7 err)) HChanClosed)
  | K7 err => Some (if chan_closed (chan_out s DB) then crash s PanicCloseClosed
                    else log (with_close (with_chan_out s DB (close_chan (chan_out s DB))) t (KRet err)) HChanClosed)
  | KRet err =>
      match t, start_pc s with
      | O, SDefer res => Some (log (log (with_start (with_close s t KIdle) (SDone res)) (HCloseRet t err)) (HStartRet res))
      | O, _ => None
      | S _, _ => Some (log (with_close s t KIdle) (HCloseRet t err))
      end
  | KIdle => None
  end.

(** one deterministic action of Start *)
Definition go_start s : option state :=
  match start_pc s with
  | SEntry => Some (if ev_fired (closed s) then log (with_start s (SDone (Some ErrSessionClosed))) (HStartRet (Some ErrSessionClosed))
                    else with_start s SRecv)
  | SRecv =>
      match conns s Client with
      | None => None
      | Some c =>
          match recv_on RecvStartupMessage c with
          | Blocked => None
          | Done x r =>
              let s' := with_conn s Client (NetConn r (is_open c)) in
              match x with
              | Ok (StartupMessage v ps) => Some (negotiate (log s' (HStartup (StartupMessage v ps))) v ps)
              | Ok _ => None
              | Err e => Some (leave s' (Some e))
              | Panic p => Some (crash s p)
              end
          end
      end
  | SGet w => match cached s with Some p => Some (got s w (get p (want_name w))) | None => None end
  | SWait => if all_exited s then Some (leave s (gerr s)) else None
  | _ => None
  end.

(** a write by Start: which connection, what, and what follows *)
Definition start_write s (n : nat) : option state :=
  match start_pc s with
  | SDeny rest =>
      match conns s Client with
      | Some (NetConn _ true) =>
          if write_ok n rest then
            let s := log s (HSent Client (firstn n rest)) in
            Some (with_start s match skipn n rest with [] => SRecv | rest' => SDeny rest' end)
          else None
      | _ => None
      end
  | SSend rest =>
      match conns s DB with
      | Some (NetConn _ true) =>
          if write_ok n rest then
            let s := log s (HSent DB (firstn n rest)) in
            match skipn n rest with
            | [] => (* :95-99 *)
                let s := with_in (with_in s Client IRecv) DB IRecv in
                let s := with_out (with_out s Client OTake) DB OTake in
                Some (with_start (with_proc s PSelect) SWait)
            | rest' => Some (with_start s (SSend rest'))
            end
          else None
      | _ => None
      end
  | _ => None
  end.

(** one atomic action of session.go:74-345 or of a peer *)
Definition step (s : state) (l : label) : option state :=
  match crashed s with Some _ => None | None =>
  match l with
  | LArrive d b =>
      match conns s d with
      | Some (NetConn (Reader cs None) o) => Some (log (with_conn s d (NetConn (Reader (cs ++ [b]) None) o)) (HArrive d b))
      | _ => None
      end
  | LHangup d e =>
      match conns s d with
      | Some (NetConn (Reader cs None) o) => Some (with_conn s d (NetConn (Reader cs (Some e)) o))
      | _ => None
      end
  | LReset d e =>
      match conns s d with
      | Some (NetConn _ o) => Some (with_conn s d (NetConn (Reader [] (Some e)) o))
      | None => None
      end
  | LCallStart => match start_pc s with SIdle => Some (log (with_start s SEntry) HStartCall) | _ => None end
  | LStart => go_start s
  | LStartWrite n => start_write s n
  | LStartWriteErr e =>
      match start_pc s with
      | SDeny _ | SSend _ => Some (leave s (Some e))
      | _ => None
      end
  | LConfig E r => (* session.go:328-342 *)
      match start_pc s, cached s with
      | SGet w, None =>
          let s' := log s (HConfig E r) in
          match r with
          | Ok cfg =>
              match parse_uri E (DatabaseURL cfg) with
              | Ok p => Some (got (with_cached s' p) w (get p (want_name w)))
              | Err e => Some (leave s' (Some e))
              | Panic q => Some (crash s q)
              end
          | Err e => Some (leave s' (Some e))
          | Panic q => None
          end
      | _, _ => None
      end
  | LDial r =>
      match start_pc s with
      | SDial m addr =>
          match r with
          | Some e => Some (leave s (Some e))
          | None => Some (log (with_start (with_conn s DB (NetConn (Reader [] None) true)) (SSend (SendMessage m))) HConnected)
          end
      | _ => None
      end
  | LCallClose t =>
      match t, close_pc s t with
      | S _, KIdle => Some (log (with_close s t K0) (HCloseCall t))
      | _, _ => None
      end
  | LClose t r => go_close s t r
  | LRecv d => (* session.go:233-237, 266-270 *)
      match in_pc s d, conns s d with
      | IRecv, Some c =>
          match recv_on RecvMessage c with
          | Blocked => None
          | Done x r =>
              let s' := with_conn s d (NetConn r (is_open c)) in
              match x with
              | Ok m => Some (log (with_in s' d (ISend m)) (HMsg d m))
              | Err e => Some (finish s' (GIn d) (Some e))
              | Panic p => Some (crash s p)
              end
          end
      | _, _ => None
      end
  | LIn d => (* :239, :272 *)
      match in_pc s d with
      | ISend m =>
          let c := chan_in s d in
          if chan_closed c then Some (crash s PanicSendClosed)
          else if Nat.ltb (length (queue c)) capacity
          then Some (with_in (with_chan_in s d (Chan (queue c ++ [m]) false)) d IRecv)
          else None
      | _ => None
      end
  | LSelect d => (* :300-315 *)
      match proc_pc s with
      | PSelect =>
          let c := chan_in s d in
          match queue c with
          | m :: q => Some (log (with_proc (with_chan_in s d (Chan q (chan_closed c))) (PSend d m)) (HLog d (Bytes (Frame m))))
          | [] => if chan_closed c then Some (finish s GProc None) else None
          end
      | _ => None
      end
  | LProc => (* :308, :317 *)
      match proc_pc s with
      | PSend d m =>
          let c := chan_out s (other d) in
          if chan_closed c then Some (crash s PanicSendClosed)
          else if Nat.ltb (length (queue c)) capacity
          then Some (with_proc (with_chan_out s (other d) (Chan (queue c ++ [m]) false)) PSelect)
          else None
      | _ => None
      end
  | LTake d => (* :247-252, :280-285 *)
      match out_pc s d with
      | OTake =>
          let c := chan_out s d in
          match queue c with
          | m :: q => Some (log (with_out (with_chan_out s d (Chan q (chan_closed c))) d (OWrite (SendMessage m))) (HTake d m))
          | [] => if chan_closed c then Some (finish s (GOut d) None) else None
          end
      | _ => None
      end
  | LWrite d n => (* :255, :288 *)
      match out_pc s d, conns s d with
      | OWrite rest, Some (NetConn _ true) =>
          if write_ok n rest then
            let s := log s (HSent d (firstn n rest)) in
            Some (with_out s d match skipn n rest with [] => OTake | rest' => OWrite rest' end)
          else None
      | _, _ => None
      end
  | LWriteErr d e => (* :257-259, :290-292 *)
      match out_pc s d with
      | OWrite _ => Some (finish s (GOut d) (Some e))
      | _ => None
      end
  end end.
