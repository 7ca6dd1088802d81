(** Vocabulary for the session properties: everything is read off the history of an execution
    (newest event first) and, where a property is about a state, off its observable parts. *)
From Verif Require Export Session SpecFrames SpecProtocol SpecDsn.

Definition prefix_of (a b : bytes) : Prop := exists c, b = a ++ c.

(** Bytes that arrived from / were handed to a peer, in order. *)
Fixpoint arrived (d : side) (h : list event) : bytes :=
  match h with
  | [] => []
  | HArrive d' b :: h' => arrived d h' ++ (if side_eqb d d' then b else [])
  | _ :: h' => arrived d h'
  end.
Fixpoint sent (d : side) (h : list event) : bytes :=
  match h with
  | [] => []
  | HSent d' b :: h' => sent d h' ++ (if side_eqb d d' then b else [])
  | _ :: h' => sent d h'
  end.
(** Startup packets, messages decoded, messages taken by the out pump, in order. *)
Fixpoint startups (h : list event) : list message :=
  match h with
  | [] => []
  | HStartup m :: h' => startups h' ++ [m]
  | _ :: h' => startups h'
  end.
Fixpoint msgs (d : side) (h : list event) : list message :=
  match h with
  | [] => []
  | HMsg d' m :: h' => msgs d h' ++ (if side_eqb d d' then [m] else [])
  | _ :: h' => msgs d h'
  end.
Fixpoint taken (d : side) (h : list event) : list message :=
  match h with
  | [] => []
  | HTake d' m :: h' => taken d h' ++ (if side_eqb d d' then [m] else [])
  | _ :: h' => taken d h'
  end.
(** What startProcessing logged about the messages coming from [d]. *)
Fixpoint logged (d : side) (h : list event) : list bytes :=
  match h with
  | [] => []
  | HLog d' b :: h' => logged d h' ++ (if side_eqb d d' then [b] else [])
  | _ :: h' => logged d h'
  end.
(** Answers of the configuration store, in order. *)
Fixpoint configs (h : list event) : list (dsn_env * res config) :=
  match h with
  | [] => []
  | HConfig E r :: h' => configs h' ++ [(E, r)]
  | _ :: h' => configs h'
  end.
(** Addresses dialled; was the database connection established? *)
Fixpoint dials (h : list event) : list bytes :=
  match h with
  | [] => []
  | HDial a :: h' => dials h' ++ [a]
  | _ :: h' => dials h'
  end.
Fixpoint connected (h : list event) : bool :=
  match h with
  | [] => false
  | HConnected :: _ => true
  | _ :: h' => connected h'
  end.
Fixpoint exits (h : list event) : list (goroutine * option error) :=
  match h with
  | [] => []
  | HExit g r :: h' => exits h' ++ [(g, r)]
  | _ :: h' => exits h'
  end.
Fixpoint fires (h : list event) : list tid :=
  match h with
  | [] => []
  | HFire t :: h' => fires h' ++ [t]
  | _ :: h' => fires h'
  end.
Fixpoint chan_closes (h : list event) : nat :=
  match h with
  | [] => O
  | HChanClosed :: h' => S (chan_closes h')
  | _ :: h' => chan_closes h'
  end.

(** SSLRequest: the code 1234/5679 in place of a protocol version. *)
Definition ssl_request (m : message) : Prop := exists ps, m = StartupMessage 80877103 ps.
Definition is_ssl (m : message) : bool := match m with StartupMessage v _ => Z.eqb v 80877103 | _ => false end.
Definition ssl_count (ms : list message) : nat := length (filter is_ssl ms).

(** The first non-nil result *)
Fixpoint first_error {A} (l : list (A * option error)) : option error :=
  match l with
  | [] => None
  | (_, Some e) :: _ => Some e
  | (_, None) :: l' => first_error l'
  end.

(** The configuration store answered once, with a configuration whose URL parses to [p]. *)
Definition configured (h : list event) (p : params) : Prop :=
  exists E cfg, configs h = [(E, Ok cfg)] /\ parse_uri E (DatabaseURL cfg) = Ok p.

(** Labels *)
Definition calls_close (l : label) : Prop := match l with LCallClose _ => True | _ => False end.
(** The actions of the five goroutines, the peers accepting what is written to them. *)
Definition internal (l : label) : bool :=
  match l with LRecv _ | LIn _ | LSelect _ | LProc | LTake _ | LWrite _ _ => true | _ => false end.
Definition quiescent (s : state) : Prop := forall l, internal l = true -> step s l = None.
(** All five goroutines run, nothing was closed. *)
Definition healthy (s : state) : Prop :=
  start_pc s = SWait /\ closed s = EvInit /\ crashed s = None /\ exits (hist s) = [].

(** [decodes hdr parse s ms rest]: the stream [s] starts with complete frames ([hdr] header bytes) on
    which [parse] yields the messages [ms]; [rest] follows. *)
Inductive decodes (hdr : nat) (parse : bytes -> res message) : bytes -> list message -> bytes -> Prop :=
| decodes_nil s : decodes hdr parse s [] s
| decodes_cons s f s' m ms rest : frame_at hdr s f s' -> parse f = Ok m -> decodes hdr parse s' ms rest ->
    decodes hdr parse s (m :: ms) rest.
Definition decodes_startup : bytes -> list message -> bytes -> Prop := decodes 4 (fun f => ParseStartupMessage (StartupFrame f)).
Definition decodes_standard : bytes -> list message -> bytes -> Prop := decodes 5 (fun f => dispatch (StandardFrame f)).

(** Results of Start and of the Close calls; connections closed. *)
Fixpoint start_results (h : list event) : list (option error) :=
  match h with
  | [] => []
  | HStartRet r :: h' => start_results h' ++ [r]
  | _ :: h' => start_results h'
  end.
Fixpoint close_results (h : list event) : list (tid * option error) :=
  match h with
  | [] => []
  | HCloseRet t r :: h' => close_results h' ++ [(t, r)]
  | _ :: h' => close_results h'
  end.
Fixpoint conn_closes (d : side) (h : list event) : list (option error) :=
  match h with
  | [] => []
  | HConnClosed d' r :: h' => conn_closes d h' ++ (if side_eqb d d' then [r] else [])
  | _ :: h' => conn_closes d h'
  end.

(** The wire image of a startup packet. *)
Definition startup_wire (v : Z) (ps : list startup_param) (l : bytes) : Prop :=
  exists body, startup_encodes v ps body /\ startup_packet body l.

(** The client's startup packet, the only one that is not an SSLRequest, was checked against the
    parameters [p]. *)
Definition accepted (h : list event) (p : params) (ps : list startup_param) : Prop :=
  (exists reqs, Forall ssl_request reqs /\ startups h = reqs ++ [StartupMessage 196608 ps]) /\
  configured h p /\ GetParameter ps (str "database") = get p (str "database").
(** host:port, or [host]:port for a host with a colon (an IPv6 address) in it *)
Definition address (p : params) : bytes :=
  let host := get p (str "host") in
  if in_dec Byte.byte_eq_dec ":"%byte host then "["%byte :: host ++ "]"%byte :: ":"%byte :: get p (str "port")
  else host ++ ":"%byte :: get p (str "port").
(** The first parameter called "database" has the value [v]; without any, [v] is empty. *)
Definition is_database (q : startup_param) : Prop := p_name q = str "database".
Definition asks_for (ps : list startup_param) (v : bytes) : Prop :=
  (exists pre post, ps = pre ++ Param (str "database") v :: post /\ Forall (fun q => ~ is_database q) pre) \/
  v = [] /\ Forall (fun q => ~ is_database q) ps.

(** The database connection was established after Close had begun. *)
Definition late_connect (h : list event) : Prop := exists h1 h2, h = h1 ++ HConnected :: h2 /\ fires h2 <> [].

(** The non-nil results of the Close calls. *)
Definition errors_of (l : list (tid * option error)) : list (tid * error) :=
  flat_map (fun x => match x with (t, Some e) => [(t, e)] | _ => [] end) l.
Definition close_errors (h : list event) : list (tid * error) := errors_of (close_results h).
(** the error of the connection closed last *)
Definition last_close (h : list event) : option error :=
  match conn_closes DB h with [] => last (conn_closes Client h) None | l => last l None end.

(** The bytes a peer is owed before any forwarded message: the SSL refusals, the startup packet. *)
Definition base (d : side) (h : list event) : bytes :=
  match d with
  | Client => repeat "N"%byte (ssl_count (startups h))
  | DB => if connected h then SendMessage (last (startups h) Terminate) else []
  end.

(** An environment of ParseDatabaseURI in which url.Parse does not panic and range visits each entry once. *)
Definition sane_env (E : dsn_env) : Prop := iteration_order (env_order E) /\ forall u q, env_parse E u <> Panic q.
Definition sane_label (l : label) : Prop := match l with LConfig E _ => sane_env E | _ => True end.

(** Nobody reads what is written to the client, and the session is not closed. *)
Definition client_reads_or_close (l : label) : Prop :=
  match l with LWrite Client _ | LWriteErr Client _ | LClose _ _ => True | _ => False end.

(** The actions of the five goroutines, including the ends of failing writes. *)
Definition ending (l : label) : bool := internal l || match l with LWriteErr _ _ => true | _ => false end.
