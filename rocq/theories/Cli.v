(** Model of pkg/cli/cli.go (Run and parseArgs, the sequential part), pkg/cli/run.go and
    main.go.  kingpin, toml, fsnotify and the server are inputs: the model is a function
    of every result they may give.  [configureLogger] and console output are recorded as effects;
    the texts kingpin itself prints for --help/--version are not modelled. *)
From Verif Require Export Config.

(** One flag occurrence on the command line, as kingpin stores it (boolean flags may be negated:
    [--no-verbose]). *)
Inductive setting :=
| SetHelp (b : bool)
| SetVersion (b : bool)
| SetVerbose (b : bool)
| SetConfig (path : bytes).

(** cli.go:37-49 *)
Record cliArgs := CliArgs { isHelp : bool; isVersion : bool; isVerbose : bool; configPath : bytes }.

(** cli.go:66-80: which variable each flag is bound to. --version is bound to isHelp. *)
Definition apply_setting (a : cliArgs) (s : setting) : cliArgs :=
  match s with
  | SetHelp b => CliArgs b (isVersion a) (isVerbose a) (configPath a)
  | SetVersion b => CliArgs b (isVersion a) (isVerbose a) (configPath a)
  | SetVerbose b => CliArgs (isHelp a) (isVersion a) b (configPath a)
  | SetConfig p => CliArgs (isHelp a) (isVersion a) (isVerbose a) p
  end.

(** cli.go:52-89. [parsed]: kingpin's verdict on the arguments; [default]: cli.go:70, the path next
    to the executable. *)
Definition parseArgs (default : bytes) (parsed : res (list setting)) : res cliArgs :=
  match parsed with
  | Ok ss => Ok (fold_left apply_setting ss (CliArgs false false false default))
  | Err e => Err e
  | Panic p => Panic p
  end.

(** What the outside world sees. *)
Inductive effect :=
| PrintParseError (e : error)          (* cli.go:126 *)
| PrintConfigError (e : error)         (* cli.go:142 *)
| PrintServerError (e : error)         (* cli.go:150 *)
| ConfigureLogger (verbose : bool)     (* cli.go:91-99 *)
| ReadConfig (path : bytes)            (* cli.go:102 *)
| WatchConfig (path : bytes)           (* cli.go:111 *)
| RunServer (initial : config).        (* cli.go:147, with the channel holding [initial] *)

(** the external results: os.Args[0] (cli.go:70), kingpin (:82), readServerConfig (:102), watchServerConfig (:111), runServer (:147) *)
Record env := Env {
  e_default : bytes;
  e_parsed : res (list setting);
  e_read : bytes -> res config;            (* readServerConfig *)
  e_watch : bytes -> option error;         (* watchServerConfig; nil = None *)
  e_server : config -> option error        (* runServer *)
}.

(** cli.go:101-118: effects and, on success, the configuration in the channel *)
Definition prepareConfigChan (e : env) (path : bytes) : list effect * res config :=
  match e_read e path with
  | Err x => ([ReadConfig path], Err x)
  | Panic p => ([ReadConfig path], Panic p)
  | Ok c => ([ReadConfig path; WatchConfig path],
             match e_watch e path with Some x => Err x | None => Ok c end)
  end.

(** cli.go:121-155: effects, oldest first, and the exit code ([None]: a panic instead) *)
Definition Run (e : env) : list effect * option Z :=
  match parseArgs (e_default e) (e_parsed e) with
  | Panic _ => ([], None)
  | Err x => ([PrintParseError x], Some 1)
  | Ok flags =>
      if isHelp flags || isVersion flags then ([], Some 0)
      else
        let (fx, r) := prepareConfigChan e (configPath flags) in
        let fx0 := ConfigureLogger (isVerbose flags) :: fx in
        match r with
        | Panic _ => (fx0, None)
        | Err x => (fx0 ++ [PrintConfigError x], Some 1)
        | Ok c =>
            match e_server e c with
            | Some x => (fx0 ++ [RunServer c; PrintServerError x], Some 1)
            | None => (fx0 ++ [RunServer c], Some 0)
            end
        end
  end.
