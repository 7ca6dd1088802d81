(** Model of cli.parseArgs (pkg/cli/cli.go:52-89) as a function of the words of the command line, with the part of
    gopkg.in/alecthomas/kingpin.v2 v2.2.6 (/repo/go.mod:14; its source is not in /repo) that it needs: the lexer
    (ParseContext.Next), flagGroup.parse, parse and Application.setValues for the flags of cli.go:66-80 and kingpin's
    own --help-long and --help-man; and of path/filepath's Dir, Join and Clean on Unix for the default path (cli.go:70).
    Words that name a file of arguments (@file) and the --completion flags are [None]: the model says nothing about
    command lines on which kingpin comes to one.

    Simplifications: a word is taken apart at once, not token by token; the errors of kingpin are one error,
    [ErrExternal 3]; what kingpin prints is left out; os.Args is not empty. *)
From Verif Require Export GoBase Cli.
From Verif Require Import NetUrl.   (* strings: cut, has_prefix *)

(** the flags: cli.go:66, 69, 75, 79, 80 and two of kingpin's own (kingpin.New, cli.go:55) *)
Inductive flag := FHelp | FHelpLong | FHelpMan | FVersion | FVerbose | FConfig.
(** a flag with the value it is given: ParseElement (cli.go:82) *)
Inductive element := Switch (f : flag) (b : bool) | Path (p : bytes).
(** the flag an element is of (cli.go:82) *)
Definition flag_of (x : element) : flag := match x with Switch f _ => f | Path _ => FConfig end.

(** the long names (flagGroup.long; cli.go:55, 66, 69, 75) *)
Inductive named := Known (f : flag) | Completion | Unknown.
Definition long_name (n : bytes) : named :=
  if bytes_eqb n (str "help") then Known FHelp
  else if bytes_eqb n (str "help-long") then Known FHelpLong
  else if bytes_eqb n (str "help-man") then Known FHelpMan
  else if bytes_eqb n (str "version") then Known FVersion
  else if bytes_eqb n (str "verbose") then Known FVerbose
  else if bytes_eqb n (str "config") then Known FConfig
  else if bytes_eqb n (str "completion-bash") || bytes_eqb n (str "completion-script-bash") || bytes_eqb n (str "completion-script-zsh") then Completion
  else Unknown.

(** what a word comes to, after its short flags (ParseContext.Next and flagGroup.parse; cli.go:82) *)
Inductive ending :=
| Given (x : element)        (* a flag with its value *)
| Wanting                    (* --config or -c: the value is the next word *)
| Dashes                     (* --: only arguments follow *)
| Bad                        (* an error *)
| Beyond.                    (* not modelled *)
(** a word that begins with two dashes, without them (ParseContext.Next and flagGroup.parse; cli.go:82) *)
Definition long (s : bytes) : ending :=
  match s with
  | [] => Dashes
  | _ =>
      let (n, v) := match cut "=" s with Some (n, v) => (n, Some v) | None => (s, None) end in
      let (f, invert) := match long_name n with
                         | Unknown => if has_prefix (str "no-") n then (long_name (skipn 3 n), true) else (Unknown, false)
                         | f => (f, false)
                         end in
      match f, v with
      | Unknown, _ => Bad
      | Completion, _ => Beyond
      | Known FConfig, _ => if invert then Bad else match v with Some p => Given (Path p) | None => Wanting end
      | Known f, None => Given (Switch f (negb invert))
      | Known _, Some _ => Bad          (* the value is an argument nobody expects *)
      end
  end.
(** a word that begins with a dash, without it.  What is left after a short flag is put back with a dash in
    front of it, and so read again (ParseContext.Next; cli.go:82) *)
Fixpoint short (s : bytes) : list element * ending :=
  match s with
  | [] => ([], Bad)
  | c :: r =>
      if byte_eqb c "-" then ([], long r)
      else if byte_eqb c "v" then
        match r with [] => ([], Given (Switch FVerbose true)) | _ => let (l, e) := short r in (Switch FVerbose true :: l, e) end
      else if byte_eqb c "c" then ([], match r with [] => Wanting | _ => Given (Path r) end)
      else ([], Bad)
  end.
(** a word (ParseContext.Next; cli.go:82) *)
Definition word (w : bytes) : list element * ending :=
  match w with
  | [] => ([], Bad)
  | c :: r => if byte_eqb c "-" then short r else ([], if byte_eqb c "@" then Beyond else Bad)
  end.
(** may the word be the value of --config? (ParseContext.Next; cli.go:82) *)
Inductive argument := ArgIs (p : bytes) | ArgDashes | ArgNone | ArgBeyond.
Definition as_argument (w : bytes) : argument :=
  match w with
  | [] => ArgIs []
  | c :: r =>
      if byte_eqb c "-" then (if bytes_eqb r (str "-") then ArgDashes else ArgNone)
      else if byte_eqb c "@" then ArgBeyond else ArgIs w
  end.
(** parse (cli.go:82); None: not modelled *)
Fixpoint parse (acc : list element) (args : list bytes) : option (res (list element)) :=
  match args with
  | [] => Some (Ok acc)
  | w :: rest =>
      let (l, e) := word w in
      match e with
      | Given x => parse (acc ++ l ++ [x]) rest
      | Wanting =>
          match rest with
          | [] => Some (Err (ErrExternal 3))
          | w' :: rest' =>
              match as_argument w' with
              | ArgIs p => parse (acc ++ l ++ [Path p]) rest'
              | ArgDashes => match rest' with [p] => Some (Ok (acc ++ l ++ [Path p])) | _ => Some (Err (ErrExternal 3)) end
              | ArgNone => Some (Err (ErrExternal 3))
              | ArgBeyond => None
              end
          end
      | Dashes => match rest with [] => Some (Ok (acc ++ l)) | _ => Some (Err (ErrExternal 3)) end
      | Bad => Some (Err (ErrExternal 3))
      | Beyond => None
      end
  end.
(** a number for each flag, to compare them (Application.setValues; cli.go:82) *)
Definition flag_number (f : flag) : Z :=
  match f with FHelp => 0 | FHelpLong => 1 | FHelpMan => 2 | FVersion => 3 | FVerbose => 4 | FConfig => 5 end.
(** Application.setValues refuses a flag that is repeated (cli.go:82) *)
Fixpoint repeated (l : list element) : bool :=
  match l with
  | [] => false
  | x :: r => existsb (fun y => flag_number (flag_of x) =? flag_number (flag_of y)) r || repeated r
  end.
(** the variables of cli.go:66-80 an element sets; kingpin's own flags set none of them *)
Definition setting_of (x : element) : list setting :=
  match x with
  | Switch FHelp b => [SetHelp b]
  | Switch FVersion b => [SetVersion b]
  | Switch FVerbose b => [SetVerbose b]
  | Switch _ _ => []
  | Path p => [SetConfig p]
  end.
(** app.Parse(args), cli.go:82 *)
Definition Parse (args : list bytes) : option (res (list setting)) :=
  match parse [] args with
  | Some (Ok l) => Some (if repeated l then Err (ErrExternal 3) else Ok (flat_map setting_of l))
  | Some (Err e) => Some (Err e)
  | Some (Panic p) => Some (Panic p)
  | None => None
  end.

(** strings.Split(s, "/") (filepath.Clean, cli.go:70) *)
Fixpoint split (s : bytes) : list bytes :=
  match s with
  | [] => [[]]
  | c :: r => if byte_eqb c "/" then [] :: split r else match split r with a :: l => (c :: a) :: l | [] => [[c]] end
  end.
(** the loop of filepath.Clean; [out]: the components so far, newest first (cli.go:70) *)
Fixpoint clean_loop (rooted : bool) (out parts : list bytes) : list bytes :=
  match parts with
  | [] => rev out
  | p :: r =>
      if bytes_eqb p [] || bytes_eqb p (str ".") then clean_loop rooted out r
      else if bytes_eqb p (str "..") then
        match out with
        | [] => clean_loop rooted (if rooted then [] else [p]) r
        | o :: out' => if bytes_eqb o (str "..") then clean_loop rooted (p :: out) r else clean_loop rooted out' r
        end
      else clean_loop rooted (p :: out) r
  end.
(** strings.Join(l, "/") (filepath.Clean, cli.go:70) *)
Fixpoint join (l : list bytes) : bytes :=
  match l with [] => [] | [a] => a | a :: r => a ++ "/"%byte :: join r end.
(** filepath.Clean (cli.go:70) *)
Definition Clean (s : bytes) : bytes :=
  let rooted := has_prefix (str "/") s in
  match clean_loop rooted [] (split s) with
  | [] => if rooted then str "/" else str "."
  | l => (if rooted then str "/" else []) ++ join l
  end.
(** filepath.Dir (cli.go:70) *)
Definition Dir (s : bytes) : bytes := Clean (match cut_last "/" s with Some (d, _) => d ++ str "/" | None => [] end).
(** filepath.Join(filepath.Dir(os.Args[0]), "gevulot.toml"), cli.go:70 *)
Definition default_path (argv0 : bytes) : bytes := Clean (Dir argv0 ++ "/"%byte :: str "gevulot.toml").

(** cli.Run (cli.go:121-155) as a function of the command line and of what readServerConfig, watchServerConfig and
    runServer give; None: not modelled *)
Definition main (read : bytes -> res config) (watch : bytes -> option error) (server : config -> option error) (argv0 : bytes) (args : list bytes) : option (list effect * option Z) :=
  match Parse args with
  | Some parsed => Some (Run (Env (default_path argv0) parsed read watch server))
  | None => None
  end.
