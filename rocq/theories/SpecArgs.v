(** Independent specification of command lines: a grammar that says which ones are accepted and what they say, and the
    directory part of a path. *)
From Verif Require Import GoBase.
From Verif Require Import Kingpin.   (* for the types [flag] and [element] only *)

(** the flags without a value *)
Inductive switch : bytes -> flag -> Prop :=
| sw_help : switch (str "help") FHelp | sw_help_long : switch (str "help-long") FHelpLong | sw_help_man : switch (str "help-man") FHelpMan
| sw_version : switch (str "version") FVersion | sw_verbose : switch (str "verbose") FVerbose.
(** a word that is neither a flag nor the name of a file of arguments *)
Definition plain (w : bytes) : Prop := forall r, w <> "-"%byte :: r /\ w <> "@"%byte :: r.
(** the two ways to name the configuration file's flag *)
Definition config_flag (w : bytes) : Prop := w = str "--config" \/ w = str "-c".

(** [command_line args l]: the words [args] give the flags [l], in this order *)
Inductive command_line : list bytes -> list element -> Prop :=
| cl_end : command_line [] []
| cl_dashes : command_line [str "--"] []
| cl_switch n f rest l : switch n f -> command_line rest l -> command_line ((str "--" ++ n) :: rest) (Switch f true :: l)
| cl_no_switch n f rest l : switch n f -> command_line rest l -> command_line ((str "--no-" ++ n) :: rest) (Switch f false :: l)
| cl_config_is p rest l : command_line rest l -> command_line ((str "--config=" ++ p) :: rest) (Path p :: l)
| cl_config w p rest l : config_flag w -> plain p -> command_line rest l -> command_line (w :: p :: rest) (Path p :: l)
| cl_config_any w p : config_flag w -> command_line [w; str "--"; p] [Path p]   (* any word, but no more flags *)
| cl_c p rest l : p <> [] -> command_line rest l -> command_line ((str "-c" ++ p) :: rest) (Path p :: l)
| cl_v rest l : command_line rest l -> command_line (str "-v" :: rest) (Switch FVerbose true :: l)
| cl_v_more r rest l : r <> [] -> command_line ((str "-" ++ r) :: rest) l ->     (* -vX is -v -X *)
    command_line ((str "-v" ++ r) :: rest) (Switch FVerbose true :: l).
(** no flag is given twice *)
Definition same_flag (x y : element) : Prop :=
  match x, y with Path _, Path _ => True | Switch f _, Switch g _ => f = g | _, _ => False end.
Definition once (l : list element) : Prop := ForallOrdPairs (fun x y => ~ same_flag x y) l.

(** the configuration file asked for *)
Definition asked_for (l : list element) (default p : bytes) : Prop := In (Path p) l \/ p = default /\ forall q, ~ In (Path q) l.
(** help or the version is wanted: the last word on --help and --version is yes *)
Definition wants_info (l : list element) : Prop :=
  exists a f b, l = a ++ Switch f true :: b /\ (f = FHelp \/ f = FVersion) /\ forall f' v, In (Switch f' v) b -> f' <> FHelp /\ f' <> FVersion.

(** a path in its shortest form: components that are names, separated by slashes *)
Definition component (c : bytes) : Prop := c <> [] /\ ~ In "/"%byte c /\ c <> str "." /\ c <> str "..".
Inductive tidy : bytes -> Prop :=
| tidy_one c : component c -> tidy c
| tidy_more c p : component c -> tidy p -> tidy (c ++ "/"%byte :: p).
(** the name of a directory: the root, or a tidy path from the root or from the current directory *)
Definition directory (d : bytes) : Prop := d = [] \/ tidy d \/ exists p, d = "/"%byte :: p /\ tidy p.
(** beside the program: the directory named by the word that started it, or the current one *)
Definition beside (argv0 p : bytes) : Prop :=
  (~ In "/"%byte argv0 /\ p = str "gevulot.toml") \/
  (exists d b, argv0 = d ++ "/"%byte :: b /\ ~ In "/"%byte b /\ directory d /\ p = d ++ str "/gevulot.toml").
(** a word that the model does not cover: it names a file of arguments, or one of kingpin's completion flags *)
Definition uncovered (w : bytes) : Prop := (exists r, w = "@"%byte :: r) \/ exists a b, w = a ++ str "completion-" ++ b.

(** Where a path leads, in a tree without symbolic links: the names of the directories on the way from the root, the
    innermost first; [cwd]: the current directory. *)
Definition go_to (at_ : list bytes) (c : bytes) : list bytes :=
  if bytes_eqb c [] || bytes_eqb c (str ".") then at_ else if bytes_eqb c (str "..") then tl at_ else c :: at_.
Inductive components : bytes -> list bytes -> Prop :=
| co_last c : ~ In "/"%byte c -> components c [c]
| co_more c p l : ~ In "/"%byte c -> components p l -> components (c ++ "/"%byte :: p) (c :: l).
Definition leads_to (cwd : list bytes) (p : bytes) (place : list bytes) : Prop :=
  exists l, components p l /\ place = fold_left go_to l (match p with c :: _ => if byte_eqb c "/" then [] else cwd | [] => cwd end).
(** the part of a path up to its last slash *)
Definition directory_part (p d : bytes) : Prop := ~ In "/"%byte p /\ d = [] \/ exists a b, p = a ++ "/"%byte :: b /\ ~ In "/"%byte b /\ d = a ++ str "/".
