(** Independent vocabulary for the command line: the last occurrence of a flag counts. *)
From Verif Require Export Cli.

Definition of_info (s : setting) : list bool := match s with SetHelp b | SetVersion b => [b] | _ => [] end.
Definition of_verbose (s : setting) : list bool := match s with SetVerbose b => [b] | _ => [] end.
Definition of_config (s : setting) : list bytes := match s with SetConfig p => [p] | _ => [] end.
(** help or version was asked for (and not taken back by a later --no-help / --no-version) *)
Definition asks_info (ss : list setting) : bool := last (flat_map of_info ss) false.
Definition verbose (ss : list setting) : bool := last (flat_map of_verbose ss) false.
Definition path_of (default : bytes) (ss : list setting) : bytes := last (flat_map of_config ss) default.

(** The environment never panics. *)
Definition calm (e : env) : Prop := (forall p, e_parsed e <> Panic p) /\ (forall b p, e_read e b <> Panic p).

(** The configuration with which the server is to be run, if any. *)
Definition to_serve (e : env) : option config :=
  match e_parsed e with
  | Ok ss =>
      if asks_info ss then None
      else match e_read e (path_of (e_default e) ss), e_watch e (path_of (e_default e) ss) with
           | Ok c, None => Some c
           | _, _ => None
           end
  | _ => None
  end.
Definition printed (fx : list effect) : list effect :=
  filter (fun f => match f with PrintParseError _ | PrintConfigError _ | PrintServerError _ => true | _ => false end) fx.
Definition served (fx : list effect) : list config :=
  flat_map (fun f => match f with RunServer c => [c] | _ => [] end) fx.
