(** Vocabulary for the properties of the whole program. *)
From Verif Require Export System.
From Verif Require SpecWatcher SpecDistributor SpecServer SpecSession.

(** Of the configurations [l], in order, those whose listen address differs from the one before
    ([now]: the address before the first). *)
Fixpoint address_changes (now : option bytes) (l : list config) : list config :=
  match l with
  | [] => []
  | c :: l' =>
      match now with
      | Some a => if list_eq_dec Byte.byte_eq_dec a (Listen c) then address_changes now l' else c :: address_changes (Some (Listen c)) l'
      | None => c :: address_changes (Some (Listen c)) l'
      end
  end.

(** The results of net.Listen, in order. *)
Fixpoint attempts (ls : list label) : list bool :=
  match ls with
  | [] => []
  | YServer (Server.LListen _ ok) :: ls' => ok :: attempts ls'
  | _ :: ls' => attempts ls'
  end.
(** Of the addresses of [cs], those for which net.Listen succeeded. *)
Fixpoint succeeded (rs : list bool) (cs : list config) : list bytes :=
  match rs, cs with
  | ok :: rs', c :: cs' => (if ok then [Listen c] else []) ++ succeeded rs' cs'
  | _, _ => []
  end.

(** The configuration file has contained [c], given what it contained at first. *)
Definition file_had (f : option config) (h : list FileWatcher.event) (c : config) : Prop :=
  f = Some c \/ In (FileWatcher.WChange (Some c)) h.
(** url.Parse does not panic and ranging over a map visits every key once. *)
Definition sane (l : label) : Prop := match l with YGot _ E => SpecSession.sane_env E | _ => True end.

(** The program's own actions that bring a configuration from the file into effect: reading it, handing it
    on, installing it, listening. Not among them: changes of the file, errors of fsnotify, what the
    connections and sessions do, and calls of Get. *)
Definition pipeline (l : label) : Prop :=
  match l with
  | YWatcher (FileWatcher.LMain | FileWatcher.LStarter _ | FileWatcher.LHandler | FileWatcher.LEvent) => True
  | YServer (Server.LGo 0 | Server.LSpawn 0 _ | Server.LListen 0 _) => True
  | YDist _ | YRun | YSubscribe | YSubscribed | YSource _ | YUpdate | YGot _ _ => True
  | _ => False
  end.
(** None of them is left to do. *)
Definition quiet (s : state) : Prop := forall l, pipeline l -> step s l = None.
(** Actions other than a change of the file and an error of fsnotify. *)
Definition undisturbed (l : label) : Prop := match l with YWatcher (FileWatcher.LFile _ _ | FileWatcher.LError _) => False | _ => True end.
