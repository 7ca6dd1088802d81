(** Vocabulary: what the goroutine that called cli.Run has done so far, in the model of the whole program. *)
From Verif Require Import Cli.
From Verif Require FileWatcher.
Import FileWatcher.

(** its actions, oldest first; [p]: the path of the configuration file *)
Definition action (p : bytes) (e : event) : list effect :=
  match e with WRead _ => [ReadConfig p] | WWatch => [WatchConfig p] | _ => [] end.
Definition calls (p : bytes) (h : list event) : list effect := flat_map (action p) (rev h).
(** prepareConfigChan has failed *)
Definition gave_up (w : FileWatcher.state) : Prop := FileWatcher.main w = M_Failed \/ exists e, FileWatcher.main w = M_Returned (Some e).
