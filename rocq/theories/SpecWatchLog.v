(** What file_watcher.go:123-125 writes to the log. *)
From Verif Require Export SpecWatcher.

(** the result of watcher.Add or the fsnotify error, whichever came last *)
Fixpoint last_error (h : list event) : option error :=
  match h with
  | [] => None
  | WAdd r :: _ => r
  | WError (Some e) :: _ => Some e
  | _ :: h' => last_error h'
  end.
(** oldest first *)
Fixpoint logged (h : list event) : list (option error) :=
  match h with [] => [] | WLogged r :: h' => logged h' ++ [r] | _ :: h' => logged h' end.
