(** Vocabulary for the file-watcher and configuration-reload properties, read off the history
    (newest event first). *)
From Verif Require Export FileWatcher.

(** The callback an event mask asks for: bit 0 create, bit 1 write, bit 2 remove. *)
Definition set (c : callback) : bool := match c with CbNil => false | _ => true end.
Definition wanted (cb : callbacks) (op : Z) : list kind :=
  if Z.testbit op 0 then (if set (OnCreate cb) then [KCreate] else [])
  else if Z.testbit op 1 then (if set (OnWrite cb) then [KWrite] else [])
  else if Z.testbit op 2 then (if set (OnRemove cb) then [KRemove] else [])
  else [].
(** An event that makes the configuration be reloaded. *)
Definition reloads (op : Z) : bool := Z.testbit op 1 && negb (Z.testbit op 0).

(** Oldest first: *)
Fixpoint received_ops (h : list event) : list Z :=
  match h with [] => [] | WEvent op :: h' => received_ops h' ++ [op] | _ :: h' => received_ops h' end.
Fixpoint calls (h : list event) : list kind :=
  match h with [] => [] | WCall k :: h' => calls h' ++ [k] | _ :: h' => calls h' end.
Fixpoint good_reloads (h : list event) : list config :=
  match h with [] => [] | WReload (Some c) :: h' => good_reloads h' ++ [c] | _ :: h' => good_reloads h' end.
Fixpoint sent (h : list event) : list config :=
  match h with [] => [] | WSent c :: h' => sent h' ++ [c] | _ :: h' => sent h' end.
Fixpoint recvd (h : list event) : list config :=
  match h with [] => [] | WRecv c :: h' => recvd h' ++ [c] | _ :: h' => recvd h' end.
(** configurations loaded by prepareConfigChan (one at most) *)
Fixpoint loaded (h : list event) : list config :=
  match h with [] => [] | WRead (Some c) :: h' => loaded h' ++ [c] | _ :: h' => loaded h' end.
Fixpoint reload_count (h : list event) : nat :=
  match h with [] => 0%nat | WReload _ :: h' => S (reload_count h') | _ :: h' => reload_count h' end.
(** What the file contains, given what it contained at first. *)
Fixpoint contents (f0 : option config) (h : list event) : option config :=
  match h with [] => f0 | WChange f :: _ => f | _ :: h' => contents f0 h' end.
Definition unchanged (h : list event) : Prop := forall f, ~ In (WChange f) h.
(** A configuration read but not yet in the channel. *)
Definition pending (s : state) : list config :=
  match main s, handler s with
  | M_Send c, _ => [c]
  | _, H_Send c => [c]
  | _, _ => []
  end.

(** Labels that are actions of the program, not of its environment (no file change, no fsnotify
    error, no StopWatch call). *)
Definition own (l : label) : bool :=
  match l with LMain | LStarter None | LHandler | LEvent | LStopped | LRecv => true | _ => false end.
