(** Vocabulary for what is in the log. *)
From Verif Require Export Log SpecSystem.

(** The lines about a connection. *)
Definition about (c : nat) (ln : line) : bool :=
  match ln with
  | LnNewConnection c' | LnInitializing c' | LnClosed c' | LnSessionError c' _ | LnCompleted c' | LnClosing c' | LnDenySSL c' | LnForward c' _ _ | LnCloseSessionError c' _ => Nat.eqb c' c
  | _ => false
  end.
(** The lines about a session that report messages passed on. *)
Definition forward (ln : line) : bool := match ln with LnForward _ _ _ => true | _ => false end.
Definition forwards_from (c : nat) (d : Session.side) (w : list line) : list bytes :=
  flat_map (fun ln => match ln with LnForward c' d' b => if (Nat.eqb c' c && Session.side_eqb d d')%bool then [b] else [] | _ => [] end) w.
(** The addresses of "serving on", of "can't listen on", in order. *)
Definition servings (w : list line) : list bytes := flat_map (fun ln => match ln with LnServing a => [a] | _ => [] end) w.
Definition cant_listens (w : list line) : list bytes := flat_map (fun ln => match ln with LnCantListen a => [a] | _ => [] end) w.
(** Of the addresses of [cs], those for which net.Listen failed. *)
Fixpoint failed (rs : list bool) (cs : list config) : list bytes :=
  match rs, cs with
  | ok :: rs', c :: cs' => (if ok then [] else [Listen c]) ++ failed rs' cs'
  | _, _ => []
  end.
(** How often a line occurs. *)
Definition occurrences (p : line -> bool) (w : list line) : nat := length (filter p w).
Definition is_load_error (ln : line) : bool := match ln with LnLoadError => true | _ => false end.
(** How often the callback found the file unreadable or malformed. *)
Definition failed_reloads (h : list FileWatcher.event) : nat :=
  length (filter (fun e => match e with FileWatcher.WReload None => true | _ => false end) h).
(** The listeners of "ready to accept client connections", in order. *)
Definition readies (w : list line) : list nat := flat_map (fun ln => match ln with LnReady l => [l] | _ => [] end) w.
(** The lines of the program that its executions cannot contain. *)
Definition impossible (ln : line) : Prop :=
  match ln with
  | LnSessionError _ _ | LnCompleted _ | LnCloseSessionError _ _ => True   (* how a session ended *)
  | LnChangeError _ | LnServerClosing => True                              (* the server is being closed *)
  | LnWatchError (Some _) => True                                          (* why the watch ended *)
  | _ => False
  end.
(** The text of a line: session.go does not print the session, server.go:138, 155, 281 not the listener. *)
Definition printed (ln : line) : line :=
  match ln with
  | LnInitializing _ => LnInitializing 0 | LnClosed _ => LnClosed 0 | LnSessionError _ e => LnSessionError 0 e | LnCompleted _ => LnCompleted 0
  | LnClosing _ => LnClosing 0 | LnDenySSL _ => LnDenySSL 0 | LnForward _ d b => LnForward 0 d b
  | LnReady _ => LnReady 0 | LnChangeError _ => LnChangeError 0 | LnAcceptError _ e => LnAcceptError 0 e | LnOldListenerError _ e => LnOldListenerError 0 e
  | LnCloseSessionError _ e => LnCloseSessionError 0 e
  | ln => ln
  end.
(** What is written about [c] before it sends a message: the announcement, and a refusal of encryption for each request. *)
Definition opening (c k : nat) : list line := LnNewConnection c :: LnInitializing c :: repeat (LnDenySSL c) k.
(** What the lines say about how sessions ended, and about Close having failed. *)
Definition outcomes (w : list line) : list (option error) := flat_map (fun ln => match ln with LnSessionError _ e => [Some e] | LnCompleted _ => [None] | _ => [] end) w.
Definition close_errors_told (w : list line) : list error := flat_map (fun ln => match ln with LnCloseSessionError _ e => [e] | _ => [] end) w.
Definition is_closing (ln : line) : bool := match ln with LnClosing _ => true | _ => false end.
Definition is_closed (ln : line) : bool := match ln with LnClosed _ => true | _ => false end.
Definition is_server_closing (ln : line) : bool := match ln with LnServerClosing => true | _ => false end.
Definition is_temporary (ln : line) : bool := match ln with LnAcceptError _ None => true | _ => false end.
(** Accept returns an error said to be temporary. *)
Definition accept_temporary (l : Server.label) : bool := match l with Server.LAccept _ Server.ATemporary => true | _ => false end.
(** What the lines about the end of the watch of the file print, in order. *)
Definition watch_errors (w : list line) : list (option error) := flat_map (fun ln => match ln with LnWatchError r => [r] | _ => [] end) w.
