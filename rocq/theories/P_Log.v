(** Properties C106-C108: what the program writes to its log. *)
From Verif Require Import SpecLog LogProofs LogAlone LogServer LogWatch SystemRuns.
From Verif Require SessionRuns Messages SpecWatchLog WatcherLog WatcherProofs.

Ltac computed := vm_compute; reflexivity.

(** * C106 The lines about a client *)

(** After Start has returned the log says about a connection that it was made, that a session was initialized,
    that encryption was refused as often as asked for, that the session was closing and that it was closed - the
    same whatever Start returned. *)
Theorem C106_finished : forall f ls s c, run step (Run f) ls = Some s -> SpecSession.start_results (Session.hist (sess s c)) <> [] ->
  filter (about c) (written (Run f) ls) = opening c (SpecSession.ssl_count (SpecSession.startups (Session.hist (sess s c)))) ++ [LnClosing c; LnClosed c].
Proof. exact finished. Qed.
Print Assumptions C106_finished.
(** Until then it says a part of this, or, once the database is connected, which messages were passed on. *)
Theorem C106_unfinished : forall f ls s c, run step (Run f) ls = Some s -> SpecSession.start_results (Session.hist (sess s c)) = [] ->
  let w := filter (about c) (written (Run f) ls) in let k := SpecSession.ssl_count (SpecSession.startups (Session.hist (sess s c))) in
  w = [] \/ w = [LnNewConnection c] \/ w = opening c k \/ w = opening c k ++ [LnClosing c] \/
  SpecSession.connected (Session.hist (sess s c)) = true /\ exists fw, w = opening c k ++ fw /\ Forall (fun ln => forward ln = true) fw.
Proof. exact unfinished. Qed.
Print Assumptions C106_unfinished.
(** The messages logged are, whole and in order, the messages handed to the other side and possibly some of
    those received that will be handed over next. *)
Theorem C106_messages : forall f ls s c d, run step (Run f) ls = Some s -> exists ahead behind,
  forwards_from c d (written (Run f) ls) = map Conn.SendMessage (SpecSession.taken (Session.other d) (Session.hist (sess s c)) ++ ahead) /\
  SpecSession.msgs d (Session.hist (sess s c)) = SpecSession.taken (Session.other d) (Session.hist (sess s c)) ++ ahead ++ behind.
Proof. exact forwarded_run. Qed.
Print Assumptions C106_messages.

(** a session that ends before it relays: [pre] is what makes Start return *)
Definition ends_by (v c : nat) (pre : list label) : list label :=
  pre ++ [YEnd v; YFire v] ++ repeat (YSession c (Session.LClose 0 None)) 7 ++ [YClosed v] ++ repeat (YServer (Server.LGo v)) 4.
Definition hung_up (c : nat) : list label := [YSession c (Session.LHangup Session.Client EOF); YSession c Session.LStart].
Definition unreachable (v c : nat) : list label :=
  [YSession c (Session.LArrive Session.Client SessionRuns.ex_startup); YSession c Session.LStart] ++ asking v ++
  [YSession c Session.LStart; YSession c Session.LStart; YSession c (Session.LDial (Some (ErrExternal 111)))].
Definition run_gone : list label := listening_on_A ++ accepting 2 3 ++ ends_by 3 0 (hung_up 0).
Definition run_down : list label := listening_on_A ++ accepting 2 3 ++ ends_by 3 0 (unreachable 3 0).
(** Expected of a log: it tells why a client was not served.  It does not: a database that cannot be reached
    and a client that changed its mind leave the same log. *)
Theorem C106_reason_logged_refuted : exists s1 s2,
  run step (Run (Some cfgA)) run_gone = Some s1 /\ run step (Run (Some cfgA)) run_down = Some s2 /\
  SpecSession.start_results (Session.hist (sess s1 0)) = [Some EOF] /\
  SpecSession.start_results (Session.hist (sess s2 0)) = [Some (ErrExternal 111)] /\
  written (Run (Some cfgA)) run_gone = written (Run (Some cfgA)) run_down.
Proof. exists (final run_gone), (final run_down). split; [apply final_run; computed|]. split; [apply final_run; computed|]. split; [computed|]. split; computed. Qed.
Print Assumptions C106_reason_logged_refuted.
(** Expected of a log that contains the messages: it tells whose they are.  It does not. *)
Theorem C106_sender_logged_refuted : exists s1 s2,
  run step (Run (Some cfgA)) (two_sessions ++ passing 0 Session.Client SessionRuns.ex_query) = Some s1 /\
  run step (Run (Some cfgA)) (two_sessions ++ passing 1 Session.Client SessionRuns.ex_query) = Some s2 /\
  SpecSession.msgs Session.Client (Session.hist (sess s1 0)) = [Messages.Query (str "SELECT 1")] /\ SpecSession.msgs Session.Client (Session.hist (sess s1 1)) = [] /\
  SpecSession.msgs Session.Client (Session.hist (sess s2 0)) = [] /\ SpecSession.msgs Session.Client (Session.hist (sess s2 1)) = [Messages.Query (str "SELECT 1")] /\
  map printed (written (Run (Some cfgA)) (two_sessions ++ passing 0 Session.Client SessionRuns.ex_query)) =
  map printed (written (Run (Some cfgA)) (two_sessions ++ passing 1 Session.Client SessionRuns.ex_query)).
Proof.
  exists (final (two_sessions ++ passing 0 Session.Client SessionRuns.ex_query)), (final (two_sessions ++ passing 1 Session.Client SessionRuns.ex_query)).
  split; [apply final_run; computed|]. split; [apply final_run; computed|]. do 4 (split; [computed|]). computed.
Qed.
Print Assumptions C106_sender_logged_refuted.

(** a client asks for encryption, is served, sends a query, is answered; the next one hangs up *)
Definition run_logged : list label :=
  listening_on_A ++ accepting 2 3 ++
  [YSession 0 (Session.LArrive Session.Client SessionRuns.ex_ssl); YSession 0 Session.LStart; YSession 0 (Session.LStartWrite 1)] ++
  negotiated 3 0 ++ passing 0 Session.Client SessionRuns.ex_query ++ passing 0 Session.DB SessionRuns.ex_ready ++ accepting 2 4 ++ ends_by 4 1 (hung_up 1).
Example C106_instance : run step (Run (Some cfgA)) run_logged = Some (final run_logged) /\
  written (Run (Some cfgA)) run_logged =
    [LnServing (str ":5432"); LnReady 0; LnNewConnection 0; LnInitializing 0; LnDenySSL 0;
     LnForward 0 Session.Client SessionRuns.ex_query; LnForward 0 Session.DB SessionRuns.ex_ready;
     LnNewConnection 1; LnInitializing 1; LnClosing 1; LnClosed 1] /\
  SpecSession.start_results (Session.hist (sess (final run_logged) 1)) = [Some EOF].
Proof. split; [apply final_run; computed|]. split; computed. Qed.

(** A session on its own, which anyone may close at any time (in the program nobody does, C83): when Start has returned [r], the log tells [r] if the session relayed and nothing
    otherwise; it says "closed" when Start returns, "closing" once, from the first Close call, and the errors of all Close calls but the deferred one. *)
Theorem C106_session_alone : forall c ls x, run Session.step Session.NewSession ls = Some x -> let w := along Session.step (session_lines c) Session.NewSession ls in
  let h := Session.hist x in
  (forall r, SpecSession.start_results h = [r] -> outcomes w = match SpecSession.exits h with [] => [] | _ => [r] end) /\
  occurrences is_closed w = length (SpecSession.start_results h) /\
  (occurrences is_closing w <= length (SpecSession.fires h) <= 1)%nat /\ (SpecSession.close_results h <> [] -> occurrences is_closing w = 1%nat) /\
  close_errors_told w = map snd (filter (fun te => negb (Nat.eqb (fst te) 0)) (SpecSession.close_errors h)).
Proof. exact alone_run. Qed.
Print Assumptions C106_session_alone.
(** The database resets the connection, then another goroutine closes the session, its second close failing; a session closed before it is started. *)
Definition alone_reset : list Session.label :=
  SessionRuns.served ++ [Session.LReset Session.DB (ErrExternal 104); Session.LRecv Session.DB; Session.LCallClose 1] ++
  [Session.LClose 1 None; Session.LClose 1 None; Session.LClose 1 None; Session.LClose 1 (Some (ErrExternal 9))] ++ repeat (Session.LClose 1 None) 5 ++
  [Session.LRecv Session.Client; Session.LTake Session.DB; Session.LTake Session.Client; Session.LSelect Session.DB; Session.LStart; Session.LClose 0 None; Session.LClose 0 None].
Example C106_instance_alone :
  along Session.step (session_lines 7) Session.NewSession alone_reset = [LnInitializing 7; LnClosing 7; LnCloseSessionError 7 (ErrExternal 9); LnSessionError 7 (ErrExternal 104); LnClosed 7] /\
  option_map (fun x => SpecSession.start_results (Session.hist x)) (run Session.step Session.NewSession alone_reset) = Some [Some (ErrExternal 104)] /\
  along Session.step (session_lines 7) Session.NewSession (SessionRuns.close_by 1 ++ [Session.LCallStart; Session.LStart]) = [LnClosing 7; LnInitializing 7; LnClosed 7].
Proof. split; [computed|]. split; computed. Qed.

(** * C107 The lines about listening *)

(** For each configuration the server receives the log says, in order, that it serves on its address, and for
    each failure of net.Listen, in order, that it cannot. *)
Theorem C107_listening : forall f ls s, run step (Run f) ls = Some s ->
  let got := SpecDistributor.received 0 (Distributor.hist (dist s)) in
  servings (written (Run f) ls) = map Listen got /\
  exists tried pending, got = tried ++ pending /\ (length pending <= 1)%nat /\ length tried = length (attempts ls) /\
    cant_listens (written (Run f) ls) = failed (attempts ls) tried.
Proof.
  intros f ls s H. cbv zeta. destruct (posted_run _ _ _ H) as (tried & A & B & C & D). split; [exact C|]. exists tried, (SystemTrace.waiting (Server.pcs (srv s) 0%nat)).
  split; [exact A|]. split; [|auto]. destruct (Server.pcs (srv s) 0%nat); cbn; auto.
Qed.
Print Assumptions C107_listening.
(** That it is ready to accept is said at most once about a listener, and only about one in use. *)
Theorem C107_ready : forall f ls s, run step (Run f) ls = Some s ->
  NoDup (readies (written (Run f) ls)) /\ (forall l, In l (readies (written (Run f) ls)) -> In l (SpecServer.installed (Server.hist (srv s)))).
Proof. intros f ls s H. destruct (ready_run _ _ _ H) as [A B _ _]. auto. Qed.
Print Assumptions C107_ready.
(** Expected of "serving on": the server serves there.  It is written before net.Listen is called. *)
Definition run_taken : list label := preparing ++ subscribing ++ distributing ++ listening 2 false.
Theorem C107_serving_serves_refuted : exists s, run step (Run (Some cfgA)) run_taken = Some s /\
  written (Run (Some cfgA)) run_taken = [LnServing (str ":5432"); LnCantListen (str ":5432")] /\
  SpecServer.listened (Server.hist (srv s)) = [] /\ SpecServer.installed (Server.hist (srv s)) = [].
Proof. exists (final run_taken). split; [apply final_run; computed|]. split; [computed|]. split; computed. Qed.
Print Assumptions C107_serving_serves_refuted.
(** the first address is taken; the file is changed; the second is not *)
Definition run_second : list label := run_taken ++ reloading cfgB ++ distributing ++ listening 2 true.
Example C107_instance : run step (Run (Some cfgA)) run_second = Some (final run_second) /\
  written (Run (Some cfgA)) run_second = [LnServing (str ":5432"); LnCantListen (str ":5432"); LnServing (str ":6543"); LnReady 0] /\
  SpecDistributor.received 0 (Distributor.hist (dist (final run_second))) = [cfgA; cfgB] /\ attempts run_second = [false; true].
Proof. split; [apply final_run; computed|]. split; [computed|]. split; computed. Qed.

(** A server on its own, which anyone may start, close and make serve a listener: a call of Serve that returns an error other than that of a closed listener has logged it, or logged that
    the listener could not be changed because the server was closed, and only such errors are logged; the error of closing a listener is logged unless Close closed it; "closing" is logged once, by the
    first Close call, before any returns; every temporary error of Accept is logged. *)
Theorem C107_server_alone : forall ls s, run Server.step Server.NewServer ls = Some s ->
  let w := along Server.step (fun v l _ => server_lines v l) Server.NewServer ls in let h := Server.hist s in
  (forall t l e, In (Server.HRet t (Server.CServe l) (Some e)) h -> e <> ErrConnClosed -> In (LnAcceptError l (Some e)) w \/ e = ErrServerClosed /\ In (LnChangeError l) w) /\
  (forall l e, In (LnAcceptError l (Some e)) w \/ e = ErrServerClosed /\ In (LnChangeError l) w ->
     exists t, Server.pcs s t = Server.SRet l (Some e) \/ In (Server.HRet t (Server.CServe l) (Some e)) h) /\
  (forall t l e, In (Server.HListenerClosed t l (Some e)) h -> In (LnOldListenerError l e) w \/ In t (SpecServer.shutdowns h)) /\
  (forall l e, In (LnOldListenerError l e) w -> exists t, In (Server.HListenerClosed t l (Some e)) h) /\
  (occurrences is_server_closing w <= length (SpecServer.shutdowns h) <= 1)%nat /\ (forall t r, In (Server.HRet t Server.CClose r) h -> occurrences is_server_closing w = 1%nat) /\
  occurrences is_temporary w = length (filter accept_temporary ls).
Proof. exact server_told. Qed.
Print Assumptions C107_server_alone.
(** Serve is called with a listener; Accept fails twice, the second time for good; another listener replaces it, whose closing fails; the server is closed; Serve is called once more. *)
Definition alone_server : list Server.label :=
  [Server.LServe 1] ++ repeat (Server.LGo 1) 5 ++ [Server.LAccept 1 Server.ATemporary; Server.LAccept 1 (Server.AError (ErrExternal 24)); Server.LGo 1] ++
  [Server.LServe 2; Server.LGo 2; Server.LGo 2; Server.LCloseListener 2 (Some (ErrExternal 9)); Server.LGo 2; Server.LGo 2] ++
  [Server.LClose 3; Server.LGo 3; Server.LGo 3; Server.LServe 4; Server.LGo 4; Server.LGo 4].
Example C107_instance_alone :
  along Server.step (fun v l _ => server_lines v l) Server.NewServer alone_server
    = [LnReady 0; LnAcceptError 0 None; LnAcceptError 0 (Some (ErrExternal 24)); LnOldListenerError 0 (ErrExternal 9); LnReady 1; LnServerClosing; LnChangeError 2] /\
  option_map (fun s => (SpecServer.shutdowns (Server.hist s), hd_error (Server.hist s))) (run Server.step Server.NewServer alone_server)
    = Some ([3%nat], Some (Server.HRet 4 (Server.CServe 2) (Some ErrServerClosed))).
Proof. split; computed. Qed.

(** * C108 The errors that are logged *)

(** No line says how a session ended, why the watch of the file ended, or that the server was being closed. *)
Theorem C108_never_logged : forall f ls s ln, run step (Run f) ls = Some s -> In ln (written (Run f) ls) -> ~ impossible ln.
Proof. exact possible_run. Qed.
Print Assumptions C108_never_logged.
(** A line says that the file could not be loaded exactly as often as a reload failed. *)
Theorem C108_load_errors : forall f ls s, run step (Run f) ls = Some s ->
  occurrences is_load_error (written (Run f) ls) = failed_reloads (FileWatcher.hist (watcher s)).
Proof. exact loads_run. Qed.
Print Assumptions C108_load_errors.
(** Once the watch has ended, one line says so if watcher.Add or, after it, fsnotify failed, and none otherwise; it does not print the error. *)
Theorem C108_watch_errors : forall f ls s, run step (Run f) ls = Some s -> In FileWatcher.WClosed (FileWatcher.hist (watcher s)) ->
  watch_errors (written (Run f) ls) = match SpecWatchLog.last_error (FileWatcher.hist (watcher s)) with Some _ => [None] | None => [] end.
Proof.
  intros f ls s H C. rewrite (watch_run f ls s H). apply WatcherLog.log_line; [|exact C]. apply WatcherProofs.reachable_from_cli.
  apply (pt_watcher _ (reachable_parts s (ex_intro _ (Run f) (ex_intro _ ls (conj (ex_intro _ f eq_refl) H))))).
Qed.
Print Assumptions C108_watch_errors.
(** the file becomes unreadable, then fsnotify fails: one useful line, and one that says nothing *)
Definition run_errors : list label :=
  listening_on_A ++ map YWatcher [FileWatcher.LFile None [2]; FileWatcher.LEvent; FileWatcher.LHandler; FileWatcher.LError (ErrExternal 5); FileWatcher.LStarter None; FileWatcher.LStarter None].
Example C108_instance : run step (Run (Some cfgA)) run_errors = Some (final run_errors) /\
  written (Run (Some cfgA)) run_errors = [LnServing (str ":5432"); LnReady 0; LnLoadError; LnWatchError None] /\
  FileWatcher.werr (watcher (final run_errors)) = Some (ErrExternal 5).
Proof. split; [apply final_run; computed|]. split; computed. Qed.
(** ... and the watch has ended *)
Example C108_instance_ended : let ls := run_errors ++ [YWatcher (FileWatcher.LStarter None)] in
  run step (Run (Some cfgA)) ls = Some (final ls) /\ hd_error (FileWatcher.hist (watcher (final ls))) = Some FileWatcher.WClosed /\
  SpecWatchLog.last_error (FileWatcher.hist (watcher (final ls))) = Some (ErrExternal 5) /\ watch_errors (written (Run (Some cfgA)) ls) = [None].
Proof. cbv zeta. split; [apply final_run; computed|]. split; [computed|]. split; computed. Qed.
