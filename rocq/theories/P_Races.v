(** C99: data races. *)
From Verif Require Import SpecRace SystemFacts SystemSessions SystemRuns.
From Verif Require RaceServer RaceDistributor RaceSession RaceWatcher SessionRuns.

(** * C99 Data races *)

(** The lists of accesses leave nothing out: an action not listed as writing a variable does not change
    it, an action not listed as accessing it does the same whatever its value. *)
Theorem C99_server_accesses_complete :
  writes_declared Server.step RaceServer.touch RaceServer.same /\ reads_declared Server.step RaceServer.touch RaceServer.alike (fun _ => True).
Proof. split; [apply RaceServer.server_writes_declared|apply RaceServer.server_reads_declared]. Qed.
Print Assumptions C99_server_accesses_complete.
Theorem C99_distributor_accesses_complete :
  writes_declared Distributor.step RaceDistributor.touch RaceDistributor.same /\ reads_declared Distributor.step RaceDistributor.touch RaceDistributor.alike (fun _ => True).
Proof. split; [apply RaceDistributor.distributor_writes_declared|apply RaceDistributor.distributor_reads_declared]. Qed.
Print Assumptions C99_distributor_accesses_complete.
Theorem C99_session_accesses_complete :
  writes_declared Session.step RaceSession.touch RaceSession.same /\ reads_declared Session.step RaceSession.touch RaceSession.alike RaceSession.inside.
Proof. split; [apply RaceSession.session_writes_declared|apply RaceSession.session_reads_declared]. Qed.
Print Assumptions C99_session_accesses_complete.
Theorem C99_watcher_accesses_complete :
  writes_declared FileWatcher.step RaceWatcher.touch RaceWatcher.same /\ reads_declared FileWatcher.step RaceWatcher.touch RaceWatcher.alike (fun _ => True).
Proof. split; [apply RaceWatcher.watcher_writes_declared|apply RaceWatcher.watcher_reads_declared]. Qed.
Print Assumptions C99_watcher_accesses_complete.

(** Server and ConfigDistributor have no races, however many goroutines call them, whatever they call. *)
Theorem C99_server_race_free : forall s x t1 l1 t2 l2, reachable Server.step Server.init s ->
  ~ race Server.step RaceServer.touch s x t1 l1 t2 l2.
Proof. exact RaceServer.server_race_free. Qed.
Print Assumptions C99_server_race_free.
Theorem C99_distributor_race_free : forall s x t1 l1 t2 l2, reachable Distributor.step Distributor.init s ->
  ~ race Distributor.step RaceDistributor.touch s x t1 l1 t2 l2.
Proof. exact RaceDistributor.distributor_race_free. Qed.
Print Assumptions C99_distributor_race_free.

(** In a session the only race is the one for dbConn between Start (:218) and a Close by another
    goroutine (:132); it does happen. *)
Theorem C99_session_races : forall s x a1 l1 a2 l2, reachable Session.step Session.init s ->
  race Session.step RaceSession.touch s x a1 l1 a2 l2 ->
  RaceSession.session_race s x l1 l2 \/ RaceSession.session_race s x l2 l1.
Proof. exact RaceSession.session_races. Qed.
Print Assumptions C99_session_races.
Definition connecting : list Session.label :=
  SessionRuns.negotiating ++ [Session.LArrive Session.Client SessionRuns.ex_startup; Session.LStart; Session.LConfig SessionRuns.ex_env (Ok SessionRuns.ex_cfg); Session.LStart; Session.LStart;
   Session.LCallClose 1; Session.LClose 1 None; Session.LClose 1 None; Session.LClose 1 None].
Theorem C99_session_race_free_refuted : exists s, run Session.step Session.NewSession connecting = Some s /\ Session.crashed s = None /\
  race Session.step RaceSession.touch s RaceSession.VDbConn RaceSession.AStart (Session.LDial None) (RaceSession.AClose 1) (Session.LClose 1 None).
Proof.
  exists (SessionRuns.final connecting). split; [vm_compute; reflexivity|]. split; [vm_compute; reflexivity|]. split; [discriminate|].
  split; [vm_compute; discriminate|]. split; [vm_compute; discriminate|]. vm_compute. exact I.
Qed.
Print Assumptions C99_session_race_free_refuted.

(** In the file watcher, watcherError is written by the handler (:100) while the starter writes it
    (:113) or Watch returns it (:132), and StopWatch reads watchDone (:137) while it is being created
    (:62).  Nothing else races, and nothing at all once Watch has returned. *)
Theorem C99_watcher_races : forall s x a1 l1 a2 l2, reachable FileWatcher.step FileWatcher.init s ->
  race FileWatcher.step RaceWatcher.touch s x a1 l1 a2 l2 ->
  RaceWatcher.watcher_race s x l1 l2 \/ RaceWatcher.watcher_race s x l2 l1.
Proof. exact RaceWatcher.watcher_races. Qed.
Print Assumptions C99_watcher_races.
Theorem C99_watcher_race_free_after_watch : forall s r x a1 l1 a2 l2, reachable FileWatcher.step FileWatcher.init s ->
  FileWatcher.main s = FileWatcher.M_Returned r -> ~ race FileWatcher.step RaceWatcher.touch s x a1 l1 a2 l2.
Proof. exact RaceWatcher.watcher_no_race_later. Qed.
Print Assumptions C99_watcher_race_free_after_watch.
Definition adding : list FileWatcher.label := [FileWatcher.LMain; FileWatcher.LMain; FileWatcher.LMain; FileWatcher.LStarter None; FileWatcher.LStarter None; FileWatcher.LStarter None].
Definition added : list FileWatcher.label := adding ++ [FileWatcher.LStarter None; FileWatcher.LStarter None].
Definition making : list FileWatcher.label := [FileWatcher.LMain; FileWatcher.LMain; FileWatcher.LMain; FileWatcher.LStarter None].
Theorem C99_watcher_race_free_refuted :
  (exists s, run FileWatcher.step (FileWatcher.prepare (Some cfgA)) adding = Some s /\
     race FileWatcher.step RaceWatcher.touch s RaceWatcher.VError RaceWatcher.AHandler (FileWatcher.LError EOF) RaceWatcher.AStarter (FileWatcher.LStarter None)) /\
  (exists s, run FileWatcher.step (FileWatcher.prepare (Some cfgA)) added = Some s /\
     race FileWatcher.step RaceWatcher.touch s RaceWatcher.VError RaceWatcher.AHandler (FileWatcher.LError EOF) RaceWatcher.AMain FileWatcher.LMain) /\
  (exists s, run FileWatcher.step (FileWatcher.prepare (Some cfgA)) making = Some s /\
     race FileWatcher.step RaceWatcher.touch s RaceWatcher.VDone RaceWatcher.AStop FileWatcher.LStop RaceWatcher.AStarter (FileWatcher.LStarter None)).
Proof.
  repeat split; (eexists; split; [vm_compute; reflexivity|]; split; [discriminate|]; split; [vm_compute; discriminate|]; split; [vm_compute; discriminate|exact I]).
Qed.
Print Assumptions C99_watcher_race_free_refuted.
(** The writes that race do change the variable. *)
Example C99_instance_writes :
  (exists s s', run Session.step Session.NewSession connecting = Some s /\ Session.step s (Session.LDial None) = Some s' /\ ~ RaceSession.same RaceSession.VDbConn s s') /\
  (exists s s', run FileWatcher.step (FileWatcher.prepare (Some cfgA)) making = Some s /\ FileWatcher.step s (FileWatcher.LStarter None) = Some s' /\ ~ RaceWatcher.same RaceWatcher.VDone s s') /\
  (exists s s', run FileWatcher.step (FileWatcher.prepare (Some cfgA)) adding = Some s /\ FileWatcher.step s (FileWatcher.LError EOF) = Some s' /\ ~ RaceWatcher.same RaceWatcher.VError s s').
Proof.
  split; [|split]; (eexists _, _; split; [vm_compute; reflexivity|]; split; [vm_compute; reflexivity|]; vm_compute; discriminate).
Qed.

(** The whole program: once it serves there is no race anywhere; before, only watcherError's. (Nobody
    calls StopWatch.) *)
Theorem C99_program_races : forall s, reachable step init s ->
  (forall x t1 l1 t2 l2, ~ race Server.step RaceServer.touch (srv s) x t1 l1 t2 l2) /\
  (forall x t1 l1 t2 l2, ~ race Distributor.step RaceDistributor.touch (dist s) x t1 l1 t2 l2) /\
  (forall c x a1 l1 a2 l2, ~ race Session.step RaceSession.touch (sess s c) x a1 l1 a2 l2) /\
  (forall x a1 l1 a2 l2, l1 <> FileWatcher.LStop -> l2 <> FileWatcher.LStop ->
     race FileWatcher.step RaceWatcher.touch (watcher s) x a1 l1 a2 l2 -> x = RaceWatcher.VError /\ main s = RPrepare).
Proof.
  intros s R. destruct (reachable_parts _ R) as [A B C D]. split; [|split; [|split]].
  - intros. apply RaceServer.server_race_free. exact C.
  - intros. apply RaceDistributor.distributor_race_free. exact B.
  - intros c x a1 l1 a2 l2. apply RaceSession.alone_no_race; [apply D|]. destruct (session_alone_inv _ c R) as (_ & _ & L & _). exact L.
  - intros x a1 l1 a2 l2 N1 N2 H. pose proof (WatcherProofs.reachable_from_cli _ A) as W. split.
    + destruct (RaceWatcher.watcher_races _ _ _ _ _ _ W H) as [X|X]; destruct x; cbn in X; try reflexivity; destruct X as [X _]; contradiction.
    + destruct (reachable_calm _ R) as [_ _ M]. assert (main s = RPrepare \/ main s = RServe) as [E|E] by (destruct M as [[M _]|[M _]]; auto); [exact E|].
      exfalso. exact (RaceWatcher.watcher_no_race_later _ _ _ _ _ _ _ W (fw_main _ _ (reachable_fine _ R) E) H).
Qed.
Print Assumptions C99_program_races.
Theorem C99_serving_program_race_free : forall s, reachable step init s -> main s = RServe ->
  (forall x t1 l1 t2 l2, ~ race Server.step RaceServer.touch (srv s) x t1 l1 t2 l2) /\
  (forall x t1 l1 t2 l2, ~ race Distributor.step RaceDistributor.touch (dist s) x t1 l1 t2 l2) /\
  (forall c x a1 l1 a2 l2, ~ race Session.step RaceSession.touch (sess s c) x a1 l1 a2 l2) /\
  (forall x a1 l1 a2 l2, ~ race FileWatcher.step RaceWatcher.touch (watcher s) x a1 l1 a2 l2).
Proof.
  intros s R M. destruct (C99_program_races s R) as (A & B & C & _). split; [exact A|]. split; [exact B|]. split; [exact C|].
  intros. eapply RaceWatcher.watcher_no_race_later; [|exact (fw_main _ _ (reachable_fine _ R) M)].
  apply WatcherProofs.reachable_from_cli. destruct (reachable_parts _ R) as [W _ _ _]. exact W.
Qed.
Print Assumptions C99_serving_program_race_free.
(** the expected property, that the program has no data race, is false: Watch returns watcherError while
    the handler may be writing it *)
Theorem C99_program_race_free_refuted : exists s, run step (Run (Some cfgA)) (map YWatcher added) = Some s /\ panicked s = None /\
  race FileWatcher.step RaceWatcher.touch (watcher s) RaceWatcher.VError RaceWatcher.AHandler (FileWatcher.LError EOF) RaceWatcher.AMain FileWatcher.LMain /\
  (exists s', step s (YWatcher (FileWatcher.LError EOF)) = Some s') /\ (exists s', step s (YWatcher FileWatcher.LMain) = Some s').
Proof.
  eexists. split; [vm_compute; reflexivity|]. split; [vm_compute; reflexivity|]. split.
  - split; [discriminate|]. split; [vm_compute; discriminate|]. split; [vm_compute; discriminate|exact I].
  - split; eexists; vm_compute; reflexivity.
Qed.
Print Assumptions C99_program_race_free_refuted.

(** two Gets read lastConfig at the same time, which is no race, while a Subscribe waits for the mutex *)
Example C99_instance :
  option_map (fun s => (RaceDistributor.touch s (Distributor.LGo 2) 2 RaceDistributor.VLast, RaceDistributor.touch s (Distributor.LGo 3) 3 RaceDistributor.VLast,
      match Distributor.step s (Distributor.LGo 2), Distributor.step s (Distributor.LGo 3) with Some _, Some _ => true | _, _ => false end, Distributor.step s (Distributor.LGo 1)))
    (run Distributor.step Distributor.NewConfigDistributor [Distributor.LNewChan 0 1; Distributor.LCall 1 (Distributor.CSubscribe 0 []); Distributor.LCall 2 Distributor.CGet; Distributor.LCall 3 Distributor.CGet;
       Distributor.LGo 1; Distributor.LGo 2; Distributor.LGo 2; Distributor.LGo 3; Distributor.LGo 3])
  = Some (Some Rd, Some Rd, true, None).
Proof. vm_compute. reflexivity. Qed.
(** two connections are about to be registered: one goroutine accesses the table, the other waits *)
Example C99_server_instance :
  option_map (fun s => (RaceServer.touch s (Server.LGo 2) 2 RaceServer.VSessions, match Server.step s (Server.LGo 2) with Some _ => true | None => false end,
      Server.pcs s 3%nat, match Server.step s (Server.LGo 3) with Some _ => true | None => false end))
    (run Server.step Server.NewServer [Server.LServeConn 2; Server.LServeConn 3; Server.LGo 2; Server.LGo 2; Server.LGo 2; Server.LGo 3; Server.LGo 3])
  = Some (Some Wr, true, Server.C2 1, false).
Proof. vm_compute. reflexivity. Qed.
