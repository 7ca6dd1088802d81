(** Concrete executions of the whole program. *)
From Verif Require Export SpecSystem.
From Verif Require Dsn SessionRuns.

Definition cfgA : config := SessionRuns.ex_cfg.
(** another address, another database *)
Definition urlB : bytes := str "postgres://bob@other.internal:5433/app".
Definition cfgB : config := Config (str ":6543") urlB.
(** the same address, another database *)
Definition cfgC : config := Config (Listen cfgA) urlB.
(** url.Parse for these *)
Definition envAB : Session.dsn_env :=
  Session.DsnEnv (fun u => if bytes_eqb u urlB
    then Ok (Dsn.URL (str "postgres") (Some (Dsn.Userinfo (str "bob") None)) (str "other.internal") (str "5433") (str "/app") [])
    else Ok (Dsn.URL (str "postgres") (Some (Dsn.Userinfo (str "bob") None)) (str "db.internal") (str "5433") (str "/app") [])) None (fun m => m).

(** cli.go:101-147: the file is read, watched, and Run called *)
Definition preparing : list label :=
  map YWatcher (FileWatcher.LMain :: FileWatcher.LMain :: FileWatcher.LMain :: repeat (FileWatcher.LStarter None) 5 ++ [FileWatcher.LMain]) ++ [YRun].
(** Start subscribes; the monitor is goroutine 1 *)
Definition subscribing : list label :=
  repeat (YServer (Server.LGo 0)) 3 ++ YSubscribe :: repeat (YDist (Distributor.LGo 0)) 3 ++ [YDist (Distributor.LFresh 0 1); YSubscribed].
(** a configuration with another address is installed and sent to the server *)
Definition distributing : list label :=
  [YSource 1; YDist (Distributor.LGo 1); YDist (Distributor.LGo 1); YDist (Distributor.LPick 1 0); YDist (Distributor.LGo 1); YDist (Distributor.LGo 1)].
(** one with the same address *)
Definition distributing_same : list label :=
  [YSource 1; YDist (Distributor.LGo 1); YDist (Distributor.LGo 1); YDist (Distributor.LPick 1 0); YDist (Distributor.LGo 1)].
(** the server listens, goroutine [w] accepting *)
Definition listening (w : nat) (ok : bool) : list label :=
  [YUpdate; YServer (Server.LListen 0 ok)] ++ (if ok then YServer (Server.LSpawn 0 w) :: repeat (YServer (Server.LGo w)) 5 else []).
(** goroutine [v] serves the next connection *)
Definition accepting (w v : nat) : list label :=
  [YServer (Server.LAccept w Server.AConn); YServer (Server.LSpawn w v)] ++ repeat (YServer (Server.LGo v)) 5 ++ [YServe v].
Definition asking (v : nat) : list label := YGet v :: repeat (YDist (Distributor.LGo v)) 3 ++ [YGot v envAB].
Definition negotiated (v c : nat) : list label :=
  [YSession c (Session.LArrive Session.Client SessionRuns.ex_startup); YSession c Session.LStart] ++ asking v ++
  [YSession c Session.LStart; YSession c Session.LStart; YSession c (Session.LDial None); YSession c (Session.LStartWrite (length SessionRuns.ex_startup))].
Definition passing (c : nat) (d : Session.side) (m : bytes) : list label :=
  map (YSession c) [Session.LArrive d m; Session.LRecv d; Session.LIn d; Session.LSelect d; Session.LProc; Session.LTake (Session.other d); Session.LWrite (Session.other d) (length m)].
(** the file changes, fsnotify says so, the callback reads it *)
Definition reloading (c : config) : list label :=
  map YWatcher [FileWatcher.LFile (Some c) [2]; FileWatcher.LEvent; FileWatcher.LHandler; FileWatcher.LHandler].

Definition listening_on_A : list label := preparing ++ subscribing ++ distributing ++ listening 2 true.
Definition one_session : list label := listening_on_A ++ accepting 2 3 ++ negotiated 3 0.
Definition whole : list label :=
  one_session ++ passing 0 Session.Client SessionRuns.ex_query ++ passing 0 Session.DB SessionRuns.ex_ready.
Definition two_sessions : list label := one_session ++ accepting 2 4 ++ negotiated 4 1.

Definition final (ls : list label) : state := match run step (Run (Some cfgA)) ls with Some s => s | None => Run None end.
Lemma final_run ls : match run step (Run (Some cfgA)) ls with Some _ => true | None => false end = true -> run step (Run (Some cfgA)) ls = Some (final ls).
Proof. unfold final. destruct (run step (Run (Some cfgA)) ls); [reflexivity|discriminate]. Qed.
