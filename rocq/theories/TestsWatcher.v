(** The scenarios of pkg/cli/file_watcher_test.go and watch_server_config_test.go replayed as runs of
    the transition system.  Evidence of fidelity: nothing is proved from this file. *)
From Verif Require Import GoBase Lts Config FileWatcher.

(** Watch returns nil, then the file is written: OnWrite runs, and nothing else. *)
Definition start_watch : list label := LMain :: repeat (LStarter None) 5 ++ [LMain].
Example test_watcher_watch :
  option_map (fun s => rev (filter (fun e => match e with WWatchRet _ | WCall _ => true | _ => false end) (hist s)))
    (run step (watch (Callbacks CbOther CbOther CbOther) None) (start_watch ++ [LFile None [OpWrite]; LEvent; LHandler])) =
  Some [WWatchRet None; WCall KWrite].
Proof. vm_compute. reflexivity. Qed.

(** The reload callback: after the write the new configuration is in the channel. *)
Example test_watch_server_config :
  option_map (fun s => chan s)
    (run step (watch (Callbacks CbNil CbReload CbNil) (Some (Config (str "0.0.0.0:4242") [])))
      (start_watch ++ [LFile (Some (Config (str "0.0.0.0:31337") [])) [OpWrite]; LEvent; LHandler; LHandler])) =
  Some [Config (str "0.0.0.0:31337") []].
Proof. vm_compute. reflexivity. Qed.
Example test_watch_server_config_before :
  option_map (fun s => chan s)
    (run step (watch (Callbacks CbNil CbReload CbNil) (Some (Config (str "0.0.0.0:4242") []))) start_watch) = Some [].
Proof. vm_compute. reflexivity. Qed.
