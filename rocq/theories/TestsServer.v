(** The scenarios of pkg/server/server_test.go replayed as runs of the transition system.
    Evidence of fidelity: nothing is proved from this file. *)
From Verif Require Import GoBase Lts Config Server.

Definition addr1 : config := Config (str "0.0.0.0:4242") [].
Definition addr2 : config := Config (str "0.0.0.0:31337") [].
Definition returns (h : list event) : list (tid * option error) :=
  rev (flat_map (fun e => match e with HRet t _ r => [(t, r)] | _ => [] end) h).
Definition gos (t : tid) (n : nat) : list label := repeat (LGo t) n.

(** Start (goroutine 1) listens on the first address (listener 0, served by goroutine 2). *)
Definition start_first : list label :=
  [LStart 1] ++ gos 1 3 ++ [LSubscribe 1 None; LConfig addr1; LRecv 1; LListen 1 true; LSpawn 1 2] ++ gos 2 5.
Example test_server_start_first :
  option_map (fun s => (listener s, rev (filter (fun e => match e with HListen _ _ => true | _ => false end) (hist s))))
    (run step NewServer start_first) = Some (Some 0%nat, [HListen 0 (str "0.0.0.0:4242")]).
Proof. vm_compute. reflexivity. Qed.
(** The second configuration replaces the listener; then Start again, Close, Start again. *)
Definition start_second : list label :=
  start_first ++ [LConfig addr2; LRecv 1; LListen 1 true; LSpawn 1 3] ++ gos 3 2 ++ [LCloseListener 3 None] ++ gos 3 2.
Example test_server_start_second :
  option_map (fun s => (listener s, lis_open s 0%nat, rev (filter (fun e => match e with HListen _ _ => true | _ => false end) (hist s))))
    (run step NewServer start_second) =
  Some (Some 1%nat, false, [HListen 0 (str "0.0.0.0:4242"); HListen 1 (str "0.0.0.0:31337")]).
Proof. vm_compute. reflexivity. Qed.
Example test_server_start_close :
  option_map (fun s => returns (hist s))
    (run step NewServer (start_second ++ [LAccept 2 (AError EOF); LGo 2] ++ [LStart 4] ++ gos 4 3 ++
       [LClose 5] ++ gos 5 3 ++ [LCloseListener 5 None] ++ gos 5 2 ++ [LAccept 3 (AError EOF); LGo 3] ++ gos 5 3 ++
       [LQuit 1] ++ gos 1 2 ++ [LStart 6] ++ gos 6 2)) =
  Some [(2, Some ErrConnClosed); (4, Some ErrServerAlreadyStarted); (3, Some ErrConnClosed); (5, None);
        (1, Some ErrServerClosed); (6, Some ErrServerClosed)]%nat.
Proof. vm_compute. reflexivity. Qed.

(** Serve (goroutine 1, listener 0), one client (connection 0, goroutine 2), Close (3), Serve again (4). *)
Definition serve_one : list label := [LServe 1] ++ gos 1 5 ++ [LAccept 1 AConn; LSpawn 1 2] ++ gos 2 6.
Example test_server_serve :
  option_map (fun s => (listener s, sessions s)) (run step NewServer serve_one) = Some (Some 0%nat, [0%nat]).
Proof. vm_compute. reflexivity. Qed.
Example test_server_serve_close :
  option_map (fun s => returns (hist s))
    (run step NewServer (serve_one ++ [LClose 3] ++ gos 3 3 ++ [LCloseListener 3 None; LPick 3 0] ++ gos 3 3 ++
       [LAccept 1 (AError EOF); LGo 1; LEnd 2 (Some ErrConnClosed)] ++ gos 2 5 ++ gos 3 3 ++ [LServe 4] ++ gos 4 2)) =
  Some [(1, Some ErrConnClosed); (2, Some ErrConnClosed); (3, None); (4, Some ErrServerClosed)]%nat.
Proof. vm_compute. reflexivity. Qed.

(** ServeConn (goroutine 1) registers its session, Close removes it, ServeConn fails afterwards. *)
Example test_server_serve_conn :
  option_map (fun s => sessions s) (run step NewServer ([LServeConn 1] ++ gos 1 6)) = Some [0%nat] /\
  option_map (fun s => (sessions s, returns (hist s)))
    (run step NewServer ([LServeConn 1] ++ gos 1 6 ++ [LClose 2] ++ gos 2 4 ++ [LPick 2 0] ++ gos 2 6 ++ [LServeConn 3] ++ gos 3 2)) =
  Some ([], [(2, None); (3, Some ErrServerClosed)])%nat.
Proof. split; vm_compute; reflexivity. Qed.
