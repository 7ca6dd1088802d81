(** The scenarios of pkg/server/config_distributor_test.go replayed as runs of the transition system.
    Evidence of fidelity: nothing is proved from this file. *)
From Verif Require Import GoBase Lts Config Distributor.

Definition v1 : config := Config (str "0.0.0.0:4242") [].
Definition v2 : config := Config (str "0.0.0.0:4242") (str "postgresql://").
Definition v3 : config := Config (str "0.0.0.0:31337") (str "postgresql://").
(** oldConfig == nil || oldConfig.Listen != newConfig.Listen *)
Definition listen_changed : check := fun old new =>
  match old with None => true | Some o => negb (bytes_eqb (Listen o) (Listen new)) end.
(** what the test sees: results of calls, and configurations received from channels *)
Definition seen (h : list event) : list (nat * option result * option config) :=
  rev (flat_map (fun e => match e with
    | HRet t r => [(t, Some r, None)]
    | HRecv ch c => [(ch, None, Some c)]
    | _ => []
    end) h).
Definition play (ls : list label) : option (list (nat * option result * option config)) :=
  option_map (fun s => seen (hist s)) (run step NewConfigDistributor ls).
Definition gos (t : tid) (n : nat) : list label := repeat (LGo t) n.

(** Get waits; V1 arrives and is returned; V2 arrives, the next Get returns it; after Close: an error.
    Channel 100 is the private one of the first Get; goroutine 50 is the monitor. *)
Example test_distributor_get :
  play ([LCall 1 CGet] ++ gos 1 3 ++ [LFresh 1 100] ++ gos 1 3 ++ [LFresh 1 50] ++ gos 1 1 ++
        [LSource 50 v1] ++ gos 50 2 ++ [LPick 50 100; LHandoff 50 1] ++ gos 50 1 ++ gos 1 3 ++
        [LSource 50 v2] ++ gos 50 3 ++ [LCall 2 CGet] ++ gos 2 4 ++
        [LCall 3 CClose] ++ gos 3 4 ++ [LCall 4 CGet] ++ gos 4 1) =
  Some [(100, None, Some v1); (1, Some (RConfig v1), None); (2, Some (RConfig v2), None);
        (3, Some RNil, None); (4, Some RClosed, None)]%nat.
Proof. vm_compute. reflexivity. Qed.

(** The test's select with default: no call of Get can return before a configuration came. *)
Example test_distributor_get_waits :
  run step NewConfigDistributor ([LCall 1 CGet] ++ gos 1 3 ++ [LFresh 1 100] ++ gos 1 3 ++ [LFresh 1 50] ++ gos 1 2) = None.
Proof. vm_compute. reflexivity. Qed.

(** Channel 1: listen changes only; channel 2: everything.  V2 changes only the database URL. *)
Example test_distributor_subscribe :
  play ([LNewChan 1 1; LNewChan 2 1; LCall 1 (CSubscribe 1 [listen_changed])] ++ gos 1 3 ++ [LFresh 1 50] ++ gos 1 1 ++
        [LCall 1 (CSubscribe 2 [])] ++ gos 1 5 ++
        [LSource 50 v1] ++ gos 50 2 ++ [LPick 50 1; LGo 50; LPick 50 2] ++ gos 50 2 ++ [LRecv 2; LRecv 1] ++
        [LSource 50 v2] ++ gos 50 2 ++ [LPick 50 1; LPick 50 2] ++ gos 50 2 ++ [LRecv 2] ++
        [LSource 50 v3] ++ gos 50 2 ++ [LPick 50 2; LGo 50; LPick 50 1] ++ gos 50 2 ++ [LRecv 2; LRecv 1] ++
        [LCall 1 CClose] ++ gos 1 4 ++ [LCall 1 (CSubscribe 2 [])] ++ gos 1 1) =
  Some [(1, Some RNil, None); (1, Some RNil, None); (2, None, Some v1); (1, None, Some v1); (2, None, Some v2);
        (2, None, Some v3); (1, None, Some v3); (1, Some RNil, None); (1, Some RClosed, None)]%nat.
Proof. vm_compute. reflexivity. Qed.
(** V2 cannot reach channel 1: the monitor is not about to send after considering it. *)
Example test_distributor_irrelevant :
  run step NewConfigDistributor
    ([LNewChan 1 1; LCall 1 (CSubscribe 1 [listen_changed])] ++ gos 1 3 ++ [LFresh 1 50] ++ gos 1 1 ++
     [LSource 50 v1] ++ gos 50 2 ++ [LPick 50 1] ++ gos 50 2 ++ [LRecv 1; LSource 50 v2] ++ gos 50 2 ++
     [LPick 50 1; LGo 50; LRecv 1]) = None.
Proof. vm_compute. reflexivity. Qed.

(** After Unsubscribe the update is not offered to the channel: the monitor is back at its select. *)
Example test_distributor_unsubscribe :
  option_map (fun s => (seen (hist s), pcs s 50%nat))
    (run step NewConfigDistributor
      ([LNewChan 1 0; LCall 1 (CSubscribe 1 [])] ++ gos 1 3 ++ [LFresh 1 50] ++ gos 1 1 ++
       [LSource 50 v1] ++ gos 50 2 ++ [LPick 50 1; LHandoffExt 50; LGo 50] ++
       [LCall 1 (CUnsubscribe 1)] ++ gos 1 2 ++ [LSource 50 v2] ++ gos 50 3)) =
  Some ([(1, Some RNil, None); (1, None, Some v1); (1, Some RNil, None)]%nat, M0).
Proof. vm_compute. reflexivity. Qed.
