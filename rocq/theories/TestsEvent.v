(** The scenarios of pkg/server/event_test.go replayed as runs of the transition system.
    Evidence of fidelity: nothing is proved from this file. *)
From Verif Require Import GoBase Lts Config Event.

Definition fire (t : tid) : list elabel := LCall t :: repeat (LGo t) 8.
Example test_event_has_fired :
  option_map (fun s => rev (e_hist s))
    (run estep NewEvent ([LHasFired 0] ++ fire 1 ++ [LHasFired 0] ++ [LCall 2; LGo 2; LGo 2])) =
  Some [HasFired 0 false; CallFire 1; RetFire 1 true; HasFired 0 true; CallFire 2; RetFire 2 false].
Proof. vm_compute. reflexivity. Qed.
Example test_event_done_channel :
  option_map (fun s => rev (e_hist s)) (run estep NewEvent ([LDone 0] ++ fire 1 ++ [LDone 0])) =
  Some [DoneClosed 0 false; CallFire 1; RetFire 1 true; DoneClosed 0 true].
Proof. vm_compute. reflexivity. Qed.

