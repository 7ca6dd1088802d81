(** Properties C32, C33, C76: events (pkg/server/event.go).
    Every theorem is about every execution: any number of goroutines, any interleaving of their
    atomic accesses. Histories are newest first. *)
From Verif Require Import Event SpecEvent EventProofs.

(** * C32 Exactly one Fire wins *)

Theorem C32_one_fire_wins : forall s, reachable estep init s ->
  e_crashed s = false /\ (wins (e_hist s) <= 1)%nat /\
  ((forall t, e_pc s t = EIdle) -> (exists t, In (CallFire t) (e_hist s)) -> wins (e_hist s) = 1%nat).
Proof. exact one_fire_wins. Qed.
Print Assumptions C32_one_fire_wins.

(** two goroutines pass the fast path together; the second one wins *)
Example C32_instance : option_map e_hist (run estep NewEvent [LCall 1; LCall 2; LGo 1; LGo 2; LGo 2; LGo 2; LGo 2; LHasFired 3; LDone 3; LGo 2; LGo 2; LGo 2;
                      LGo 1; LGo 1; LGo 1; LGo 1; LGo 2; LDone 3]%nat) =
  Some ([DoneClosed 3 true; RetFire 2 true; RetFire 1 false; DoneClosed 3 false; HasFired 3 true; CallFire 2; CallFire 1]%nat).
Proof. vm_compute. reflexivity. Qed.

(** a Fire call is never stuck for good: it can go on, or another call in progress can *)
Theorem C32_fire_progress : forall s t, reachable estep init s -> e_pc s t <> EIdle ->
  estep s (LGo t) <> None \/ exists w, w <> t /\ e_pc s w <> EIdle /\ estep s (LGo w) <> None.
Proof. exact fire_progress. Qed.
Print Assumptions C32_fire_progress.

(** a Fire call takes at most eight actions of its own, whatever the others do meanwhile *)
Theorem C32_fire_bounded : forall s t ls s', reachable estep init s -> run estep s ls = Some s' -> ~ In (LCall t) ls ->
  (length (filter (fun l => match l with LGo t' => Nat.eqb t' t | _ => false end) ls) <= 8)%nat.
Proof.
  intros s t ls s' R H N. pose proof (fire_bounded t ls s s' R H N) as X. unfold own_moves in X.
  eapply Nat.le_trans; [exact X|]. destruct (e_pc s t); cbn; repeat constructor.
Qed.
Print Assumptions C32_fire_bounded.

(** the winner, uncontended, takes all eight *)
Example C32_eight_moves : option_map (fun s => (e_pc s 1, e_hist s)) (run estep NewEvent (LCall 1 :: repeat (LGo 1) 8)) = Some (EIdle, [RetFire 1 true; CallFire 1]%nat).
Proof. vm_compute. reflexivity. Qed.

(** * C33 Once Fire returned, everybody sees it *)

Theorem C33_visible_after_return : forall s h2 t b h1, reachable estep init s ->
  e_hist s = h2 ++ RetFire t b :: h1 -> Forall (obs true) h2.
Proof. exact fire_visible. Qed.
Print Assumptions C33_visible_after_return.

Theorem C33_not_before_call : forall s h2 h1, reachable estep init s -> e_hist s = h2 ++ h1 ->
  (forall t, ~ In (CallFire t) h1) -> Forall (obs false) h1.
Proof. exact fire_not_early. Qed.
Print Assumptions C33_not_before_call.

Theorem C33_observations_stable : forall s, reachable estep init s ->
  (forall h2 t h1, e_hist s = h2 ++ HasFired t true :: h1 -> forall t', ~ In (HasFired t' false) h2) /\
  (forall h2 t h1, e_hist s = h2 ++ DoneClosed t true :: h1 ->
     forall t', ~ In (DoneClosed t' false) h2 /\ ~ In (HasFired t' false) h2).
Proof. exact observations_stable. Qed.
Print Assumptions C33_observations_stable.

Example C33_instance : option_map e_hist (run estep NewEvent [LHasFired 9; LCall 1; LGo 1; LGo 1; LGo 1; LGo 1; LGo 1; LGo 1; LGo 1; LGo 1; LHasFired 9; LDone 9]%nat) =
  Some ([DoneClosed 9 true; HasFired 9 true] ++ RetFire 1 true :: [CallFire 1; HasFired 9 false]%nat).
Proof. vm_compute. reflexivity. Qed.

(** * C76 An event behaves like a three-state object *)

Theorem C76_event_abstracts : forall s, reachable estep init s -> exists a, abs s a.
Proof. exact event_abstracts. Qed.
Print Assumptions C76_event_abstracts.

Theorem C76_event_refines : forall s a l s', reachable estep init s -> abs s a -> estep s l = Some s' ->
  exists a', abs s' a' /\ abs_move l a a' /\
    (e_hist s' = e_hist s \/ exists e, e_hist s' = e :: e_hist s /\ abs_sees a e).
Proof. exact event_refines. Qed.
Print Assumptions C76_event_refines.

Example C76_instance : match run estep NewEvent [LCall 1; LGo 1; LGo 1; LGo 1; LGo 1]%nat with
  | Some s => abs s (EvFiring 1) | None => False end.
Proof. vm_compute. auto. Qed.
