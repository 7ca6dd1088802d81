(** Property C104: sync.WaitGroup as the server uses it. *)
From Verif Require Import WaitGroupProofs.
From Verif Require P_Server System SystemFacts.
Import P_Server(cfgA, cfgB, go, starting, configured, serving, closing_begins, closing_goes_on).
Ltac computed := vm_compute; reflexivity.

(** With sync.WaitGroup in detail the server does nothing that it does not do in Server.v. *)
Theorem C104_refines : forall w, reachable wstep winit w -> reachable step init (srv w).
Proof. exact reachable_srv. Qed.
Print Assumptions C104_refines.
(** The counter is never negative: every Done takes a positive one down by one. *)
Theorem C104_never_negative : forall s l s' t h, reachable step init s -> step s l = Some s' -> hist s' = HDone t :: h -> hist s' <> hist s -> wg s = S (wg s').
Proof.
  intros s l s' t h R H E N. assert (X : bg s t = true /\ wg s' = Nat.pred (wg s)).
  { dstep H; cbn in *; try congruence; injection E as <- <-; auto. }
  destruct X as [B W]. pose proof (none_running s t R B). rewrite W. destruct (wg s); [congruence|reflexivity].
Qed.
Print Assumptions C104_never_negative.
(** Wait is not left sleeping: when no goroutine is running, Wait can go on or can be woken. *)
Theorem C104_wakes : forall w t r, reachable wstep winit w -> misused w = None -> crashed (srv w) = None -> pcs (srv w) t = K7 r -> running (hist (srv w)) = [] ->
  wstep w (WGo (LGo t)) <> None \/ wstep w WReset <> None.
Proof. intros w t r R M C E G. apply (wait_wakes w t r R M C E). rewrite (wi_count _ (reachable_wg _ (reachable_srv _ R))), G. reflexivity. Qed.
Print Assumptions C104_wakes.
(** Wait sleeps only if a goroutine is running, whose Done will wake it. *)
Theorem C104_sleeps : forall w l w' t, reachable wstep winit w -> wstep w l = Some w' -> In t (asleep w') -> In t (asleep w) \/ running (hist (srv w)) <> [].
Proof.
  intros w l w' t R H I. destruct (wstep_moves _ _ _ H) as (_ & _ & M). destruct M as [? ? ? SA|? ? ? ? SA|t0 r ? ? ? G ? SA|? ? ? ? ? ? ? ? SA|? ? ? ? ? ? ? SA]; rewrite SA in I; auto. right. intros E. apply G. rewrite (wi_count _ (reachable_wg _ (reachable_srv _ R))), E. reflexivity.
Qed.
Print Assumptions C104_sleeps.
(** The runtime panics inside Add only if Start, or a Serve that somebody else called, creates a goroutine at
    the moment the last one ends while Close waits; it panics inside Wait only if, after Close had closed
    everything, a goroutine was created at a moment when there was none. *)
Theorem C104_when : forall w, reachable wstep winit w ->
  (forall t, misused w = Some (AddConcurrent t) -> outside_creator (srv w) t /\ running (hist (srv w)) = [] /\ exists c r, pcs (srv w) c = K7 r) /\
  (forall t, misused w = Some (WaitReused t) -> (exists r, pcs (srv w) t = K7 r) /\
     exists h1 h2 c, hist (srv w) = h1 ++ HSpawn c :: h2 /\ running h2 = [] /\ cleared h2 = true).
Proof.
  intros w R. destruct (reachable_misuse w R) as [_ A B]. split; intros t H.
  - destruct (A t H) as (X & G & c & K & _). split; [exact X|]. split; [|exists c; destruct (pcs (srv w) c); try destruct K; eauto].
    pose proof (wi_count _ (reachable_wg _ (reachable_srv _ R))) as C. destruct (running (hist (srv w))); [reflexivity|]. rewrite G in C. discriminate C.
  - destruct (B t H) as (K & X). split; [destruct (pcs (srv w) t); try destruct K; eauto|exact X].
Qed.
Print Assumptions C104_when.
(** Whoever creates a goroutine when there is none is Start, or a Serve that somebody else called. *)
Theorem C104_who : forall s t c s', reachable step init s -> step s (LSpawn t c) = Some s' -> running (hist s) = [] -> outside_creator s t.
Proof.
  intros s t c s' R H E. destruct (spawner _ _ _ _ H) as [X|X]; [exact X|]. exfalso. apply (none_running s t R X). rewrite (wi_count _ (reachable_wg s R)), E. reflexivity.
Qed.
Print Assumptions C104_who.
(** So it never panics if, before Close waits, Start is over and so is every Serve that somebody else called. *)
Theorem C104_safe_close : forall w ls w', reachable wstep winit w -> misused w = None -> nobody_creates (srv w) -> (forall t r, pcs (srv w) t <> K7 r) ->
  run wstep w ls = Some w' -> misused w' = None.
Proof. intros w ls w' R M N K H. apply (never_misused w ls w' R M N); [|exact H]. intros t X. destruct (pcs (srv w) t) eqn:E; try destruct X. exact (K _ _ E). Qed.
Print Assumptions C104_safe_close.
(** Nor in the program, which does not call Close. *)
Theorem C104_program : forall s, reachable System.step System.init s -> forall t r, pcs (System.srv s) t <> K7 r.
Proof.
  intros s R t r E. pose proof (SystemProofs.ca_srv _ (SystemProofs.reachable_calm _ R)) as CV. destruct t.
  - destruct (SystemProofs.cv_main _ CV) as [M|M]; rewrite E in M; [discriminate M|exact M].
  - pose proof (SystemProofs.cv_worker _ CV (S t) ltac:(discriminate)) as M. rewrite E in M. exact M.
Qed.
Print Assumptions C104_program.

(** Close while Start has a new listener in its hands: the last goroutine ends, Start creates another. *)
Definition relisten : list wlabel :=
  map WGo (starting ++ configured cfgA 1 ++ serving 1 ++ [LConfig cfgB; LRecv 0; LListen 0 true] ++ closing_begins 4 ++ closing_goes_on 4 [] ++ [LGo 4] ++ [LAccept 1 (AError ErrConnClosed); LGo 1]).
Theorem C104_close_panics_only_by_watchdog_refuted :
  option_map misused (run wstep (WState NewServer [] [] None) (relisten ++ [WGo (LSpawn 0 2)])) = Some (Some (AddConcurrent 0)) /\
  option_map misused (run wstep (WState NewServer [] [] None) (relisten ++ [WReset; WGo (LSpawn 0 2); WGo (LGo 4)])) = Some (Some (WaitReused 4)).
Proof. split; computed. Qed.
Print Assumptions C104_close_panics_only_by_watchdog_refuted.
(** without the new listener Close sleeps, is woken and returns *)
Example C104_instance :
  option_map (fun w => (asleep w, running (hist (srv w)))) (run wstep (WState NewServer [] [] None) relisten) = Some ([4%nat], []) /\
  option_map (fun w => (misused w, woken w, results (hist (srv w)))) (run wstep (WState NewServer [] [] None) (relisten ++ WReset :: map WGo (go 4 3))) =
    Some (None, [], [(1%nat, CServe 0, Some ErrConnClosed); (4%nat, CClose, None)]).
Proof. split; computed. Qed.
(** Start ends, then Close waits for the goroutine of Serve *)
Definition orderly : list wlabel := map WGo (starting ++ configured cfgA 1 ++ serving 1 ++ closing_begins 4 ++ [LQuit 0] ++ go 0 2).
Example C104_instance_safe : exists w, run wstep (WState NewServer [] [] None) orderly = Some w /\ misused w = None /\ nobody_creates (srv w) /\ (forall t r, pcs (srv w) t <> K7 r) /\
  running (hist (srv w)) = [1%nat] /\
  option_map (fun w => results (hist (srv w))) (run wstep w (map WGo (closing_goes_on 4 [] ++ go 4 1 ++ [LAccept 1 (AError ErrConnClosed); LGo 1]) ++ WReset :: map WGo (go 4 3))) =
    Some [(0%nat, CStart, Some ErrServerClosed); (1%nat, CServe 0, Some ErrConnClosed); (4%nat, CClose, None)].
Proof.
  destruct (run wstep (WState NewServer [] [] None) orderly) as [w|] eqn:E; [|vm_compute in E; discriminate E]. exists w. split; [reflexivity|]. vm_compute in E. injection E as <-.
  split; [reflexivity|]. split; [|split; [|split; computed]].
  - split; [reflexivity|]. intros t. destruct t as [|[|[|[|[|t]]]]]; vm_compute; exact I || reflexivity.
  - intros t r. destruct t as [|[|[|[|[|t]]]]]; discriminate.
Qed.
