(** Property C103: whom a mutex lets in first does not matter. *)
From Verif Require Import SpecReady SpecLocks SystemRuns LocksProofs.

Ltac computed := vm_compute; reflexivity.

(** Under every arbiter of the two mutexes: when nothing is left that it approves, nothing is left at all. So
    what C95 and C101 say of the program at rest, and C87 of the program with nothing left to do for
    configurations, holds whatever the mutexes' rules are. *)
Theorem C103_same_rest : forall a tr s, proper a -> reachable step init s -> (at_rest_under a tr s <-> at_rest s).
Proof. intros a tr s HA R. split; [apply rest_under; assumption|]. intros Q l L _. apply Q, L. Qed.
Print Assumptions C103_same_rest.
Theorem C103_same_quiet : forall a tr s, proper a -> reachable step init s ->
  ((forall l, pipeline l -> a tr s l = true -> step s l = None) <-> quiet s).
Proof. intros a tr s HA R. split; [apply quiet_under; assumption|]. intros Q l L _. apply Q, L. Qed.
Print Assumptions C103_same_quiet.
(** And under every arbiter the program comes to rest by its own approved actions. *)
Theorem C103_comes_to_rest : forall a, proper a -> forall tr s, reachable step init s ->
  exists ls s', Forall own ls /\ run step s ls = Some s' /\ approved a tr s ls /\ at_rest s'.
Proof. exact comes_to_rest_under. Qed.
Print Assumptions C103_comes_to_rest.
(** Go's rule, by which RLock waits while a Lock waits, is one of them; so is its opposite. *)
Theorem C103_rules : forall n, proper (writers_first n) /\ proper (readers_first n).
Proof. intros n. split; [apply writers_first_proper|apply readers_first_proper]. Qed.
Print Assumptions C103_rules.

(** A session (goroutine 3) is about to RLock in Get, the monitor (goroutine 1) about to Lock with a new
    configuration: each rule holds one of them back. *)
Definition contended : list label :=
  listening_on_A ++ accepting 2 3 ++ [YSession 0 (Session.LArrive Session.Client SessionRuns.ex_startup); YSession 0 Session.LStart; YGet 3] ++
  [YDist (Distributor.LGo 3)] ++ reloading cfgC ++ [YSource 1].
Example C103_instance :
  let s := final contended in
  reachable step init s /\
  map (acquires s) [YDist (Distributor.LGo 1); YDist (Distributor.LGo 3)] = [Some DistMu; Some DistMu] /\
  map (fun l => match step s l with Some _ => true | None => false end) [YDist (Distributor.LGo 1); YDist (Distributor.LGo 3)] = [true; true] /\
  map (writers_first 10 contended s) [YDist (Distributor.LGo 1); YDist (Distributor.LGo 3)] = [true; false] /\
  map (readers_first 10 contended s) [YDist (Distributor.LGo 1); YDist (Distributor.LGo 3)] = [false; true].
Proof.
  assert (run step (Run (Some cfgA)) contended = Some (final contended)) as H by (apply final_run; computed).
  split; [eexists; eexists; split; [eexists; reflexivity|exact H]|]. repeat (split; [computed|]). computed.
Qed.
