(** Independent vocabulary for the Event theorems: histories are lists of observations, newest first. *)
From Verif Require Import Event.

(** executions start with a fresh event *)
Definition init (s : estate) : Prop := s = NewEvent.

(** number of Fire calls that returned true *)
Definition is_win (e : eevent) : bool := match e with RetFire _ true => true | _ => false end.
(** every observation made by the event [e] is [b] *)
Definition obs (b : bool) (e : eevent) : Prop :=
  match e with HasFired _ r | DoneClosed _ r => r = b | _ => True end.
Definition wins (h : list eevent) : nat := length (filter is_win h).
Arguments wins : simpl never.

(** * The three-state object *)

(** the three-state object [a] describes [s] *)
Definition abs (s : estate) (a : ev) : Prop :=
  match a with
  | EvInit => e_fired s = false /\ e_closed s = false
  | EvFiring t => e_pc s t = F5 /\ e_fired s = true /\ e_closed s = false
  | EvFired => e_fired s = true /\ e_closed s = true
  end.

(** one step moves it at most from init to firing or from firing to fired, by the same goroutine *)
Definition abs_move (l : elabel) (a a' : ev) : Prop :=
  a' = a \/ (exists t, l = LGo t /\ a = EvInit /\ a' = EvFiring t) \/
  (exists t, l = LGo t /\ a = EvFiring t /\ a' = EvFired).

(** what the new events say about the abstract state in which they happened *)
Definition abs_sees (a : ev) (e : eevent) : Prop :=
  match e with
  | CallFire _ => True
  | RetFire _ _ => a = EvFired
  | HasFired _ b => b = ev_fired a
  | DoneClosed _ b => b = ev_done a
  end.

