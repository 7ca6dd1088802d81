(** A session of the program in an infinite execution of the program. *)
From Verif Require Export SpecLive.
From Verif Require Export System.

(** the action of session [c] in an action of the program *)
Definition mine (c : nat) (l : label) : option Session.label :=
  match l with YSession c' x => if Nat.eqb c' c then Some x else None | _ => None end.
(** session [c] at each moment; its actions *)
Definition of_session (c : nat) (st : nat -> state) (i : nat) : Session.state := sess (st i) c.
Definition lb_session (c : nat) (lb : nat -> option label) (i : nat) : option Session.label := match lb i with Some l => mine c l | None => None end.
