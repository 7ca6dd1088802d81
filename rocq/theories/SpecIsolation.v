(** Vocabulary for what sessions have to do with each other. *)
From Verif Require Export SpecSystem.

(** Action of session [c] alone: its peers, its goroutines. *)
Definition of_session (c : nat) (l : label) : option Session.label :=
  match l with YSession c' x => if Nat.eqb c' c then Some x else None | _ => None end.
(** An execution without the actions of session [c]; those actions. *)
Definition others (c : nat) (ls : list label) : list label := filter (fun l => match of_session c l with Some _ => false | None => true end) ls.
Definition acts_of (c : nat) (ls : list label) : list Session.label := flat_map (fun l => match of_session c l with Some x => [x] | None => [] end) ls.
(** Two states of the program that differ in session [c] at most. *)
Definition same_but (c : nat) (a b : state) : Prop :=
  watcher a = watcher b /\ dist a = dist b /\ srv a = srv b /\ main a = main b /\ forall c', c' <> c -> sess a c' = sess b c'.
(** The session relays. *)
Definition relaying (s : state) (c : nat) : Prop := Session.start_pc (sess s c) = Session.SWait.
(** What peers and goroutines of a relaying session do: anything but calls of its methods. *)
Definition relay_action (l : Session.label) : Prop :=
  match l with Session.LCallStart | Session.LConfig _ _ | Session.LCallClose _ | Session.LClose _ _ => False | _ => True end.
(** The bytes that the client (the database) of session [c] sent in an execution. *)
Definition received (c : nat) (d : Session.side) (ls : list label) : bytes :=
  flat_map (fun l => match l with YSession c' (Session.LArrive d' b) => if (Nat.eqb c' c && Session.side_eqb d d')%bool then b else [] | _ => [] end) ls.
