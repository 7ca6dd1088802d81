(** What a data race is, for C99.

    The Go memory model calls two accesses to the same variable a race when at least one is a write and
    nothing orders them.  In terms of executions: a state is reached in which two different goroutines
    can each take an action next, both actions access the variable, and one of them writes it. *)

(** how an action uses a variable; [Wr] is also used when it reads it as well *)
Inductive access := Rd | Wr.
(** two accesses that must not happen at the same time *)
Definition conflict (a b : option access) : Prop :=
  match a, b with Some Wr, Some _ | Some _, Some Wr => True | _, _ => False end.

Section Race.
  Context {state label agent var : Type}.
  Variable step : state -> label -> option state.
  (** [touch s l a x]: what goroutine [a] does to the variable [x] in the action [l], taken in [s] *)
  Variable touch : state -> label -> agent -> var -> option access.

  (** [a1], by [l1], and [a2], by [l2], race for [x] in [s] *)
  Definition race (s : state) (x : var) (a1 : agent) (l1 : label) (a2 : agent) (l2 : label) : Prop :=
    a1 <> a2 /\ step s l1 <> None /\ step s l2 <> None /\ conflict (touch s l1 a1 x) (touch s l2 a2 x).

  (** When is [touch] complete?  [same x s s']: [x] has the same value in both states;
      [alike x s s']: the states differ at most in [x]. *)
  Variables same alike : var -> state -> state -> Prop.
  (** an action not said to write a variable leaves it as it is *)
  Definition writes_declared : Prop := forall s l s' x, step s l = Some s' ->
    (forall a, touch s l a x <> Some Wr) -> same x s s'.
  (** an action (of those that are [inside] the program) not said to access a variable does the same
      whatever is in it *)
  Definition reads_declared (inside : label -> Prop) : Prop := forall s1 s2 l x, inside l -> alike x s1 s2 ->
    (forall a, touch s1 l a x = None) ->
    match step s1 l, step s2 l with
    | Some s1', Some s2' => alike x s1' s2'
    | None, None => True
    | _, _ => False
    end.
End Race.
