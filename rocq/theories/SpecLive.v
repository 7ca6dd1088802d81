(** Infinite executions, and fairness. *)
From Verif Require Export SpecSession.

(** [st 0], [st 1], ... is an infinite execution; at moment [i] the action [lb i] happens, or nothing. *)
Definition execution {S L : Type} (step : S -> L -> option S) (st : nat -> S) (lb : nat -> option L) : Prop :=
  forall i, match lb i with Some l => step (st i) l = Some (st (Datatypes.S i)) | None => st (Datatypes.S i) = st i end.

(** The actions of the five goroutines of a session. An out pump acts when the peer takes some of what it writes, or
    when the write fails. *)
Definition acts_as (g : goroutine) (l : label) : Prop :=
  match g, l with
  | GIn d, LRecv d' | GIn d, LIn d' => d' = d
  | GOut d, LTake d' | GOut d, LWrite d' _ | GOut d, LWriteErr d' _ => d' = d
  | GProc, LProc | GProc, LSelect _ => True
  | _, _ => False
  end.
(** [x] is the session at each moment, [lb] its actions. The scheduler is fair: whichever goroutine can act, acts or comes to a
    point where it cannot; for an out pump this says that its peer keeps reading. *)
Definition fair_goroutines (x : nat -> state) (lb : nat -> option label) : Prop :=
  forall g i, exists j, (i <= j)%nat /\ ((forall l, acts_as g l -> step (x j) l = None) \/ exists l, lb j = Some l /\ acts_as g l).
(** The select statement of session.go:300-315 is fair: a case is chosen again and again, unless it is no longer ready from some
    moment on. (Go chooses among the ready cases at random.) *)
Definition fair_select (x : nat -> state) (lb : nat -> option label) : Prop :=
  forall d i, exists j, (i <= j)%nat /\ (lb j = Some (LSelect d) \/ forall k, (j <= k)%nat -> step (x k) (LSelect d) = None).
(** What has arrived from [d] consists of the negotiation and the messages [ms], and [rest] *)
Definition complete (d : side) (h : list event) (ms : list message) (rest : bytes) : Prop :=
  exists mid, decodes_startup (arrived d h) (match d with Client => startups h | DB => [] end) mid /\ decodes_standard mid ms rest.
(** The messages [ms] from [d] have been handed, completely and first of all, to the other peer. *)
Definition delivered (d : side) (h : list event) (ms : list message) : Prop :=
  exists more, sent (other d) h = base (other d) h ++ concat (map SendMessage ms) ++ more.
