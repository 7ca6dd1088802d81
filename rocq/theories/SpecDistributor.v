(** What clients of a ConfigDistributor may expect, in terms of the history of calls, returns,
    source updates and channel operations (newest first). *)
From Verif Require Export Distributor.

(** The call goroutine [t] is executing after history [h], with the history at its start. *)
Fixpoint open_call (t : tid) (h : list event) : option (call * list event) :=
  match h with
  | [] => None
  | HCall t' k :: h' => if Nat.eqb t t' then Some (k, h') else open_call t h'
  | HRet t' _ :: h' => if Nat.eqb t t' then None else open_call t h'
  | _ :: h' => open_call t h'
  end.

(** Projections of a history; all newest first except [sent] and [received]. *)
Fixpoint installed (h : list event) : list config :=
  match h with [] => [] | HInstall c :: h' => c :: installed h' | _ :: h' => installed h' end.
Fixpoint sourced (h : list event) : list config :=
  match h with [] => [] | HSource c :: h' => c :: sourced h' | _ :: h' => sourced h' end.
Fixpoint sent (ch : chan_id) (h : list event) : list config :=
  match h with
  | [] => []
  | HSent ch' c :: h' => sent ch h' ++ (if Nat.eqb ch ch' then [c] else [])
  | _ :: h' => sent ch h'
  end.
Fixpoint received (ch : chan_id) (h : list event) : list config :=
  match h with
  | [] => []
  | HRecv ch' c :: h' => received ch h' ++ (if Nat.eqb ch ch' then [c] else [])
  | _ :: h' => received ch h'
  end.

(** The current configuration after [h]. *)
Definition current (h : list event) : option config := hd_error (installed h).

(** The checks with which [ch] is subscribed after [h], if it is. *)
Fixpoint subscribed (ch : chan_id) (h : list event) : option (list check) :=
  match h with
  | [] => None
  | HSub ch' checks :: h' => if Nat.eqb ch ch' then Some checks else subscribed ch h'
  | HUnsub ch' :: h' => if Nat.eqb ch ch' then None else subscribed ch h'
  | HCancelAll :: h' => None
  | _ :: h' => subscribed ch h'
  end.

(** A change is relevant if there are no checks or one of them says so. *)
Definition relevant (checks : list check) (old : option config) (new : config) : bool :=
  (length checks =? 0)%nat || existsb (fun f => f old new) checks.

(** What must be sent on [ch], oldest first. *)
Fixpoint expected (ch : chan_id) (h : list event) : list config :=
  match h with
  | [] => []
  | HSub ch' checks :: h' =>
      expected ch h' ++
      match current h' with
      | Some c => if (Nat.eqb ch ch' && relevant checks None c)%bool then [c] else []
      | None => []
      end
  | HInstall c :: h' =>
      expected ch h' ++
      match subscribed ch h' with
      | Some checks => if relevant checks (current h') c then [c] else []
      | None => []
      end
  | _ :: h' => expected ch h'
  end.

(** [c] is at least as new as the newest of [before], where [now] extends [before]. *)
Definition at_least_as_new (c : config) (before now : list config) : Prop :=
  exists newer, now = newer ++ before /\ (In c newer \/ hd_error before = Some c).

(** Some call of Close has returned. *)
Definition close_completed (h : list event) : Prop :=
  exists h2 t h1 h0, h = h2 ++ HRet t RNil :: h1 /\ open_call t h1 = Some (CClose, h0).

(** Which points of the code are inside the mutex. *)
Definition in_write_section (p : pc) : Prop :=
  match p with
  | S2 _ _ _ | S3 _ _ _ _ | S4 _ _ _ | S5 _ _ | G7 _ _ | U1 _ | C3 _ | M2 _ | M3 _ _ _ | M4 _ _ _ _ => True
  | _ => False
  end.
Definition in_read_section (p : pc) : Prop := match p with G2 => True | _ => False end.

(** The monitoring goroutine, running or finished. *)
Definition is_monitor (p : pc) : Prop :=
  match p with
  | C0 CMon | C1 CMon | C2 CMon | C3 CMon | M0 | M1 _ | M2 _ | M3 _ _ _ | M4 _ _ _ _ | MExit => True
  | _ => False
  end.

(** The mutex is never released again by [t]. *)
Definition held_forever (s : state) (t : tid) : Prop :=
  forall ls s', run step s ls = Some s' -> writer s' = Some t.
(** The call [t] is executing never returns. *)
Definition never_returns (s : state) (t : tid) : Prop :=
  forall ls s', run step s ls = Some s' -> exists k h, open_call t (hist s') = Some (k, h).

(** Clients close a channel only when it is not subscribed, nobody is subscribing it, and never
    subscribe it again. *)
Definition polite (h : list event) : Prop :=
  forall h2 ch h1, h = h2 ++ HCloseChan ch :: h1 ->
    subscribed ch h1 = None /\
    (forall t checks h0, open_call t h1 <> Some (CSubscribe ch checks, h0)) /\
    (forall t checks, ~ In (HCall t (CSubscribe ch checks)) h2).

(** Who made the channel: [Some None] a client, [Some (Some t)] the waiting Get of goroutine [t]. *)
Definition owner (s : state) (ch : chan_id) : option (option tid) := option_map ch_owner (chans s ch).

(** the channels the holder of the mutex will send on before it releases it *)
Definition will_send (lst : option config) (sbs : list (chan_id * list check)) (p : pc) (ch : chan_id) : Prop :=
  match p with
  | S2 ch' checks _ => ch = ch' /\ exists c, lst = Some c /\ relevant checks None c = true
  | S3 ch' _ _ _ => ch = ch'
  | M2 c => exists checks, lookup ch sbs = Some checks /\ relevant checks lst c = true
  | M3 old c pending => exists checks, lookup ch pending = Some checks /\ relevant checks old c = true
  | M4 old c ch' pending => ch = ch' \/ exists checks, lookup ch pending = Some checks /\ relevant checks old c = true
  | _ => False
  end.
(** some waiting Get's channel is to be sent on, but that Get is not receiving (any more / yet) *)
Definition doomed_at (s : state) (w : tid) (ch : chan_id) (r : tid) : Prop :=
  writer s = Some w /\ will_send (last s) (subs s) (pcs s w) ch /\ owner s ch = Some (Some r) /\ pcs s r <> G5 ch.

(** The mutex can be released (or the process crashes). *)
Definition released (s : state) : Prop := exists ls s', run step s ls = Some s' /\ (writer s' = None \/ crashed s' <> None).
Definition safe (s : state) : Prop := forall w ch r, ~ doomed_at s w ch r.
