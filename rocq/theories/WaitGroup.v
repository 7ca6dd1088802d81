(** sync.WaitGroup inside the server: server.go:28 [wg], :257 wg.Wait(), :292-299 [do].

    Server.v lets Wait return when the counter is zero. Here the parts of Wait and Done are separate actions,
    as in the Go runtime (sync/waitgroup.go, Go 1.13 and later): Wait returns at once if the counter is zero,
    otherwise it registers and sleeps; the Done that brings the counter to zero resets the waiters and wakes
    them; whoever wakes looks at the counter again. The runtime panics when the reset or the waking overlaps
    with an Add. Everything else is Server.v. *)
From Verif Require Export SpecServer.

(** "WaitGroup misuse: Add called concurrently with Wait"; "WaitGroup is reused before previous Wait has returned" *)
Inductive misuse := AddConcurrent (t : tid) | WaitReused (t : tid).
(** server.go:22-51 with the waiters of [wg]: asleep; woken, not yet running *)
Record wstate := WState {
  srv : Server.state;
  asleep : list tid;
  woken : list tid;
  misused : option misuse
}.
(** server.go:54-60 *)
Definition winit (w : wstate) : Prop := w = WState NewServer [] [] None.
(** actions of the server; the reset of the waiters by the Done that brought the counter to zero *)
Inductive wlabel := WGo (l : Server.label) | WReset.
(** an action of server.go that the wait group does not restrain *)
Definition plain (w : wstate) (l : Server.label) : option wstate :=
  option_map (fun s => WState s (asleep w) (woken w) (misused w)) (Server.step (srv w) l).
(** membership in a list of goroutines (the waiters of server.go:257) *)
Definition mem (t : tid) (m : list tid) : bool := existsb (Nat.eqb t) m.
(** one atomic action of server.go:74-326 and of sync.WaitGroup *)
Definition wstep (w : wstate) (l : wlabel) : option wstate :=
  match misused w with Some _ => None | None =>
  match crashed (srv w) with Some _ => None | None =>
  match l with
  | WReset => (* the end of Done *)
      match asleep w, wg (srv w) with
      | _ :: _, O => Some (WState (srv w) [] (asleep w ++ woken w) None)
      | _, _ => None
      end
  | WGo (LSpawn t child) => (* :293, wg.Add(1) *)
      match Server.step (srv w) (LSpawn t child), asleep w, wg (srv w) with
      | Some _, _ :: _, O => Some (WState (srv w) (asleep w) (woken w) (Some (AddConcurrent t)))
      | Some s', _, _ => Some (WState s' (asleep w) (woken w) None)
      | None, _, _ => None
      end
  | WGo (LGo t) =>
      match pcs (srv w) t with
      | K7 _ => (* :257, wg.Wait() *)
          if mem t (asleep w) then None
          else if mem t (woken w) then
            match asleep w, wg (srv w) with
            | [], O => option_map (fun s => WState s (asleep w) (filter (fun t' => negb (Nat.eqb t' t)) (woken w)) None) (Server.step (srv w) (LGo t))
            | _, _ => Some (WState (srv w) (asleep w) (woken w) (Some (WaitReused t)))
            end
          else
            match wg (srv w) with
            | O => plain w (LGo t)
            | S _ => Some (WState (srv w) (t :: asleep w) (woken w) None)
            end
      | _ => plain w (LGo t)
      end
  | WGo l => plain w l
  end end end.

(** *** Vocabulary *)
(** Goroutine [t] is about to create one, and is itself no goroutine the server created: it runs Start, or a
    Serve that somebody else called. *)
Definition outside_creator (s : state) (t : tid) : Prop :=
  match pcs s t with A6 _ => True | S6 _ _ => bg s t = false | _ => False end.
(** Close has been called and those who could still create a goroutine from outside are gone: Start is not
    past its first line, nor is a Serve that somebody else called. *)
Definition nobody_creates (s : state) : Prop := shut_ev s = EvFired /\
  forall t, match pcs s t with
            | A1 | A2 | A3 | A4 | A5 _ | A6 _ => False
            | S1 _ | S2 _ | S3 _ | S4 _ | S5 _ | S6 _ _ => bg s t = true
            | _ => True
            end.
