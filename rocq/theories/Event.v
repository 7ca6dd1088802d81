(** Model of pkg/server/event.go, down to the individual atomic accesses, including the standard
    library's sync.Once (its two-step check with a mutex). *)
From Verif Require Export Lts.

(** Program counter of a goroutine; [F*] are the points inside a call of Fire (event.go:23-33). *)
Inductive epc :=
| EIdle
| F1              (* sync.Once.Do: about to load [done] *)
| F2              (* doSlow: about to lock the Once's mutex *)
| F3              (* mutex held, about to read [done] *)
| F4              (* event.go:27: about to store 1 into [fired] *)
| F5              (* event.go:28: about to close doneChan *)
| F6              (* event.go:29 done; deferred: about to store [done] *)
| F7 (ret : bool) (* deferred: about to unlock *)
| F8 (ret : bool). (* event.go:32: about to return ret *)

(** What callers observe. *)
Inductive eevent :=
| CallFire (t : tid)
| RetFire (t : tid) (ret : bool)
| HasFired (t : tid) (ret : bool)   (* event.go:41-43, one atomic load *)
| DoneClosed (t : tid) (ret : bool). (* a non-blocking receive on Done(), event.go:36-38 *)

(** event.go:9-13 [Event], with the fields of its sync.Once and the goroutines using it *)
Record estate := EState {
  o_done : bool;             (* sync.Once.done *)
  o_mutex : option tid;      (* sync.Once.m *)
  e_fired : bool;            (* Event.fired *)
  e_closed : bool;           (* doneChan is closed *)
  e_crashed : bool;          (* close of a closed channel *)
  e_pc : tid -> epc;
  e_hist : list eevent       (* newest first *)
}.

(** event.go:16-18 [NewEvent] *)
Definition NewEvent : estate := EState false None false false false (fun _ => EIdle) [].

(** scheduler choices: which goroutine calls or continues a method of event.go:23-43 *)
Inductive elabel :=
| LCall (t : tid)    (* start a call of Fire *)
| LGo (t : tid)      (* let goroutine t execute its next action *)
| LHasFired (t : tid)
| LDone (t : tid).

(** goroutine [t] moves to [p] *)
Definition goto (s : estate) (t : tid) (p : epc) : estate :=
  EState (o_done s) (o_mutex s) (e_fired s) (e_closed s) (e_crashed s) (upd (e_pc s) t p) (e_hist s).
(** record an observation *)
Definition log (s : estate) (e : eevent) : estate :=
  EState (o_done s) (o_mutex s) (e_fired s) (e_closed s) (e_crashed s) (e_pc s) (e :: e_hist s).

(** one atomic action of event.go:23-43; the points [F1]..[F8] cite the lines *)
Definition estep (s : estate) (l : elabel) : option estate :=
  if e_crashed s then None else
  match l with
  | LCall t => match e_pc s t with EIdle => Some (log (goto s t F1) (CallFire t)) | _ => None end
  | LHasFired t => match e_pc s t with EIdle => Some (log s (HasFired t (e_fired s))) | _ => None end
  | LDone t => match e_pc s t with EIdle => Some (log s (DoneClosed t (e_closed s))) | _ => None end
  | LGo t =>
      match e_pc s t with
      | EIdle => None
      | F1 => Some (goto s t (if o_done s then F8 false else F2))
      | F2 => match o_mutex s with
              | None => Some (EState (o_done s) (Some t) (e_fired s) (e_closed s) false (upd (e_pc s) t F3) (e_hist s))
              | Some _ => None
              end
      | F3 => Some (goto s t (if o_done s then F7 false else F4))
      | F4 => Some (EState (o_done s) (o_mutex s) true (e_closed s) false (upd (e_pc s) t F5) (e_hist s))
      | F5 => if e_closed s
              then Some (EState (o_done s) (o_mutex s) (e_fired s) true true (e_pc s) (e_hist s))
              else Some (EState (o_done s) (o_mutex s) (e_fired s) true false (upd (e_pc s) t F6) (e_hist s))
      | F6 => Some (EState true (o_mutex s) (e_fired s) (e_closed s) false (upd (e_pc s) t (F7 true)) (e_hist s))
      | F7 b => Some (EState (o_done s) None (e_fired s) (e_closed s) false (upd (e_pc s) t (F8 b)) (e_hist s))
      | F8 b => Some (log (goto s t EIdle) (RetFire t b))
      end
  end.

(** * The three-state object the other models use in place of an Event *)
Inductive ev := EvInit | EvFiring (winner : tid) | EvFired.
Definition ev_fired (e : ev) : bool := match e with EvInit => false | _ => true end.   (* HasFired *)
Definition ev_done (e : ev) : bool := match e with EvFired => true | _ => false end.    (* Done closed *)
