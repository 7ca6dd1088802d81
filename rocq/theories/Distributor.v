(** Model of pkg/server/config_distributor.go as a labelled transition system.

    Any number of client goroutines call Get, Subscribe, Unsubscribe and Close; the monitoring
    goroutine is spawned by the code itself.  One label is one atomic action.  External parties: the
    source of configurations, and the owners of subscribed channels, who create, receive from and
    may close them.

    Simplifications: configurations from the source are non-nil (cli never sends nil); the fair
    queueing of sync.RWMutex is dropped (any waiter may be next: more schedules than Go has);
    [closed] is the three-state event proved in C76; [started] is fired only under the mutex and is a
    boolean; deleting every subscription in Close is one action (the mutex is held throughout). *)
From Verif Require Export Event Config.

(** config_distributor.go:25, ConfigChangedCheckFn; a nil old configuration is [None] *)
Definition check := option config -> config -> bool.

Notation chan_id := nat.
(** A channel of configurations; [ch_owner = Some t]: created by a Get of goroutine [t]. *)
Record chan := Chan { ch_cap : nat; ch_queue : list config; ch_closed : bool; ch_owner : option tid }.

(** the API calls: config_distributor.go:66 Get, :92 Subscribe, :122 Unsubscribe, :130 Close *)
Inductive call := CGet | CSubscribe (ch : chan_id) (checks : list check) | CUnsubscribe (ch : chan_id) | CClose.
Inductive result := RConfig (c : config) | RClosed (* ErrConfigDistributorClosed *) | RNil.

(** Ghost history, newest first. *)
Inductive event :=
| HCall (t : tid) (k : call)
| HRet (t : tid) (r : result)
| HSource (c : config)                       (* received from the source *)
| HInstall (c : config)                      (* lastConfig = c *)
| HSub (ch : chan_id) (checks : list check)  (* Subscribe obtained the mutex *)
| HUnsub (ch : chan_id)
| HCancelAll                                 (* Close deleted all subscriptions *)
| HSent (ch : chan_id) (c : config)
| HRecv (ch : chan_id) (c : config)
| HFire                                      (* closed.HasFired() becomes true *)
| HMonStart (t : tid)
| HMonExit (t : tid)
| HCloseChan (ch : chan_id).                 (* the owner closed a subscriber channel *)

(** Who called Subscribe (a client, or Get) and who called Close (a client, or the monitor) *)
Inductive skont := STop | SGet.
(** Close is called by a client or by the monitor (config_distributor.go:184) *)
Inductive ckont := CTop | CMon.

(** where a goroutine is in config_distributor.go; each constructor cites its lines *)
Inductive pc :=
| Idle
(* Get, lines 66-88 *)
| G0                                    (* :68 closed.HasFired() *)
| G1                                    (* :75 RLock *)
| G2                                    (* :77-79 read lastConfig, RUnlock *)
| G3 (snapshot : option config)         (* :82-87 *)
(* Subscribe, lines 92-119 *)
| S0 (ch : chan_id) (checks : list check) (k : skont)   (* :94 closed.HasFired() *)
| S1 (ch : chan_id) (checks : list check) (k : skont)   (* :98 Lock *)
| S2 (ch : chan_id) (checks : list check) (k : skont)   (* :102 decide *)
| S3 (ch : chan_id) (checks : list check) (k : skont) (c : config)  (* :103 ch <- c *)
| S4 (ch : chan_id) (checks : list check) (k : skont)   (* :107-116 register, start monitor *)
| S5 (ch : chan_id) (k : skont)                         (* :99 Unlock *)
(* waitForNextConfig, lines 149-170 *)
| G5 (ch : chan_id)                     (* :163-169 select *)
| G6 (ch : chan_id) (r : result)        (* :160 Unsubscribe: Lock *)
| G7 (ch : chan_id) (r : result)        (* :160 delete, Unlock *)
| G8 (ch : chan_id) (r : result)        (* :151 close(nextConfigChan), return *)
(* Unsubscribe, lines 122-127 *)
| U0 (ch : chan_id)                     (* :123 Lock *)
| U1 (ch : chan_id)                     (* :126 delete, Unlock *)
(* Close, lines 130-141 *)
| C0 (k : ckont)                        (* :131 closed.Fire(), first half *)
| C1 (k : ckont)                        (* closed.Fire(), second half: close(doneChan) *)
| C2 (k : ckont)                        (* :135 Lock *)
| C3 (k : ckont)                        (* :138-140 delete all, Unlock *)
(* monitorConfig, lines 173-204 *)
| M0                                    (* :179 select *)
| M1 (c : config)                       (* :190 Lock *)
| M2 (c : config)                       (* :192-193 install *)
| M3 (old : option config) (c : config) (pending : list (chan_id * list check)) (* :208 range *)
| M4 (old : option config) (c : config) (ch : chan_id) (pending : list (chan_id * list check)) (* :210 ch <- c *)
| MExit.

(** config_distributor.go:29-47 [ConfigDistributor], the channels and the goroutines *)
Record state := State {
  writer : option tid;                    (* mu, write-locked by *)
  readers : list tid;                     (* mu, read-locked by *)
  started : bool;
  closed : ev;
  src_closed : bool;                      (* the source channel is closed *)
  last : option config;                   (* lastConfig *)
  subs : list (chan_id * list check);     (* subscriptions, a map *)
  chans : chan_id -> option chan;
  pcs : tid -> pc;
  crashed : option panic;
  hist : list event
}.

(** goroutine [t] moves to [p] *)
Definition with_pc s t p := State (writer s) (readers s) (started s) (closed s) (src_closed s) (last s) (subs s) (chans s) (upd (pcs s) t p) (crashed s) (hist s).
(** [mu] (config_distributor.go:31), write lock *)
Definition with_writer s w := State w (readers s) (started s) (closed s) (src_closed s) (last s) (subs s) (chans s) (pcs s) (crashed s) (hist s).
(** [mu] (config_distributor.go:31), read locks *)
Definition with_readers s r := State (writer s) r (started s) (closed s) (src_closed s) (last s) (subs s) (chans s) (pcs s) (crashed s) (hist s).
(** [started] (config_distributor.go:34) *)
Definition with_started s b := State (writer s) (readers s) b (closed s) (src_closed s) (last s) (subs s) (chans s) (pcs s) (crashed s) (hist s).
(** [closed] (config_distributor.go:37) *)
Definition with_closed s e := State (writer s) (readers s) (started s) e (src_closed s) (last s) (subs s) (chans s) (pcs s) (crashed s) (hist s).
(** [source] (config_distributor.go:40) closed or not *)
Definition with_src s b := State (writer s) (readers s) (started s) (closed s) b (last s) (subs s) (chans s) (pcs s) (crashed s) (hist s).
(** [lastConfig] (config_distributor.go:43) *)
Definition with_last s c := State (writer s) (readers s) (started s) (closed s) (src_closed s) c (subs s) (chans s) (pcs s) (crashed s) (hist s).
(** [subscriptions] (config_distributor.go:46) *)
Definition with_subs s m := State (writer s) (readers s) (started s) (closed s) (src_closed s) (last s) m (chans s) (pcs s) (crashed s) (hist s).
(** channel [ch] becomes [x] *)
Definition with_chan s ch x := State (writer s) (readers s) (started s) (closed s) (src_closed s) (last s) (subs s) (upd (chans s) ch (Some x)) (pcs s) (crashed s) (hist s).
(** a run-time panic ends the program *)
Definition crash s p := State (writer s) (readers s) (started s) (closed s) (src_closed s) (last s) (subs s) (chans s) (pcs s) (Some p) (hist s).
(** record an event *)
Definition log s e := State (writer s) (readers s) (started s) (closed s) (src_closed s) (last s) (subs s) (chans s) (pcs s) (crashed s) (e :: hist s).

(** config_distributor.go:57-63 [NewConfigDistributor] *)
Definition NewConfigDistributor : state :=
  State None [] false EvInit false None [] (fun _ => None) (fun _ => Idle) None [].

(** config_distributor.go:217-230 [shouldSendUpdatedConfig] *)
Fixpoint any_check (checks : list check) (old : option config) (new : config) : bool :=
  match checks with
  | [] => false
  | fn :: rest => if fn old new then true else any_check rest old new
  end.
(** config_distributor.go:217-230, including the empty case :218-220 *)
Definition shouldSendUpdatedConfig (checks : list check) (old : option config) (new : config) : bool :=
  match checks with [] => true | _ => any_check checks old new end.

(** maps from channels to checks *)
Fixpoint lookup {A} (ch : chan_id) (m : list (chan_id * A)) : option A :=
  match m with [] => None | (k, v) :: m' => if Nat.eqb ch k then Some v else lookup ch m' end.
(** [delete(m, ch)], config_distributor.go:145 *)
Fixpoint remove {A} (ch : chan_id) (m : list (chan_id * A)) : list (chan_id * A) :=
  match m with [] => [] | (k, v) :: m' => if Nat.eqb ch k then remove ch m' else (k, v) :: remove ch m' end.
(** [m[ch] = v], config_distributor.go:111 *)
Definition assign {A} (ch : chan_id) (v : A) (m : list (chan_id * A)) : list (chan_id * A) := (ch, v) :: remove ch m.

(** RUnlock (config_distributor.go:79) by one reader *)
Fixpoint remove_tid (t : tid) (l : list tid) : list tid :=
  match l with [] => [] | x :: l' => if Nat.eqb t x then l' else x :: remove_tid t l' end.

(** can Lock succeed? (sync.RWMutex) *)
Definition is_free (s : state) : bool := match writer s, readers s with None, [] => true | _, _ => false end.

(** the first pc of each API call *)
Definition entry (k : call) : pc :=
  match k with
  | CGet => G0
  | CSubscribe ch checks => S0 ch checks STop
  | CUnsubscribe ch => U0 ch
  | CClose => C0 CTop
  end.

(** return from an API call *)
Definition ret s t r := log (with_pc s t Idle) (HRet t r).

(** where a goroutine goes when its call of Close ends *)
Definition after_close s t (k : ckont) : state :=
  match k with CTop => ret s t RNil | CMon => log (with_pc s t MExit) (HMonExit t) end.

(** a completed send: into the buffer *)
Definition enqueue s ch x c :=
  log (with_chan s ch (Chan (ch_cap x) (ch_queue x ++ [c]) (ch_closed x) (ch_owner x))) (HSent ch c).

(** the goroutines about to execute [ch <- c]: channel, value, and where they go afterwards *)
Definition sending (p : pc) : option (chan_id * config * pc) :=
  match p with
  | S3 ch checks k c => Some (ch, c, S4 ch checks k)
  | M4 old c ch pending => Some (ch, c, M3 old c pending)
  | _ => None
  end.

(** scheduler and environment choices; each constructor says whose *)
Inductive label :=
| LNewChan (ch : chan_id) (cap : nat)        (* a client makes a channel *)
| LCloseChan (ch : chan_id)                  (* a client closes one of its channels *)
| LRecv (ch : chan_id)                       (* a client receives a buffered configuration *)
| LCloseSource                               (* the source channel is closed *)
| LCall (t : tid) (k : call)
| LGo (t : tid)                              (* next action of goroutine t *)
| LFresh (t n : nat)                         (* next action of t, which makes channel / spawns goroutine n *)
| LHandoff (t r : tid)                       (* t sends, goroutine r (in Get) receives *)
| LHandoffExt (t : tid)                      (* t sends on a client's channel, a client receives directly *)
| LClosedCase (t : tid)                      (* the <-p.closed.Done() case of a select *)
| LSource (t : tid) (c : config)             (* the <-p.source case *)
| LPick (t : tid) (ch : chan_id).            (* next iteration of the range over subscriptions *)

(** the next action of goroutine [t], config_distributor.go:66-230; [pc] cites the lines of each point *)
Definition go (s : state) (t : tid) : option state :=
  match pcs s t with
  | G0 => Some (if ev_fired (closed s) then ret s t RClosed else with_pc s t G1)
  | G1 => match writer s with None => Some (with_pc (with_readers s (t :: readers s)) t G2) | Some _ => None end
  | G2 => Some (with_pc (with_readers s (remove_tid t (readers s))) t (G3 (last s)))
  | G3 (Some c) => Some (ret s t (RConfig c))
  | S0 ch checks k =>
      Some (if ev_fired (closed s)
            then match k with STop => ret s t RClosed | SGet => with_pc s t (G8 ch RClosed) end
            else with_pc s t (S1 ch checks k))
  | S1 ch checks k => if is_free s then Some (with_pc (with_writer s (Some t)) t (S2 ch checks k)) else None
  | S2 ch checks k =>
      let s1 := log s (HSub ch checks) in
      Some (match last s with
            | Some c => if shouldSendUpdatedConfig checks None c then with_pc s1 t (S3 ch checks k c)
                        else with_pc s1 t (S4 ch checks k)
            | None => with_pc s1 t (S4 ch checks k)
            end)
  | S4 ch checks k =>
      if started s then Some (with_pc (with_subs s (assign ch checks (subs s))) t (S5 ch k)) else None
  | S5 ch k =>
      let s1 := with_writer s None in
      Some (match k with STop => ret s1 t RNil | SGet => with_pc s1 t (G5 ch) end)
  | G6 ch r => if is_free s then Some (with_pc (with_writer s (Some t)) t (G7 ch r)) else None
  | G7 ch r => Some (log (with_pc (with_writer (with_subs s (remove ch (subs s))) None) t (G8 ch r)) (HUnsub ch))
  | G8 ch r =>
      match chans s ch with
      | Some x => if ch_closed x then Some (crash s PanicCloseClosed)
                  else Some (ret (with_chan s ch (Chan (ch_cap x) (ch_queue x) true (ch_owner x))) t r)
      | None => None
      end
  | U0 ch => if is_free s then Some (with_pc (with_writer s (Some t)) t (U1 ch)) else None
  | U1 ch => Some (ret (log (with_writer (with_subs s (remove ch (subs s))) None) (HUnsub ch)) t RNil)
  | C0 k => match closed s with
            | EvInit => Some (log (with_pc (with_closed s (EvFiring t)) t (C1 k)) HFire)
            | EvFiring _ => None
            | EvFired => Some (after_close s t k)
            end
  | C1 k => Some (with_pc (with_closed s EvFired) t (C2 k))
  | C2 k => if is_free s then Some (with_pc (with_writer s (Some t)) t (C3 k)) else None
  | C3 k => Some (after_close (log (with_writer (with_subs s []) None) HCancelAll) t k)
  | M0 => if src_closed s then Some (with_pc s t (C0 CMon)) else None
  | M1 c => if is_free s then Some (with_pc (with_writer s (Some t)) t (M2 c)) else None
  | M2 c => Some (log (with_pc (with_last s (Some c)) t (M3 (last s) c (subs s))) (HInstall c))
  | M3 old c [] => Some (with_pc (with_writer s None) t M0)
  | S3 ch _ _ _ | M4 _ _ ch _ =>
      match sending (pcs s t), chans s ch with
      | Some (_, c, next), Some x =>
          if ch_closed x then Some (crash s PanicSendClosed)
          else if Nat.ltb (length (ch_queue x)) (ch_cap x) then Some (with_pc (enqueue s ch x c) t next)
          else None
      | _, _ => None
      end
  | _ => None
  end.

(** one atomic action of anybody, config_distributor.go:66-230 *)
Definition step (s : state) (l : label) : option state :=
  match crashed s with Some _ => None | None =>
  match l with
  | LNewChan ch cap => match chans s ch with None => Some (with_chan s ch (Chan cap [] false None)) | Some _ => None end
  | LCloseChan ch =>
      match chans s ch with
      | Some (Chan cap q false None) => Some (log (with_chan s ch (Chan cap q true None)) (HCloseChan ch))
      | _ => None
      end
  | LRecv ch =>
      match chans s ch with
      | Some (Chan cap (c :: q) cl None) => Some (log (with_chan s ch (Chan cap q cl None)) (HRecv ch c))
      | _ => None
      end
  | LCloseSource => if src_closed s then None else Some (with_src s true)
  | LCall t k =>
      match pcs s t with
      | Idle =>
          match k with
          | CSubscribe ch _ | CUnsubscribe ch =>
              (* clients only use channels they made *)
              match chans s ch with
              | Some (Chan _ _ _ None) => Some (log (with_pc s t (entry k)) (HCall t k))
              | _ => None
              end
          | _ => Some (log (with_pc s t (entry k)) (HCall t k))
          end
      | _ => None
      end
  | LGo t => go s t
  | LFresh t n =>
      match pcs s t with
      | G3 None => (* :150-154 *)
          match chans s n with
          | None => Some (with_pc (with_chan s n (Chan 0 [] false (Some t))) t (S0 n [] SGet))
          | Some _ => None
          end
      | S4 ch checks k => (* :114-116, the first Subscribe *)
          match started s, pcs s n with
          | false, Idle => Some (log (with_pc (with_pc (with_started (with_subs s (assign ch checks (subs s))) true) t (S5 ch k)) n M0) (HMonStart n))
          | _, _ => None
          end
      | _ => None
      end
  | LHandoff t r =>
      match sending (pcs s t), pcs s r with
      | Some (ch, c, next), G5 ch' =>
          match chans s ch with
          | Some (Chan 0 _ false _) =>
              if Nat.eqb ch ch'
              then Some (log (log (with_pc (with_pc s t next) r (G6 ch' (RConfig c))) (HSent ch c)) (HRecv ch c))
              else None
          | _ => None
          end
      | _, _ => None
      end
  | LHandoffExt t =>
      match sending (pcs s t) with
      | Some (ch, c, next) =>
          match chans s ch with
          | Some (Chan 0 _ false None) => Some (log (log (with_pc s t next) (HSent ch c)) (HRecv ch c))
          | _ => None
          end
      | None => None
      end
  | LClosedCase t =>
      if ev_done (closed s) then
        match pcs s t with
        | G5 ch => Some (with_pc s t (G6 ch RClosed))
        | M0 => Some (log (with_pc s t MExit) (HMonExit t))
        | _ => None
        end
      else None
  | LSource t c =>
      match pcs s t with
      | M0 => if src_closed s then None else Some (log (with_pc s t (M1 c)) (HSource c))
      | _ => None
      end
  | LPick t ch =>
      match pcs s t with
      | M3 old c pending =>
          match lookup ch pending with
          | Some checks =>
              Some (with_pc s t (if shouldSendUpdatedConfig checks old c
                                 then M4 old c ch (remove ch pending) else M3 old c (remove ch pending)))
          | None => None
          end
      | _ => None
      end
  end end.

(** executions start from NewConfigDistributor (config_distributor.go:57-63) *)
Definition init (s : state) : Prop := s = NewConfigDistributor.
