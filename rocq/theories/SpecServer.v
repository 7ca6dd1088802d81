(** Vocabulary for the server properties, read off the history (newest event first). *)
From Verif Require Export Server.

(** Start calls that got past the start check; Close calls that got past the shutdown check. *)
Fixpoint started (h : list event) : list tid :=
  match h with [] => [] | HStarted t :: h' => started h' ++ [t] | _ :: h' => started h' end.
Fixpoint shutdowns (h : list event) : list tid :=
  match h with [] => [] | HShutdown t :: h' => shutdowns h' ++ [t] | _ :: h' => shutdowns h' end.
(** Listeners installed, in order; sessions registered. *)
Fixpoint installed (h : list event) : list nat :=
  match h with [] => [] | HInstall l :: h' => installed h' ++ [l] | _ :: h' => installed h' end.
Fixpoint registered (h : list event) : list nat :=
  match h with [] => [] | HRegister c :: h' => registered h' ++ [c] | _ :: h' => registered h' end.
(** Addresses Start listened on, in order *)
Fixpoint listened (h : list event) : list (nat * bytes) :=
  match h with [] => [] | HListen l a :: h' => listened h' ++ [(l, a)] | _ :: h' => listened h' end.
(** Results of the calls *)
Fixpoint results (h : list event) : list (tid * call * option error) :=
  match h with [] => [] | HRet t c r :: h' => results h' ++ [(t, c, r)] | _ :: h' => results h' end.
(** Goroutines created by the server that have not finished. *)
Fixpoint running (h : list event) : list tid :=
  match h with
  | [] => []
  | HSpawn t :: h' => t :: running h'
  | HDone t :: h' => filter (fun t' => negb (Nat.eqb t' t)) (running h')
  | _ :: h' => running h'
  end.
(** Close has emptied the session table. *)
Fixpoint cleared (h : list event) : bool :=
  match h with [] => false | HCleared :: _ => true | _ :: h' => cleared h' end.
(** Listeners closed by goroutine [t]. *)
Fixpoint listeners_closed (t : tid) (h : list event) : list nat :=
  match h with
  | [] => []
  | HListenerClosed t' l _ :: h' => listeners_closed t h' ++ (if Nat.eqb t t' then [l] else [])
  | _ :: h' => listeners_closed t h'
  end.

(** Listeners closed by the server, newest first. *)
Fixpoint closed_listeners (h : list event) : list nat :=
  match h with [] => [] | HListenerClosed _ l _ :: h' => l :: closed_listeners h' | _ :: h' => closed_listeners h' end.
(** Start calls that returned something other than ErrServerClosed and ErrServerAlreadyStarted *)
Definition other_start (r : option error) : bool :=
  match r with Some ErrServerClosed | Some ErrServerAlreadyStarted => false | _ => true end.
Fixpoint other_starts (h : list event) : list tid :=
  match h with
  | [] => []
  | HRet t CStart r :: h' => if other_start r then t :: other_starts h' else other_starts h'
  | _ :: h' => other_starts h'
  end.
(** Close calls that returned an error *)
Fixpoint failed_closes (h : list event) : list (tid * error) :=
  match h with
  | [] => []
  | HRet t CClose (Some e) :: h' => (t, e) :: failed_closes h'
  | _ :: h' => failed_closes h'
  end.

(** Who holds the server mutex, according to the program *)
Definition in_section (p : pc) : Prop :=
  match p with S2 _ | S3 _ | S4 _ | C3 _ | C4 _ | C10 _ _ | C11 _ _ | K3 | K4 _ _ | K5 _ _ _ | K6 _ => True | _ => False end.
(** inside Start past its check; inside Close past its check *)
Definition in_start (p : pc) : Prop := match p with A2 | A3 | A4 | A5 _ | A6 _ | A7 _ => True | _ => False end.
Definition in_close (p : pc) : Prop := match p with K1 | K2 | K3 | K4 _ _ | K5 _ _ _ | K6 _ | K7 _ | K8 _ => True | _ => False end.
(** what goroutine [t] did since its last call, newest first *)
Fixpoint acts (t : tid) (h : list event) : list event :=
  match h with
  | [] => []
  | HCall t' _ :: h' => if Nat.eqb t' t then [] else acts t h'
  | (HStarted t' | HShutdown t' | HWaited t' | HListenerClosed t' _ _) as e :: h' => if Nat.eqb t' t then e :: acts t h' else acts t h'
  | _ :: h' => acts t h'
  end.
(** a ServeConn call between registration and removal of its session *)
Definition serving_conn (p : pc) (c : nat) : Prop :=
  match p with
  | C4 c' | C5 c' | C6 c' | C7 c' _ | C8 c' _ | C9 c' _ | C10 c' _ => c' = c
  | _ => False
  end.
(** the goroutine acting in a label *)
Definition actor (l : label) : option tid :=
  match l with
  | LStart t | LServe t | LServeConn t | LClose t | LGo t | LSubscribe t _ | LRecv t | LQuit t | LListen t _ | LSpawn t _ | LAccept t _ | LEnd t _
  | LCloseListener t _ | LPick t _ | LWatchdog t => Some t
  | LConfig _ => None
  end.
(** an action of a server goroutine that does not wait for clients, configurations or timers: a closed
    listener refuses Accept, and a closed session's Start returns *)
Definition own_action (s : state) (l : label) : Prop :=
  match l with
  | LGo _ | LQuit _ | LCloseListener _ _ | LPick _ _ | LSpawn _ _ => True
  | LAccept t (AError _) => exists x, pcs s t = S5 x /\ lis_open s x = false
  | LEnd t _ => exists c, pcs s t = C6 c /\ s_fired s c = true
  | _ => False
  end.
Definition quiet (s : state) : Prop := forall l, own_action s l -> step s l = None.
(** what the history was when Close emptied the session table *)
Fixpoint before_clear (h : list event) : list event :=
  match h with [] => [] | HCleared :: h' => h' | _ :: h' => before_clear h' end.
(** actions of the server alone *)
Fixpoint own_run (s : state) (ls : list label) (s' : state) : Prop :=
  match ls with [] => s' = s | l :: ls' => exists s1, own_action s l /\ step s l = Some s1 /\ own_run s1 ls' s' end.
