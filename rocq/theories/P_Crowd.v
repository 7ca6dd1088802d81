(** Properties C112, C113: whoever asks for the configured database is connected to it; sessions nobody uses any more. *)
From Verif Require Import SystemCrowd SystemRuns.
From Verif Require BufferProofs SessionRuns.
Require Import Lia.
Ltac computed := vm_compute; reflexivity.

(** * C112 Whoever asks for the configured database is connected to it *)

(** At rest, with a goroutine in Accept, the distributor has a configuration and nobody holds its lock: the hypotheses of
    the next theorem are met (C101: the program comes to rest, and at rest it accepts). *)
Theorem C112_ready_at_rest : forall s t l, reachable step init s -> panicked s = None -> at_rest s -> in_accept s t l -> unlocked s /\ exists cfg, holds s cfg.
Proof. intros s t l R P Q A. split; [apply rest_mutex; assumption|eapply rest_holds; eassumption]. Qed.
Print Assumptions C112_ready_at_rest.
(** Whatever the sessions there are, their clients and their databases have done so far: a client that connects and sends a startup packet
    for the database of the current configuration gets a session that forwards its packet, as it is, to the
    address of the current configuration, and relays from then on. All it takes from the outside is that the
    connection comes, that net.Dial succeeds and that the database takes the packet. No other session is touched, and the goroutine is back in Accept. *)
Theorem C112_client_connected : forall s t l E cfg p b, reachable step init s -> panicked s = None -> unlocked s -> in_accept s t l ->
  holds s cfg -> Session.parse_uri E (DatabaseURL cfg) = Ok p -> asks_right p b ->
  let c := Server.next_conn (srv s) in exists ls s', run step s ls = Some s' /\ Forall (fun x => own x \/ In x (outside_connects t c b)) ls /\
    panicked s' = None /\ unlocked s' /\ in_accept s' t l /\ holds s' cfg /\ Server.sessions (srv s') = c :: Server.sessions (srv s) /\
    accepted (Server.hist (srv s')) = accepted (Server.hist (srv s)) ++ [c] /\
    fresh_relay (sess s' c) p b /\ (forall c', c' <> c -> sess s' c' = sess s c').
Proof.
  intros s t l E cfg p b R P M A Ho PU AR c. destruct (connected s t l E cfg p b R P M A Ho PU AR) as (ls & s' & H & R' & P' & M' & A' & Ho' & N & T & FR & _ & _ & _ & _ & S & F).
  exists ls, s'. split; [exact H|]. split; [exact F|]. split; [exact P'|]. split; [exact M'|]. split; [exact A'|]. split; [exact Ho'|]. split; [exact T|].
  split; [rewrite (accepted_all _ R), (accepted_all _ R'), N; apply seq_S|]. auto.
Qed.
Print Assumptions C112_client_connected.
(** the second client of [two_sessions], after the first has sent a query *)
Definition busy : list label := one_session ++ passing 0 Session.Client SessionRuns.ex_query.
Example C112_instance : run step (Run (Some cfgA)) busy = Some (final busy) /\ panicked (final busy) = None /\ unlocked (final busy) /\ in_accept (final busy) 2 0 /\ holds (final busy) cfgA /\
  option_map (fun s => (Server.sessions (srv s), Session.start_pc (sess s 1), SpecSession.dials (Session.hist (sess s 1)), SpecSession.sent Session.DB (Session.hist (sess s 1)))) (run step (final busy) (accepting 2 4 ++ negotiated 4 1))
  = Some ([1; 0]%nat, Session.SWait, [str "db.internal:5433"], SessionRuns.ex_startup).
Proof. split; [apply final_run; computed|]. split; [computed|]. split; [computed|]. split; [split; computed|]. split; [split; computed|]. computed. Qed.

(** * C113 Sessions nobody uses any more stay, without bound *)

(** From every state as in C112 and for every [k]: a continuation in which nothing happens but that [k] clients come, are connected
    as in C112, and go away together with their databases, while the program does its part - after which it waits in Accept again, and
    all [k] sessions are in the table. The program has seen both ends of both streams; however long it runs then,
    whatever happens, none of the sessions ends, none leaves the table and no connection of theirs to a client is closed. *)
Theorem C113_abandoned_limited_refuted : forall s t l E cfg p b k, reachable step init s -> panicked s = None -> unlocked s -> in_accept s t l ->
  holds s cfg -> Session.parse_uri E (DatabaseURL cfg) = Ok p -> asks_right p b ->
  exists ls s', run step s ls = Some s' /\ Forall (fun x => own x \/ exists c, In x (outside_connects t c b ++ outside_leaves c)) ls /\
    panicked s' = None /\ unlocked s' /\ in_accept s' t l /\ holds s' cfg /\
    Server.sessions (srv s') = rev (seq (Server.next_conn (srv s)) k) ++ Server.sessions (srv s) /\
    forall c, (Server.next_conn (srv s) <= c < Server.next_conn (srv s) + k)%nat -> abandoned (sess s' c) /\
      forall ls' s'', run step s' ls' = Some s'' -> In c (Server.sessions (srv s'')) /\ Server.conn_open (srv s'') c = true /\
        SpecSession.start_results (Session.hist (sess s'' c)) = [] /\ exists v, has_conn (srv s'') v c.
Proof.
  intros s t l E cfg p b k R P M A Ho PU AR. destruct (crowd s t l E cfg p b k R P M A Ho PU AR) as (ls & s' & H & R' & P' & M' & A' & Ho' & N & T & AB & S & F).
  exists ls, s'. split; [exact H|]. split; [exact F|]. split; [exact P'|]. split; [exact M'|]. split; [exact A'|]. split; [exact Ho'|]. split; [exact T|].
  intros c L. specialize (AB c L). split; [exact AB|]. intros ls' s'' H'. destruct AB as (W & _).
  destruct (established _ _ _ _ R' W H') as (W' & B1 & B2 & B3 & _). split; [exact B2|]. split; [exact B3|]. split; [exact B1|].
  pose proof (reachable_linked _ (reachable_run _ _ _ _ _ R' H')) as LK. pose proof (lk_owner _ LK c) as O. rewrite W' in O. destruct O as [v O]. exists v. destruct (Server.pcs (srv s'') v) eqn:V; try destruct O; unfold has_conn; rewrite V; try reflexivity.
Qed.
Print Assumptions C113_abandoned_limited_refuted.
(** the client of [SessionRuns], again and again *)
Definition again (v c : nat) : list label := accepting 2 v ++ negotiated v c ++ outside_leaves c ++ [YSession c (Session.LRecv Session.Client); YSession c (Session.LRecv Session.DB)].
Example C113_instance :
  (exists p, Session.parse_uri envAB (DatabaseURL cfgA) = Ok p /\ asks_right p SessionRuns.ex_startup) /\
  run step (Run (Some cfgA)) listening_on_A = Some (final listening_on_A) /\ panicked (final listening_on_A) = None /\ unlocked (final listening_on_A) /\ in_accept (final listening_on_A) 2 0 /\ holds (final listening_on_A) cfgA /\
  option_map (fun s => (Server.sessions (srv s), map (fun c => SpecSession.exits (Session.hist (sess s c))) [0; 1; 2]%nat, Server.pcs (srv s) 2%nat, panicked s)) (run step (final listening_on_A) (again 3 0 ++ again 4 1 ++ again 5 2))
  = Some ([2; 1; 0]%nat, repeat [(Session.GIn Session.Client, Some EOF); (Session.GIn Session.DB, Some EOF)] 3, Server.S5 0, None).
Proof.
  split.
  { exists (match Session.parse_uri envAB (DatabaseURL cfgA) with Ok p => p | _ => Dsn.empty_params end).
    assert (X : match Session.parse_uri envAB (DatabaseURL cfgA) with Ok p => bytes_eqb (Dsn.get p (str "database")) (str "app") | _ => false end = true) by computed.
    destruct (Session.parse_uri envAB (DatabaseURL cfgA)) as [p|?|?]; try discriminate X. split; [reflexivity|]. exists (SessionRuns.ex_params (str "app")). split; [exact SessionRuns.wire_startup|].
    destruct (BufferProofs.bytes_eqb_spec (Dsn.get p (str "database")) (str "app")) as [->|]; [|discriminate X]. left. exists [Messages.Param (str "user") (str "bob")], []. split; [reflexivity|]. constructor; [discriminate|constructor]. }
  split; [apply final_run; computed|]. split; [computed|]. split; [computed|]. split; [split; computed|]. split; [split; computed|]. computed.
Qed.
