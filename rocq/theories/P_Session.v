(** C42-C59, C77-C79, C92: the session (pkg/server/session.go). *)
From Verif Require Import SpecWire DsnProofs SessionEnd SessionReason.
Require Import Lia.

(** facts about a concrete execution, computed *)
Ltac computed := match goal with |- run _ _ _ = _ => apply run_final; vm_compute; reflexivity | _ => vm_compute; reflexivity end.

(** *** C42 SSL is always declined and negotiation continues *)
Theorem C42_only_refusals_before_connect : forall s, reachable step init s -> connected (hist s) = false ->
  exists n, (n <= ssl_count (startups (hist s)))%nat /\ sent Client (hist s) = repeat "N"%byte n.
Proof. exact refusals_only. Qed.
Print Assumptions C42_only_refusals_before_connect.
Theorem C42_each_request_answered : forall s, reachable step init s -> start_pc s = SRecv ->
  Forall ssl_request (startups (hist s)) /\ sent Client (hist s) = repeat "N"%byte (length (startups (hist s))) /\ sent DB (hist s) = [] /\
  exists rest, decodes_startup (arrived Client (hist s)) (startups (hist s)) rest.
Proof. exact waiting_answered. Qed.
Print Assumptions C42_each_request_answered.
Example C42_instance :
  option_map (fun s => (start_pc s, startups (hist s), sent Client (hist s), connected (hist s)))
    (run step NewSession (negotiating ++ [LArrive Client (ex_ssl ++ ex_ssl); LStart; LStartWrite 1; LStart; LStartWrite 1]))
  = Some (SRecv, [StartupMessage 80877103 []; StartupMessage 80877103 []], str "NN", false).
Proof. vm_compute. reflexivity. Qed.

(** *** C43 Negotiation is not bounded *)
Theorem C43_negotiation_bounded_refuted : forall n, exists s, reachable step init s /\ start_pc s = SWait /\
  arrived Client (hist s) = concat (repeat ex_ssl n) ++ ex_startup /\ sent Client (hist s) = repeat "N"%byte n /\ sent DB (hist s) = ex_startup.
Proof.
  intros n. destruct (ssl_rounds n) as (ls & s & H & W & A & B & C). destruct (serve s W) as (s' & H' & D & A' & B' & C').
  exists s'. split; [exists NewSession, (ls ++ serving); split; [reflexivity|]; rewrite run_app, H; exact H'|]. rewrite A', B', C', A, B, C. auto.
Qed.
Print Assumptions C43_negotiation_bounded_refuted.
Example C43_instance : startup_wire 80877103 [] ex_ssl /\ startup_wire 196608 (ex_params (str "app")) ex_startup.
Proof. exact (conj wire_ssl wire_startup). Qed.

(** *** C44 No database connection before the checks pass *)
Theorem C44_checked_before_dialling : forall s, reachable step init s ->
  dials (hist s) <> [] \/ connected (hist s) = true \/ sent DB (hist s) <> [] ->
  exists p ps, accepted (hist s) p ps /\ asks_for ps (get p (str "database")) /\ dials (hist s) = [address p].
Proof. intros s R H. destruct (dialled s R H) as (p & ps & A & D). exists p, ps. split; [exact A|]. split; [|exact D]. apply asks_for_get, A. Qed.
Print Assumptions C44_checked_before_dialling.
Theorem C44_startup_forwarded_first : forall s, reachable step init s ->
  exists mid rest, decodes_startup (arrived Client (hist s)) (startups (hist s)) mid /\ decodes_standard mid (msgs Client (hist s)) rest /\
   (sent DB (hist s) = [] \/ exists reqs st, startups (hist s) = reqs ++ [st] /\ Forall ssl_request reqs /\ ~ ssl_request st /\
      prefix_of (sent DB (hist s)) (SendMessage st ++ concat (map SendMessage (msgs Client (hist s))))).
Proof. exact order_db. Qed.
Print Assumptions C44_startup_forwarded_first.
Example C44_instance :
  option_map (fun s => (connected (hist s), dials (hist s), startups (hist s))) (run step NewSession served)
  = Some (true, [str "db.internal:5433"], [StartupMessage 196608 (ex_params (str "app"))]).
Proof. vm_compute. reflexivity. Qed.
(** an IPv6 host is bracketed *)
Example C44_ipv6 : JoinHostPort (str "::1") (str "5432") = str "[::1]:5432".
Proof. reflexivity. Qed.

(** *** C45 Which database the client reaches *)
Theorem C45_single_database_parameter : forall s, reachable step init s -> connected (hist s) = true ->
  exists p ps, accepted (hist s) p ps /\
    forall q, In q ps -> is_database q -> (forall q', In q' ps -> is_database q' -> q' = q) -> p_value q = get p (str "database").
Proof.
  intros s R H. destruct (dialled s R (or_intror (or_introl H))) as (p & ps & A & _). exists p, ps. split; [exact A|]. intros q Hq Hd Hu.
  destruct A as (_ & _ & A). apply asks_for_get in A. destruct A as [(pre & post & E & _)|[_ F]].
  - rewrite <- (Hu (Param (str "database") (get p (str "database")))); [reflexivity| |reflexivity]. rewrite E. apply in_or_app. right. left. reflexivity.
  - rewrite Forall_forall in F. destruct (F _ Hq Hd).
Qed.
Print Assumptions C45_single_database_parameter.
(** the second database parameter is not checked, and reaches the database, which uses the last one *)
Definition ex_smuggle : list startup_param := ex_params (str "app") ++ [Param (str "database") (str "secret")].
Theorem C45_only_configured_database_refuted : exists ls s, run step NewSession ls = Some s /\ start_pc s = SWait /\
  sent DB (hist s) = SendMessage (StartupMessage 196608 ex_smuggle) /\
  (exists p, configured (hist s) p /\ get p (str "database") = str "app") /\
  p_value (last ex_smuggle (Param [] [])) = str "secret".
Proof.
  set (b := SendMessage (StartupMessage 196608 ex_smuggle)).
  set (ls := negotiating ++ [LArrive Client b; LStart; LConfig ex_env (Ok ex_cfg); LStart; LStart; LDial None; LStartWrite (length b)]). exists ls.
  exists (final ls). split; [computed|]. split; [computed|]. split; [computed|]. split; [|computed].
  exists ex_db. split; [|computed]. exists ex_env, ex_cfg. split; [computed|exact ex_parses].
Qed.
Print Assumptions C45_only_configured_database_refuted.
Example C45_instance : exists p, parse_uri ex_env (DatabaseURL ex_cfg) = Ok p /\ get p (str "database") = str "app" /\
  GetParameter (ex_params (str "app")) (str "database") = str "app".
Proof. exists ex_db. split; [exact ex_parses|]. split; computed. Qed.

(** *** C46 A rejected client is told nothing *)
Theorem C46_rejection_is_silent : forall s, reachable step init s -> connected (hist s) = false -> start_results (hist s) <> [] ->
  exists n, (n <= ssl_count (startups (hist s)))%nat /\ sent Client (hist s) = repeat "N"%byte n.
Proof. intros s R H _. exact (refusals_only s R H). Qed.
Print Assumptions C46_rejection_is_silent.
Definition rejected_run (m : message) : list label :=
  negotiating ++ [LArrive Client (SendMessage m); LStart; LConfig ex_env (Ok ex_cfg)] ++ repeat (LClose 0 None) 9.
Theorem C46_error_response_refuted : exists ls s, run step NewSession ls = Some s /\ startups (hist s) = [StartupMessage 196608 (ex_params (str "other"))] /\
  start_results (hist s) = [Some (ErrDatabaseMismatch (str "other") (str "app"))] /\ sent Client (hist s) = [] /\ dials (hist s) = [].
Proof.
  exists (rejected_run (StartupMessage 196608 (ex_params (str "other")))), (final (rejected_run (StartupMessage 196608 (ex_params (str "other"))))).
  split; [computed|]. split; [computed|]. split; [computed|]. split; computed.
Qed.
Print Assumptions C46_error_response_refuted.
(** protocol 2.0 *)
Example C46_instance :
  option_map (fun s => (start_results (hist s), sent Client (hist s), option_map is_open (conns s Client)))
    (run step NewSession (negotiating ++ [LArrive Client (SendMessage (StartupMessage 131072 (ex_params (str "app")))); LStart] ++ repeat (LClose 0 None) 9))
  = Some ([Some (ErrUnsupportedVersion 131072)], [], Some false).
Proof. vm_compute. reflexivity. Qed.

(** *** C47 One configuration snapshot *)
Theorem C47_asked_once : forall s, reachable step init s -> (length (configs (hist s)) <= 1)%nat.
Proof. exact one_config. Qed.
Print Assumptions C47_asked_once.
Theorem C47_same_snapshot : forall s, reachable step init s -> dials (hist s) <> [] ->
  exists p, configured (hist s) p /\ dials (hist s) = [address p].
Proof. intros s R H. destruct (dialled s R (or_introl H)) as (p & ps & (_ & C & _) & D). eauto. Qed.
Print Assumptions C47_same_snapshot.
(** a failure ends Start with that error, and nothing is dialled *)
Theorem C47_failure_reported : forall s E r e, reachable step init s -> configs (hist s) = [(E, r)] ->
  r = Err e \/ (exists cfg, r = Ok cfg /\ parse_uri E (DatabaseURL cfg) = Err e) ->
  (start_results (hist s) = [] \/ start_results (hist s) = [Some e]) /\ (start_pc s = SDefer (Some e) \/ start_pc s = SDone (Some e)) /\ dials (hist s) = [].
Proof.
  intros s E r e R H He. pose proof (config_failure s E r R H) as X.
  assert (ends_with s e) as Y by (destruct He as [->|(cfg & -> & Hp)]; auto). split; [|split; [exact Y|]].
  - pose proof (li_result _ (al_life _ (fu_all _ (reachable_full _ R)))) as Z; destruct Y as [Y|Y]; rewrite Y in Z; auto.
  - destruct (dials (hist s)) eqn:Ed; [reflexivity|]. exfalso. destruct (dialled s R) as (p & ps & (_ & (E' & cfg & C1 & C2) & _) & _); [left; rewrite Ed; discriminate|].
    rewrite H in C1. injection C1 as <- ->. destruct He as [He|(cfg' & He & Hp)]; [discriminate|]. injection He as <-. congruence.
Qed.
Print Assumptions C47_failure_reported.
Example C47_instance :
  option_map (fun s => (start_results (hist s), dials (hist s), length (configs (hist s))))
    (run step NewSession (negotiating ++ [LArrive Client ex_startup; LStart; LConfig ex_env (Err ErrConfigDistributorClosed)] ++ repeat (LClose 0 None) 9))
  = Some ([Some ErrConfigDistributorClosed], [], 1%nat).
Proof. vm_compute. reflexivity. Qed.

(** *** C48, C49 The two directions *)
Theorem C48_client_to_database : forall s, reachable step init s ->
  exists mid rest, decodes_startup (arrived Client (hist s)) (startups (hist s)) mid /\ decodes_standard mid (msgs Client (hist s)) rest /\
   (sent DB (hist s) = [] \/ exists reqs st, startups (hist s) = reqs ++ [st] /\ Forall ssl_request reqs /\ ~ ssl_request st /\
      prefix_of (sent DB (hist s)) (SendMessage st ++ concat (map SendMessage (msgs Client (hist s))))).
Proof. exact order_db. Qed.
Print Assumptions C48_client_to_database.
Theorem C49_database_to_client : forall s, reachable step init s ->
  exists rest, decodes_standard (arrived DB (hist s)) (msgs DB (hist s)) rest /\
    prefix_of (sent Client (hist s)) (repeat "N"%byte (ssl_count (startups (hist s))) ++ concat (map SendMessage (msgs DB (hist s)))).
Proof. exact order_client. Qed.
Print Assumptions C49_database_to_client.
(** a query in two segments, the answer interleaved, a write of three bytes that then fails *)
Definition two_way : list label :=
  served ++ pass DB ex_ready ++ [LArrive Client (firstn 7 ex_query); LTake Client; LArrive Client (skipn 7 ex_query); LRecv Client; LWrite Client 2; LIn Client; LSelect Client; LProc;
    LWrite Client 4; LTake DB; LWrite DB 3; LWriteErr DB (ErrExternal 7)].
Example C48_instance :
  option_map (fun s => (sent DB (hist s), msgs Client (hist s))) (run step NewSession two_way)
  = Some (ex_startup ++ [x51; x00; x00], [Query (str "SELECT 1")]).
Proof. vm_compute. reflexivity. Qed.
Example C49_instance :
  option_map (fun s => (sent Client (hist s), length (msgs DB (hist s)))) (run step NewSession two_way) = Some (ex_ready, 1%nat).
Proof. vm_compute. reflexivity. Qed.

(** *** C50 Conforming traffic is forwarded verbatim *)
Theorem C50_verbatim_to_client : forall s ls more, reachable step init s ->
  arrived DB (hist s) ++ more = concat ls -> Forall backend_packet ls ->
  prefix_of (sent Client (hist s)) (repeat "N"%byte (ssl_count (startups (hist s))) ++ arrived DB (hist s)).
Proof. exact verbatim_client. Qed.
Print Assumptions C50_verbatim_to_client.
Theorem C50_verbatim_to_database : forall s ss v ps sp ls more, reachable step init s ->
  Forall (startup_wire 80877103 []) ss -> startup_wire v ps sp -> v <> 80877103 -> Forall frontend_packet ls ->
  arrived Client (hist s) ++ more = concat ss ++ sp ++ concat ls ->
  sent DB (hist s) = [] \/ prefix_of (concat ss ++ sent DB (hist s)) (arrived Client (hist s)).
Proof. exact verbatim_db. Qed.
Print Assumptions C50_verbatim_to_database.
(** a ReadyForQuery of the database, and SSLRequest, startup and a query of the client *)
Example C50_instance :
  (exists ls, ex_ready = concat ls /\ Forall backend_packet ls) /\
  (exists ss ls, ex_ssl ++ ex_startup ++ ex_query = concat ss ++ ex_startup ++ concat ls /\ Forall (startup_wire 80877103 []) ss /\ Forall frontend_packet ls) /\
  startup_wire 196608 (ex_params (str "app")) ex_startup.
Proof.
  split; [|split; [|exact wire_startup]].
  - exists [ex_ready]. split; [reflexivity|]. constructor; [|constructor]. apply (bp_structured (ReadyForQuery "I") "Z" [x49]); [cbn; auto|apply enc_ready|].
    exists [x00; x00; x00; x05]. split; [vm_compute; intuition congruence|reflexivity].
  - exists [ex_ssl], [ex_query]. split; [reflexivity|]. split; [constructor; [exact wire_ssl|constructor]|]. constructor; [|constructor].
    apply (fp_query (str "SELECT 1") (str "SELECT 1" ++ [x00])); [split; [vm_compute; intuition discriminate|reflexivity]|].
    exists [x00; x00; x00; x0d]. split; [vm_compute; intuition congruence|reflexivity].
Qed.

(** *** C51 Nothing gets stuck *)
Theorem C51_quiescent_means_forwarded : forall s, reachable step init s -> healthy s -> quiescent s -> forall d,
  exists mid rest, decodes_startup (arrived d (hist s)) (match d with Client => startups (hist s) | DB => [] end) mid /\
    decodes_standard mid (msgs d (hist s)) rest /\ frame_incomplete 5 rest /\
    sent (other d) (hist s) = base (other d) (hist s) ++ concat (map SendMessage (msgs d (hist s))).
Proof.
  intros s R H Q d. destruct (quiescent_done s (reachable_all _ R) H Q d) as (A & B & mid & rest & C & D & E). exists mid, rest.
  repeat (split; [assumption|]). rewrite B. unfold total. rewrite A. reflexivity.
Qed.
Print Assumptions C51_quiescent_means_forwarded.
Theorem C51_internal_steps_terminate : forall s, exists bound, forall ls s', run step s ls = Some s' ->
  Forall (fun l => internal l = true) ls -> (length ls <= bound)%nat.
Proof. intros s. exists (work s). intros ls s' H F. pose proof (internal_bounded _ _ _ H F). lia. Qed.
Print Assumptions C51_internal_steps_terminate.
(** both messages forwarded; three bytes of the next one are waiting for more *)
Definition settled : list label :=
  served ++ pass DB ex_ready ++ [LTake Client; LWrite Client 6] ++ pass Client ex_query ++ [LTake DB; LWrite DB 14; LArrive Client [x51; x00; x00]].
Example C51_instance : run step NewSession settled = Some (final settled) /\ healthy (final settled) /\ quiescent (final settled) /\
  sent Client (hist (final settled)) = ex_ready /\ sent DB (hist (final settled)) = ex_startup ++ ex_query.
Proof.
  split; [computed|]. split; [repeat split; computed|]. split; [|split; computed].
  intros l Hl. destruct l; try discriminate Hl; try destruct d; computed.
Qed.

(** *** C52 Buffering *)
Theorem C52_channel_capacity : forall s d, reachable step init s ->
  (length (queue (chan_in s d)) <= 64 /\ length (queue (chan_out s d)) <= 64)%nat.
Proof. intros s d R. exact (fu_cap _ (reachable_full _ R) d). Qed.
Print Assumptions C52_channel_capacity.
Theorem C52_at_most_131_pending : forall s d, reachable step init s -> msgs d (hist s) <> [] ->
  exists written pending, msgs d (hist s) = written ++ pending /\ (length pending <= 131)%nat /\
    prefix_of (base (other d) (hist s) ++ concat (map SendMessage written)) (sent (other d) (hist s)).
Proof. intros s d. exact (buffered s d). Qed.
Print Assumptions C52_at_most_131_pending.
(** 131 is reached: 64 + 64 queued and one message in each goroutine *)
Definition flood : list label :=
  served ++ concat (repeat (pass DB ex_ready) 1) ++ [LTake Client] ++ concat (repeat (pass DB ex_ready) 64) ++
  [LArrive DB ex_ready; LRecv DB; LIn DB; LSelect DB] ++ concat (repeat [LArrive DB ex_ready; LRecv DB; LIn DB] 64) ++ [LArrive DB ex_ready; LRecv DB].
Example C52_instance :
  option_map (fun s => (length (msgs DB (hist s)), sent Client (hist s), length (queue (chan_in s DB)), length (queue (chan_out s Client)))) (run step NewSession flood)
  = Some (131%nat, [], 64%nat, 64%nat).
Proof. vm_compute. reflexivity. Qed.

(** *** C53 A client that does not read *)
(** without any client write possible, everything the client sent was forwarded, or 65 messages wait for it *)
Theorem C53_blocked_only_by_full_channel : forall s, reachable step init s -> healthy s ->
  (forall l, internal l = true -> (forall n, l <> LWrite Client n) -> step s l = None) ->
  sent DB (hist s) = base DB (hist s) ++ concat (map SendMessage (msgs Client (hist s))) \/
  length (queue (chan_out s Client)) = 64%nat /\ (exists rest, out_pc s Client = OWrite rest) /\ (exists m, proc_pc s = PSend DB m).
Proof.
  intros s R H Q. destruct (quiescent_unread s (reachable_full _ R) H) as [[A B]|X].
  - intros l Hi Hw. apply Q; [exact Hi|]. intros n ->. discriminate Hw.
  - left. rewrite B. unfold total. rewrite A. reflexivity.
  - right. exact X.
Qed.
Print Assumptions C53_blocked_only_by_full_channel.
(** 66 unread messages of the database, then nothing of the client ever reaches the database *)
Definition stuffed : list label :=
  served ++ pass DB ex_ready ++ [LTake Client] ++ concat (repeat (pass DB ex_ready) 64) ++ [LArrive DB ex_ready; LRecv DB; LIn DB; LSelect DB].
Theorem C53_directions_independent_refuted : exists s, run step NewSession stuffed = Some s /\ healthy s /\ sent DB (hist s) = ex_startup /\
  forall ls s', run step s ls = Some s' -> Forall (fun l => ~ client_reads_or_close l) ls -> sent DB (hist s') = ex_startup /\ start_pc s' = SWait.
Proof.
  assert (run step NewSession stuffed = Some (final stuffed)) as H by computed.
  assert (healthy (final stuffed)) as Hh by (repeat split; computed).
  assert (sent DB (hist (final stuffed)) = ex_startup) as Hs by computed.
  assert (wedged (final stuffed)) as Hw.
  { split; [exists (ReadyForQuery "I"); computed|]. split; [computed|]. split; [computed|]. split; [exists ex_ready; computed|]. repeat split; computed. }
  exists (final stuffed). repeat (split; [assumption|]). intros ls s' Hr F. rewrite <- Hs. destruct (wedged_forever _ _ _ Hw Hr F) as [(_ & _ & _ & _ & _ & _ & _ & X) Y]. auto.
Qed.
Print Assumptions C53_directions_independent_refuted.
(** the client's query is decoded and queued, and stays there *)
Example C53_instance :
  option_map (fun s => (sent DB (hist s), msgs Client (hist s), queue (chan_in s Client), step s LProc))
    (run step NewSession (stuffed ++ [LArrive Client ex_query; LRecv Client; LIn Client]))
  = Some (ex_startup, [Query (str "SELECT 1")], [Query (str "SELECT 1")], None).
Proof. vm_compute. reflexivity. Qed.

(** *** C54 Without an external Close, Start does not return *)
Theorem C54_start_waits_for_close : forall ls1 ls2 s1 s2, run step NewSession ls1 = Some s1 -> start_pc s1 = SWait ->
  run step s1 ls2 = Some s2 -> Forall (fun l => ~ calls_close l) (ls1 ++ ls2) -> start_pc s2 = SWait /\ start_results (hist s2) = [] /\ fires (hist s2) = [].
Proof.
  intros ls1 ls2 s1 s2 H1 Hw H2 F. apply Forall_app in F. destruct F as [F1 F2]. destruct (alone_run _ _ H1 F1) as (A & B & C).
  destruct (stays_running s1 ls2 s2 A B C Hw H2 F2) as (X & Y & Z). split; [exact X|]. split; [exact Z|].
  assert (reachable step init s2) as R by (exists NewSession, (ls1 ++ ls2); split; [reflexivity|]; rewrite run_app, H1; exact H2).
  apply (ki_init _ (pp_close _ (al_pipes _ (reachable_all _ R)))), Y.
Qed.
Print Assumptions C54_start_waits_for_close.
(** both peers hang up; no goroutine can move, Start has not returned, the connections are open *)
Definition hung_up : list label := served ++ [LHangup Client EOF; LHangup DB EOF; LRecv Client; LRecv DB].
Theorem C54_hangup_ends_session_refuted : exists s, run step NewSession hung_up = Some s /\
  map fst (exits (hist s)) = [GIn Client; GIn DB] /\ start_results (hist s) = [] /\ quiescent s /\ step s LStart = None /\
  option_map is_open (conns s Client) = Some true /\ option_map is_open (conns s DB) = Some true.
Proof.
  exists (final hung_up). split; [computed|]. split; [computed|]. split; [computed|]. split; [|split; [computed|split; computed]].
  intros l Hl. destruct l; try discriminate Hl; try destruct d; computed.
Qed.
Print Assumptions C54_hangup_ends_session_refuted.

(** *** C55 Crashes *)
(** given a url.Parse that does not panic, only two things crash the process: a send on a channel after
    a Close, or a message the decoder cannot survive (C23) at the head of what is unread *)
Theorem C55_crash_causes : forall ls s q, run step NewSession ls = Some s -> Forall sane_label ls -> crashed s = Some q ->
  q = PanicSendClosed /\ fires (hist s) <> [] \/
  exists d mid t len L body rest, decodes_startup (arrived d (hist s)) (match d with Client => startups (hist s) | DB => [] end) mid /\
    decodes_standard mid (msgs d (hist s)) (t :: len ++ body ++ rest) /\ int32_repr L len /\ Z.of_nat (length body) = announced_body L /\ crashing t body.
Proof. exact crash_causes. Qed.
Print Assumptions C55_crash_causes.
(** every Close that completes while a goroutine holds a message crashes the process *)
Theorem C55_message_in_hand : forall s, reachable step init s -> crashed s = None -> fires (hist s) <> [] -> (forall t, close_pc s t = KIdle) ->
  (forall d m, in_pc s d = ISend m -> exists s', step s (LIn d) = Some s' /\ crashed s' = Some PanicSendClosed) /\
  (forall d m, proc_pc s = PSend d m -> exists s', step s LProc = Some s' /\ crashed s' = Some PanicSendClosed).
Proof.
  intros s R Hc Hf Hk. destruct (in_hand_crashes s R Hc Hf Hk) as [A B].
  split; intros d m E; eexists; (split; [first [eapply A, E|eapply B, E]|reflexivity]).
Qed.
Print Assumptions C55_message_in_hand.
Theorem C55_close_is_safe_in_pump_refuted : exists ls s, run step NewSession ls = Some s /\ Forall sane_label ls /\ crashed s = Some PanicSendClosed /\
  msgs Client (hist s) = [Query (str "SELECT 1")].
Proof.
  set (ls := served ++ [LArrive Client ex_query; LRecv Client] ++ close_by 1 ++ [LIn Client]). exists ls, (final ls). split; [computed|].
  split; [repeat constructor; cbn; apply ex_env_sane|]. split; computed.
Qed.
Print Assumptions C55_close_is_safe_in_pump_refuted.
Theorem C55_close_is_safe_processing_refuted : exists ls s, run step NewSession ls = Some s /\ Forall sane_label ls /\ crashed s = Some PanicSendClosed /\
  msgs DB (hist s) = [ReadyForQuery "I"].
Proof.
  set (ls := served ++ [LArrive DB ex_ready; LRecv DB; LIn DB; LSelect DB] ++ close_by 1 ++ [LProc]). exists ls, (final ls). split; [computed|].
  split; [repeat constructor; cbn; apply ex_env_sane|]. split; computed.
Qed.
Print Assumptions C55_close_is_safe_processing_refuted.
(** a message of eleven bytes *)
Example C55_instance :
  option_map crashed (run step NewSession (served ++ [LArrive DB [x44; x00; x00; x00; x0a; x00; x01; xff; xff; xff; xfe]; LRecv DB])) = Some (Some PanicSliceBounds).
Proof. vm_compute. reflexivity. Qed.

(** *** C56 What Close releases *)
Theorem C56_close_releases : forall s, reachable step init s -> fires (hist s) <> [] -> (forall t, close_pc s t = KIdle) ->
  (exists c, conns s Client = Some c /\ is_open c = false) /\
  (forall d, chan_closed (chan_in s d) = true /\ chan_closed (chan_out s d) = true) /\
  (forall c, conns s DB = Some c -> is_open c = false \/ late_connect (hist s)).
Proof. exact released. Qed.
Print Assumptions C56_close_releases.
(** Close during the dial; Start then goes on and returns with the database connection still open *)
Definition leak : list label :=
  negotiating ++ [LArrive Client ex_startup; LStart; LConfig ex_env (Ok ex_cfg); LStart; LStart] ++ close_by 1 ++
  [LDial None; LStartWrite (length ex_startup); LRecv Client; LTake Client; LTake DB; LSelect Client; LHangup DB EOF; LRecv DB; LStart; LClose 0 None; LClose 0 None].
Theorem C56_no_leak_refuted : exists s, run step NewSession leak = Some s /\
  close_results (hist s) = [(1%nat, None); (0%nat, None)] /\ start_results (hist s) = [Some ErrConnClosed] /\
  (forall t, close_pc s t = KIdle) /\ option_map is_open (conns s DB) = Some true /\ conn_closes DB (hist s) = [].
Proof.
  exists (final leak). split; [computed|]. split; [computed|]. split; [computed|]. split; [|split; computed]. intros [|[|t]]; computed.
Qed.
Print Assumptions C56_no_leak_refuted.
Example C56_instance :
  option_map (fun s => (option_map is_open (conns s Client), option_map is_open (conns s DB), close_results (hist s), crashed s)) (run step NewSession (served ++ close_by 1))
  = Some (Some false, Some false, [(1%nat, None)], None).
Proof. vm_compute. reflexivity. Qed.

(** *** C57 Close is idempotent *)
Theorem C57_closed_once : forall s, reachable step init s ->
  (length (fires (hist s)) <= 1)%nat /\ (forall d, length (conn_closes d (hist s)) <= 1)%nat /\ (chan_closes (hist s) <= 4)%nat /\
  (close_errors (hist s) = [] \/ exists t e, close_errors (hist s) = [(t, e)] /\ fires (hist s) = [t] /\ Some e = last_close (hist s)).
Proof. exact close_once. Qed.
Print Assumptions C57_closed_once.
(** a Close call that is not the first returns nil and changes nothing but its own progress *)
Theorem C57_later_calls_do_nothing : forall s t r, reachable step init s -> crashed s = None -> close_pc s (S t) = K0 -> closed s = EvFired ->
  exists s', run step s [LClose (S t) r; LClose (S t) r] = Some s' /\ hist s' = HCloseRet (S t) None :: hist s /\
    conns s' = conns s /\ chan_in s' = chan_in s /\ chan_out s' = chan_out s /\ closed s' = closed s /\ start_pc s' = start_pc s /\ close_pc s' (S t) = KIdle.
Proof.
  intros s t r _ Hc Hk Hx. cbn [run]. unfold step at 1. rewrite Hc. unfold go_close. rewrite Hk, Hx. unfold step. cbn. rewrite Hc. unfold go_close. cbn. unfold upd at 1. rewrite Nat.eqb_refl.
  eexists. split; [reflexivity|]. cbn. unfold upd. rewrite Nat.eqb_refl. auto 10.
Qed.
Print Assumptions C57_later_calls_do_nothing.
(** Close calls do not deadlock: each can go on, or waits for the first one, which can *)
Theorem C57_close_never_deadlocks : forall s t r, reachable step init s -> crashed s = None -> close_pc s t <> KIdle ->
  step s (LClose t r) <> None \/ exists w, w <> t /\ closed s = EvFiring w /\ step s (LClose w r) <> None.
Proof. exact close_progress. Qed.
Print Assumptions C57_close_never_deadlocks.
(** three concurrent calls, the second one is the first to fire *)
Example C57_instance :
  option_map (fun s => (fires (hist s), close_results (hist s), chan_closes (hist s), conn_closes Client (hist s), conn_closes DB (hist s)))
    (run step NewSession (served ++ [LCallClose 1; LCallClose 2; LClose 2 None; LCallClose 3; LClose 2 None; LClose 3 None; LClose 1 None; LClose 2 (Some EOF); LClose 1 None; LClose 2 (Some (ErrExternal 3));
       LClose 2 None; LClose 2 None; LClose 2 None; LClose 2 None; LClose 2 None; LClose 3 None]))
  = Some ([2%nat], [(1%nat, None); (2%nat, Some (ErrExternal 3)); (3%nat, None)], 4%nat, [Some EOF], [Some (ErrExternal 3)]).
Proof. vm_compute. reflexivity. Qed.

(** *** C58 Start reports the first failure *)
Theorem C58_first_failure : forall s r, reachable step init s -> In r (start_results (hist s)) ->
  start_results (hist s) = [r] /\
  (exits (hist s) = [] \/
   (r = first_error (exits (hist s)) /\
    Permutation.Permutation (map fst (exits (hist s))) [GIn Client; GIn DB; GOut Client; GOut DB; GProc])).
Proof. exact start_result. Qed.
Print Assumptions C58_first_failure.
Theorem C58_closed_session : forall s, reachable step init s -> crashed s = None -> start_pc s = SEntry -> closed s = EvFired ->
  exists s', step s LStart = Some s' /\ start_pc s' = SDone (Some ErrSessionClosed) /\ hist s' = HStartRet (Some ErrSessionClosed) :: hist s /\ conns s' = conns s.
Proof.
  intros s _ Hc Hs Hx. unfold step. rewrite Hc. unfold go_start. rewrite Hs, Hx. cbn. eexists. split; [reflexivity|]. cbn. auto.
Qed.
Print Assumptions C58_closed_session.
(** the database in pump fails first, then Close *)
Example C58_instance :
  option_map (fun s => (start_results (hist s), map fst (exits (hist s))))
    (run step NewSession (served ++ [LReset DB (ErrExternal 104); LRecv DB] ++ close_by 1 ++ [LRecv Client; LTake DB; LTake Client; LSelect DB; LStart; LClose 0 None; LClose 0 None]))
  = Some ([Some (ErrExternal 104)], [GIn DB; GIn Client; GOut DB; GOut Client; GProc]).
Proof. vm_compute. reflexivity. Qed.
Example C58_early : option_map (fun s => (start_results (hist s), sent Client (hist s))) (run step NewSession (close_by 1 ++ [LCallStart; LStart]))
  = Some ([Some ErrSessionClosed], []).
Proof. vm_compute. reflexivity. Qed.

(** *** C59 Everything forwarded is logged *)
Theorem C59_forwarded_is_logged : forall s d m, reachable step init s -> In m (taken (other d) (hist s)) -> In (SendMessage m) (logged d (hist s)).
Proof. intros s d m. exact (forwarded_logged s d m). Qed.
Print Assumptions C59_forwarded_is_logged.
Theorem C59_passwords_not_logged_refuted : exists ls s, run step NewSession ls = Some s /\ msgs Client (hist s) = [Password (str "s3cret")] /\
  logged Client (hist s) = [[x70; x00; x00; x00; x0b] ++ str "s3cret" ++ [x00]].
Proof. exists (served ++ pass Client ex_password), (final (served ++ pass Client ex_password)). split; [computed|]. split; computed. Qed.
Print Assumptions C59_passwords_not_logged_refuted.
Example C59_instance : option_map (fun s => (taken DB (hist s), logged Client (hist s))) (run step NewSession (served ++ pass Client ex_query ++ [LTake DB]))
  = Some ([Query (str "SELECT 1")], [ex_query]).
Proof. vm_compute. reflexivity. Qed.

(** *** C77 Which error Close reports *)
Theorem C77_last_error_wins : forall s t e, reachable step init s -> In (t, e) (close_errors (hist s)) -> fires (hist s) = [t] /\ last_close (hist s) = Some e.
Proof.
  intros s t e R H. destruct (close_once s R) as (_ & _ & _ & [X|(t' & e' & X & F & L)]); rewrite X in H; [destruct H|]. destruct H as [H|[]]. injection H as <- <-. auto.
Qed.
Print Assumptions C77_last_error_wins.
(** closing the client connection failed, closing the database connection did not: Close returns nil *)
Theorem C77_client_error_reported_refuted : exists ls s e, run step NewSession ls = Some s /\ conn_closes Client (hist s) = [Some e] /\ close_results (hist s) = [(1%nat, None)].
Proof.
  set (ls := served ++ [LCallClose 1; LClose 1 None; LClose 1 None; LClose 1 (Some (ErrExternal 5))] ++ repeat (LClose 1 None) 6). exists ls, (final ls), (ErrExternal 5).
  split; [computed|]. split; computed.
Qed.
Print Assumptions C77_client_error_reported_refuted.
Example C77_instance :
  option_map (fun s => close_errors (hist s)) (run step NewSession (negotiating ++ [LCallClose 1; LClose 1 None; LClose 1 None; LClose 1 (Some (ErrExternal 5))] ++ repeat (LClose 1 None) 6))
  = Some [(1%nat, ErrExternal 5)].
Proof. vm_compute. reflexivity. Qed.

(** *** C78 After Close, Start comes to an end *)
Theorem C78_goroutines_end_after_close : forall s, reachable step init s -> crashed s = None -> start_pc s = SWait ->
  fires (hist s) <> [] -> (forall t, close_pc s t = KIdle) -> ~ late_connect (hist s) -> (forall l, ending l = true -> step s l = None) ->
  exists s', step s LStart = Some s' /\ start_pc s' = SDefer (first_error (exits (hist s))).
Proof.
  intros s R Hc Hs Hf Hk Hl HQ. pose proof (drained s R Hc Hs Hf Hk Hl HQ) as X. unfold step. rewrite Hc. unfold go_start. rewrite Hs, X. eexists. split; [reflexivity|].
  cbn. rewrite (li_gerr _ (al_life _ (reachable_all _ R))). reflexivity.
Qed.
Print Assumptions C78_goroutines_end_after_close.
Theorem C78_bounded : forall s, exists bound, forall ls s', run step s ls = Some s' -> Forall (fun l => ending l = true) ls -> (length ls <= bound)%nat.
Proof. intros s. exists (work s). intros ls s' H F. pose proof (ending_bounded _ _ _ H F). lia. Qed.
Print Assumptions C78_bounded.
(** with a database connection made after Close, the database decides whether Start ever returns *)
Theorem C78_late_connection_hangs_refuted : exists ls s, run step NewSession ls = Some s /\ crashed s = None /\ start_pc s = SWait /\
  close_results (hist s) = [(1%nat, None)] /\ (forall l, ending l = true -> step s l = None) /\ step s LStart = None.
Proof.
  set (ls := negotiating ++ [LArrive Client ex_startup; LStart; LConfig ex_env (Ok ex_cfg); LStart; LStart] ++ close_by 1 ++
    [LDial None; LStartWrite (length ex_startup); LRecv Client; LTake Client; LTake DB; LSelect Client]). exists ls.
  exists (final ls). split; [computed|]. split; [computed|]. split; [computed|]. split; [computed|]. split; [|computed].
  intros l Hl. destruct l; try discriminate Hl; try destruct d; computed.
Qed.
Print Assumptions C78_late_connection_hangs_refuted.
Example C78_instance :
  option_map (fun s => (start_pc s, crashed s, close_results (hist s), map (fun l => match step s l with Some _ => true | None => false end) [LRecv Client; LRecv DB; LTake Client; LTake DB; LSelect Client]))
    (run step NewSession (served ++ close_by 1)) = Some (SWait, None, [(1%nat, None)], [true; true; true; true; true]).
Proof. vm_compute. reflexivity. Qed.

(** *** C92 Start always ends in an error, and which one *)
(** the expected property, that a session which ends in good order makes Start return nil ("session:
    completed"), is false: no execution does *)
Theorem C92_orderly_end_returns_nil_refuted : forall s r, reachable step init s -> In r (start_results (hist s)) -> r <> None.
Proof. exact never_nil. Qed.
Print Assumptions C92_orderly_end_returns_nil_refuted.
(** an in pump ends with an error only; the processing goroutine never reports one, and ends only after
    a Close; an out pump ends without an error only after a Close *)
Theorem C92_goroutine_results : forall s g r, reachable step init s -> In (g, r) (exits (hist s)) ->
  match g with
  | GIn _ => r <> None
  | GOut _ => r = None -> fires (hist s) <> []
  | GProc => r = None /\ fires (hist s) <> []
  end.
Proof. intros s g r R. exact (reachable_exit_reason s R g r). Qed.
Print Assumptions C92_goroutine_results.
(** an unsupported protocol version and a foreign database each end Start with their own error *)
Theorem C92_unsupported_version : forall s v ps, reachable step init s -> In (StartupMessage v ps) (startups (hist s)) ->
  v <> 80877103 -> v <> 196608 ->
  (start_pc s = SDefer (Some (ErrUnsupportedVersion v)) \/ start_pc s = SDone (Some (ErrUnsupportedVersion v))) /\
  (start_results (hist s) = [] \/ start_results (hist s) = [Some (ErrUnsupportedVersion v)]).
Proof.
  intros s v ps R Hin N1 N2. destruct (reachable_rejected s R) as [X _]. destruct (X _ _ Hin) as [Y|[Y|Y]]; try contradiction.
  split; [exact Y|apply ends_result; assumption].
Qed.
Print Assumptions C92_unsupported_version.
Theorem C92_database_mismatch : forall s p ps, reachable step init s -> configured (hist s) p ->
  In (StartupMessage 196608 ps) (startups (hist s)) -> ~ asks_for ps (get p (str "database")) ->
  let e := ErrDatabaseMismatch (GetParameter ps (str "database")) (get p (str "database")) in
  (start_pc s = SDefer (Some e) \/ start_pc s = SDone (Some e)) /\ (start_results (hist s) = [] \/ start_results (hist s) = [Some e]) /\
  dials (hist s) = [].
Proof.
  intros s p ps R Hc Hin N e. destruct (reachable_rejected s R) as [_ X]. destruct (X _ _ Hc Hin) as [Y|Y]; [exfalso; apply N, asks_for_get, Y|].
  split; [exact Y|]. split; [apply ends_result; assumption|]. destruct (dials (hist s)) eqn:Ed; [reflexivity|]. exfalso.
  destruct (dialled s R) as (p' & ps' & ((reqs & F & Hs) & (E & cfg & C1 & C2) & A) & _); [left; rewrite Ed; discriminate|].
  destruct Hc as (E' & cfg' & C1' & C2'). rewrite C1 in C1'. injection C1' as <- <-. rewrite C2 in C2'. injection C2' as <-.
  rewrite Hs in Hin. apply (startup_inv _ _ _ _ F) in Hin; [|discriminate]. injection Hin as <-. apply N, asks_for_get, A.
Qed.
Print Assumptions C92_database_mismatch.
(** both peers hang up in good order after an exchange, then Close: Start returns EOF *)
Example C92_instance :
  option_map (fun s => (start_results (hist s), exits (hist s)))
    (run step NewSession (served ++ [LHangup Client EOF; LHangup DB EOF; LRecv Client; LRecv DB] ++ close_by 1 ++ [LTake DB; LTake Client; LSelect DB; LStart; LClose 0 None; LClose 0 None]))
  = Some ([Some EOF], [(GIn Client, Some EOF); (GIn DB, Some EOF); (GOut DB, None); (GOut Client, None); (GProc, None)]) /\
  option_map (fun s => (startups (hist s), start_results (hist s)))
    (run step NewSession (negotiating ++ [LArrive Client (SendMessage (StartupMessage 131072 [])); LStart] ++ repeat (LClose 0 None) 9))
  = Some ([StartupMessage 131072 []], [Some (ErrUnsupportedVersion 131072)]).
Proof. split; vm_compute; reflexivity. Qed.
