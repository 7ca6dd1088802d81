(** Property C121: a client and the database talk to each other through the program, in executions that never end. *)
From Verif Require Import SpecServing SpecReload SpecAttend SpecSettle SpecConnect SpecTalk SystemProofs SystemRuns SystemFacts SystemServing P_Serving P_Reload P_Cancel.
From Verif Require SystemTalk SystemTrace.
From Verif Require Import SystemQuiet SystemReload.
Import SpecTalk SpecReload SpecConnect SpecSettle SpecAttend System.
Require Import Lia.

(** * C121 Whatever the client and the database send each other in the end is received, byte for byte *)

(** In an infinite execution of the whole program, fair as in C120 and, for the session, as in C115: a client asks for the configured database as in C120, and no write and no net.Dial of its session
    fails and neither of its two connections is reset. (It may hang up; so may the database.)
    Whatever messages (as in C20) the client has sent after its StartupMessage, in the end the database has been handed the StartupMessage and these messages, byte for byte. *)
Theorem C121_request : forall st lb c db, execution step st lb -> reachable step init (st 0%nat) -> fair_roles st lb -> writers_first st lb -> fair_goroutines st lb -> fair_peers c st lb ->
  SpecLive.fair_goroutines (of_session c st) (lb_session c lb) -> SpecLive.fair_select (of_session c st) (lb_session c lb) ->
  forall i, In c (accepted (Server.hist (srv (st i)))) -> negotiating (sess (st i) c) -> asks_for_db db (sess (st i) c) ->
  (forall k l, (i <= k)%nat -> lb k = Some l -> ~ breaks c l) -> (forall k, (i <= k)%nat -> suits db (sess (st k) c)) ->
  forall k ss ps b ls more, (i <= k)%nat -> SpecSession.arrived Session.Client (Session.hist (sess (st k) c)) = concat ss ++ b ++ concat ls ++ more ->
  Forall (startup_wire ssl_request_code []) ss -> startup_wire 196608 ps b -> Forall frontend_packet ls ->
  exists j, (k <= j)%nat /\ (panicked (st j) <> None \/ exists rest, SpecSession.sent Session.DB (Session.hist (sess (st j) c)) = b ++ concat ls ++ rest).
Proof. intros st lb c db EX R FR WF FG FP SG SS i A N AS NB SU. exact (SystemTalk.request_served st lb c db EX R FR WF FG FP SG SS i A N AS NB SU). Qed.
Print Assumptions C121_request.

(** And whatever messages (as in C19) the database has sent, in the end the client has been handed one byte "N" for every SSLRequest and these messages, byte for byte. *)
Theorem C121_answer : forall st lb c db, execution step st lb -> reachable step init (st 0%nat) -> fair_roles st lb -> writers_first st lb -> fair_goroutines st lb -> fair_peers c st lb ->
  SpecLive.fair_goroutines (of_session c st) (lb_session c lb) -> SpecLive.fair_select (of_session c st) (lb_session c lb) ->
  forall i, In c (accepted (Server.hist (srv (st i)))) -> negotiating (sess (st i) c) -> asks_for_db db (sess (st i) c) ->
  (forall k l, (i <= k)%nat -> lb k = Some l -> ~ breaks c l) -> (forall k, (i <= k)%nat -> suits db (sess (st k) c)) ->
  forall k ss ps b more ls more', (i <= k)%nat -> SpecSession.arrived Session.Client (Session.hist (sess (st k) c)) = concat ss ++ b ++ more ->
  Forall (startup_wire ssl_request_code []) ss -> startup_wire 196608 ps b ->
  SpecSession.arrived Session.DB (Session.hist (sess (st k) c)) = concat ls ++ more' -> Forall backend_packet ls ->
  exists j, (k <= j)%nat /\ (panicked (st j) <> None \/ exists rest, SpecSession.sent Session.Client (Session.hist (sess (st j) c)) = repeat "N"%byte (length ss) ++ concat ls ++ rest).
Proof. intros st lb c db EX R FR WF FG FP SG SS i A N AS NB SU. exact (SystemTalk.answer_served st lb c db EX R FR WF FG FP SG SS i A N AS NB SU). Qed.
Print Assumptions C121_answer.

(** A client sends an SSLRequest, a StartupMessage and a query in one go, and hangs up. The database gets the query and answers, and the client is handed the answer. *)
Definition chat : list label :=
  listening_on_A ++ accepting 2 3 ++ [YSession 0 (Session.LArrive Session.Client (SessionRuns.ex_ssl ++ SessionRuns.ex_startup ++ SessionRuns.ex_query)); YSession 0 Session.LStart;
    YSession 0 (Session.LHangup Session.Client EOF); YSession 0 (Session.LStartWrite 1); YSession 0 Session.LStart] ++ asking 3 ++
  [YSession 0 Session.LStart; YSession 0 Session.LStart; YSession 0 (Session.LDial None); YSession 0 (Session.LStartWrite (length SessionRuns.ex_startup))] ++
  map (YSession 0) [Session.LRecv Session.Client; Session.LIn Session.Client; Session.LRecv Session.Client; Session.LSelect Session.Client; Session.LProc; Session.LTake Session.DB;
    Session.LWrite Session.DB 5; Session.LWrite Session.DB (length SessionRuns.ex_query - 5);
    Session.LArrive Session.DB SessionRuns.ex_ready; Session.LRecv Session.DB; Session.LIn Session.DB; Session.LSelect Session.DB; Session.LProc; Session.LTake Session.Client;
    Session.LWrite Session.Client (length SessionRuns.ex_ready)].
Definition chat_at (i : nat) : state := final (firstn i chat).
Definition chat_label (i : nat) : option label := nth_error chat i.
Lemma chat_prefix i : run step (Run (Some cfgA)) (firstn i chat) = Some (chat_at i).
Proof.
  apply final_run. assert (run step (Run (Some cfgA)) chat = Some (final chat)) as X by (apply final_run; computed).
  rewrite <- (firstn_skipn i chat), run_app in X. destruct (run step (Run (Some cfgA)) (firstn i chat)); [reflexivity|discriminate X].
Qed.
Lemma chat_execution : execution step chat_at chat_label.
Proof.
  intros i. unfold chat_label. pose proof (chat_prefix (S i)) as X. destruct (nth_error chat i) as [l|] eqn:N.
  - rewrite (firstn_next i _ _ N), run_app, chat_prefix in X. apply run_one in X. exact X.
  - apply nth_error_None in N. unfold chat_at. rewrite !firstn_all2 by lia. reflexivity.
Qed.
Lemma chat_rest : at_rest (final chat).
Proof.
  assert (run step (Run (Some cfgA)) chat = Some (final chat)) as R by (apply final_run; computed). apply rest_intro; [eapply run_reachable; exact R|computed|..].
  - intros t. destruct t as [|[|[|[|[|t]]]]]; vm_compute; exact I.
  - intros t. destruct t as [|[|[|[|[|t]]]]]; first [left; computed|right; computed].
  - intros x E. vm_compute in E. injection E as <-. reflexivity.
  - computed.
  - intros l L. destruct l; try contradiction; computed.
  - intros c l C L. destruct c as [|c]; [|vm_compute in C; lia]; clear C; destruct l; try contradiction; try destruct d; try (destruct t as [|[|t]]); computed.
Qed.
Example C121_instance : execution step chat_at chat_label /\ reachable step init (chat_at 0) /\ fair_roles chat_at chat_label /\ writers_first chat_at chat_label /\
  fair_goroutines chat_at chat_label /\ fair_peers 0 chat_at chat_label /\
  SpecLive.fair_goroutines (of_session 0 chat_at) (lb_session 0 chat_label) /\ SpecLive.fair_select (of_session 0 chat_at) (lb_session 0 chat_label) /\ (forall k, panicked (chat_at k) = None) /\
  accepted (Server.hist (srv (chat_at 42))) = [0%nat] /\ negotiating (sess (chat_at 42) 0) /\ asks_for_db (str "app") (sess (chat_at 42) 0) /\
  (forall k l, (42 <= k)%nat -> chat_label k = Some l -> ~ breaks 0 l) /\ (forall k, (42 <= k)%nat -> suits (str "app") (sess (chat_at k) 0)) /\
  SpecSession.arrived Session.Client (Session.hist (sess (chat_at 42) 0)) = concat [SessionRuns.ex_ssl] ++ SessionRuns.ex_startup ++ concat [SessionRuns.ex_query] ++ [] /\
  SpecSession.arrived Session.DB (Session.hist (sess (chat_at 64) 0)) = concat [SessionRuns.ex_ready] ++ [] /\
  Forall (startup_wire ssl_request_code []) [SessionRuns.ex_ssl] /\ startup_wire 196608 (SessionRuns.ex_params (str "app")) SessionRuns.ex_startup /\
  Forall frontend_packet [SessionRuns.ex_query] /\ Forall backend_packet [SessionRuns.ex_ready] /\
  SpecSession.sent Session.DB (Session.hist (sess (chat_at 54) 0)) = [] /\ SpecSession.sent Session.DB (Session.hist (sess (chat_at 63) 0)) = SessionRuns.ex_startup ++ SessionRuns.ex_query /\
  SpecSession.sent Session.Client (Session.hist (sess (chat_at 70) 0)) = "N"%byte :: SessionRuns.ex_ready /\
  SpecSession.exits (Session.hist (sess (chat_at 70) 0)) = [(GIn Session.Client, Some EOF)].
Proof.
  assert (forall k, (70 <= k)%nat -> chat_at k = final chat) as LATE by (intros k Hk; unfold chat_at; rewrite firstn_all2; [reflexivity|vm_compute; exact Hk]).
  pose proof chat_rest as REST.
  split; [exact chat_execution|]. split; [eapply run_reachable; exact (chat_prefix 0)|]. split; [|split; [|split; [|split; [|split; [|split; [|split; [|split; [computed|split; [vm_compute; exact I|split; [|split; [|split]]]]]]]]]]].
  - intros r i. exists (i + 70)%nat. split; [lia|]. left. intros l A. rewrite LATE by lia. apply REST. destruct r, l; try contradiction A; try exact I; destruct l; try contradiction A; exact I.
  - intros i t L G t'. assert (i < 70)%nat as Hi by (unfold chat_label in L; apply (nth_error_Some chat i); rewrite L; discriminate).
    assert (i = 48%nat) as ->.
    { revert L G. do 48 (destruct i as [|i]; [intros L G; vm_compute in L; try discriminate L; injection L as <-; vm_compute in G; discriminate G|]).
      destruct i as [|i]; [reflexivity|]. do 21 (destruct i as [|i]; [intros L G; vm_compute in L; try discriminate L; injection L as <-; vm_compute in G; discriminate G|]). lia. }
    destruct t' as [|[|[|[|[|t']]]]]; vm_compute; intros [].
  - intros t i. right. exists (i + 70)%nat. split; [lia|]. intros k Hk l A. rewrite (LATE k) by lia. apply REST. clear - A. destruct A as [A|A].
    + destruct l; try contradiction A; try exact I; destruct l; try contradiction A; exact I.
    + destruct l; try contradiction A; try exact I; destruct l; try contradiction A; exact I.
  - intros i. exists (i + 70)%nat. split; [lia|]. left. intros l O. rewrite LATE by lia. destruct l; try contradiction O. assert (c = 0%nat) as -> by (destruct l; try contradiction O; exact O).
    destruct l; try contradiction O; computed.
  - intros g i. exists (i + 70)%nat. split; [lia|]. left. intros l O. unfold of_session. rewrite LATE by lia. destruct g as [d|d|], l; try contradiction O; cbn in O; subst; try destruct d; try destruct d0; computed.
  - intros d i. exists (i + 70)%nat. split; [lia|]. right. intros k Hk. unfold of_session. rewrite LATE by lia. destruct d; computed.
  - intros k. destruct (panicked (chat_at k)) as [p|] eqn:P; [exfalso|reflexivity]. assert (k < 70 \/ 70 <= k)%nat as [H|H] by lia; [|rewrite (LATE k H) in P; vm_compute in P; discriminate P].
    do 70 (destruct k as [|k]; [vm_compute in P; discriminate P|]). lia.
  - exists (Frames.Reader [SessionRuns.ex_ssl ++ SessionRuns.ex_startup ++ SessionRuns.ex_query] None), [SessionRuns.ex_ssl], SessionRuns.ex_startup, SessionRuns.ex_query, (SessionRuns.ex_params (str "app")).
    split; [computed|]. split; [computed|]. split; [constructor; [exact SessionRuns.wire_ssl|constructor]|]. split; [apply SessionRuns.wire_startup|]. apply SessionMore.asks_for_get. computed.
  - intros k l _ L. assert (k < 70)%nat as Hk by (unfold chat_label in L; apply (nth_error_Some chat k); rewrite L; discriminate).
    do 70 (destruct k as [|k]; [vm_compute in L; injection L as <-; intros []|]). lia.
  - intros k Hk. assert (SpecSession.configs (Session.hist (sess (chat_at k) 0)) = [] \/ SpecSession.configs (Session.hist (sess (chat_at k) 0)) = [(envAB, Ok cfgA)]) as [X|X].
    { assert (k < 70 \/ 70 <= k)%nat as [H|H] by lia; [|rewrite (LATE k H); right; computed]. do 70 (destruct k as [|k]; [first [left; computed|right; computed]|]). lia. }
    + intros E cfg. rewrite X. intros [].
    + intros E cfg. rewrite X. intros [Y|[]]. injection Y as <- <-. destruct (Session.parse_uri envAB (DatabaseURL cfgA)) as [p|e|q] eqn:PA; [|vm_compute in PA; discriminate PA|vm_compute in PA; discriminate PA].
      exists p. split; [reflexivity|]. vm_compute in PA. injection PA as <-. computed.
  - do 2 (split; [computed|]). split; [constructor; [exact SessionRuns.wire_ssl|constructor]|]. split; [apply SessionRuns.wire_startup|]. split; [|split; [|do 3 (split; [computed|]); computed]].
    + constructor; [|constructor]. apply (fp_query (str "SELECT 1") (str "SELECT 1" ++ [x00])); [split; [vm_compute; intuition discriminate|reflexivity]|].
      exists [x00; x00; x00; x0d]. split; [vm_compute; intuition congruence|reflexivity].
    + constructor; [|constructor]. apply (bp_structured (Messages.ReadyForQuery "I") "Z" [x49]); [cbn; auto|apply enc_ready|].
      exists [x00; x00; x00; x05]. split; [vm_compute; intuition congruence|reflexivity].
Qed.
