(** Property C105: sessions are isolated from each other. *)
From Verif Require Import SystemRuns IsolationProofs.
From Verif Require SessionMore.

Ltac computed := vm_compute; reflexivity.

(** Whatever the other clients and databases do: the bytes written to a client are, in order, the single-byte
    answers to its SSL requests and the messages its own database has sent; the bytes written to a database are
    the startup message and the messages of its own client. *)
Theorem C105_own_bytes_only : forall f ls s c, run step (Run f) ls = Some s ->
  let h := Session.hist (sess s c) in
  (exists rest, SpecSession.decodes_standard (received c Session.DB ls) (SpecSession.msgs Session.DB h) rest /\
     SpecSession.prefix_of (SpecSession.sent Session.Client h)
       (repeat "N"%byte (SpecSession.ssl_count (SpecSession.startups h)) ++ concat (map Conn.SendMessage (SpecSession.msgs Session.DB h)))) /\
  (exists mid rest, SpecSession.decodes_startup (received c Session.Client ls) (SpecSession.startups h) mid /\
     SpecSession.decodes_standard mid (SpecSession.msgs Session.Client h) rest /\
     (SpecSession.sent Session.DB h = [] \/ exists reqs st, SpecSession.startups h = reqs ++ [st] /\
        SpecSession.prefix_of (SpecSession.sent Session.DB h) (Conn.SendMessage st ++ concat (map Conn.SendMessage (SpecSession.msgs Session.Client h))))).
Proof.
  intros f ls s c H h. assert (R : reachable step init s) by (exists (Run f), ls; split; [exists f; reflexivity|exact H]).
  pose proof (pt_sess _ (reachable_parts _ R) c) as RS. pose proof (fun d => arrived_only c d ls _ _ H) as A. cbn in A. split.
  - rewrite <- (A Session.DB). exact (SessionMore.order_client _ RS).
  - rewrite <- (A Session.Client). destruct (SessionMore.order_db _ RS) as (mid & rest & X & Y & Z). exists mid, rest. split; [exact X|]. split; [exact Y|].
    destruct Z as [Z|(reqs & st & Z1 & _ & _ & Z2)]; [left; exact Z|right; exists reqs, st; auto].
Qed.
Print Assumptions C105_own_bytes_only.
(** Take everything a relaying session and its peers do out of an execution: what remains is an execution, and
    ends in the same state of everything else. *)
Theorem C105_others_do_not_notice : forall s c ls s', reachable step init s -> panicked s = None -> relaying s c -> run step s ls = Some s' ->
  exists s1, run step s (others c ls) = Some s1 /\ same_but c s' s1 /\ sess s1 c = sess s c.
Proof.
  intros s c ls s' R P W H. destruct (without_gen c ls s s s' R R W W) as (b & X1 & X2 & X3 & _); auto; [repeat split|apply (panic_session s c P), relaying_there; assumption|]. eauto.
Qed.
Print Assumptions C105_others_do_not_notice.
(** And take everything else out: what remains is what the session could have done alone. *)
Theorem C105_nor_does_the_session : forall s c ls s', reachable step init s -> panicked s = None -> relaying s c -> run step s ls = Some s' ->
  run Session.step (sess s c) (acts_of c ls) = Some (sess s' c).
Proof.
  intros s c ls s' R P W H. destruct (without_gen c ls s s s' R R W W) as (b & _ & _ & _ & X); auto; [repeat split|apply (panic_session s c P), relaying_there; assumption].
Qed.
Print Assumptions C105_nor_does_the_session.
(** Conversely, whatever the rest of the program and whatever the session could do, each without the other and
    without a panic, they can do together, in every order. *)
Theorem C105_any_mixture : forall s c ls s1 x, reachable step init s -> panicked s = None -> relaying s c ->
  run step s (others c ls) = Some s1 -> panicked s1 = None ->
  run Session.step (sess s c) (acts_of c ls) = Some x -> Session.crashed x = None -> Forall relay_action (acts_of c ls) ->
  exists s', run step s ls = Some s' /\ same_but c s' s1 /\ sess s' c = x.
Proof. intros s c ls s1 x R P W H P1 X C F. apply (with_gen c ls s s s1 x R R W W); auto. repeat split. Qed.
Print Assumptions C105_any_mixture.

(** Two sessions relay; a query and its answer pass through the first while the file changes and a third
    client connects. *)
Definition mixture : list label :=
  [YSession 0 (Session.LArrive Session.Client SessionRuns.ex_query)] ++ reloading cfgC ++ [YSession 0 (Session.LRecv Session.Client)] ++ accepting 2 5 ++
  [YSession 1 (Session.LArrive Session.Client SessionRuns.ex_query)] ++ map (YSession 0) [Session.LIn Session.Client; Session.LSelect Session.Client; Session.LProc; Session.LTake Session.DB] ++
  distributing_same ++ [YSession 0 (Session.LWrite Session.DB (length SessionRuns.ex_query))].
Example C105_instance :
  let s := final two_sessions in
  run step (Run (Some cfgA)) two_sessions = Some s /\ panicked s = None /\ relaying s 0 /\ length (acts_of 0 mixture) = 7%nat /\ length (others 0 mixture) = 18%nat /\
  Forall relay_action (acts_of 0 mixture) /\
  match run step s mixture, run step s (others 0 mixture) with
  | Some s', Some s1 =>
      panicked s1 = None /\ received 0 Session.Client mixture = SessionRuns.ex_query /\
      SpecSession.sent Session.DB (Session.hist (sess s' 0)) = SpecSession.sent Session.DB (Session.hist (sess s1 0)) ++ SessionRuns.ex_query /\
      Server.sessions (srv s') = [2%nat; 1%nat; 0%nat] /\ Server.sessions (srv s1) = [2%nat; 1%nat; 0%nat]
  | _, _ => False
  end.
Proof.
  split; [apply final_run; computed|]. split; [computed|]. split; [computed|]. split; [computed|]. split; [computed|]. split; [repeat constructor|].
  vm_compute. repeat split.
Qed.
