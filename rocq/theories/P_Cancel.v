(** Property C114: requests other than version 3.0 startup packets and SSLRequests, CancelRequest among them. *)
From Verif Require Import SpecServing SpecCancel SystemProofs SystemTrace SystemFacts SystemRuns SystemQuiet SystemBusy SystemServing P_Serving.
From Verif Require SessionCancel SessionRuns SessionLife SessionPipe SessionDecode FrameProofs.
Require Import Lia.
Ltac computed := vm_compute; reflexivity.

(** * C114 Running queries cannot be cancelled *)

(** The expected property, that the CancelRequest with which a client wants one of its running queries stopped reaches the database, is
    false in every execution: whatever the number in front, other than those of version 3.0 and SSLRequest, and whatever follows it. *)
Theorem C114_cancel_request_forwarded_refuted : forall s n v, reachable Session.step Session.init s -> client_began (Session.hist s) n v ->
  v <> 196608 -> v <> ssl_request_code -> got_nowhere (Session.hist s) n.
Proof. exact SessionCancel.nowhere. Qed.
Print Assumptions C114_cancel_request_forwarded_refuted.
(** In the whole program: once there is nothing left to do, such a connection is over, unless its client does not take the
    refusal of an SSLRequest of its own. *)
Theorem C114_connection_over : forall s c n v, reachable step init s -> panicked s = None -> at_rest s -> In c (accepted (Server.hist (srv s))) ->
  client_began (Session.hist (sess s c)) n v -> v <> 196608 -> v <> ssl_request_code ->
  got_nowhere (Session.hist (sess s c)) n /\ (over s c \/ (1 <= n)%nat /\ exists b, Session.start_pc (sess s c) = Session.SDeny b).
Proof.
  intros s c n v R P Q A B N1 N2. pose proof (pt_sess _ (reachable_parts _ R) c) as RS.
  pose proof (SessionCancel.nowhere _ _ _ RS B N1 N2) as G. split; [exact G|].
  pose proof (SessionLife.al_dec _ (SessionLife.reachable_all _ RS) Session.Client) as [D0 (mid & rest & D & DS & U)].
  pose proof (SessionPipe.pp_nego _ (SessionLife.al_pipes _ (SessionLife.reachable_all _ RS))) as NG. unfold SessionPipe.nego_ok in NG.
  destruct B as (ss & pk & more & Ln & Fs & Hp & Ar). rewrite Ar in D.
  destruct (C95_at_rest s c R P Q A) as [O|(_ & _ & W & _)]; [left; exact O|]. right. destruct G as (_ & Gd & _). destruct W as [r E C F I|b E C|m a E|b E C|E C]; rewrite E in NG.
  - exfalso. destruct NG as (FS & _). destruct (SessionCancel.ssl_leaves _ _ _ more Fs Hp N2 _ _ D FS) as (_ & w & pk' & more' & -> & Pw & _).
    pose proof (SessionProofs.ph_phase _ (SessionPipe.pp_phase _ (SessionLife.al_pipes _ (SessionLife.reachable_all _ RS)))) as X. rewrite E in X. destruct X as [(IO & _) _].
    rewrite (D0 IO) in DS. inversion DS; subst. unfold SessionDecode.unread in U. rewrite C in U. cbn in U.
    destruct U as [U|[_ U]]; [unfold SessionDecode.reading; rewrite E, IO; split; [discriminate|exact Logic.I]| |contradiction].
    rewrite U in I. exact (FrameProofs.frame_at_not_incomplete 4 _ _ _ ltac:(lia) (SessionCancel.packet_frame _ _ more' Pw) I).
  - split; [|eauto]. destruct NG as (FS & _). pose proof (SessionCancel.denies _ _ RS E) as X. pose proof (proj1 (SessionCancel.ssl_leaves _ _ _ more Fs Hp N2 _ _ D FS)) as L.
    destruct (startups (Session.hist (sess s c))); [contradiction|]. cbn in L. lia.
  - destruct NG as (p & ps & _ & _ & X & _). congruence.
  - destruct NG as (p & ps & _ & X & _). congruence.
  - destruct NG as (p & ps & _ & X & _). congruence.
Qed.
Print Assumptions C114_connection_over.

(** The client of [one_session] has sent a query; another connection brings an SSLRequest and a CancelRequest for process 42, key 1234567. *)
Definition ex_cancel : bytes := [x00; x00; x00; x10; x04; xd2; x16; x2e; x00; x00; x00; x2a; x00; x12; xd6; x87].
Definition cancelling : list label :=
  one_session ++ passing 0 Session.Client SessionRuns.ex_query ++ accepting 2 4 ++
  [YSession 1 (Session.LArrive Session.Client SessionRuns.ex_ssl); YSession 1 Session.LStart; YSession 1 (Session.LStartWrite 1);
   YSession 1 (Session.LArrive Session.Client ex_cancel); YSession 1 Session.LStart; YEnd 4; YFire 4] ++ repeat (YSession 1 (Session.LClose 0 None)) 7 ++
  [YClosed 4] ++ repeat (YServer (Server.LGo 4)) 4.
Example C114_instance : run step (Run (Some cfgA)) cancelling = Some (final cancelling) /\ panicked (final cancelling) = None /\ at_rest (final cancelling) /\
  In 1%nat (accepted (Server.hist (srv (final cancelling)))) /\ client_began (Session.hist (sess (final cancelling) 1)) 1 cancel_request_code /\
  SpecSession.start_results (Session.hist (sess (final cancelling) 1)) = [Some (ErrUnsupportedVersion cancel_request_code)] /\
  SpecSession.sent Session.Client (Session.hist (sess (final cancelling) 1)) = ["N"%byte] /\
  sess (final cancelling) 0 = sess (final (one_session ++ passing 0 Session.Client SessionRuns.ex_query)) 0.
Proof.
  assert (run step (Run (Some cfgA)) cancelling = Some (final cancelling)) as R by (apply final_run; computed). split; [exact R|]. split; [computed|]. split; [|split; [vm_compute; auto|split]].
  - apply rest_intro; [eapply run_reachable; exact R|computed|..].
    + intros t. destruct t as [|[|[|[|[|[|t]]]]]]; vm_compute; exact I.
    + intros t. destruct t as [|[|[|[|[|[|t]]]]]]; first [left; computed|right; computed].
    + intros x E. vm_compute in E. injection E as <-. reflexivity.
    + computed.
    + intros l L. destruct l; try contradiction; computed.
    + intros c l C L. destruct c as [|[|c]]; [| |vm_compute in C; lia]; clear C; destruct l; try contradiction; try destruct d; try (destruct t as [|[|t]]); computed.
  - exists [SessionRuns.ex_ssl], ex_cancel, []. split; [reflexivity|]. split; [constructor; [exact SessionRuns.wire_ssl|constructor]|]. split; [|computed].
    exists [x04; xd2; x16; x2e], [x00; x00; x00; x2a; x00; x12; xd6; x87]. split; [repeat split; vm_compute; congruence|].
    exists [x00; x00; x00; x10]. split; [repeat split; vm_compute; congruence|reflexivity].
  - split; [computed|]. split; computed.
Qed.
