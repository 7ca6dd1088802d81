(** Property C100: what becomes of a complete but broken packet (pkg/pg/*_message.go, conn.go). *)
From Verif Require Import GoBase SpecWire SpecFrames SpecProtocol SpecReject Conn RejectProofs.

(** [RecvMessage] refuses a complete packet with the error [e] exactly if it is broken in one of the
    ways of SpecReject.v that call for [e]. *)
Theorem C100_rejected_exactly : forall t body l rest r e, packet t body l -> stream r (l ++ rest) ->
  (exists r', RecvMessage r = Done (Err e) r') <-> rejected t body e.
Proof. exact rejected_exactly. Qed.
Print Assumptions C100_rejected_exactly.

Theorem C100_startup_rejected_exactly : forall body l rest r e, startup_packet body l -> stream r (l ++ rest) ->
  (exists r', RecvStartupMessage r = Done (Err e) r') <-> startup_rejected body e.
Proof. exact startup_rejected_exactly. Qed.
Print Assumptions C100_startup_rejected_exactly.

(** Well-formed (C91), crashing (C23) and broken bodies together are all bodies, and no two of these
    descriptions overlap; a broken body calls for one error only. *)
Theorem C100_three_fates : forall t body,
  (accepted t body \/ crashing t body \/ exists e, rejected t body e) /\
  ~ (accepted t body /\ crashing t body) /\
  (forall e, rejected t body e -> ~ accepted t body /\ ~ crashing t body) /\
  (forall e1 e2, rejected t body e1 -> rejected t body e2 -> e1 = e2).
Proof. exact fates. Qed.
Print Assumptions C100_three_fates.

(** io.EOF does not mean that the peer hung up: these complete packets, on a connection that is open
    and has more to deliver, are reported with it. *)
Theorem C100_eof_means_hangup_refuted : forall t body l rest r, packet t body l -> stream r (l ++ rest) ->
  t = "K"%byte /\ (length body < 8)%nat \/ t = "Z"%byte /\ body = [] \/ t = "R"%byte /\ (length body < 4)%nat \/
  t = "E"%byte /\ body = [] ->
  exists r', RecvMessage r = Done (Err EOF) r'.
Proof.
  intros t body l rest r Hp H C. apply (rejected_exactly t body l rest r EOF Hp H).
  destruct C as [[-> C]|[[-> ->]|[[-> C]|[-> ->]]]];
    [exact (rej_key _ C)|exact rej_ready|exact (rej_auth_short _ C)|].
  apply (rej_field "E" [] [] []); try constructor. reflexivity.
Qed.
Print Assumptions C100_eof_means_hangup_refuted.

(** two columns announced, the second value cut short; a RowDescription whose second name does not end;
    SASL; Terminate with a body *)
Example C100_instance :
  packet "D" [x00; x02; xff; xff; xff; xff; x00; x00; x00; x02; x41] [x44; x00; x00; x00; x0f; x00; x02; xff; xff; xff; xff; x00; x00; x00; x02; x41] /\
  rejected "D" [x00; x02; xff; xff; xff; xff; x00; x00; x00; x02; x41] EOF /\
  rejected "R" [x00; x00; x00; x0a; x00] ErrUnsupportedAuth /\ rejected "X" [x41] ErrMalformedMessage /\
  rejected "E" [x53; x41; x00; x43; x42] ErrNoTerminator /\
  startup_rejected [x00; x03; x00; x00; x61; x00] ErrNoTerminator /\
  (exists r', RecvMessage (Reader [[x5a; x00; x00; x00; x04; x41]] None) = Done (Err EOF) r').
Proof.
  split; [exists [x00; x00; x00; x0f]; split; [vm_compute; intuition congruence|reflexivity]|].
  split. { apply (rej_column 2 [x00; x02] [None] [xff; xff; xff; xff] [x00; x00; x00; x02; x41]).
    - vm_compute. intuition congruence.
    - apply (seq_cons _ None [] [xff; xff; xff; xff] []); constructor. vm_compute. intuition congruence.
    - reflexivity.
    - apply (bc_value 2 [x00; x00; x00; x02] [x41]); [vm_compute; intuition congruence|reflexivity]. }
  split. { apply (rej_auth_code 10 [x00; x00; x00; x0a] [x00]); [vm_compute; intuition congruence|cbn; intuition discriminate]. }
  split; [constructor; cbn; tauto|].
  split. { apply (rej_field "E" [Field "S" [x41]] [x53; x41; x00] [x43; x42]); [cbn; tauto| |constructor; [discriminate|vm_compute; intuition discriminate]].
    apply (seq_cons _ (Field "S" [x41]) [] [x53; x41; x00] []); [|constructor]. apply (mfield_intro (Field "S" [x41]) [x41; x00]); [discriminate|].
    split; [vm_compute; intuition discriminate|reflexivity]. }
  split. { apply (srej_param 196608 [x00; x03; x00; x00] [] [] [x61; x00]); [vm_compute; intuition congruence|constructor|discriminate|].
    apply (bp_value [x61] [x61; x00] []); [discriminate|split; [vm_compute; intuition discriminate|reflexivity]|intros []]. }
  eexists. reflexivity.
Qed.
