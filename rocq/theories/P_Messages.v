(** Properties C14-C27 and C91: messages and connections (pkg/pg/*_message.go, conn.go).
    [stream r s] : the reader [r] delivers the bytes [s], in whatever chunks.
    [packet t b l] : [l] is the wire image of a message with type byte [t] and body [b].
    [encodes m t b] : the protocol grammar (SpecProtocol.v). *)
From Verif Require Import GoBase SpecWire SpecFrames SpecProtocol Conn ConnFacts DecodeFacts ExtQuery.

(** * C14 Every message type survives Frame then Parse *)

Theorem C14_frame_then_parse : forall m, representable m -> own_parser m (Frame m) = Ok m.
Proof. exact own_roundtrip. Qed.
Print Assumptions C14_frame_then_parse.

Example C14_instance :
  let m := RowDescription [FieldDescriptor (str "id") 16384 1 23 4 (-1) 0; FieldDescriptor (str "n") 4294967295 2 25 (-1) (-1) 1] in
  representable m /\ ParseRowDescriptionMessage (Frame m) = Ok m /\
  representable (DataRow [None; Some []; Some [x00; xff]]) /\
  representable (StartupMessage 196608 [Param (str "user") (str "bob"); Param (str "database") []]).
Proof.
  cbn zeta. split; [|split; [reflexivity|]].
  - split; [|vm_compute; reflexivity]. split; [vm_compute; reflexivity|].
    apply Forall_forall. intros f [<-|[<-|[]]]; vm_compute; intuition congruence.
  - split; (split; [|vm_compute; reflexivity]); [vm_compute; reflexivity|].
    split; [vm_compute; intuition congruence|].
    apply Forall_forall. intros p [<-|[<-|[]]]; vm_compute; intuition congruence.
Qed.

(** * C15 A message sent is the message received *)

Theorem C15_send_recv : forall m rest r, standard m -> ~ is_negotiate m -> representable m ->
  stream r (SendMessage m ++ rest) ->
  exists r', RecvMessage r = Done (Ok m) r' /\ stream r' rest /\ fin r' = fin r.
Proof. exact recv_standard. Qed.
Print Assumptions C15_send_recv.

Theorem C15_send_recv_startup : forall v ps rest r, representable (StartupMessage v ps) ->
  stream r (SendMessage (StartupMessage v ps) ++ rest) ->
  exists r', RecvStartupMessage r = Done (Ok (StartupMessage v ps)) r' /\ stream r' rest /\ fin r' = fin r.
Proof. exact recv_startup. Qed.
Print Assumptions C15_send_recv_startup.

Theorem C15_send_recv_sequence : forall ms rest r,
  Forall (fun m => standard m /\ ~ is_negotiate m /\ representable m) ms ->
  stream r (concat (map SendMessage ms) ++ rest) ->
  exists r', reads RecvMessage r ms r' /\ stream r' rest /\ fin r' = fin r.
Proof. exact recv_sequence. Qed.
Print Assumptions C15_send_recv_sequence.

Example C15_instance :
  let ms := [Query (str "SELECT 1"); DataRow [Some (str "1"); None]; ReadyForQuery "I"; GenericMessage "d" [x00]] in
  Forall (fun m => standard m /\ ~ is_negotiate m /\ representable m) ms /\
  exists r', reads RecvMessage (Reader (map SendMessage ms) None) ms r'.
Proof.
  cbn zeta. split.
  - repeat apply Forall_cons; try apply Forall_nil;
      (split; [cbn; intuition discriminate|]; split; [exact (fun x => x)|]);
      (split; [|vm_compute; reflexivity]); vm_compute; intuition discriminate.
  - eexists. repeat (econstructor; [reflexivity|]). constructor.
Qed.

(** * C16 NegotiateProtocolVersion can be received: refuted, for every body *)

Theorem C16_negotiate_received_refuted : forall body l rest r, packet "v" body l -> stream r (l ++ rest) ->
  exists r', RecvMessage r = Done (Err ErrMalformedMessage) r'.
Proof. exact negotiate_rejected. Qed.
Print Assumptions C16_negotiate_received_refuted.

(** the strongest true part: its own parser would accept it *)
Theorem C16_own_parser : forall v os, representable (NegotiateProtocolVersion v os) ->
  ParseNegotiateProtocolVersionMessage (Frame (NegotiateProtocolVersion v os)) = Ok (NegotiateProtocolVersion v os).
Proof. exact (fun v os => own_roundtrip (NegotiateProtocolVersion v os)). Qed.
Print Assumptions C16_own_parser.

Example C16_instance :
  let m := NegotiateProtocolVersion 196608 [str "_pq_.x"] in
  ParseNegotiateProtocolVersionMessage (Frame m) = Ok m /\
  exists r', RecvMessage (Reader [SendMessage m] None) = Done (Err ErrMalformedMessage) r'.
Proof. split; [reflexivity|]. eexists. reflexivity. Qed.

(** * C17 A parser accepts only its own frame type *)

Theorem C17_other_type_rejected : forall p T f t, In (p, T) typed_parsers -> MessageType f = Ok t -> t <> T ->
  p f = Err ErrMalformedMessage.
Proof. exact typed_parsers_reject. Qed.
Print Assumptions C17_other_type_rejected.

Theorem C17_startup_frame_rejected : forall p T b, In (p, T) typed_parsers ->
  p (StartupFrame b) = Err ErrMalformedMessage.
Proof. exact startup_frame_rejected. Qed.
Print Assumptions C17_startup_frame_rejected.

Example C17_instance :
  ParseQueryMessage (NewStandardFrame "p" [x41; x00]) = Err ErrMalformedMessage /\
  ParseQueryMessage (NewStandardFrame "Q" [x41; x00]) = Ok (Query [x41]).
Proof. split; reflexivity. Qed.

(** * C18 Forwarding never invents body bytes *)

Theorem C18_forwarded_body_is_prefix : forall r m r', RecvMessage r = Done (Ok m) r' ->
  exists t len kept dropped,
    concat (chunks r) = t :: len ++ (kept ++ dropped) ++ concat (chunks r') /\
    length len = 4%nat /\ Frame m = NewStandardFrame t kept.
Proof. exact forwarding_prefix. Qed.
Print Assumptions C18_forwarded_body_is_prefix.

Theorem C18_forwarded_startup_is_prefix : forall r m r', RecvStartupMessage r = Done (Ok m) r' ->
  exists len kept dropped,
    concat (chunks r) = len ++ (kept ++ dropped) ++ concat (chunks r') /\
    length len = 4%nat /\ Frame m = NewStartupFrame kept.
Proof. exact startup_prefix. Qed.
Print Assumptions C18_forwarded_startup_is_prefix.

(** the same for every parser called directly on any frame *)
Theorem C18_parser_prefix : forall k f m, own_parser k f = Ok m ->
  exists b kept dropped, MessageBody f = Ok b /\ b = kept ++ dropped /\ MessageBody (Frame m) = Ok kept.
Proof. exact own_parser_prefix. Qed.
Print Assumptions C18_parser_prefix.

(** bytes after the terminator of a query are dropped, nothing else changes *)
Example C18_instance :
  RecvMessage (Reader [[x51; x00; x00; x00; x08; x41; x00; x42; x43]] None) = Done (Ok (Query [x41])) (Reader [] None) /\
  SendMessage (Query [x41]) = [x51; x00; x00; x00; x06; x41; x00].
Proof. split; reflexivity. Qed.

(** * C19 Protocol-conforming backend messages are forwarded byte for byte *)

Theorem C19_backend_forwarded_verbatim : forall l rest r, backend_packet l -> stream r (l ++ rest) ->
  exists m r', RecvMessage r = Done (Ok m) r' /\ stream r' rest /\ fin r' = fin r /\ SendMessage m = l.
Proof. exact backend_forwarded. Qed.
Print Assumptions C19_backend_forwarded_verbatim.

(** an error response S=ERROR, C=42601 and a DataRow with one NULL *)
Example C19_instance :
  backend_packet [x45; x00; x00; x00; x13; x53; x45; x52; x52; x4f; x52; x00; x43; x34; x32; x36; x30; x31; x00; x00] /\
  backend_packet [x44; x00; x00; x00; x0a; x00; x01; xff; xff; xff; xff].
Proof.
  split.
  - eapply (bp_structured (ErrorResponse [Field "S" (str "ERROR"); Field "C" (str "42601")])); [exact I| |].
    + apply (enc_error _ [x53; x45; x52; x52; x4f; x52; x00; x43; x34; x32; x36; x30; x31; x00]).
      apply (seq_cons mfield_repr _ _ [x53; x45; x52; x52; x4f; x52; x00] [x43; x34; x32; x36; x30; x31; x00]).
      * apply (mfield_intro (Field "S" (str "ERROR"))); cbn; [discriminate|]. split; [vm_compute; intuition discriminate|reflexivity].
      * rewrite <- (app_nil_r [_; _; _; _; _; _; _]). constructor; [|constructor].
        apply (mfield_intro (Field "C" (str "42601"))); cbn; [discriminate|]. split; [vm_compute; intuition discriminate|reflexivity].
    + exists [x00; x00; x00; x13]. split; [vm_compute; intuition congruence|reflexivity].
  - eapply (bp_structured (DataRow [None])); [exact I| |].
    + apply (enc_row [None] [x00; x01] [xff; xff; xff; xff]); [vm_compute; intuition congruence|].
      rewrite <- (app_nil_r [xff; _; _; _]). constructor; [|constructor]. constructor. vm_compute. intuition congruence.
    + exists [x00; x00; x00; x0a]. split; [vm_compute; intuition congruence|reflexivity].
Qed.

(** * C20 Simple-query frontend messages are forwarded byte for byte *)

Theorem C20_frontend_forwarded_verbatim : forall l rest r, frontend_packet l -> stream r (l ++ rest) ->
  exists m r', RecvMessage r = Done (Ok m) r' /\ stream r' rest /\ fin r' = fin r /\ SendMessage m = l.
Proof. exact frontend_forwarded. Qed.
Print Assumptions C20_frontend_forwarded_verbatim.

Example C20_instance :
  frontend_packet [x51; x00; x00; x00; x06; x41; x00] /\ frontend_packet [x43; x00; x00; x00; x07; x53; x61; x00].
Proof.
  split.
  - apply (fp_query [x41] [x41; x00]); [split; [vm_compute; intuition discriminate|reflexivity]|].
    exists [x00; x00; x00; x06]. split; [vm_compute; intuition congruence|reflexivity].
  - apply (fp_close "S" [x61] [x61; x00]); [cbn; tauto|split; [vm_compute; intuition discriminate|reflexivity]|].
    exists [x00; x00; x00; x07]. split; [vm_compute; intuition congruence|reflexivity].
Qed.

(** * C21 Extended-query frontend messages are forwarded byte for byte: refuted *)

(** every Sync is rejected *)
Theorem C21_sync_forwarded_refuted : forall l rest r, sync_packet l -> stream r (l ++ rest) ->
  exists e r', RecvMessage r = Done (Err e) r'.
Proof. exact sync_rejected. Qed.
Print Assumptions C21_sync_forwarded_refuted.

(** no Describe of less than 80 KB (a name has at most 63 bytes) is received as a message *)
Theorem C21_describe_forwarded_refuted : forall l rest r, describe_packet l -> Z.of_nat (length l) < 81927 ->
  stream r (l ++ rest) -> forall m r', RecvMessage r <> Done (Ok m) r'.
Proof. exact describe_not_forwarded. Qed.
Print Assumptions C21_describe_forwarded_refuted.

(** a Describe whose name contains, after its first byte, four bytes denoting an integer below -1
    (for instance UTF-8 text) even crashes the proxy *)
Theorem C21_describe_crash_refuted : forall kind c zb z tail l rest r,
  In kind ["S"; "P"]%byte -> int32_repr z zb -> z < -1 ->
  packet "D" (kind :: c :: zb ++ tail) l -> stream r (l ++ rest) ->
  exists q r', RecvMessage r = Done (Panic q) r'.
Proof. exact describe_crashes. Qed.
Print Assumptions C21_describe_crash_refuted.

(** every Execute with a row limit below 2^24 (in particular 0, "no limit") is forwarded truncated *)
Theorem C21_execute_forwarded_refuted : forall portal rows l rest r, 0 <= rows < 2 ^ 24 ->
  execute_packet portal rows l -> stream r (l ++ rest) ->
  exists m r', RecvMessage r = Done (Ok m) r' /\
    MessageBody (Frame m) = Ok (match portal with [] => [x00] | _ => portal ++ [x00; x00] end) /\
    SendMessage m <> l.
Proof. exact execute_truncated. Qed.
Print Assumptions C21_execute_forwarded_refuted.

(** what becomes of every Execute, whatever its row limit (its four bytes) *)
Theorem C21_execute_exact : forall portal rows c0 c1 c2 c3 l rest r, nul_free portal -> int32_repr rows [c0; c1; c2; c3] ->
  packet "E" ((portal ++ [x00]) ++ [c0; c1; c2; c3]) l -> stream r (l ++ rest) ->
  match execute_fate portal c0 c1 c2 c3 with
  | Some kept => exists m r', RecvMessage r = Done (Ok m) r' /\ packet "E" kept (SendMessage m)
  | None => exists e r', RecvMessage r = Done (Err e) r'
  end.
Proof. exact execute_exact. Qed.
Print Assumptions C21_execute_exact.

(** ... and exactly which ones arrive unchanged *)
Theorem C21_execute_verbatim : forall portal c0 c1 c2 c3 l rest r, nul_free portal ->
  packet "E" ((portal ++ [x00]) ++ [c0; c1; c2; c3]) l -> stream r (l ++ rest) ->
  (exists m r', RecvMessage r = Done (Ok m) r' /\ SendMessage m = l) <-> portal <> [] /\ c0 <> x00 /\ c1 <> x00 /\ c2 = x00 /\ c3 = x00.
Proof. exact execute_verbatim. Qed.
Print Assumptions C21_execute_verbatim.

(** no Describe of less than 16 MB is forwarded unchanged *)
Theorem C21_describe_verbatim_refuted : forall l rest r, describe_packet l -> Z.of_nat (length l) < 2 ^ 24 ->
  stream r (l ++ rest) -> forall m r', RecvMessage r = Done (Ok m) r' -> SendMessage m <> l.
Proof. exact describe_never_verbatim. Qed.
Print Assumptions C21_describe_verbatim_refuted.

(** row limits 2^24 + 2^16 (arrives), 2^24 + 1 (loses its last byte), 2^24 + 2^16 + 1 (refused) for portal "p" *)
Example C21_execute_instance :
  let e c0 c1 c2 c3 := [x45; x00; x00; x00; x0a; x70; x00; c0; c1; c2; c3] in
  packet "E" (([x70] ++ [x00]) ++ [x01; x01; x00; x00]) (e x01 x01 x00 x00) /\
  execute_fate [x70] x01 x01 x00 x00 = Some [x70; x00; x01; x01; x00; x00] /\
  execute_fate [x70] x01 x00 x00 x01 = Some [x70; x00; x01; x00; x00] /\
  execute_fate [x70] x01 x01 x00 x01 = None /\
  (exists m r', RecvMessage (Reader [e x01 x01 x00 x00] None) = Done (Ok m) r' /\ SendMessage m = e x01 x01 x00 x00) /\
  (exists m r', RecvMessage (Reader [e x01 x00 x00 x01] None) = Done (Ok m) r' /\ SendMessage m = [x45; x00; x00; x00; x09; x70; x00; x01; x00; x00]) /\
  (exists e' r', RecvMessage (Reader [e x01 x01 x00 x01] None) = Done (Err e') r').
Proof.
  split; [exists [x00; x00; x00; x0a]; vm_compute; intuition congruence|]. do 3 (split; [reflexivity|]).
  split; [do 2 eexists; split; reflexivity|]. split; [do 2 eexists; split; reflexivity|]. do 2 eexists. reflexivity.
Qed.

Example C21_instance :
  sync_packet [x53; x00; x00; x00; x04] /\
  describe_packet [x44; x00; x00; x00; x07; x53; x61; x00] /\
  describe_packet [x44; x00; x00; x00; x0b; x53; x61; xc3; xa9; xc3; xa9; x00] /\
  execute_packet [] 0 [x45; x00; x00; x00; x09; x00; x00; x00; x00; x00] /\
  (exists r', RecvMessage (Reader [[x45; x00; x00; x00; x09; x00; x00; x00; x00; x00]] None) = Done (Ok (ErrorResponse [])) r') /\
  (exists r', RecvMessage (Reader [[x44; x00; x00; x00; x0b; x53; x61; xc3; xa9; xc3; xa9; x00]] None) =
     Done (Panic PanicSliceBounds) r').
Proof.
  split; [exists [x00; x00; x00; x04]; vm_compute; intuition congruence|].
  split; [exists "S"%byte, [x61], [x61; x00]; split; [cbn; tauto|]; split;
          [split; [vm_compute; intuition discriminate|reflexivity]|exists [x00; x00; x00; x07]; vm_compute; intuition congruence]|].
  split; [exists "S"%byte, [x61; xc3; xa9; xc3; xa9], [x61; xc3; xa9; xc3; xa9; x00]; split; [cbn; tauto|]; split;
          [split; [vm_compute; intuition discriminate|reflexivity]|exists [x00; x00; x00; x0b]; vm_compute; intuition congruence]|].
  split; [exists [x00], [x00; x00; x00; x00]; split; [split; [intros []|reflexivity]|]; split;
          [vm_compute; intuition congruence|exists [x00; x00; x00; x09]; vm_compute; intuition congruence]|].
  split; eexists; reflexivity.
Qed.

(** * C22 Authentication exchanges pass through: refuted; true for the codes of protocol 9.6 *)

Theorem C22_known_codes_forwarded : forall m body l rest r, encodes m "R" body -> packet "R" body l ->
  stream r (l ++ rest) ->
  exists r', RecvMessage r = Done (Ok m) r' /\ stream r' rest /\ fin r' = fin r /\ SendMessage m = l.
Proof. exact auth_forwarded. Qed.
Print Assumptions C22_known_codes_forwarded.

(** every other code (10, 11, 12 = SASL) is rejected *)
Theorem C22_auth_code_refuted : forall code lc data l rest r, ~ In code [0; 2; 3; 5; 6; 7; 8; 9] ->
  int32_repr code lc -> packet "R" (lc ++ data) l -> stream r (l ++ rest) ->
  exists r', RecvMessage r = Done (Err ErrUnsupportedAuth) r'.
Proof. exact auth_rejected. Qed.
Print Assumptions C22_auth_code_refuted.

(** client responses: rejected without a NUL, truncated after the first NUL *)
Theorem C22_response_without_nul_refuted : forall body l rest r, nul_free body -> packet "p" body l ->
  stream r (l ++ rest) -> exists e r', RecvMessage r = Done (Err e) r'.
Proof. exact binary_response_rejected. Qed.
Print Assumptions C22_response_without_nul_refuted.

Theorem C22_response_with_nul_refuted : forall s tail l rest r, nul_free s -> tail <> [] ->
  packet "p" (s ++ x00 :: tail) l -> stream r (l ++ rest) ->
  exists r', RecvMessage r = Done (Ok (Password s)) r' /\ stream r' rest /\
    MessageBody (Frame (Password s)) = Ok (s ++ [x00]) /\ SendMessage (Password s) <> l.
Proof. exact binary_response_truncated. Qed.
Print Assumptions C22_response_with_nul_refuted.

Example C22_instance :
  (exists r', RecvMessage (Reader [[x52; x00; x00; x00; x08; x00; x00; x00; x0a]] None) = Done (Err ErrUnsupportedAuth) r') /\
  (exists r', RecvMessage (Reader [[x52; x00; x00; x00; x0c; x00; x00; x00; x05; x01; x02; x03; x04]] None) =
     Done (Ok (AuthenticationMD5Password x01 x02 x03 x04)) r') /\
  (exists r', RecvMessage (Reader [[x70; x00; x00; x00; x07; x61; x00; x62]] None) = Done (Ok (Password [x61])) r').
Proof. repeat split; eexists; reflexivity. Qed.

(** * C23 No byte sequence can crash message decoding: refuted, with the exact crash set *)

Theorem C23_crash_set : forall r,
  (exists q r', RecvMessage r = Done (Panic q) r') <->
  (exists t len L body rest, concat (chunks r) = t :: len ++ body ++ rest /\ int32_repr L len /\
     Z.of_nat (length body) = announced_body L /\ crashing t body).
Proof. exact crash_exactly. Qed.
Print Assumptions C23_crash_set.

(** the model's loop bounds are never hit: outcomes are those of the unbounded Go loops *)
Theorem C23_loops_terminate : forall r r', fin r <> Some OutOfFuel -> RecvMessage r <> Done (Err OutOfFuel) r'.
Proof. exact recv_never_starves. Qed.
Print Assumptions C23_loops_terminate.

(** seven bytes are enough *)
Example C23_never_crashes_refuted :
  RecvMessage (Reader [[x54; x00; x00; x00; x06; xff; xff]] None) = Done (Panic PanicMakeSlice) (Reader [] None) /\
  RecvMessage (Reader [[x44; x00; x00; x00; x0a; x00; x01; xff; xff; xff; xfe]] None) =
    Done (Panic PanicSliceBounds) (Reader [] None) /\
  crashing "D" [x00; x01; xff; xff; xff; xfe] /\ ~ crashing "D" [x00; x01; xff; xff; xff; xff].
Proof.
  split; [reflexivity|]. split; [reflexivity|]. split.
  - right. split; [reflexivity|]. right. exists 1, [x00; x01], [], [], (-2), [xff; xff; xff; xfe], [].
    split; [reflexivity|]. split; [vm_compute; intuition congruence|]. split; [constructor|].
    split; [reflexivity|]. split; [vm_compute; intuition congruence|reflexivity].
  - intros Hc. assert (exists q r', RecvMessage (Reader [[x44; x00; x00; x00; x0a; x00; x01; xff; xff; xff; xff]] None) = Done (Panic q) r') as H.
    { apply crash_exactly. exists "D"%byte, [x00; x00; x00; x0a], 10, [x00; x01; xff; xff; xff; xff], [].
      split; [reflexivity|]. split; [vm_compute; intuition congruence|]. split; [reflexivity|exact Hc]. }
    destruct H as (q & r' & H). discriminate H.
Qed.

(** * C24 No byte sequence can crash startup decoding *)

Theorem C24_startup_total : forall r,
  (forall q r', RecvStartupMessage r <> Done (Panic q) r') /\
  (fin r <> Some OutOfFuel -> forall r', RecvStartupMessage r <> Done (Err OutOfFuel) r') /\
  (forall m r', RecvStartupMessage r = Done (Ok m) r' -> exists v ps, m = StartupMessage v ps).
Proof. exact startup_never_crashes. Qed.
Print Assumptions C24_startup_total.

Example C24_instance :
  RecvStartupMessage (Reader [[x00; x00; x00; x08; x04; xd2; x16; x2f]] None) =
    Done (Ok (StartupMessage 80877103 [])) (Reader [] None) /\
  (exists e r', RecvStartupMessage (Reader [[xff; xff; xff; xff]] None) = Done (Err e) r').
Proof. split; [reflexivity|]. do 2 eexists. reflexivity. Qed.

(** * C25 NULL stays NULL, empty stays empty *)

(** [vs] is what the received bytes denote and the forwarded body is those same bytes *)
Theorem C25_nulls_preserved : forall r vs r', RecvMessage r = Done (Ok (DataRow vs)) r' ->
  exists len count cols dropped,
    concat (chunks r) = "D"%byte :: len ++ (count ++ cols ++ dropped) ++ concat (chunks r') /\
    length len = 4%nat /\
    int16_repr (Z.of_nat (length vs)) count /\ seq_repr column_repr vs cols /\
    MessageBody (Frame (DataRow vs)) = Ok (count ++ cols).
Proof. exact nulls_preserved. Qed.
Print Assumptions C25_nulls_preserved.

Example C25_instance :
  RecvMessage (Reader [[x44; x00; x00; x00; x0f; x00; x02; xff; xff; xff; xff; x00; x00; x00; x00; x09]] None) =
  Done (Ok (DataRow [None; Some []])) (Reader [] None).
Proof. reflexivity. Qed.

(** * C26 GetParameter returns the first occurrence *)

Theorem C26_first_occurrence : forall ps name,
  (exists pre v post, ps = pre ++ Param name v :: post /\ (forall p, In p pre -> p_name p <> name) /\
     GetParameter ps name = v) \/
  ((forall p, In p ps -> p_name p <> name) /\ GetParameter ps name = []).
Proof. exact get_parameter_first. Qed.
Print Assumptions C26_first_occurrence.

Example C26_instance :
  let ps := [Param (str "user") (str "u"); Param (str "database") (str "a"); Param (str "database") (str "b")] in
  GetParameter ps (str "database") = str "a" /\ GetParameter ps (str "x") = [].
Proof. split; reflexivity. Qed.

(** * C27 Decoding yields no more than the frame justifies *)

Theorem C27_decoded_no_larger : forall r m r',
  RecvMessage r = Done (Ok m) r' \/ RecvStartupMessage r = Done (Ok m) r' ->
  elements m <= body_size m /\
  body_size m + 4 + Z.of_nat (length (concat (chunks r'))) <= Z.of_nat (length (concat (chunks r))).
Proof. exact decoded_no_larger. Qed.
Print Assumptions C27_decoded_no_larger.

(** the parser RecvMessage never reaches has no guard at all against a negative count *)
Theorem C27_negotiate_negative_count_crashes : forall v n lv ln tail, int32_repr v lv -> int32_repr n ln -> n < 0 ->
  ParseNegotiateProtocolVersionMessage (NewStandardFrame "v" (lv ++ ln ++ tail)) = Panic PanicMakeSlice.
Proof. exact negotiate_negative_crash. Qed.
Print Assumptions C27_negotiate_negative_count_crashes.

(** a 32767-column announcement in a 7-byte frame is an error, not a message *)
Example C27_instance :
  (exists e r', RecvMessage (Reader [[x44; x00; x00; x00; x06; x7f; xff]] None) = Done (Err e) r') /\
  elements (DataRow [None; Some [x41]]) = 2 /\ body_size (DataRow [None; Some [x41]]) = 11.
Proof. split; [do 2 eexists; reflexivity|]. split; reflexivity. Qed.

(** * C91 Decoding is exact: which bodies are accepted, and as what *)

(** [RecvMessage] returns [m] exactly when the packet's body is an encoding of [m], possibly followed
    by bytes the code ignores (only for the kinds that tolerate them). *)
Theorem C91_decoding_exact : forall t body l rest r m, packet t body l -> stream r (l ++ rest) ->
  (exists r', RecvMessage r = Done (Ok m) r') <->
  (exists kept dropped, body = kept ++ dropped /\ encodes m t kept /\ (takes_all m -> dropped = []) /\ ~ is_negotiate m).
Proof. exact decode_exact. Qed.
Print Assumptions C91_decoding_exact.

(** The same for startup packets: without parameters, either nothing or a NUL follows the version. *)
Theorem C91_startup_decoding_exact : forall body l rest r v ps, startup_packet body l -> stream r (l ++ rest) ->
  (exists r', RecvStartupMessage r = Done (Ok (StartupMessage v ps)) r') <->
  (exists kept dropped, body = kept ++ dropped /\ startup_encodes v ps kept /\
     (ps = [] -> dropped = [] \/ exists d, dropped = x00 :: d)).
Proof. exact decode_startup_exact. Qed.
Print Assumptions C91_startup_decoding_exact.

(** The parser that [RecvMessage] never reaches. *)
Theorem C91_negotiate_decoding_exact : forall body m,
  ParseNegotiateProtocolVersionMessage (NewStandardFrame "v" body) = Ok m <->
  (exists kept dropped, body = kept ++ dropped /\ encodes m "v" kept).
Proof. exact decode_negotiate_exact. Qed.
Print Assumptions C91_negotiate_decoding_exact.

(** a Query followed by ignored bytes is accepted, a Terminate with a body is not *)
Example C91_instance :
  packet "Q" [x41; x00; x42] [x51; x00; x00; x00; x07; x41; x00; x42] /\
  encodes (Query [x41]) "Q" [x41; x00] /\
  (exists r', RecvMessage (Reader [[x51; x00; x00; x00; x07; x41; x00; x42]] None) = Done (Ok (Query [x41])) r') /\
  (exists r', RecvMessage (Reader [[x58; x00; x00; x00; x05; x41]] None) = Done (Err ErrMalformedMessage) r').
Proof.
  split; [exists [x00; x00; x00; x07]; split; [vm_compute; intuition congruence|reflexivity]|].
  split; [constructor; split; [vm_compute; intuition discriminate|reflexivity]|].
  split; eexists; reflexivity.
Qed.
