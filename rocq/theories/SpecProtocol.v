(** Independent specification of the protocol 3.0 message formats
    (https://www.postgresql.org/docs/9.6/protocol-message-formats.html): which byte strings are
    the body of which message.  Only the message *type* is shared with the model; none of its
    functions are used. *)
From Verif Require Import SpecWire.
From Verif Require Import Messages.   (* for the type [message] and its records only *)

(** One column of a DataRow: Int32 length and the bytes, or Int32 -1 for NULL. *)
Inductive column_repr : option bytes -> bytes -> Prop :=
| col_null l : int32_repr (-1) l -> column_repr None l
| col_value v l : int32_repr (Z.of_nat (length v)) l -> column_repr (Some v) (l ++ v).

(** One field of a RowDescription. *)
Inductive descriptor_repr : field_descriptor -> bytes -> Prop :=
| descriptor_intro f l1 l2 l3 l4 l5 l6 l7 :
    cstring_repr (fd_name f) l1 -> oid_repr (fd_table_oid f) l2 ->
    int16_repr (fd_column_index f) l3 -> oid_repr (fd_type_oid f) l4 ->
    int16_repr (fd_type_size f) l5 -> int32_repr (fd_type_modifier f) l6 ->
    int16_repr (fd_format f) l7 ->
    descriptor_repr f (l1 ++ l2 ++ l3 ++ l4 ++ l5 ++ l6 ++ l7).

(** One field of an ErrorResponse/NoticeResponse: a non-zero code byte and a String. *)
Inductive mfield_repr : message_field -> bytes -> Prop :=
| mfield_intro f l : mf_type f <> x00 -> cstring_repr (mf_value f) l ->
    mfield_repr f (mf_type f :: l).

(** One startup parameter: a non-empty name String and a value String. *)
Inductive param_repr : startup_param -> bytes -> Prop :=
| param_intro p l1 l2 : p_name p <> [] -> cstring_repr (p_name p) l1 ->
    cstring_repr (p_value p) l2 -> param_repr p (l1 ++ l2).

(** The type bytes the proxy knows a structure for. *)
Definition structured_type (t : byte) : Prop :=
  In t ["R"; "K"; "C"; "D"; "I"; "E"; "N"; "v"; "S"; "p"; "Q"; "Z"; "T"; "X"]%byte.

(** [encodes m t body]: [body] is the body of message [m] and [t] its type byte. *)
Inductive encodes : message -> byte -> bytes -> Prop :=
| enc_auth_ok l : int32_repr 0 l -> encodes AuthenticationOk "R" l
| enc_auth_krb l : int32_repr 2 l -> encodes AuthenticationKerberosV5 "R" l
| enc_auth_clear l : int32_repr 3 l -> encodes AuthenticationCleartextPassword "R" l
| enc_auth_md5 l a b c d : int32_repr 5 l ->
    encodes (AuthenticationMD5Password a b c d) "R" (l ++ [a; b; c; d])
| enc_auth_scm l : int32_repr 6 l -> encodes AuthenticationSCMCredential "R" l
| enc_auth_gss l : int32_repr 7 l -> encodes AuthenticationGSS "R" l
| enc_auth_gssc l data : int32_repr 8 l -> encodes (AuthenticationGSSContinue data) "R" (l ++ data)
| enc_auth_sspi l : int32_repr 9 l -> encodes AuthenticationSSPI "R" l
| enc_key pid key l1 l2 : int32_repr pid l1 -> int32_repr key l2 ->
    encodes (BackendKeyData pid key) "K" (l1 ++ l2)
| enc_complete tag l : cstring_repr tag l -> encodes (CommandComplete tag) "C" l
| enc_row vs l1 l2 : int16_repr (Z.of_nat (length vs)) l1 -> seq_repr column_repr vs l2 ->
    encodes (DataRow vs) "D" (l1 ++ l2)
| enc_empty : encodes EmptyQueryResponse "I" []
| enc_error fs l : seq_repr mfield_repr fs l -> encodes (ErrorResponse fs) "E" (l ++ [x00])
| enc_notice fs l : seq_repr mfield_repr fs l -> encodes (NoticeResponse fs) "N" (l ++ [x00])
| enc_negotiate v os l1 l2 l3 : int32_repr v l1 -> int32_repr (Z.of_nat (length os)) l2 ->
    seq_repr cstring_repr os l3 -> encodes (NegotiateProtocolVersion v os) "v" (l1 ++ l2 ++ l3)
| enc_status n v l1 l2 : cstring_repr n l1 -> cstring_repr v l2 ->
    encodes (ParameterStatus n v) "S" (l1 ++ l2)
| enc_password p l : cstring_repr p l -> encodes (Password p) "p" l
| enc_query q l : cstring_repr q l -> encodes (Query q) "Q" l
| enc_ready c : encodes (ReadyForQuery c) "Z" [c]
| enc_rowdesc fs l1 l2 : int16_repr (Z.of_nat (length fs)) l1 -> seq_repr descriptor_repr fs l2 ->
    encodes (RowDescription fs) "T" (l1 ++ l2)
| enc_terminate : encodes Terminate "X" []
| enc_generic t b : ~ structured_type t -> encodes (GenericMessage t b) t b.

(** The body of a startup packet as the proxy writes it: version, then the parameters and a final
    NUL; without parameters (e.g. SSLRequest) the version alone. *)
Inductive startup_encodes : Z -> list startup_param -> bytes -> Prop :=
| senc_empty v l : int32_repr v l -> startup_encodes v [] l
| senc_params v ps l1 l2 : ps <> [] -> int32_repr v l1 -> seq_repr param_repr ps l2 ->
    startup_encodes v ps (l1 ++ l2 ++ [x00]).

(** Kinds whose body admits nothing after the encoding; for the other kinds the code ignores the
    rest of the body. *)
Definition takes_all (m : message) : Prop :=
  match m with
  | AuthenticationGSSContinue _ | EmptyQueryResponse | Terminate | GenericMessage _ _ => True
  | _ => False
  end.

(** A complete packet: type byte, self-inclusive Int32 length, body. *)
Definition packet (t : byte) (body : bytes) (l : bytes) : Prop :=
  exists len, int32_repr (Z.of_nat (length body) + 4) len /\ l = t :: len ++ body.
Definition startup_packet (body : bytes) (l : bytes) : Prop :=
  exists len, int32_repr (Z.of_nat (length body) + 4) len /\ l = len ++ body.

(** * Well-formed traffic, as sets of bytes. *)

(** Bodies of backend messages the proxy supports: all of protocol 3.0 except
    NegotiateProtocolVersion and the authentication codes it does not know. *)
Definition is_backend (m : message) : Prop :=
  match m with
  | AuthenticationOk | AuthenticationKerberosV5 | AuthenticationCleartextPassword
  | AuthenticationMD5Password _ _ _ _ | AuthenticationSCMCredential | AuthenticationGSS
  | AuthenticationGSSContinue _ | AuthenticationSSPI | BackendKeyData _ _ | CommandComplete _
  | DataRow _ | EmptyQueryResponse | ErrorResponse _ | NoticeResponse _ | ParameterStatus _ _
  | ReadyForQuery _ | RowDescription _ => True
  | _ => False
  end.

(** Unstructured backend messages: CopyData, CopyDone, CopyIn/Out/BothResponse, BindComplete,
    CloseComplete, NoData, ParameterDescription, ParseComplete, PortalSuspended,
    FunctionCallResponse, NotificationResponse. *)
Definition opaque_backend_type (t : byte) : Prop :=
  In t ["d"; "c"; "G"; "H"; "W"; "2"; "3"; "n"; "t"; "1"; "s"; "V"; "A"]%byte.

Inductive backend_packet : bytes -> Prop :=
| bp_structured m t body l : is_backend m -> encodes m t body -> packet t body l -> backend_packet l
| bp_opaque t body l : opaque_backend_type t -> packet t body l -> backend_packet l.

(** Frontend messages the proxy handles: Query, PasswordMessage, Terminate, Close, and the opaque
    Parse, Bind, Flush, CopyData, CopyDone, CopyFail, FunctionCall. *)
Definition opaque_frontend_type (t : byte) : Prop :=
  In t ["P"; "B"; "H"; "d"; "c"; "f"; "F"]%byte.

Inductive frontend_packet : bytes -> Prop :=
| fp_query q body l : cstring_repr q body -> packet "Q" body l -> frontend_packet l
| fp_password p body l : cstring_repr p body -> packet "p" body l -> frontend_packet l
| fp_terminate l : packet "X" [] l -> frontend_packet l
| fp_close kind name body l : In kind ["S"; "P"]%byte -> cstring_repr name body ->
    packet "C" (kind :: body) l -> frontend_packet l
| fp_opaque t body l : opaque_frontend_type t -> packet t body l -> frontend_packet l.

(** Extended-query frontend messages (used by the refutations of C21). *)
Definition sync_packet (l : bytes) : Prop := packet "S" [] l.
Definition describe_packet (l : bytes) : Prop :=
  exists kind name body, In kind ["S"; "P"]%byte /\ cstring_repr name body /\
                         packet "D" (kind :: body) l.
Definition execute_packet (portal : bytes) (max_rows : Z) (l : bytes) : Prop :=
  exists b1 b2, cstring_repr portal b1 /\ int32_repr max_rows b2 /\ packet "E" (b1 ++ b2) l.
(** What the proxy makes of an Execute whose row limit has the bytes c0 c1 c2 c3: the body it sends on, or None
    if it refuses the message. *)
Definition execute_fate (portal : bytes) (c0 c1 c2 c3 : byte) : option bytes :=
  let nul c := Byte.eqb c x00 in
  match portal with
  | [] => Some [x00]                                                      (* row limit lost *)
  | _ =>
      if nul c0 then Some (portal ++ [x00; x00])                          (* row limit below 2^24: lost *)
      else if nul c1 && nul c2 then Some (portal ++ [x00; c0; x00; x00])  (* last byte lost *)
      else if negb (nul c1) && nul c2 && nul c3 then Some (portal ++ [x00; c0; c1; c2; c3])
      else None
  end.

(** * Representable messages: those the wire format can carry. *)

Definition param_ok (p : startup_param) : Prop :=
  p_name p <> [] /\ nul_free (p_name p) /\ nul_free (p_value p).
Definition mfield_ok (f : message_field) : Prop := mf_type f <> x00 /\ nul_free (mf_value f).
Definition descriptor_ok (f : field_descriptor) : Prop :=
  nul_free (fd_name f) /\ in_uint32 (fd_table_oid f) /\ in_int16 (fd_column_index f) /\
  in_uint32 (fd_type_oid f) /\ in_int16 (fd_type_size f) /\ in_int32 (fd_type_modifier f) /\
  in_int16 (fd_format f).

Definition fields_ok (m : message) : Prop :=
  match m with
  | StartupMessage v ps => in_int32 v /\ Forall param_ok ps
  | BackendKeyData p k => in_int32 p /\ in_int32 k
  | CommandComplete s | Password s | Query s => nul_free s
  | ParameterStatus n v => nul_free n /\ nul_free v
  | DataRow vs => (Z.of_nat (length vs) < 2 ^ 15)
  | ErrorResponse fs | NoticeResponse fs => Forall mfield_ok fs
  | NegotiateProtocolVersion v os => in_int32 v /\ Forall nul_free os
  | RowDescription fs => Z.of_nat (length fs) < 2 ^ 15 /\ Forall descriptor_ok fs
  | _ => True
  end.

(** Number of bytes a message's content takes. *)
Definition size (s : bytes) : Z := Z.of_nat (length s).
Definition sum {A} (f : A -> Z) (xs : list A) : Z := fold_right (fun x n => f x + n) 0 xs.
Definition body_size (m : message) : Z :=
  match m with
  | StartupMessage v [] => 4
  | StartupMessage v ps => 4 + sum (fun p => size (p_name p) + 1 + (size (p_value p) + 1)) ps + 1
  | AuthenticationOk | AuthenticationKerberosV5 | AuthenticationCleartextPassword
  | AuthenticationSCMCredential | AuthenticationGSS | AuthenticationSSPI => 4
  | AuthenticationMD5Password _ _ _ _ => 8
  | AuthenticationGSSContinue d => 4 + size d
  | BackendKeyData _ _ => 8
  | CommandComplete s | Password s | Query s => size s + 1
  | ParameterStatus n v => size n + 1 + (size v + 1)
  | DataRow vs => 2 + sum (fun v => match v with None => 4 | Some s => 4 + size s end) vs
  | EmptyQueryResponse | Terminate => 0
  | ErrorResponse fs | NoticeResponse fs => sum (fun f => 1 + (size (mf_value f) + 1)) fs + 1
  | NegotiateProtocolVersion v os => 8 + sum (fun o => size o + 1) os
  | ReadyForQuery _ => 1
  | RowDescription fs => 2 + sum (fun f => size (fd_name f) + 1 + 18) fs
  | GenericMessage _ b => size b
  end.

Definition representable (m : message) : Prop := fields_ok m /\ body_size m + 4 < 2 ^ 31.

(** Messages [RecvMessage] is meant to return: not a startup packet, and a generic message only
    for a type byte without a structure. *)
Definition standard (m : message) : Prop :=
  match m with
  | StartupMessage _ _ => False
  | GenericMessage t _ => ~ structured_type t
  | _ => True
  end.
Definition is_negotiate (m : message) : Prop :=
  match m with NegotiateProtocolVersion _ _ => True | _ => False end.

(** * Bodies that crash the decoder (C23). *)
Definition negative_count (b : bytes) : Prop :=
  exists n l rest, b = l ++ rest /\ int16_repr n l /\ n < 0.
(** the announced columns are read left to right; one announces a size below -1 *)
Definition bad_column (b : bytes) : Prop :=
  exists n l vs lv z lz rest, b = l ++ lv ++ lz ++ rest /\
    int16_repr n l /\ seq_repr column_repr vs lv /\ Z.of_nat (length vs) < n /\
    int32_repr z lz /\ z < -1.
Definition crashing (t : byte) (b : bytes) : Prop :=
  t = "T"%byte /\ negative_count b \/ t = "D"%byte /\ (negative_count b \/ bad_column b).

(** Number of elements of the lists in a message (C27). *)
Definition elements (m : message) : Z :=
  match m with
  | StartupMessage _ l => Z.of_nat (length l) | DataRow l => Z.of_nat (length l)
  | ErrorResponse l | NoticeResponse l => Z.of_nat (length l)
  | NegotiateProtocolVersion _ l => Z.of_nat (length l) | RowDescription l => Z.of_nat (length l)
  | _ => 0
  end.

(** * The Parse functions, by kind.  These are the functions under test, not part of the grammar. *)

(** the Parse function of each kind *)
Definition own_parser (m : message) : frame -> res message :=
  match m with
  | StartupMessage _ _ => ParseStartupMessage
  | AuthenticationOk | AuthenticationKerberosV5 | AuthenticationCleartextPassword
  | AuthenticationMD5Password _ _ _ _ | AuthenticationSCMCredential | AuthenticationGSS
  | AuthenticationGSSContinue _ | AuthenticationSSPI => ParseAuthenticationRequestMessage
  | BackendKeyData _ _ => ParseBackendKeyDataMessage
  | CommandComplete _ => ParseCommandCompleteMessage
  | DataRow _ => ParseDataRowMessage
  | EmptyQueryResponse => ParseEmptyQueryResponseMessage
  | ErrorResponse _ => ParseErrorResponseMessage
  | NoticeResponse _ => ParseNoticeResponseMessage
  | NegotiateProtocolVersion _ _ => ParseNegotiateProtocolVersionMessage
  | ParameterStatus _ _ => ParseParameterStatusMessage
  | Password _ => ParsePasswordMessage
  | Query _ => ParseQueryMessage
  | ReadyForQuery _ => ParseReadyForQueryMessage
  | RowDescription _ => ParseRowDescriptionMessage
  | Terminate => ParseTerminateMessage
  | GenericMessage _ _ => ParseGenericMessage
  end.

(** The Parse functions that check a type byte, with that byte. *)
Definition typed_parsers : list ((frame -> res message) * byte) :=
  [ (ParseAuthenticationRequestMessage, "R"%byte); (ParseBackendKeyDataMessage, "K"%byte);
    (ParseCommandCompleteMessage, "C"%byte); (ParseDataRowMessage, "D"%byte);
    (ParseEmptyQueryResponseMessage, "I"%byte); (ParseErrorResponseMessage, "E"%byte);
    (ParseNoticeResponseMessage, "N"%byte); (ParseNegotiateProtocolVersionMessage, "v"%byte);
    (ParseParameterStatusMessage, "S"%byte); (ParsePasswordMessage, "p"%byte);
    (ParseQueryMessage, "Q"%byte); (ParseReadyForQueryMessage, "Z"%byte);
    (ParseRowDescriptionMessage, "T"%byte); (ParseTerminateMessage, "X"%byte) ].
