(** Model of the message structs of pkg/pg and of their Parse.../Frame functions. *)
From Verif Require Export Frames.

(** * Message values (the structs behind the [Message] interface, message.go:8-11).
    Integers are [Z] (their Go width is in the comment), strings and []byte are byte lists. *)

(** startup_message.go:18-21 *)
Record startup_param := Param { p_name : bytes; p_value : bytes }.
(** message_field.go:4-10 *)
Record message_field := Field { mf_type : byte; mf_value : bytes }.
(** row_description_message.go:17-39; [oid.Oid] is uint32. *)
Record field_descriptor := FieldDescriptor {
  fd_name : bytes;
  fd_table_oid : Z;      (* uint32 *)
  fd_column_index : Z;   (* int16 *)
  fd_type_oid : Z;       (* uint32 *)
  fd_type_size : Z;      (* int16 *)
  fd_type_modifier : Z;  (* int32 *)
  fd_format : Z          (* int16 *)
}.

(** pg.Message (message.go:8-11): one constructor per message struct of the package *)
Inductive message :=
| StartupMessage (version : Z) (params : list startup_param)       (* startup_message.go:12-15 *)
| AuthenticationOk                                                 (* authentication_request_message.go:18 *)
| AuthenticationKerberosV5                                         (* :21 *)
| AuthenticationCleartextPassword                                  (* :24 *)
| AuthenticationMD5Password (s0 s1 s2 s3 : byte)                   (* :27-30, Salt [4]byte *)
| AuthenticationSCMCredential                                      (* :33 *)
| AuthenticationGSS                                                (* :36 *)
| AuthenticationGSSContinue (data : bytes)                         (* :39-42 *)
| AuthenticationSSPI                                               (* :45 *)
| BackendKeyData (process_id key : Z)                              (* backend_key_data_message.go:8-14 *)
| CommandComplete (tag : bytes)                                    (* command_complete_message.go:7-10 *)
| DataRow (values : list (option bytes))                           (* data_row_message.go:8-11; None = nil slice *)
| EmptyQueryResponse                                               (* empty_query_response_message.go:7 *)
| ErrorResponse (fields : list message_field)                      (* error_response_message.go:8-11 *)
| NoticeResponse (fields : list message_field)                     (* notice_response_message.go:8-11 *)
| NegotiateProtocolVersion (version : Z) (options : list bytes)    (* negotiate_protocol_version_message.go:7-13 *)
| ParameterStatus (name value : bytes)                             (* parameter_status_message.go:7-13 *)
| Password (password : bytes)                                      (* password_message.go:7-10 *)
| Query (query : bytes)                                            (* query_message.go:7-10 *)
| ReadyForQuery (tx_status : byte)                                 (* ready_for_query_message.go:7-10 *)
| RowDescription (fields : list field_descriptor)                  (* row_description_message.go:11-14 *)
| Terminate                                                        (* terminate_message.go:7 *)
| GenericMessage (type : byte) (body : bytes).                     (* generic_message.go:4-7 *)

(** * Message type bytes (the *MessageType constants of each file). *)
Definition AuthenticationRequestMessageType : byte := "R".
(** backend_key_data_message.go:4 *)
Definition BackendKeyDataMessageType : byte := "K".
(** command_complete_message.go:4 *)
Definition CommandCompleteMessageType : byte := "C".
(** data_row_message.go:4 *)
Definition DataRowMessageType : byte := "D".
(** empty_query_response_message.go:4 *)
Definition EmptyQueryResponseMessageType : byte := "I".
(** error_response_message.go:5 *)
Definition ErrorResponseMessageType : byte := "E".
(** notice_response_message.go:5 *)
Definition NoticeResponseMessageType : byte := "N".
(** negotiate_protocol_version_message.go:4 *)
Definition NegotiateProtocolVersionMessageType : byte := "v".
(** parameter_status_message.go:4 *)
Definition ParameterStatusMessageType : byte := "S".
(** password_message.go:4 *)
Definition PasswordMessageType : byte := "p".
(** query_message.go:4 *)
Definition QueryMessageType : byte := "Q".
(** ready_for_query_message.go:4 *)
Definition ReadyForQueryMessageType : byte := "Z".
(** row_description_message.go:8 *)
Definition RowDescriptionMessageType : byte := "T".
(** terminate_message.go:4 *)
Definition TerminateMessageType : byte := "X".

(** startup_message.go:4,7 *)
Definition SSLRequestMagic : Z := 80877103.
(** startup_message.go:7 *)
Definition DefaultProtocolVersion : Z := 196608.

(** authentication_request_message.go:54-63 *)
Definition authStatusCodeOk : Z := 0.
(** authentication_request_message.go:56 *)
Definition authStatusCodeKerberosV5 : Z := 2.
(** authentication_request_message.go:57 *)
Definition authStatusCodeCleartextPassword : Z := 3.
(** authentication_request_message.go:58 *)
Definition authStatusCodeMD5Password : Z := 5.
(** authentication_request_message.go:59 *)
Definition authStatusCodeSCMCredential : Z := 6.
(** authentication_request_message.go:60 *)
Definition authStatusCodeGSS : Z := 7.
(** authentication_request_message.go:61 *)
Definition authStatusCodeGSSContinue : Z := 8.
(** authentication_request_message.go:62 *)
Definition authStatusCodeSSPI : Z := 9.

(** * Parsers. *)

(** The opening lines common to all typed parsers:
    [if frame.MessageType() != T { return nil, ErrMalformedMessage };
     messageData := ReadBuffer(frame.MessageBody())], then the body-specific reads. *)
Definition parse_typed (T : byte) (body : rd message) (f : frame) : res message :=
  res_bind (MessageType f) (fun t =>
  if byte_eqb t T then
    res_bind (MessageBody f) (fun b => fst (body b))
  else Err ErrMalformedMessage).

(** startup_message.go:42-60, the parameter loop.  Every iteration that continues consumes at
    least one byte, so [S (length b)] iterations are always enough (theorem). *)
Fixpoint parse_params (fuel : nat) : rd (list startup_param) :=
  match fuel with
  | O => rd_fail OutOfFuel
  | S fuel' =>
      key <- ReadString ;;
      match key with
      | [] => rd_ret []
      | _ =>
          value <- ReadString ;;
          ps <- parse_params fuel' ;;
          rd_ret (Param key value :: ps)
      end
  end.

(** startup_message.go:28-68 after [frame.MessageBody()] *)
Definition parse_startup_body : rd message :=
  protocolVersion <- ReadInt32 ;;
  fun b =>
    if 0 <? rb_len b then
      (ps <- parse_params (S (length b)) ;; rd_ret (StartupMessage protocolVersion ps)) b
    else (Ok (StartupMessage protocolVersion []), b).

(** startup_message.go:27-69 [ParseStartupMessage]: no type check. *)
Definition ParseStartupMessage (f : frame) : res message :=
  res_bind (MessageBody f) (fun b => fst (parse_startup_body b)).

(** authentication_request_message.go:66-75 [authStatusMap], then 86-128.  The reflect.New of the
    mapped struct type is the constructor. *)
Definition parse_auth_body : rd message :=
  status <- ReadInt32 ;;
  if status =? authStatusCodeOk then rd_ret AuthenticationOk
  else if status =? authStatusCodeKerberosV5 then rd_ret AuthenticationKerberosV5
  else if status =? authStatusCodeCleartextPassword then rd_ret AuthenticationCleartextPassword
  else if status =? authStatusCodeMD5Password then
    salt <- ReadBytes 4 ;;
    match salt with
    | [s0; s1; s2; s3] => rd_ret (AuthenticationMD5Password s0 s1 s2 s3)
    | _ => rd_lift (Panic PanicIndex)   (* not reachable: ReadBytes 4 returns 4 bytes *)
    end
  else if status =? authStatusCodeSCMCredential then rd_ret AuthenticationSCMCredential
  else if status =? authStatusCodeGSS then rd_ret AuthenticationGSS
  else if status =? authStatusCodeGSSContinue then
    fun b => (data <- ReadBytes (rb_len b) ;; rd_ret (AuthenticationGSSContinue data)) b
  else if status =? authStatusCodeSSPI then rd_ret AuthenticationSSPI
  else rd_fail ErrUnsupportedAuth.

(** authentication_request_message.go:78-129 *)
Definition ParseAuthenticationRequestMessage : frame -> res message :=
  parse_typed AuthenticationRequestMessageType parse_auth_body.

(** backend_key_data_message.go:20-41 *)
Definition ParseBackendKeyDataMessage : frame -> res message :=
  parse_typed BackendKeyDataMessageType
    (processID <- ReadInt32 ;; key <- ReadInt32 ;; rd_ret (BackendKeyData processID key)).

(** command_complete_message.go:16-31 *)
Definition ParseCommandCompleteMessage : frame -> res message :=
  parse_typed CommandCompleteMessageType (tag <- ReadString ;; rd_ret (CommandComplete tag)).

(** data_row_message.go:34-50: the loop over the columns ([n] iterations left). *)
Fixpoint parse_values (n : nat) : rd (list (option bytes)) :=
  match n with
  | O => rd_ret []
  | S n' =>
      size <- ReadInt32 ;;
      if size =? -1 then
        vs <- parse_values n' ;; rd_ret (None :: vs)
      else
        v <- ReadBytes size ;;
        vs <- parse_values n' ;; rd_ret (Some v :: vs)
  end.

(** data_row_message.go:17-53 ([make([][]byte, n)]: 24-byte elements) *)
Definition ParseDataRowMessage : frame -> res message :=
  parse_typed DataRowMessageType
    (valuesCount <- ReadInt16 ;;
     _ <- rd_lift (make_slice valuesCount 24) ;;
     vs <- parse_values (Z.to_nat valuesCount) ;;
     rd_ret (DataRow vs)).

(** [len(frame.MessageBody()) > 0] check shared by empty_query_response_message.go:20-24 and
    terminate_message.go:20-24 *)
Definition parse_empty (m : message) : rd message := fun b =>
  if 0 <? rb_len b then (Err ErrMalformedMessage, b) else (Ok m, b).

(** empty_query_response_message.go:13-25 *)
Definition ParseEmptyQueryResponseMessage : frame -> res message :=
  parse_typed EmptyQueryResponseMessageType (parse_empty EmptyQueryResponse).

(** error_response_message.go:27-49 and notice_response_message.go:27-49: identical loops.
    Every iteration consumes at least one byte. *)
Fixpoint parse_fields (fuel : nat) : rd (list message_field) :=
  match fuel with
  | O => rd_fail OutOfFuel
  | S fuel' =>
      fieldType <- ReadByte ;;
      if byte_eqb fieldType x00 then rd_ret []
      else
        fieldValue <- ReadString ;;
        fs <- parse_fields fuel' ;;
        rd_ret (Field fieldType fieldValue :: fs)
  end.

(** error_response_message.go:17-52 *)
Definition ParseErrorResponseMessage : frame -> res message :=
  parse_typed ErrorResponseMessageType
    (fun b => (fs <- parse_fields (S (length b)) ;; rd_ret (ErrorResponse fs)) b).

(** notice_response_message.go:17-52 *)
Definition ParseNoticeResponseMessage : frame -> res message :=
  parse_typed NoticeResponseMessageType
    (fun b => (fs <- parse_fields (S (length b)) ;; rd_ret (NoticeResponse fs)) b).

(** negotiate_protocol_version_message.go:43-49: the loop over the options. *)
Fixpoint parse_options (n : nat) : rd (list bytes) :=
  match n with
  | O => rd_ret []
  | S n' => o <- ReadString ;; os <- parse_options n' ;; rd_ret (o :: os)
  end.

(** negotiate_protocol_version_message.go:19-55 ([make([]string, n)]: 16-byte elements).
    The Go loop stops at the first failed ReadString; so does the model, but running it builds a
    [nat] of the size announced in the message. *)
Definition ParseNegotiateProtocolVersionMessage : frame -> res message :=
  parse_typed NegotiateProtocolVersionMessageType
    (supportedProtocol <- ReadInt32 ;;
     unrecognizedOptionsCount <- ReadInt32 ;;
     _ <- rd_lift (make_slice unrecognizedOptionsCount 16) ;;
     os <- parse_options (Z.to_nat unrecognizedOptionsCount) ;;
     rd_ret (NegotiateProtocolVersion supportedProtocol os)).

(** parameter_status_message.go:19-40 *)
Definition ParseParameterStatusMessage : frame -> res message :=
  parse_typed ParameterStatusMessageType
    (name <- ReadString ;; value <- ReadString ;; rd_ret (ParameterStatus name value)).

(** password_message.go:16-31 *)
Definition ParsePasswordMessage : frame -> res message :=
  parse_typed PasswordMessageType (password <- ReadString ;; rd_ret (Password password)).

(** query_message.go:16-31 *)
Definition ParseQueryMessage : frame -> res message :=
  parse_typed QueryMessageType (query <- ReadString ;; rd_ret (Query query)).

(** ready_for_query_message.go:25-40 *)
Definition ParseReadyForQueryMessage : frame -> res message :=
  parse_typed ReadyForQueryMessageType (status <- ReadByte ;; rd_ret (ReadyForQuery status)).

(** row_description_message.go:70-122: the loop over the fields.  [oid.Oid(x)] converts int32 to
    uint32. *)
Fixpoint parse_descriptors (n : nat) : rd (list field_descriptor) :=
  match n with
  | O => rd_ret []
  | S n' =>
      name <- ReadString ;;
      tableOID <- ReadInt32 ;;
      columnNum <- ReadInt16 ;;
      dataTypeOID <- ReadInt32 ;;
      dataTypeSize <- ReadInt16 ;;
      dataTypeModifier <- ReadInt32 ;;
      format <- ReadInt16 ;;
      fs <- parse_descriptors n' ;;
      rd_ret (FieldDescriptor name (uwrap32 tableOID) columnNum (uwrap32 dataTypeOID)
                dataTypeSize dataTypeModifier format :: fs)
  end.

(** row_description_message.go:53-125 ([make([]*FieldDescriptor, n)]: 8-byte elements) *)
Definition ParseRowDescriptionMessage : frame -> res message :=
  parse_typed RowDescriptionMessageType
    (fieldsCount <- ReadInt16 ;;
     _ <- rd_lift (make_slice fieldsCount 8) ;;
     fs <- parse_descriptors (Z.to_nat fieldsCount) ;;
     rd_ret (RowDescription fs)).

(** terminate_message.go:13-25 *)
Definition ParseTerminateMessage : frame -> res message :=
  parse_typed TerminateMessageType (parse_empty Terminate).

(** generic_message.go:13-18 *)
Definition ParseGenericMessage (f : frame) : res message :=
  res_bind (MessageType f) (fun t =>
  res_bind (MessageBody f) (fun b => Ok (GenericMessage t b))).

(** * Serialisers ([Frame()] of each struct). *)

(** startup_message.go:80-85 *)
Definition write_params (b : bytes) (ps : list startup_param) : bytes :=
  fold_left (fun b p => WriteString (WriteString b (p_name p)) (p_value p)) ps b.

(** error_response_message.go:58-61, notice_response_message.go:58-61 *)
Definition write_fields (b : bytes) (fs : list message_field) : bytes :=
  fold_left (fun b f => WriteString (WriteByte b (mf_type f)) (mf_value f)) fs b.

(** data_row_message.go:61-72: [int32(len(value))] wraps; nil is -1. *)
Definition write_values (b : bytes) (vs : list (option bytes)) : bytes :=
  fold_left (fun b v =>
    match v with
    | None => WriteInt32 b (-1)
    | Some value => WriteBytes (WriteInt32 b (wrap32 (Z.of_nat (length value)))) value
    end) vs b.

(** row_description_message.go:133-143: [int32(oid)] converts uint32 to int32. *)
Definition write_descriptors (b : bytes) (fs : list field_descriptor) : bytes :=
  fold_left (fun b f =>
    let b := WriteString b (fd_name f) in
    let b := WriteInt32 b (wrap32 (fd_table_oid f)) in
    let b := WriteInt16 b (fd_column_index f) in
    let b := WriteInt32 b (wrap32 (fd_type_oid f)) in
    let b := WriteInt16 b (fd_type_size f) in
    let b := WriteInt32 b (fd_type_modifier f) in
    WriteInt16 b (fd_format f)) fs b.

(** message.go:10, [Message.Frame]; each case cites the method of its struct *)
Definition Frame (m : message) : frame :=
  match m with
  (* startup_message.go:72-92 *)
  | StartupMessage version params =>
      let b := write_params (WriteInt32 [] version) params in
      let b := match params with [] => b | _ => WriteByte b x00 end in
      NewStartupFrame b
  (* authentication_request_message.go:132-197 *)
  | AuthenticationOk =>
      NewStandardFrame AuthenticationRequestMessageType (WriteInt32 [] authStatusCodeOk)
  | AuthenticationKerberosV5 =>
      NewStandardFrame AuthenticationRequestMessageType (WriteInt32 [] authStatusCodeKerberosV5)
  | AuthenticationCleartextPassword =>
      NewStandardFrame AuthenticationRequestMessageType (WriteInt32 [] authStatusCodeCleartextPassword)
  | AuthenticationMD5Password s0 s1 s2 s3 =>
      NewStandardFrame AuthenticationRequestMessageType
        (WriteBytes (WriteInt32 [] authStatusCodeMD5Password) [s0; s1; s2; s3])
  | AuthenticationSCMCredential =>
      NewStandardFrame AuthenticationRequestMessageType (WriteInt32 [] authStatusCodeSCMCredential)
  | AuthenticationGSS =>
      NewStandardFrame AuthenticationRequestMessageType (WriteInt32 [] authStatusCodeGSS)
  | AuthenticationGSSContinue data =>
      NewStandardFrame AuthenticationRequestMessageType
        (WriteBytes (WriteInt32 [] authStatusCodeGSSContinue) data)
  | AuthenticationSSPI =>
      NewStandardFrame AuthenticationRequestMessageType (WriteInt32 [] authStatusCodeSSPI)
  (* backend_key_data_message.go:44-51 *)
  | BackendKeyData processID key =>
      NewStandardFrame BackendKeyDataMessageType (WriteInt32 (WriteInt32 [] processID) key)
  (* command_complete_message.go:34-40 *)
  | CommandComplete tag =>
      NewStandardFrame CommandCompleteMessageType (WriteString [] tag)
  (* data_row_message.go:56-75: [int16(len)] wraps *)
  | DataRow values =>
      NewStandardFrame DataRowMessageType
        (write_values (WriteInt16 [] (wrap16 (Z.of_nat (length values)))) values)
  (* empty_query_response_message.go:28-30 *)
  | EmptyQueryResponse => NewStandardFrame EmptyQueryResponseMessageType []
  (* error_response_message.go:55-67 *)
  | ErrorResponse fields =>
      NewStandardFrame ErrorResponseMessageType (WriteByte (write_fields [] fields) x00)
  (* notice_response_message.go:55-67 *)
  | NoticeResponse fields =>
      NewStandardFrame NoticeResponseMessageType (WriteByte (write_fields [] fields) x00)
  (* negotiate_protocol_version_message.go:58-69 *)
  | NegotiateProtocolVersion version options =>
      NewStandardFrame NegotiateProtocolVersionMessageType
        (fold_left WriteString options
           (WriteInt32 (WriteInt32 [] version) (wrap32 (Z.of_nat (length options)))))
  (* parameter_status_message.go:43-50 *)
  | ParameterStatus name value =>
      NewStandardFrame ParameterStatusMessageType (WriteString (WriteString [] name) value)
  (* password_message.go:34-39 *)
  | Password password => NewStandardFrame PasswordMessageType (WriteString [] password)
  (* query_message.go:34-39 *)
  | Query query => NewStandardFrame QueryMessageType (WriteString [] query)
  (* ready_for_query_message.go:43-45 *)
  | ReadyForQuery status => NewStandardFrame ReadyForQueryMessageType [status]
  (* row_description_message.go:128-146: [int16(len)] wraps *)
  | RowDescription fields =>
      NewStandardFrame RowDescriptionMessageType
        (write_descriptors (WriteInt16 [] (wrap16 (Z.of_nat (length fields)))) fields)
  (* terminate_message.go:28-30 *)
  | Terminate => NewStandardFrame TerminateMessageType []
  (* generic_message.go:21-24 *)
  | GenericMessage type body => NewStandardFrame type body
  end.

(** startup_message.go:95-103 [GetParameter] *)
Fixpoint GetParameter (params : list startup_param) (name : bytes) : bytes :=
  match params with
  | [] => []
  | p :: ps => if bytes_eqb (p_name p) name then p_value p else GetParameter ps name
  end.
