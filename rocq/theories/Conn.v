(** Model of pkg/pg/conn.go. *)
From Verif Require Export Messages.

(** conn.go:36-81: the [switch] of RecvMessage, case by case, in source order.  Note line 40-41:
    NegotiateProtocolVersion is given to the *notice* parser. *)
Definition dispatch (f : frame) : res message :=
  res_bind (MessageType f) (fun t =>
  if byte_eqb t AuthenticationRequestMessageType then ParseAuthenticationRequestMessage f
  else if byte_eqb t NegotiateProtocolVersionMessageType then ParseNoticeResponseMessage f
  else if byte_eqb t BackendKeyDataMessageType then ParseBackendKeyDataMessage f
  else if byte_eqb t ParameterStatusMessageType then ParseParameterStatusMessage f
  else if byte_eqb t PasswordMessageType then ParsePasswordMessage f
  else if byte_eqb t ReadyForQueryMessageType then ParseReadyForQueryMessage f
  else if byte_eqb t QueryMessageType then ParseQueryMessage f
  else if byte_eqb t RowDescriptionMessageType then ParseRowDescriptionMessage f
  else if byte_eqb t DataRowMessageType then ParseDataRowMessage f
  else if byte_eqb t CommandCompleteMessageType then ParseCommandCompleteMessage f
  else if byte_eqb t EmptyQueryResponseMessageType then ParseEmptyQueryResponseMessage f
  else if byte_eqb t ErrorResponseMessageType then ParseErrorResponseMessage f
  else if byte_eqb t NoticeResponseMessageType then ParseNoticeResponseMessage f
  else if byte_eqb t TerminateMessageType then ParseTerminateMessage f
  else ParseGenericMessage f).

(** conn.go:18-26 [RecvStartupMessage] *)
Definition RecvStartupMessage (r : reader) : outcome (res message) :=
  match ReadStartupFrame r with
  | Blocked => Blocked
  | Done rf r' => Done (res_bind rf ParseStartupMessage) r'
  end.

(** conn.go:29-82 [RecvMessage] *)
Definition RecvMessage (r : reader) : outcome (res message) :=
  match ReadStandardFrame r with
  | Blocked => Blocked
  | Done rf r' => Done (res_bind rf dispatch) r'
  end.

(** conn.go:85-88 [SendMessage]: the bytes given to the single [Write] call. *)
Definition SendMessage (m : message) : bytes := Bytes (Frame m).

(** conn.go:91-94 [SendByte] *)
Definition SendByte (c : byte) : bytes := [c].
