(** Independent specification of how a complete packet can be broken, and the error each way of
    being broken is reported with.  Uses the grammar of SpecProtocol.v and SpecWire.v only. *)
From Verif Require Import GoBase SpecWire SpecProtocol.

(** fewer than [n] bytes *)
Definition short (n : nat) (b : bytes) : Prop := (length b < n)%nat.

(** what is left where a column of a DataRow should start: no room for its size, or for its value *)
Inductive broken_column : bytes -> Prop :=
| bc_size b : short 4 b -> broken_column b
| bc_value z l v : int32_repr z l -> Z.of_nat (length v) < z -> broken_column (l ++ v).
(** ... a field of a RowDescription: an unterminated name, or no room for the 18 bytes after it *)
Inductive broken_descriptor : bytes -> error -> Prop :=
| bd_name b : nul_free b -> broken_descriptor b ErrNoTerminator
| bd_rest s l b : cstring_repr s l -> short 18 b -> broken_descriptor (l ++ b) EOF.
(** ... a field of an ErrorResponse or NoticeResponse: nothing, or an unterminated value *)
Inductive broken_field : bytes -> error -> Prop :=
| bf_type : broken_field [] EOF
| bf_value c b : c <> x00 -> nul_free b -> broken_field (c :: b) ErrNoTerminator.
(** ... a startup parameter: an unterminated name, or a name with an unterminated value *)
Inductive broken_param : bytes -> Prop :=
| bp_name b : nul_free b -> broken_param b
| bp_value s l b : s <> [] -> cstring_repr s l -> nul_free b -> broken_param (l ++ b).

(** [rejected t body e]: a packet of type [t] with this body is refused with the error [e]. *)
Inductive rejected : byte -> bytes -> error -> Prop :=
| rej_auth_short b : short 4 b -> rejected "R" b EOF
| rej_auth_salt l b : int32_repr 5 l -> short 4 b -> rejected "R" (l ++ b) EOF
| rej_auth_code z l b : int32_repr z l -> ~ In z [0; 2; 3; 5; 6; 7; 8; 9] -> rejected "R" (l ++ b) ErrUnsupportedAuth
| rej_negotiate b : rejected "v" b ErrMalformedMessage
| rej_key b : short 8 b -> rejected "K" b EOF
| rej_string t b : In t ["C"; "p"; "Q"]%byte -> nul_free b -> rejected t b ErrNoTerminator
| rej_status_name b : nul_free b -> rejected "S" b ErrNoTerminator
| rej_status_value s l b : cstring_repr s l -> nul_free b -> rejected "S" (l ++ b) ErrNoTerminator
| rej_ready : rejected "Z" [] EOF
| rej_nonempty t c b : In t ["I"; "X"]%byte -> rejected t (c :: b) ErrMalformedMessage
| rej_count t b : In t ["T"; "D"]%byte -> short 2 b -> rejected t b EOF
| rej_column n l vs lv b : int16_repr n l -> seq_repr column_repr vs lv -> Z.of_nat (length vs) < n ->
    broken_column b -> rejected "D" (l ++ lv ++ b) EOF
| rej_descriptor n l fs lf b e : int16_repr n l -> seq_repr descriptor_repr fs lf -> Z.of_nat (length fs) < n ->
    broken_descriptor b e -> rejected "T" (l ++ lf ++ b) e
| rej_field t fs lf b e : In t ["E"; "N"]%byte -> seq_repr mfield_repr fs lf -> broken_field b e ->
    rejected t (lf ++ b) e.

(** The same for startup packets; a version with nothing after it is complete. *)
Inductive startup_rejected : bytes -> error -> Prop :=
| srej_version b : short 4 b -> startup_rejected b EOF
| srej_param v l ps lp b : int32_repr v l -> seq_repr param_repr ps lp -> lp ++ b <> [] -> broken_param b ->
    startup_rejected (l ++ lp ++ b) ErrNoTerminator.

(** A body that is accepted as a message: C91. *)
Definition accepted (t : byte) (body : bytes) : Prop :=
  exists m kept dropped, body = kept ++ dropped /\ encodes m t kept /\ (takes_all m -> dropped = []) /\ ~ is_negotiate m.
