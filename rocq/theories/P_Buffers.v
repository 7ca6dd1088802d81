(** Properties C01-C07: ReadBuffer and WriteBuffer (pkg/pg/read_buffer.go, write_buffer.go). *)
From Verif Require Import GoBase SpecWire Buffers BufferProofs BufferFacts.

(** * C01 Integers survive the wire *)

Theorem C01_int32_roundtrip : forall z b rest, in_int32 z ->
  exists l, WriteInt32 b z = b ++ l /\ int32_repr z l /\ ReadInt32 (l ++ rest) = (Ok z, rest).
Proof. exact int32_roundtrip. Qed.
Print Assumptions C01_int32_roundtrip.

Theorem C01_int16_roundtrip : forall z b rest, in_int16 z ->
  exists l, WriteInt16 b z = b ++ l /\ int16_repr z l /\ ReadInt16 (l ++ rest) = (Ok z, rest).
Proof. exact int16_roundtrip. Qed.
Print Assumptions C01_int16_roundtrip.

Theorem C01_int32_decodes_everything : forall l rest, length l = 4%nat ->
  exists z, int32_repr z l /\ in_int32 z /\ ReadInt32 (l ++ rest) = (Ok z, rest) /\ WriteInt32 [] z = l.
Proof. exact int32_total. Qed.
Print Assumptions C01_int32_decodes_everything.

Theorem C01_int16_decodes_everything : forall l rest, length l = 2%nat ->
  exists z, int16_repr z l /\ in_int16 z /\ ReadInt16 (l ++ rest) = (Ok z, rest) /\ WriteInt16 [] z = l.
Proof. exact int16_total. Qed.
Print Assumptions C01_int16_decodes_everything.

Example C01_instance :
  in_int32 (-2) /\ WriteInt32 [x07] (-2) = [x07; xff; xff; xff; xfe] /\
  ReadInt32 [xff; xff; xff; xfe; x41] = (Ok (-2), [x41]) /\
  in_int16 (-32768) /\ WriteInt16 [] (-32768) = [x80; x00] /\ ReadInt16 [x80; x00] = (Ok (-32768), []).
Proof. vm_compute. intuition congruence. Qed.

(** * C02 Strings survive the wire *)

Theorem C02_string_roundtrip : forall s b rest, nul_free s ->
  exists l, WriteString b s = b ++ l /\ ReadString (l ++ rest) = (Ok s, rest).
Proof. exact string_roundtrip. Qed.
Print Assumptions C02_string_roundtrip.

Theorem C02_read_string_exactly : forall b,
  (exists s rest, b = s ++ x00 :: rest /\ nul_free s /\ ReadString b = (Ok s, rest)) \/
  (nul_free b /\ ReadString b = (Err ErrNoTerminator, b)).
Proof. exact read_string_exactly. Qed.
Print Assumptions C02_read_string_exactly.

Example C02_instance :
  ReadString (str "user" ++ [x00; x41; x00]) = (Ok (str "user"), [x41; x00]) /\
  ReadString (str "user") = (Err ErrNoTerminator, str "user") /\
  WriteString [x01] (str "ab") = [x01; x61; x62; x00].
Proof. vm_compute. auto. Qed.

(** * C03 Integer arrays survive the wire.  2^48 bytes is the largest slice Go can make. *)

Theorem C03_int32_array_roundtrip : forall arr b rest,
  Forall in_int32 arr -> Z.of_nat (length arr) * 4 <= 2 ^ 48 ->
  exists l, WriteInt32Array b arr = b ++ l /\ seq_repr int32_repr arr l /\
            ReadInt32Array (Z.of_nat (length arr)) (l ++ rest) = (Ok arr, rest).
Proof. exact int32_array_roundtrip. Qed.
Print Assumptions C03_int32_array_roundtrip.

Theorem C03_int16_array_roundtrip : forall arr b rest,
  Forall in_int16 arr -> Z.of_nat (length arr) * 2 <= 2 ^ 48 ->
  exists l, WriteInt16Array b arr = b ++ l /\ seq_repr int16_repr arr l /\
            ReadInt16Array (Z.of_nat (length arr)) (l ++ rest) = (Ok arr, rest).
Proof. exact int16_array_roundtrip. Qed.
Print Assumptions C03_int16_array_roundtrip.

Example C03_instance :
  WriteInt32Array [] [1; -1] = [x00; x00; x00; x01; xff; xff; xff; xff] /\
  ReadInt32Array 2 [x00; x00; x00; x01; xff; xff; xff; xff; x09] = (Ok [1; -1], [x09]) /\
  ReadInt16Array 2 [x00; x01; xff; xff; x09] = (Ok [1; -1], [x09]).
Proof. vm_compute. auto. Qed.

(** * C04 A failed read consumes nothing *)

Theorem C04_failed_read_consumes_nothing : forall b,
  (forall n e b', ReadBytes n b = (Err e, b') -> b' = b) /\
  (forall e b', ReadByte b = (Err e, b') -> b' = b) /\
  (forall e b', ReadInt32 b = (Err e, b') -> b' = b) /\
  (forall e b', ReadInt16 b = (Err e, b') -> b' = b) /\
  (forall e b', ReadString b = (Err e, b') -> b' = b) /\
  (forall k e b', - 2 ^ 63 <= k < 2 ^ 63 -> ReadInt32Array k b = (Err e, b') -> b' = b) /\
  (forall k e b', - 2 ^ 63 <= k < 2 ^ 63 -> ReadInt16Array k b = (Err e, b') -> b' = b).
Proof. exact failed_read. Qed.
Print Assumptions C04_failed_read_consumes_nothing.

Example C04_instance :
  ReadBytes 3 [x01; x02] = (Err EOF, [x01; x02]) /\ ReadByte [] = (Err EOF, []) /\
  ReadInt32 [x01; x02] = (Err EOF, [x01; x02]) /\ ReadInt16 [x01] = (Err EOF, [x01]) /\
  ReadString [x41] = (Err ErrNoTerminator, [x41]) /\
  ReadInt32Array 1 [x01] = (Err EOF, [x01]) /\ ReadInt16Array 1 [x01] = (Err EOF, [x01]).
Proof. vm_compute. repeat split. Qed.

(** * C05 A successful read consumes exactly a prefix *)

Theorem C05_successful_read_consumes_exactly : forall b,
  (forall n v b', ReadBytes n b = (Ok v, b') -> b = v ++ b' /\ Z.of_nat (length v) = n) /\
  (forall c b', ReadByte b = (Ok c, b') -> b = c :: b') /\
  (forall z b', ReadInt32 b = (Ok z, b') -> exists l, b = l ++ b' /\ length l = 4%nat /\ int32_repr z l) /\
  (forall z b', ReadInt16 b = (Ok z, b') -> exists l, b = l ++ b' /\ length l = 2%nat /\ int16_repr z l) /\
  (forall s b', ReadString b = (Ok s, b') -> b = (s ++ [x00]) ++ b' /\ nul_free s) /\
  (forall k a b', - 2 ^ 63 <= k < 2 ^ 63 -> ReadInt32Array k b = (Ok a, b') ->
     exists l, b = l ++ b' /\ seq_repr int32_repr a l /\
               Z.of_nat (length a) = k /\ Z.of_nat (length l) = 4 * k) /\
  (forall k a b', - 2 ^ 63 <= k < 2 ^ 63 -> ReadInt16Array k b = (Ok a, b') ->
     exists l, b = l ++ b' /\ seq_repr int16_repr a l /\
               Z.of_nat (length a) = k /\ Z.of_nat (length l) = 2 * k).
Proof. exact successful_read. Qed.
Print Assumptions C05_successful_read_consumes_exactly.

Example C05_instance :
  ReadBytes 2 [x01; x02; x03] = (Ok [x01; x02], [x03]) /\ ReadByte [x01; x02] = (Ok x01, [x02]) /\
  ReadInt16Array 0 [x01] = (Ok [], [x01]).
Proof. vm_compute. auto. Qed.

(** * C06 ReadBytes succeeds exactly on 0 <= n <= Len *)

Theorem C06_read_bytes_exactly : forall n b,
  (0 <= n <= rb_len b ->
     ReadBytes n b = (Ok (firstn (Z.to_nat n) b), skipn (Z.to_nat n) b)) /\
  (rb_len b < n -> ReadBytes n b = (Err EOF, b)) /\
  (n < 0 -> exists p, fst (ReadBytes n b) = Panic p).
Proof. exact read_bytes_exactly. Qed.
Print Assumptions C06_read_bytes_exactly.

(** For a count [k] (a Go int): with [0 <= 4k <= 2^48] success iff [4k <= Len], else EOF; every other
    [k] never succeeds: it is EOF if the wrapped product exceeds Len and a crash otherwise. *)
Theorem C06_read_int32_array_exactly : forall k b, - 2 ^ 63 <= k < 2 ^ 63 ->
  (0 <= k -> k * 4 <= 2 ^ 48 -> k * 4 <= rb_len b -> exists a, fst (ReadInt32Array k b) = Ok a) /\
  (0 <= k -> k * 4 <= 2 ^ 48 -> rb_len b < k * 4 -> fst (ReadInt32Array k b) = Err EOF) /\
  (k < 0 \/ 2 ^ 48 < k * 4 ->
     (rb_len b < wrap64 (k * 4) -> fst (ReadInt32Array k b) = Err EOF) /\
     (wrap64 (k * 4) <= rb_len b -> exists p, fst (ReadInt32Array k b) = Panic p)).
Proof. exact read_int32_array_exactly. Qed.
Print Assumptions C06_read_int32_array_exactly.

Theorem C06_read_int16_array_exactly : forall k b, - 2 ^ 63 <= k < 2 ^ 63 ->
  (0 <= k -> k * 2 <= 2 ^ 48 -> k * 2 <= rb_len b -> exists a, fst (ReadInt16Array k b) = Ok a) /\
  (0 <= k -> k * 2 <= 2 ^ 48 -> rb_len b < k * 2 -> fst (ReadInt16Array k b) = Err EOF) /\
  (k < 0 \/ 2 ^ 48 < k * 2 ->
     (rb_len b < wrap64 (k * 2) -> fst (ReadInt16Array k b) = Err EOF) /\
     (wrap64 (k * 2) <= rb_len b -> exists p, fst (ReadInt16Array k b) = Panic p)).
Proof. exact read_int16_array_exactly. Qed.
Print Assumptions C06_read_int16_array_exactly.

(** a negative count crashes; [k = 2^62] (4k wraps to 0) crashes in make *)
Example C06_instance :
  fst (ReadBytes (-1) [x01]) = Panic PanicSliceBounds /\
  fst (ReadInt32Array (-1) [x01]) = Panic PanicSliceBounds /\
  fst (ReadInt32Array (2 ^ 62) [x01]) = Panic PanicMakeSlice /\
  fst (ReadInt32Array (2 ^ 61 - 1) [x01]) = Err EOF.
Proof. vm_compute. auto. Qed.

(** * C07 WriteBuffer only appends *)

Theorem C07_writes_only_append : forall b,
  (forall v, WriteBytes b v = b ++ v) /\
  (forall c, WriteByte b c = b ++ [c]) /\
  (forall z, in_int32 z -> exists l, WriteInt32 b z = b ++ l /\ length l = 4%nat /\ int32_repr z l) /\
  (forall z, in_int16 z -> exists l, WriteInt16 b z = b ++ l /\ length l = 2%nat /\ int16_repr z l) /\
  (forall s, WriteString b s = b ++ s ++ [x00]) /\
  (forall a, Forall in_int32 a ->
     exists l, WriteInt32Array b a = b ++ l /\ seq_repr int32_repr a l /\ length l = (4 * length a)%nat) /\
  (forall a, Forall in_int16 a ->
     exists l, WriteInt16Array b a = b ++ l /\ seq_repr int16_repr a l /\ length l = (2 * length a)%nat).
Proof. exact writes_append. Qed.
Print Assumptions C07_writes_only_append.

Example C07_instance :
  WriteInt16Array [x05] [258; -2] = [x05; x01; x02; xff; xfe] /\ Forall in_int16 [258; -2].
Proof. split; [reflexivity|]. repeat constructor; vm_compute; intuition congruence. Qed.
