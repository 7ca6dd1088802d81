(** Model of pkg/pg/read_buffer.go and pkg/pg/write_buffer.go. *)
From Verif Require Export GoBase.

(** * binary.BigEndian (Go standard library), as used by both buffers. *)

(** [binary.BigEndian.PutUint32] on a fresh 4-byte slice. *)
Definition put_uint32 (v : Z) : bytes :=
  [byte_of_Z (Z.shiftr v 24); byte_of_Z (Z.shiftr v 16); byte_of_Z (Z.shiftr v 8); byte_of_Z v].
(** [binary.BigEndian.PutUint16] on a fresh 2-byte slice. *)
Definition put_uint16 (v : Z) : bytes :=
  [byte_of_Z (Z.shiftr v 8); byte_of_Z v].
(** [binary.BigEndian.Uint32]: reads the first four bytes, panics if there are fewer.
    (Go uses shifts and ors of disjoint bit ranges; written here as a sum.) *)
Definition get_uint32 (b : bytes) : res Z :=
  match b with
  | b0 :: b1 :: b2 :: b3 :: _ =>
      Ok (Z_of_byte b0 * 16777216 + Z_of_byte b1 * 65536 + Z_of_byte b2 * 256 + Z_of_byte b3)
  | _ => Panic PanicIndex
  end.
(** [binary.BigEndian.Uint16]. *)
Definition get_uint16 (b : bytes) : res Z :=
  match b with
  | b0 :: b1 :: _ => Ok (Z_of_byte b0 * 256 + Z_of_byte b1)
  | _ => Panic PanicIndex
  end.

(** * ReadBuffer.  A method takes the buffer [*b] and returns its result and the new [*b]. *)

(** a method of *ReadBuffer (read_buffer.go:15): result and new contents *)
Definition rd (A : Type) : Type := bytes -> res A * bytes.

(** [return a, nil] *)
Definition rd_ret {A} (a : A) : rd A := fun b => (Ok a, b).
(** [return 0, err] *)
Definition rd_fail {A} (e : error) : rd A := fun b => (Err e, b).
(** [v, err := m(); if err != nil { return err }; k(v)] (a panic also stops). *)
Definition rd_bind {A B} (m : rd A) (k : A -> rd B) : rd B := fun b =>
  match m b with
  | (Ok a, b') => k a b'
  | (Err e, b') => (Err e, b')
  | (Panic p, b') => (Panic p, b')
  end.
(** lift a result that does not touch the buffer *)
Definition rd_lift {A} (r : res A) : rd A := fun b => (r, b).

Declare Scope rd_scope.
Delimit Scope rd_scope with rd.
Notation "x <- m ;; k" := (rd_bind m (fun x => k))
  (at level 61, m at next level, right associativity) : rd_scope.
Open Scope rd_scope.

(** read_buffer.go:28-30 [Len] *)
Definition rb_len (b : bytes) : Z := Z.of_nat (length b).

(** read_buffer.go:34-45 [ReadBytes]: [n] is a Go int; slicing [b[:n]] panics for n < 0. *)
Definition ReadBytes (n : Z) : rd bytes := fun b =>
  if rb_len b <? n then (Err EOF, b)
  else if n <? 0 then (Panic PanicSliceBounds, b)
  else (Ok (firstn (Z.to_nat n) b), skipn (Z.to_nat n) b).

(** read_buffer.go:49-57 [ReadByte] *)
Definition ReadByte : rd byte :=
  value <- ReadBytes 1 ;;
  match value with
  | c :: _ => rd_ret c
  | [] => rd_lift (Panic PanicIndex)
  end.

(** read_buffer.go:61-69 [ReadInt32] *)
Definition ReadInt32 : rd Z :=
  intBytes <- ReadBytes 4 ;;
  rd_lift (res_map wrap32 (get_uint32 intBytes)).

(** read_buffer.go:73-81 [ReadInt16] *)
Definition ReadInt16 : rd Z :=
  intBytes <- ReadBytes 2 ;;
  rd_lift (res_map wrap16 (get_uint16 intBytes)).

(** [bytes.IndexByte] (standard library): [None] is Go's -1. *)
Fixpoint index_byte (b : bytes) (c : byte) : option nat :=
  match b with
  | [] => None
  | x :: b' => if byte_eqb x c then Some O else option_map S (index_byte b' c)
  end.

(** read_buffer.go:85-102 [ReadString] *)
Definition ReadString : rd bytes := fun b =>
  match index_byte b x00 with
  | None => (Err ErrNoTerminator, b)
  | Some nullIndex =>
      (stringBytes <- ReadBytes (Z.of_nat nullIndex + 1) ;;
       rd_ret (firstn nullIndex stringBytes)) b
  end.

(** The loop body of read_buffer.go:115-117 (resp. 133-135): [arr[i]] is decoded from
    [arrBytes[w*i:]]; the loop over i = 0..k-1 walks the bytes left to right. *)
Fixpoint decode_array (get : bytes -> res Z) (w : nat) (k : nat) (b : bytes) : res (list Z) :=
  match k with
  | O => Ok []
  | S k' => res_bind (get b) (fun v =>
            res_map (cons v) (decode_array get w k' (skipn w b)))
  end.

(** read_buffer.go:106-120 [ReadInt32Array]: [k*4] is 64-bit int arithmetic; [make] panics
    on a negative or impossible length. *)
Definition ReadInt32Array (k : Z) : rd (list Z) :=
  arrBytes <- ReadBytes (wrap64 (k * 4)) ;;
  _ <- rd_lift (make_slice k 4) ;;
  rd_lift (decode_array (fun b => res_map wrap32 (get_uint32 b)) 4 (Z.to_nat k) arrBytes).

(** read_buffer.go:124-138 [ReadInt16Array] *)
Definition ReadInt16Array (k : Z) : rd (list Z) :=
  arrBytes <- ReadBytes (wrap64 (k * 2)) ;;
  _ <- rd_lift (make_slice k 2) ;;
  rd_lift (decode_array (fun b => res_map wrap16 (get_uint16 b)) 2 (Z.to_nat k) arrBytes).

(** * WriteBuffer.  A method takes the buffer [*b] and returns the new [*b]. *)

(** write_buffer.go:23-25 [Len] *)
Definition wb_len (b : bytes) : Z := Z.of_nat (length b).
(** write_buffer.go:28-30 [WriteBytes] *)
Definition WriteBytes (b : bytes) (v : bytes) : bytes := b ++ v.
(** write_buffer.go:33-35 [WriteByte] *)
Definition WriteByte (b : bytes) (c : byte) : bytes := b ++ [c].
(** write_buffer.go:38-42 [WriteInt32]: [uint32(num)] then big-endian. *)
Definition WriteInt32 (b : bytes) (num : Z) : bytes := WriteBytes b (put_uint32 (uwrap32 num)).
(** write_buffer.go:45-49 [WriteInt16] *)
Definition WriteInt16 (b : bytes) (num : Z) : bytes := WriteBytes b (put_uint16 (uwrap16 num)).
(** write_buffer.go:52-54 [WriteString] *)
Definition WriteString (b : bytes) (s : bytes) : bytes := (b ++ s) ++ [x00].
(** write_buffer.go:57-65 [WriteInt32Array]: the i-th 4-byte window of a fresh slice is filled
    with arr[i]; written as the concatenation of the windows. *)
Definition WriteInt32Array (b : bytes) (arr : list Z) : bytes :=
  WriteBytes b (concat (map (fun v => put_uint32 (uwrap32 v)) arr)).
(** write_buffer.go:68-76 [WriteInt16Array] *)
Definition WriteInt16Array (b : bytes) (arr : list Z) : bytes :=
  WriteBytes b (concat (map (fun v => put_uint16 (uwrap16 v)) arr)).
