(** Independent specification of the wire data types of the PostgreSQL protocol
    (https://www.postgresql.org/docs/9.6/protocol-message-types.html).  Uses only the
    byte/number conversions of [GoBase]; none of the model's read/write functions. *)
From Verif Require Import GoBase.

(** The unsigned number a byte string denotes, most significant byte first. *)
Definition be_value (l : bytes) : Z := fold_left (fun acc b => 256 * acc + Z_of_byte b) l 0.

(** [w] bytes hold the signed number [z] in two's complement, network byte order. *)
Definition int_repr (w : nat) (z : Z) (l : bytes) : Prop :=
  length l = w /\
  - 2 ^ (8 * Z.of_nat w - 1) <= z < 2 ^ (8 * Z.of_nat w - 1) /\
  be_value l = (if z <? 0 then z + 2 ^ (8 * Z.of_nat w) else z).

Definition int32_repr := int_repr 4.
Definition int16_repr := int_repr 2.

Definition in_int32 (z : Z) : Prop := - 2 ^ 31 <= z < 2 ^ 31.
Definition in_int16 (z : Z) : Prop := - 2 ^ 15 <= z < 2 ^ 15.
Definition in_uint32 (z : Z) : Prop := 0 <= z < 2 ^ 32.

(** An OID is transmitted as the Int32 with the same 32 bits: its bytes denote it unsigned. *)
Definition oid_repr (z : Z) (l : bytes) : Prop := length l = 4%nat /\ be_value l = z.

(** A protocol String: any bytes but NUL, then a NUL. *)
Definition nul_free (s : bytes) : Prop := ~ In x00 s.
Definition cstring_repr (s : bytes) (l : bytes) : Prop := nul_free s /\ l = s ++ [x00].

(** A sequence of items each represented by consecutive bytes. *)
Inductive seq_repr {A} (R : A -> bytes -> Prop) : list A -> bytes -> Prop :=
| seq_nil : seq_repr R [] []
| seq_cons a l la ll : R a la -> seq_repr R l ll -> seq_repr R (a :: l) (la ++ ll).
