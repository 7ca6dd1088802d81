(** Go values used by every model file: bytes, strings, fixed-width integers,
    results (value / error / run-time panic).  Nothing here is specific to gevulot. *)
From Coq Require Export List ZArith NArith Lia Bool.
From Coq Require Export Init.Byte.
From Coq Require Import Strings.Byte Strings.String.
Export ListNotations.
Export String.StringSyntax.
Open Scope Z_scope.

(** A Go [byte]; a Go [string] or [[]byte] is a list of them. *)
Notation bytes := (list byte).

(** Conversions [int(b)] and [byte(z)] (the latter truncates to 8 bits, as Go does). *)
Definition Z_of_byte (b : byte) : Z := Z.of_N (Byte.to_N b).
(** Go conversion [byte(z)] (used by binary.BigEndian.Put*, write_buffer.go:40, 47) *)
Definition byte_of_Z (z : Z) : byte :=
  match Byte.of_N (Z.to_N (z mod 256)) with Some b => b | None => x00 end.

(** ASCII literals of the Go source. *)
Definition str (s : string) : bytes := list_byte_of_string s.
Arguments str s%string.

(** Go [==] on bytes *)
Definition byte_eqb (a b : byte) : bool := Byte.eqb a b.

(** Go [==] on strings (e.g. session.go:187, dsn.go:23) *)
Fixpoint bytes_eqb (a b : bytes) : bool :=
  match a, b with
  | [], [] => true
  | x :: a', y :: b' => byte_eqb x y && bytes_eqb a' b'
  | _, _ => false
  end.

(** Fixed-width wrap-around: Go's conversions [int16(x)], [int32(x)], [uint32(x)],
    and the 64-bit [int] of the platforms gevulot is built for. *)
Definition wrap_signed (w : Z) (z : Z) : Z :=
  let m := z mod 2 ^ w in if m <? 2 ^ (w - 1) then m else m - 2 ^ w.
(** [int16(x)], read_buffer.go:80 *)
Definition wrap16 (z : Z) : Z := wrap_signed 16 z.
(** [int32(x)], read_buffer.go:68 *)
Definition wrap32 (z : Z) : Z := wrap_signed 32 z.
(** a 64-bit Go [int] *)
Definition wrap64 (z : Z) : Z := wrap_signed 64 z.
(** [uint16(x)], write_buffer.go:47 *)
Definition uwrap16 (z : Z) : Z := z mod 2 ^ 16.
(** [uint32(x)], write_buffer.go:40 *)
Definition uwrap32 (z : Z) : Z := z mod 2 ^ 32.

(** Every error value the modelled code distinguishes. *)
Inductive error :=
| EOF                                     (* io.EOF *)
| ErrNoTerminator                         (* "invalid message format: expected string terminator" *)
| ErrMalformedMessage                     (* pg.ErrMalformedMessage *)
| ErrUnsupportedAuth                      (* pg.ErrunsupportedAuthenticationRequest *)
| ErrUnsupportedVersion (v : Z)           (* session: unsupported PG protocol version *)
| ErrDatabaseMismatch (got want : bytes)  (* session: database mismatch *)
| ErrSessionClosed                        (* server.ErrSessionClosed *)
| ErrConfigDistributorClosed              (* server.ErrConfigDistributorClosed *)
| ErrServerClosed                         (* server.ErrServerClosed *)
| ErrServerAlreadyStarted                 (* server.ErrServerAlreadyStarted *)
| ErrInvalidURI                           (* dsn.go: invalid PostgreSQL database URI *)
| ErrConnClosed                           (* use of closed network connection *)
| ErrExternal (code : N)                  (* an error produced by an external call *)
| OutOfFuel.                              (* never produced: excluded by theorems *)

(** Go run-time panics that the modelled code can raise. *)
Inductive panic :=
| PanicSliceBounds     (* slice bounds out of range *)
| PanicIndex           (* index out of range *)
| PanicMakeSlice       (* makeslice: len out of range *)
| PanicSendClosed      (* send on closed channel *)
| PanicCloseClosed     (* close of closed channel *)
| PanicCloseNil        (* close of nil channel *)
| PanicWatchdog.       (* server.go: panic in the shutdown watchdog *)

(** the outcome of a Go call: a value, a non-nil error, or a run-time panic *)
Inductive res (A : Type) :=
| Ok (a : A)
| Err (e : error)
| Panic (p : panic).
Arguments Ok {A} a.
Arguments Err {A} e.
Arguments Panic {A} p.

(** apply a pure function to the value *)
Definition res_map {A B} (f : A -> B) (r : res A) : res B :=
  match r with Ok a => Ok (f a) | Err e => Err e | Panic p => Panic p end.
(** [v, err := r; if err != nil { return err }; f(v)] *)
Definition res_bind {A B} (r : res A) (f : A -> res B) : res B :=
  match r with Ok a => f a | Err e => Err e | Panic p => Panic p end.

(** [make([]T, n)]: panics for a negative length or one whose byte size exceeds
    the address space the Go runtime accepts (maxAlloc = 2^48 on linux/amd64). *)
Definition make_slice (n elem_size : Z) : res unit :=
  if (n <? 0) || (2 ^ 48 <? n * elem_size) then Panic PanicMakeSlice else Ok tt.
