(** ReadBuffer.Inspect (read_buffer.go:140-143) and WriteBuffer.Inspect (write_buffer.go:78-81), with encoding/hex's
    Dump, which they call.  Simplification: the dumper's array of 18 characters for the right column is the list of
    the characters stored so far in the line; what it writes is collected in [d_out]. *)
From Coq Require Import NArith DecimalString String Ascii.
From Verif Require Import Buffers.
Local Open Scope list_scope.

(** a Go string literal *)
Fixpoint text (s : string) : bytes :=
  match s with
  | EmptyString => []
  | String c s' => byte_of_ascii c :: text s'
  end.
(** fmt's %d of a length *)
Definition decimal (n : nat) : bytes := text (NilZero.string_of_uint (Nat.to_uint n)).
(** hex.Encode of one byte *)
Definition hextable : bytes := text "0123456789abcdef".
(** (the two digits) *)
Definition hex_byte (c : byte) : bytes :=
  let n := N.to_nat (Byte.to_N c) in [nth (n / 16) hextable x00; nth (n mod 16) hextable x00].
(** byte(n) for a uint n *)
Definition low_byte (n : N) : byte := match Byte.of_N (n mod 256) with Some c => c | None => x00 end.
(** hex.toChar *)
Definition toChar (c : byte) : byte := if ((Byte.to_N c <? 32) || (126 <? Byte.to_N c))%N then "."%byte else c.

(** hex.dumper *)
Record dumper := Dumper { d_used : nat; d_n : N; d_right : bytes; d_out : bytes }.
(** the offset in front of a line *)
Definition hex_offset (n : N) : bytes :=
  hex_byte (low_byte (N.shiftr n 24)) ++ hex_byte (low_byte (N.shiftr n 16)) ++ hex_byte (low_byte (N.shiftr n 8)) ++ hex_byte (low_byte n) ++ text "  ".
(** one iteration of dumper.Write *)
Definition dump_byte (h : dumper) (c : byte) : dumper :=
  let start := if Nat.eqb (d_used h) 0 then hex_offset (d_n h) else [] in
  let cell := hex_byte c ++ (if Nat.eqb (d_used h) 7 then text "  " else if Nat.eqb (d_used h) 15 then text "  |" else text " ") in
  let right := d_right h ++ [toChar c] in
  if Nat.eqb (S (d_used h)) 16
  then Dumper 0 (d_n h + 1) [] (d_out h ++ start ++ cell ++ right ++ text "|" ++ [x0a])
  else Dumper (S (d_used h)) (d_n h + 1) right (d_out h ++ start ++ cell).
(** the padding loop of dumper.Close *)
Fixpoint dump_pad (k : nat) (used : nat) : bytes :=
  match k with
  | O => []
  | S k' => (if Nat.eqb used 7 then text "    " else if Nat.eqb used 15 then text "    |" else text "   ") ++ dump_pad k' (S used)
  end.
(** dumper.Close: what has been written in the end *)
Definition dump_close (h : dumper) : bytes :=
  if Nat.eqb (d_used h) 0 then d_out h
  else d_out h ++ dump_pad (16 - d_used h) (d_used h) ++ d_right h ++ text "|" ++ [x0a].
(** hex.Dump *)
Definition Dump (data : bytes) : bytes :=
  match data with
  | [] => []
  | _ => dump_close (fold_left dump_byte data (Dumper 0 0 [] []))
  end.
(** read_buffer.go:140-143, write_buffer.go:78-81 *)
Definition Inspect (b : bytes) : bytes := text "buffer length: " ++ decimal (length b) ++ [x0a] ++ Dump b.
