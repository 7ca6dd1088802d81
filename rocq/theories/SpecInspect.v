(** What a hex dump looks like (the format of `hexdump -C`): a table of 16 columns. *)
From Coq Require Import NArith String.
From Verif Require Export Buffers.
From Verif Require Export Inspect.
Local Open Scope list_scope.

(** the value of a hexadecimal digit *)
Definition digit (c : byte) : option N :=
  let n := Byte.to_N c in
  if ((48 <=? n) && (n <=? 57))%N then Some (n - 48)%N
  else if ((97 <=? n) && (n <=? 102))%N then Some (n - 87)%N
  else None.
(** [l] is the number [n] in hexadecimal, with leading zeros *)
Fixpoint hexadecimal (n : N) (l : bytes) (acc : N) : Prop :=
  match l with
  | [] => acc = n
  | c :: l' => match digit c with Some d => hexadecimal n l' (16 * acc + d) | None => False end
  end.
(** the cell of column [i]: two digits or two spaces, a space, one more in the middle and at the end *)
Definition cell_repr (i : nat) (c : option byte) (l : bytes) : Prop :=
  exists x, l = x ++ " "%byte :: (if (Nat.eqb i 7 || Nat.eqb i 15)%bool then [" "%byte] else []) /\ length x = 2%nat /\
  match c with Some c => hexadecimal (Byte.to_N c) x 0 | None => x = [" "; " "]%byte end.
(** the cells of the columns from [i] on *)
Inductive cells_repr (chunk : bytes) : nat -> bytes -> Prop :=
| cells_end : cells_repr chunk 16 []
| cells_next i l l' : (i < 16)%nat -> cell_repr i (nth_error chunk i) l -> cells_repr chunk (S i) l' -> cells_repr chunk i (l ++ l').
(** the character shown for a byte: itself if it is printable ASCII *)
Definition shown (c : byte) : byte := if ((32 <=? Byte.to_N c) && (Byte.to_N c <? 127))%N then c else "."%byte.
(** a line: 8 digits of offset (32 bits), the cells, the characters between bars *)
Definition line_repr (offset : N) (chunk : bytes) (l : bytes) : Prop :=
  exists off cells, length off = 8%nat /\ hexadecimal (offset mod 2 ^ 32) off 0 /\ cells_repr chunk 0 cells /\
  l = off ++ [" "; " "]%byte ++ cells ++ ["|"%byte] ++ map shown chunk ++ ["|"%byte; x0a].
(** the lines: 16 bytes each, the rest in the last *)
Inductive dump_repr : N -> bytes -> bytes -> Prop :=
| dump_none off : dump_repr off [] []
| dump_last off c l : (0 < length c < 16)%nat -> line_repr off c l -> dump_repr off c l
| dump_line off c l data rest : length c = 16%nat -> line_repr off c l -> dump_repr (off + 16) data rest -> dump_repr off (c ++ data) (l ++ rest).
(** [l] is the number [n] in decimal *)
Fixpoint decimal_repr (n : nat) (l : bytes) (acc : nat) : Prop :=
  match l with
  | [] => acc = n
  | c :: l' => match digit c with Some d => (d <= 9)%N /\ decimal_repr n l' (10 * acc + N.to_nat d) | None => False end
  end.
(** safe to print: printable ASCII or a line feed *)
Definition printable (c : byte) : Prop := (32 <= Byte.to_N c < 127)%N \/ c = x0a.
