(** What a user of the buffers expects of a program: variables hold bytes, and changing one variable changes
    no other. *)
From Verif Require Export Slices.

(** The program with values in place of memory; the methods are those of Buffers.v *)
Definition values := list (kind * bytes).
Definition value (vs : values) (j : nat) : bytes := match nth_error vs j with Some (_, b) => b | None => [] end.
Definition write_value (vs : values) (b : bytes) (w : write) : bytes :=
  match w with
  | WBytes j => WriteBytes b (value vs j)
  | WByte c => WriteByte b c
  | WInt32 z => WriteInt32 b z
  | WInt16 z => WriteInt16 b z
  | WString s => WriteString b s
  | WInt32s l => WriteInt32Array b l
  | WInt16s l => WriteInt16Array b l
  end.
Definition read_value (b : bytes) (r : read) : out * bytes * values :=
  match r with
  | RBytes n => let (x, b') := ReadBytes n b in (OutBytes x, b', match x with Ok v => [(KReader, v)] | _ => [] end)
  | RByte => let (x, b') := ReadByte b in (OutByte x, b', [])
  | RInt32 => let (x, b') := ReadInt32 b in (OutInt x, b', [])
  | RInt16 => let (x, b') := ReadInt16 b in (OutInt x, b', [])
  | RString => let (x, b') := ReadString b in (OutBytes x, b', [])
  | RInt32s k => let (x, b') := ReadInt32Array k b in (OutInts x, b', [])
  | RInt16s k => let (x, b') := ReadInt16Array k b in (OutInts x, b', [])
  end.
Definition exec (vs : values) (o : op) : values * out :=
  match o with
  | ONew => (vs ++ [(KWriter, [])], OutNone)
  | OWrite i w => match nth_error vs i with
                  | Some (KWriter, b) => (assign vs i (KWriter, write_value vs b w), OutNone)
                  | _ => (vs, OutNone)
                  end
  | OView i => (vs ++ [(KReader, value vs i)], OutNone)
  | ORead i r => match nth_error vs i with
                 | Some (KReader, b) => let '(x, b', new) := read_value b r in (assign vs i (KReader, b') ++ new, x)
                 | _ => (vs, OutNone)
                 end
  end.
Fixpoint run_values (vs : values) (os : list op) : values * list out :=
  match os with
  | [] => (vs, [])
  | o :: os' => let '(vs1, x) := exec vs o in let '(vs2, xs) := run_values vs1 os' in (vs2, x :: xs)
  end.
(** What one sees of the variables in memory *)
Definition seen (h : heap) (vs : vars) : values := map (fun x => (fst x, contents h (snd x))) vs.

(** A slice lies in allocated memory. *)
Definition valid (h : heap) (s : slice) : Prop := (s_len s <= s_cap s)%nat /\ (s_off s + s_cap s <= length (array h s))%nat.
(** The bytes of [x] are not in the free capacity of [b], where append would write. *)
Definition apart (x b : slice) : Prop :=
  s_arr x <> s_arr b \/ (s_off x + s_len x <= s_off b + s_len b)%nat \/ (s_off b + s_cap b <= s_off x)%nat.
