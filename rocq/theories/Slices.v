(** The buffers of pkg/pg/read_buffer.go and write_buffer.go, and the parser of data_row_message.go,
    once more, this time with Go's memory: a slice is a window into an array that other slices may share,
    and [append] writes in place when the capacity allows.  Buffers.v and Messages.v, which use lists of
    bytes, are what one sees of it as long as nobody shares what somebody writes to (P_Slices.v).
    Simplification: slices of integers ([]int32, []int16) are lists, since nothing writes to them after
    they are returned; how much capacity append reserves is an arbitrary function. *)
From Verif Require Export Messages.

(** Go memory: the arrays allocated so far; an array is never resized. *)
Definition heap := list bytes.
(** The Go slice header over bytes.  nil is [Slice 0 0 0 0]: without capacity its array does not matter. *)
Record slice := Slice { s_arr : nat; s_off : nat; s_len : nat; s_cap : nat }.
(** The zero value of a slice variable ([var buffer WriteBuffer], standard_frame.go:33) *)
Definition nil_slice : slice := Slice 0 0 0 0.
(** The array a slice points into *)
Definition array (h : heap) (s : slice) : bytes := nth (s_arr s) h [].
(** The bytes one sees through a slice *)
Definition contents (h : heap) (s : slice) : bytes := firstn (s_len s) (skipn (s_off s) (array h s)).

(** [s[:n]] and [s[n:]] for 0 <= n <= len(s) *)
Definition slice_to (s : slice) (n : nat) : slice := Slice (s_arr s) (s_off s) n (s_cap s).
(** (the capacity of [s[:n]] is that of [s]) *)
Definition slice_from (s : slice) (n : nat) : slice := Slice (s_arr s) (s_off s + n) (s_len s - n) (s_cap s - n).

(** Overwrite the part of [l] starting at [i] with [v] *)
Definition overwrite (l : bytes) (i : nat) (v : bytes) : bytes := firstn i l ++ v ++ skipn (i + length v) l.
(** Replace array [a] *)
Fixpoint set_array (h : heap) (a : nat) (l : bytes) : heap :=
  match h, a with
  | [], _ => []
  | _ :: h', O => l :: h'
  | x :: h', S a' => x :: set_array h' a' l
  end.
(** [s[i] = v] for 0 <= i < len(s) *)
Definition store (h : heap) (s : slice) (i : nat) (v : byte) : heap :=
  set_array h (s_arr s) (overwrite (array h s) (s_off s + i) [v]).
(** Allocate an array holding [l] and [extra] zero bytes of further capacity *)
Definition alloc (h : heap) (l : bytes) (extra : nat) : heap * slice :=
  (h ++ [l ++ repeat x00 extra], Slice (length h) 0 (length l) (length l + extra)).

(** How much more capacity than needed append reserves: the runtime's choice, given capacity and need *)
Definition policy := nat -> nat -> nat.
(** [append(s, v...)], the values of [v] being read first *)
Definition append (P : policy) (h : heap) (s : slice) (v : bytes) : heap * slice :=
  let n := (s_len s + length v)%nat in
  if (n <=? s_cap s)%nat
  then (set_array h (s_arr s) (overwrite (array h s) (s_off s + s_len s) v), Slice (s_arr s) (s_off s) n (s_cap s))
  else alloc h (contents h s ++ v) (P (s_cap s) n).

(** * ReadBuffer: the buffer is a slice variable; no method writes to memory. *)

(** read_buffer.go:34-45 *)
Definition hReadBytes (n : Z) (b : slice) : res slice * slice :=
  if Z.of_nat (s_len b) <? n then (Err EOF, b)
  else if n <? 0 then (Panic PanicSliceBounds, b)
  else (Ok (slice_to b (Z.to_nat n)), slice_from b (Z.to_nat n)).
(** [bytes, err := b.ReadBytes(n); if err != nil { return err }; return k(bytes)] *)
Definition hbytes {A} (h : heap) (n : Z) (k : bytes -> res A) (b : slice) : res A * slice :=
  match hReadBytes n b with
  | (Ok s, b') => (k (contents h s), b')
  | (Err e, b') => (Err e, b')
  | (Panic p, b') => (Panic p, b')
  end.
(** read_buffer.go:49-57 *)
Definition hReadByte (h : heap) : slice -> res byte * slice :=
  hbytes h 1 (fun value => match value with c :: _ => Ok c | [] => Panic PanicIndex end).
(** read_buffer.go:61-69 *)
Definition hReadInt32 (h : heap) : slice -> res Z * slice := hbytes h 4 (fun intBytes => res_map wrap32 (get_uint32 intBytes)).
(** read_buffer.go:73-81 *)
Definition hReadInt16 (h : heap) : slice -> res Z * slice := hbytes h 2 (fun intBytes => res_map wrap16 (get_uint16 intBytes)).
(** read_buffer.go:85-102; [string(...)] copies *)
Definition hReadString (h : heap) (b : slice) : res bytes * slice :=
  match index_byte (contents h b) x00 with
  | None => (Err ErrNoTerminator, b)
  | Some nullIndex => hbytes h (Z.of_nat nullIndex + 1) (fun stringBytes => Ok (firstn nullIndex stringBytes)) b
  end.
(** read_buffer.go:106-120 *)
Definition hReadInt32Array (h : heap) (k : Z) : slice -> res (list Z) * slice :=
  hbytes h (wrap64 (k * 4)) (fun arrBytes => res_bind (make_slice k 4) (fun _ =>
    decode_array (fun b => res_map wrap32 (get_uint32 b)) 4 (Z.to_nat k) arrBytes)).
(** read_buffer.go:124-138 *)
Definition hReadInt16Array (h : heap) (k : Z) : slice -> res (list Z) * slice :=
  hbytes h (wrap64 (k * 2)) (fun arrBytes => res_bind (make_slice k 2) (fun _ =>
    decode_array (fun b => res_map wrap16 (get_uint16 b)) 2 (Z.to_nat k) arrBytes)).

(** * WriteBuffer: the buffer is a slice variable. *)

(** write_buffer.go:28-30, with the argument a slice *)
Definition hWriteBytes (P : policy) (h : heap) (b v : slice) : heap * slice := append P h b (contents h v).
(** write_buffer.go:33-35 *)
Definition hWriteByte (P : policy) (h : heap) (b : slice) (c : byte) : heap * slice := append P h b [c].
(** The rest of WriteInt32 etc.: a fresh slice is filled with [l] and appended *)
Definition hWriteFresh (P : policy) (h : heap) (b : slice) (l : bytes) : heap * slice :=
  let (h1, v) := alloc h l 0 in hWriteBytes P h1 b v.
(** write_buffer.go:38-42 *)
Definition hWriteInt32 (P : policy) (h : heap) (b : slice) (num : Z) : heap * slice := hWriteFresh P h b (put_uint32 (uwrap32 num)).
(** write_buffer.go:45-49 *)
Definition hWriteInt16 (P : policy) (h : heap) (b : slice) (num : Z) : heap * slice := hWriteFresh P h b (put_uint16 (uwrap16 num)).
(** write_buffer.go:52-54: two appends *)
Definition hWriteString (P : policy) (h : heap) (b : slice) (s : bytes) : heap * slice :=
  let (h1, b1) := append P h b s in append P h1 b1 [x00].
(** write_buffer.go:57-65 *)
Definition hWriteInt32Array (P : policy) (h : heap) (b : slice) (arr : list Z) : heap * slice :=
  hWriteFresh P h b (concat (map (fun v => put_uint32 (uwrap32 v)) arr)).
(** write_buffer.go:68-76 *)
Definition hWriteInt16Array (P : policy) (h : heap) (b : slice) (arr : list Z) : heap * slice :=
  hWriteFresh P h b (concat (map (fun v => put_uint16 (uwrap16 v)) arr)).

(** * ParseDataRowMessage: the values are windows into the frame *)

(** data_row_message.go:34-50 *)
Fixpoint hparse_values (h : heap) (n : nat) (b : slice) : res (list (option slice)) :=
  match n with
  | O => Ok []
  | S n' =>
      match hReadInt32 h b with
      | (Ok size, b1) =>
          if size =? -1 then res_map (cons None) (hparse_values h n' b1)
          else match hReadBytes size b1 with
               | (Ok v, b2) => res_map (cons (Some v)) (hparse_values h n' b2)
               | (Err e, _) => Err e
               | (Panic p, _) => Panic p
               end
      | (Err e, _) => Err e
      | (Panic p, _) => Panic p
      end
  end.
(** data_row_message.go:17-53, for the frame in slice [f] (standard_frame.go:17-24 are [f[0]], [f[5:]]) *)
Definition hParseDataRowMessage (h : heap) (f : slice) : res (list (option slice)) :=
  match contents h f with
  | [] => Panic PanicIndex
  | t :: _ =>
      if byte_eqb t DataRowMessageType then
        if (s_len f <? 5)%nat then Panic PanicSliceBounds else
        match hReadInt16 h (slice_from f 5) with
        | (Ok valuesCount, b) => res_bind (make_slice valuesCount 24) (fun _ => hparse_values h (Z.to_nat valuesCount) b)
        | (Err e, _) => Err e
        | (Panic p, _) => Panic p
        end
      else Err ErrMalformedMessage
  end.

(** * Programs using any number of buffers *)

(** A variable of type WriteBuffer, or one of type ReadBuffer or []byte *)
Inductive kind := KWriter | KReader.
(** A call of a WriteBuffer method; the argument of WriteBytes is another variable *)
Inductive write := WBytes (j : nat) | WByte (c : byte) | WInt32 (z : Z) | WInt16 (z : Z) | WString (s : bytes) | WInt32s (l : list Z) | WInt16s (l : list Z).
(** A call of a ReadBuffer method *)
Inductive read := RBytes (n : Z) | RByte | RInt32 | RInt16 | RString | RInt32s (k : Z) | RInt16s (k : Z).
(** A statement of the program; new variables are numbered from 0 *)
Inductive op :=
| ONew                        (* var buf WriteBuffer *)
| OWrite (i : nat) (w : write)
| OView (i : nat)             (* ReadBuffer(x), []byte(x), or a copy of either: a new read variable *)
| ORead (i : nat) (r : read). (* the bytes ReadBytes returns become a new read variable *)
(** What a statement returns: nothing, a number, bytes or an array, or an error *)
Inductive out := OutNone | OutByte (r : res byte) | OutInt (r : res Z) | OutBytes (r : res bytes) | OutInts (r : res (list Z)).

(** The program in memory: variables are slices *)
Definition vars := list (kind * slice).
(** assignment to variable [i] *)
Fixpoint assign {A} (vs : list A) (i : nat) (x : A) : list A :=
  match vs, i with
  | [], _ => []
  | _ :: vs', O => x :: vs'
  | y :: vs', S i' => y :: assign vs' i' x
  end.
(** the value of variable [j] *)
Definition var (vs : vars) (j : nat) : slice := match nth_error vs j with Some (_, s) => s | None => nil_slice end.
(** a method of WriteBuffer on slice [b] *)
Definition do_write (P : policy) (h : heap) (vs : vars) (b : slice) (w : write) : heap * slice :=
  match w with
  | WBytes j => hWriteBytes P h b (var vs j)
  | WByte c => hWriteByte P h b c
  | WInt32 z => hWriteInt32 P h b z
  | WInt16 z => hWriteInt16 P h b z
  | WString s => hWriteString P h b s
  | WInt32s l => hWriteInt32Array P h b l
  | WInt16s l => hWriteInt16Array P h b l
  end.
(** a method of ReadBuffer on slice [b]: output, new [b], new variables *)
Definition do_read (h : heap) (b : slice) (r : read) : out * slice * vars :=
  match r with
  | RBytes n => match hReadBytes n b with
                | (Ok s, b') => (OutBytes (Ok (contents h s)), b', [(KReader, s)])
                | (Err e, b') => (OutBytes (Err e), b', [])
                | (Panic p, b') => (OutBytes (Panic p), b', [])
                end
  | RByte => let (x, b') := hReadByte h b in (OutByte x, b', [])
  | RInt32 => let (x, b') := hReadInt32 h b in (OutInt x, b', [])
  | RInt16 => let (x, b') := hReadInt16 h b in (OutInt x, b', [])
  | RString => let (x, b') := hReadString h b in (OutBytes x, b', [])
  | RInt32s k => let (x, b') := hReadInt32Array h k b in (OutInts x, b', [])
  | RInt16s k => let (x, b') := hReadInt16Array h k b in (OutInts x, b', [])
  end.
(** one statement; only WriteBuffers are written to, only read variables are read from *)
Definition hexec (P : policy) (s : heap * vars) (o : op) : heap * vars * out :=
  let (h, vs) := s in
  match o with
  | ONew => (h, vs ++ [(KWriter, nil_slice)], OutNone)
  | OWrite i w => match nth_error vs i with
                  | Some (KWriter, b) => let (h', b') := do_write P h vs b w in (h', assign vs i (KWriter, b'), OutNone)
                  | _ => (h, vs, OutNone)
                  end
  | OView i => (h, vs ++ [(KReader, var vs i)], OutNone)
  | ORead i r => match nth_error vs i with
                 | Some (KReader, b) => let '(x, b', new) := do_read h b r in (h, assign vs i (KReader, b') ++ new, x)
                 | _ => (h, vs, OutNone)
                 end
  end.
(** a whole program: final state and outputs *)
Fixpoint hrun (P : policy) (s : heap * vars) (os : list op) : heap * vars * list out :=
  match os with
  | [] => (s, [])
  | o :: os' => let '(s1, x) := hexec P s o in let '(s2, xs) := hrun P s1 os' in (s2, x :: xs)
  end.
