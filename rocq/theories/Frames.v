(** Model of pkg/pg/frame.go, standard_frame.go, startup_frame.go and of the standard-library
    calls they make ([io.CopyN] into a [bytes.Buffer]). *)
From Verif Require Export Buffers.

(** * The byte source ([io.Reader]).
    [chunks] are what successive [Read] calls return (a [Read] with a smaller buffer returns a
    part of the chunk and leaves the rest as the next chunk); a chunk may be empty.  After the
    last chunk every [Read] returns [fin] ([None]: it blocks). *)
Record reader := Reader { chunks : list bytes; fin : option error }.

(** Outcome of a call that reads: it blocks, or it returns leaving a reader. *)
Inductive outcome (A : Type) :=
| Blocked
| Done (r : A) (rest : reader).
Arguments Blocked {A}.
Arguments Done {A} r rest.

(** Standard library [io.LimitedReader] + [bytes.Buffer.ReadFrom]: take up to [need] bytes.
    Returns the bytes, the number still missing and the unread chunks. *)
Fixpoint take_chunks (need : nat) (cs : list bytes) : bytes * nat * list bytes :=
  match cs with
  | [] => ([], need, [])
  | c :: cs' =>
      match need with
      | O => ([], O, c :: cs')          (* LimitedReader: N <= 0 is EOF, no further Read *)
      | _ =>
        if Nat.leb (length c) need then
          let '(d, missing, unread) := take_chunks (need - length c) cs' in (c ++ d, missing, unread)
        else (firstn need c, O, skipn need c :: cs')
      end
  end.

(** Standard library [io.CopyN(buffer, r, n)]: returns the bytes appended to the buffer and the
    error.  When [n < 0] nothing is read and the error is nil ([written < n] is false). *)
Definition CopyN (r : reader) (n : Z) : outcome (bytes * option error) :=
  let '(d, missing, unread) := take_chunks (Z.to_nat n) (chunks r) in
  match missing with
  | O => Done (d, None) (Reader unread (fin r))
  | S _ => match fin r with
           | None => Blocked
           | Some e => Done (d, Some e) (Reader unread (fin r))
           end
  end.

(** * Frames.  [Frame] (frame.go:6-15) has two implementations, both []byte. *)
Inductive frame :=
| StandardFrame (f : bytes)
| StartupFrame (f : bytes).

(** standard_frame.go:17-19 ([f[0]]), startup_frame.go:17-19 *)
Definition MessageType (f : frame) : res byte :=
  match f with
  | StandardFrame (c :: _) => Ok c
  | StandardFrame [] => Panic PanicIndex
  | StartupFrame _ => Ok x00
  end.

(** standard_frame.go:22-24 ([f[5:]]), startup_frame.go:22-24 ([f[4:]]) *)
Definition MessageBody (f : frame) : res bytes :=
  match f with
  | StandardFrame f => if Nat.ltb (length f) 5 then Panic PanicSliceBounds else Ok (skipn 5 f)
  | StartupFrame f => if Nat.ltb (length f) 4 then Panic PanicSliceBounds else Ok (skipn 4 f)
  end.

(** standard_frame.go:27-29, startup_frame.go:27-29 *)
Definition Bytes (f : frame) : bytes :=
  match f with StandardFrame f => f | StartupFrame f => f end.

(** standard_frame.go:32-40 [NewStandardFrame]: [int32(len+4)] wraps. *)
Definition NewStandardFrame (messageType : byte) (messageBody : bytes) : frame :=
  let buffer := WriteByte [] messageType in
  let buffer := WriteInt32 buffer (wrap32 (Z.of_nat (length messageBody) + 4)) in
  let buffer := WriteBytes buffer messageBody in
  StandardFrame buffer.

(** startup_frame.go:32-40 [NewStartupFrame] *)
Definition NewStartupFrame (messageBody : bytes) : frame :=
  let buffer := WriteInt32 [] (wrap32 (Z.of_nat (length messageBody) + 4)) in
  let buffer := WriteBytes buffer messageBody in
  StartupFrame buffer.

(** standard_frame.go:43-82 [ReadStandardFrame].  [frameLength-4] is int32 arithmetic. *)
Definition ReadStandardFrame (r : reader) : outcome (res frame) :=
  match CopyN r 5 with
  | Blocked => Blocked
  | Done (_, Some e) r1 => Done (Err e) r1
  | Done (header, None) r1 =>
      match (_ <- ReadByte ;; ReadInt32) header with
      | (Err e, _) => Done (Err e) r1
      | (Panic p, _) => Done (Panic p) r1
      | (Ok frameLength, _) =>
          match CopyN r1 (wrap32 (frameLength - 4)) with
          | Blocked => Blocked
          | Done (_, Some e) r2 => Done (Err e) r2
          | Done (body, None) r2 => Done (Ok (StandardFrame (header ++ body))) r2
          end
      end
  end.

(** startup_frame.go:43-76 [ReadStartupFrame] *)
Definition ReadStartupFrame (r : reader) : outcome (res frame) :=
  match CopyN r 4 with
  | Blocked => Blocked
  | Done (_, Some e) r1 => Done (Err e) r1
  | Done (header, None) r1 =>
      match ReadInt32 header with
      | (Err e, _) => Done (Err e) r1
      | (Panic p, _) => Done (Panic p) r1
      | (Ok frameLength, _) =>
          match CopyN r1 (wrap32 (frameLength - 4)) with
          | Blocked => Blocked
          | Done (_, Some e) r2 => Done (Err e) r2
          | Done (body, None) r2 => Done (Ok (StartupFrame (header ++ body))) r2
          end
      end
  end.
