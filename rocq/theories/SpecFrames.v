(** Independent specification of frame reading on a byte stream: what a reader of frames with a
    [hdr]-byte header (the last 4 bytes of which are the announced length) must return, as a
    function of the unsegmented bytes only. *)
From Verif Require Import GoBase SpecWire.
From Verif Require Import Frames.   (* for the types [reader], [outcome] and [frame] only *)

(** How many body bytes follow a header announcing length [L] (a signed 32-bit number), for the
    code as it is: the announced length counts itself.  Lengths below 4 announce nothing, except
    that the 32-bit subtraction wraps around for the four smallest ones. *)
Definition announced_body (L : Z) : Z :=
  if 4 <=? L then L - 4
  else if L <? - 2 ^ 31 + 4 then L - 4 + 2 ^ 32
  else 0.

(** [frame_at hdr s f rest]: the stream [s] starts with the complete frame [f], followed by [rest]. *)
Definition frame_at (hdr : nat) (s f rest : bytes) : Prop :=
  exists tag len body L,
    s = f ++ rest /\ f = tag ++ len ++ body /\
    length tag = (hdr - 4)%nat /\ int32_repr L len /\
    Z.of_nat (length body) = announced_body L.

(** [frame_incomplete hdr s]: [s] ends before its first frame does. *)
Definition frame_incomplete (hdr : nat) (s : bytes) : Prop :=
  (length s < hdr)%nat \/
  exists tag len body L,
    s = tag ++ len ++ body /\ length tag = (hdr - 4)%nat /\ int32_repr L len /\
    Z.of_nat (length body) < announced_body L.

(** Two outcomes of a read that no caller can tell apart, except by the segmentation of what is
    still unread. *)
Definition same_outcome {A} (o1 o2 : outcome A) : Prop :=
  match o1, o2 with
  | Blocked, Blocked => True
  | Done x r1, Done y r2 => x = y /\ concat (chunks r1) = concat (chunks r2) /\ fin r1 = fin r2
  | _, _ => False
  end.

(** [reads read r xs r']: successive calls of [read], starting with reader [r], return the values
    [xs] and leave [r']. *)
Inductive reads {A} (read : reader -> outcome (res A)) : reader -> list A -> reader -> Prop :=
| reads_nil r : reads read r [] r
| reads_cons r x r1 xs r2 : read r = Done (Ok x) r1 -> reads read r1 xs r2 ->
    reads read r (x :: xs) r2.

(** The next thing the reader delivers is [s]; what happens after it is up to [fin]. *)
Definition stream (r : reader) (s : bytes) : Prop := concat (chunks r) = s.
