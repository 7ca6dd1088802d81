(** Properties C08-C13: frames (pkg/pg/standard_frame.go, startup_frame.go).
    [stream r s] : the reader [r] will deliver the bytes [s], in whatever chunks, before [fin r]. *)
From Verif Require Import GoBase SpecWire SpecFrames Frames FrameFacts.

(** * C08 Frames survive the wire *)

Theorem C08_standard_frame_survives : forall t b rest r,
  Z.of_nat (length b) + 4 < 2 ^ 31 -> stream r (Bytes (NewStandardFrame t b) ++ rest) ->
  exists r', ReadStandardFrame r = Done (Ok (NewStandardFrame t b)) r' /\
    stream r' rest /\ fin r' = fin r /\
    MessageType (NewStandardFrame t b) = Ok t /\ MessageBody (NewStandardFrame t b) = Ok b.
Proof. exact std_frame_survives. Qed.
Print Assumptions C08_standard_frame_survives.

Theorem C08_startup_frame_survives : forall b rest r,
  Z.of_nat (length b) + 4 < 2 ^ 31 -> stream r (Bytes (NewStartupFrame b) ++ rest) ->
  exists r', ReadStartupFrame r = Done (Ok (NewStartupFrame b)) r' /\
    stream r' rest /\ fin r' = fin r /\ MessageBody (NewStartupFrame b) = Ok b.
Proof. exact startup_frame_survives. Qed.
Print Assumptions C08_startup_frame_survives.

Example C08_instance :
  ReadStandardFrame (Reader [[x51; x00]; [x00; x00]; [x07; x41; x42]; [x00; x58; x59]] None) =
  Done (Ok (NewStandardFrame "Q" [x41; x42; x00])) (Reader [[x58; x59]] None).
Proof. reflexivity. Qed.

(** * C09 Frame reading does not depend on TCP segmentation *)

Theorem C09_standard_segmentation : forall r1 r2,
  concat (chunks r1) = concat (chunks r2) -> fin r1 = fin r2 ->
  same_outcome (ReadStandardFrame r1) (ReadStandardFrame r2).
Proof. exact std_segmentation. Qed.
Print Assumptions C09_standard_segmentation.

Theorem C09_startup_segmentation : forall r1 r2,
  concat (chunks r1) = concat (chunks r2) -> fin r1 = fin r2 ->
  same_outcome (ReadStartupFrame r1) (ReadStartupFrame r2).
Proof. exact startup_segmentation. Qed.
Print Assumptions C09_startup_segmentation.

Example C09_instance :
  let r1 := Reader [[x58; x00; x00; x00; x04; x51]] (Some EOF) in
  let r2 := Reader [[x58]; []; [x00; x00]; [x00]; [x04; x51]] (Some EOF) in
  concat (chunks r1) = concat (chunks r2) /\ chunks r1 <> chunks r2 /\
  exists r, ReadStandardFrame r2 = Done (Ok (NewStandardFrame "X" [])) r.
Proof. cbn. split; [reflexivity|]. split; [discriminate|]. eexists. reflexivity. Qed.

(** * C10 Back-to-back frames never bleed into each other *)

Theorem C10_frames_in_order : forall (ms : list (byte * bytes)) rest r,
  Forall (fun m => Z.of_nat (length (snd m)) + 4 < 2 ^ 31) ms ->
  stream r (concat (map (fun m => Bytes (NewStandardFrame (fst m) (snd m))) ms) ++ rest) ->
  exists r', reads ReadStandardFrame r (map (fun m => NewStandardFrame (fst m) (snd m)) ms) r' /\
    stream r' rest /\ fin r' = fin r.
Proof. exact frames_sequence. Qed.
Print Assumptions C10_frames_in_order.

Theorem C10_startup_then_frames : forall b (ms : list (byte * bytes)) rest r,
  Z.of_nat (length b) + 4 < 2 ^ 31 ->
  Forall (fun m => Z.of_nat (length (snd m)) + 4 < 2 ^ 31) ms ->
  stream r (Bytes (NewStartupFrame b) ++
            concat (map (fun m => Bytes (NewStandardFrame (fst m) (snd m))) ms) ++ rest) ->
  exists r1 r2, ReadStartupFrame r = Done (Ok (NewStartupFrame b)) r1 /\
    reads ReadStandardFrame r1 (map (fun m => NewStandardFrame (fst m) (snd m)) ms) r2 /\
    stream r2 rest /\ fin r2 = fin r.
Proof. exact startup_then_frames. Qed.
Print Assumptions C10_startup_then_frames.

Example C10_instance : exists r',
  reads ReadStandardFrame
    (Reader [[x51; x00; x00; x00; x05; x41; x58; x00]; [x00; x00; x04; x09]] None)
    [NewStandardFrame "Q" [x41]; NewStandardFrame "X" []] r' /\ stream r' [x09].
Proof.
  eexists. split; [econstructor; [reflexivity|]; econstructor; [reflexivity|]; constructor|reflexivity].
Qed.

(** * C11 A truncated stream never yields a frame *)

(** [f] is any complete frame, [p] any proper prefix of it *)
Theorem C11_standard_truncated : forall f p q r,
  frame_at 5 f f [] -> f = p ++ q -> q <> [] -> stream r p ->
  match fin r with
  | Some e => exists r', ReadStandardFrame r = Done (Err e) r'
  | None => ReadStandardFrame r = Blocked
  end.
Proof. exact std_truncated. Qed.
Print Assumptions C11_standard_truncated.

Theorem C11_startup_truncated : forall f p q r,
  frame_at 4 f f [] -> f = p ++ q -> q <> [] -> stream r p ->
  match fin r with
  | Some e => exists r', ReadStartupFrame r = Done (Err e) r'
  | None => ReadStartupFrame r = Blocked
  end.
Proof. exact startup_truncated. Qed.
Print Assumptions C11_startup_truncated.

(** whatever is returned is complete *)
Theorem C11_standard_only_complete : forall r f r', ReadStandardFrame r = Done (Ok f) r' ->
  exists fb, f = StandardFrame fb /\ frame_at 5 (concat (chunks r)) fb (concat (chunks r')).
Proof. exact std_only_complete. Qed.
Print Assumptions C11_standard_only_complete.

Theorem C11_startup_only_complete : forall r f r', ReadStartupFrame r = Done (Ok f) r' ->
  exists fb, f = StartupFrame fb /\ frame_at 4 (concat (chunks r)) fb (concat (chunks r')).
Proof. exact startup_only_complete. Qed.
Print Assumptions C11_startup_only_complete.

Example C11_instance :
  let f := [x51; x00; x00; x00; x06; x41; x00] in
  frame_at 5 f f [] /\
  (exists r', ReadStandardFrame (Reader [[x51; x00; x00; x00; x06]; [x41]] (Some EOF)) = Done (Err EOF) r') /\
  ReadStandardFrame (Reader [[x51; x00]] None) = Blocked.
Proof.
  split; [|split; [eexists|]; reflexivity].
  exists [x51], [x00; x00; x00; x06], [x41; x00], 6. vm_compute. intuition congruence.
Qed.

(** * C12 Bad length fields are handled totally *)

(** What happens for every 32-bit length field [L]. *)
Theorem C12_standard_every_length : forall L t len s r, int32_repr L len -> stream r (t :: len ++ s) ->
  (announced_body L <= Z.of_nat (length s) ->
     exists body rest r', s = body ++ rest /\ Z.of_nat (length body) = announced_body L /\
       ReadStandardFrame r = Done (Ok (StandardFrame (t :: len ++ body))) r' /\
       stream r' rest /\ fin r' = fin r) /\
  (Z.of_nat (length s) < announced_body L ->
     match fin r with
     | Some e => exists r', ReadStandardFrame r = Done (Err e) r'
     | None => ReadStandardFrame r = Blocked
     end).
Proof. exact std_length_field. Qed.
Print Assumptions C12_standard_every_length.

Theorem C12_startup_every_length : forall L len s r, int32_repr L len -> stream r (len ++ s) ->
  (announced_body L <= Z.of_nat (length s) ->
     exists body rest r', s = body ++ rest /\ Z.of_nat (length body) = announced_body L /\
       ReadStartupFrame r = Done (Ok (StartupFrame (len ++ body))) r' /\
       stream r' rest /\ fin r' = fin r) /\
  (Z.of_nat (length s) < announced_body L ->
     match fin r with
     | Some e => exists r', ReadStartupFrame r = Done (Err e) r'
     | None => ReadStartupFrame r = Blocked
     end).
Proof. exact startup_length_field. Qed.
Print Assumptions C12_startup_every_length.

(** The expectation "a frame with an illegal length (below 4) is rejected" is false, for every
    illegal length outside the wrap-around range and whatever follows. *)
Theorem C12_illegal_length_rejected_refuted : forall L t len s r, - 2 ^ 31 + 4 <= L < 4 ->
  int32_repr L len -> stream r (t :: len ++ s) ->
  exists r', ReadStandardFrame r = Done (Ok (StandardFrame (t :: len))) r' /\ stream r' s.
Proof. exact illegal_length_accepted. Qed.
Print Assumptions C12_illegal_length_rejected_refuted.

(** length -1: accepted as an empty Terminate message *)
Example C12_instance :
  ReadStandardFrame (Reader [[x58; xff; xff; xff; xff; x51]] None) =
  Done (Ok (StandardFrame [x58; xff; xff; xff; xff])) (Reader [[x51]] None) /\
  int32_repr (-1) [xff; xff; xff; xff] /\ announced_body (- 2 ^ 31) = 2 ^ 31 - 4.
Proof. vm_compute. intuition congruence. Qed.

(** * C13 The length header always tells the truth: exactly below 2 GiB *)

Theorem C13_length_header : forall t b,
  exists len, Bytes (NewStandardFrame t b) = t :: len ++ b /\ Bytes (NewStartupFrame b) = len ++ b /\
    length len = 4%nat /\
    (int32_repr (Z.of_nat (length b) + 4) len <-> Z.of_nat (length b) + 4 < 2 ^ 31).
Proof. exact length_header. Qed.
Print Assumptions C13_length_header.

Example C13_instance : Bytes (NewStandardFrame "Q" [x41; x00]) = [x51; x00; x00; x00; x06; x41; x00].
Proof. reflexivity. Qed.
