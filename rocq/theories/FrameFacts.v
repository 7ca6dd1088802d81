(** The statements of P_Frames.v, proved from FrameProofs.v. *)
From Verif Require Import GoBase SpecWire SpecFrames Frames BufferProofs FrameProofs.
From Coq Require Import ZifyBool ZifyNat ZifyN.
Ltac Zify.zify_post_hook ::= Z.div_mod_to_equations.
Arguments Z.pow : simpl never.
Arguments Z.add : simpl never.
Arguments Z.of_nat : simpl never.

Lemma std_frame_survives : forall t b rest r,
  Z.of_nat (length b) + 4 < 2 ^ 31 -> stream r (Bytes (NewStandardFrame t b) ++ rest) ->
  exists r', ReadStandardFrame r = Done (Ok (NewStandardFrame t b)) r' /\
    stream r' rest /\ fin r' = fin r /\
    MessageType (NewStandardFrame t b) = Ok t /\ MessageBody (NewStandardFrame t b) = Ok b.
Proof.
  intros t b rest r Hl Hs. unfold stream in *. pose proof (frame_at_std t b rest Hl) as F. rewrite <- Hs in F.
  destruct (ReadStandardFrame_ok _ _ _ F) as (r' & E & H1 & H2). exists r'.
  split; [exact E|]. auto.
Qed.
Lemma startup_frame_survives : forall b rest r,
  Z.of_nat (length b) + 4 < 2 ^ 31 -> stream r (Bytes (NewStartupFrame b) ++ rest) ->
  exists r', ReadStartupFrame r = Done (Ok (NewStartupFrame b)) r' /\
    stream r' rest /\ fin r' = fin r /\ MessageBody (NewStartupFrame b) = Ok b.
Proof.
  intros b rest r Hl Hs. unfold stream in *. pose proof (frame_at_startup b rest Hl) as F. rewrite <- Hs in F.
  destruct (ReadStartupFrame_ok _ _ _ F) as (r' & E & H1 & H2). exists r'.
  split; [exact E|]. auto.
Qed.

Lemma std_segmentation : forall r1 r2, concat (chunks r1) = concat (chunks r2) -> fin r1 = fin r2 ->
  same_outcome (ReadStandardFrame r1) (ReadStandardFrame r2).
Proof.
  intros r1 r2 Hs Hf. destruct (frame_total 5 (concat (chunks r1)) ltac:(lia)) as [(f & rest & F)|I].
  - destruct (ReadStandardFrame_ok _ _ _ F) as (r1' & E1 & H1 & H1'). rewrite Hs in F.
    destruct (ReadStandardFrame_ok _ _ _ F) as (r2' & E2 & H2 & H2'). rewrite E1, E2. cbn. repeat split; congruence.
  - pose proof (ReadStandardFrame_short _ I) as C1. rewrite Hs in I.
    pose proof (ReadStandardFrame_short _ I) as C2. rewrite <- Hf in C2. destruct (fin r1) as [e|].
    + destruct C1 as (r1' & -> & A1 & A2). destruct C2 as (r2' & -> & B1 & B2). cbn. repeat split; congruence.
    + rewrite C1, C2. constructor.
Qed.
Lemma startup_segmentation : forall r1 r2, concat (chunks r1) = concat (chunks r2) -> fin r1 = fin r2 ->
  same_outcome (ReadStartupFrame r1) (ReadStartupFrame r2).
Proof.
  intros r1 r2 Hs Hf. destruct (frame_total 4 (concat (chunks r1)) ltac:(lia)) as [(f & rest & F)|I].
  - destruct (ReadStartupFrame_ok _ _ _ F) as (r1' & E1 & H1 & H1'). rewrite Hs in F.
    destruct (ReadStartupFrame_ok _ _ _ F) as (r2' & E2 & H2 & H2'). rewrite E1, E2. cbn. repeat split; congruence.
  - pose proof (ReadStartupFrame_short _ I) as C1. rewrite Hs in I.
    pose proof (ReadStartupFrame_short _ I) as C2. rewrite <- Hf in C2. destruct (fin r1) as [e|].
    + destruct C1 as (r1' & -> & A1 & A2). destruct C2 as (r2' & -> & B1 & B2). cbn. repeat split; congruence.
    + rewrite C1, C2. constructor.
Qed.

Lemma frames_sequence : forall (ms : list (byte * bytes)) rest r,
  Forall (fun m => Z.of_nat (length (snd m)) + 4 < 2 ^ 31) ms ->
  stream r (concat (map (fun m => Bytes (NewStandardFrame (fst m) (snd m))) ms) ++ rest) ->
  exists r', reads ReadStandardFrame r (map (fun m => NewStandardFrame (fst m) (snd m)) ms) r' /\
    stream r' rest /\ fin r' = fin r.
Proof.
  intros ms rest r H. revert r. induction H as [|m ms Hm Hms IH]; intros r Hs.
  - exists r. split; [constructor|]. auto.
  - cbn [map concat] in Hs. rewrite <- app_assoc in Hs.
    destruct (std_frame_survives _ _ _ _ Hm Hs) as (r1 & E & H1 & F1 & _).
    destruct (IH r1 H1) as (r2 & E2 & H2 & F2). exists r2.
    split; [|split; [exact H2 | congruence]]. cbn [map]. econstructor; [exact E|exact E2].
Qed.
Lemma startup_then_frames : forall b (ms : list (byte * bytes)) rest r,
  Z.of_nat (length b) + 4 < 2 ^ 31 ->
  Forall (fun m => Z.of_nat (length (snd m)) + 4 < 2 ^ 31) ms ->
  stream r (Bytes (NewStartupFrame b) ++
            concat (map (fun m => Bytes (NewStandardFrame (fst m) (snd m))) ms) ++ rest) ->
  exists r1 r2, ReadStartupFrame r = Done (Ok (NewStartupFrame b)) r1 /\
    reads ReadStandardFrame r1 (map (fun m => NewStandardFrame (fst m) (snd m)) ms) r2 /\
    stream r2 rest /\ fin r2 = fin r.
Proof.
  intros b ms rest r Hb Hms Hs. destruct (startup_frame_survives _ _ _ Hb Hs) as (r1 & E & H1 & F1 & _).
  destruct (frames_sequence _ _ _ Hms H1) as (r2 & E2 & H2 & F2). exists r1, r2.
  repeat split; congruence || assumption.
Qed.

Lemma frame_at_prefix_incomplete hdr f p q : (4 <= hdr)%nat ->
  frame_at hdr f f [] -> f = p ++ q -> q <> [] -> frame_incomplete hdr p.
Proof.
  intros Hh (tag & len & body & L & _ & Hf & Ht & HL & Hb) Hpq Hq.
  pose proof (int32_repr_length _ _ HL) as Hlen.
  destruct (Nat.ltb (length p) hdr) eqn:E; [left; lia|]. right.
  set (p1 := firstn (hdr - 4) p). set (p2 := firstn 4 (skipn (hdr - 4) p)). set (p3 := skipn 4 (skipn (hdr - 4) p)).
  assert (p = p1 ++ p2 ++ p3) as Hp by (unfold p1, p2, p3; rewrite !firstn_skipn; reflexivity).
  assert (length p1 = (hdr - 4)%nat) as L1 by (unfold p1; rewrite firstn_length; lia).
  assert (length p2 = 4%nat) as L2 by (unfold p2; rewrite firstn_length, skipn_length; lia).
  rewrite Hf, Hp, <- !app_assoc in Hpq.
  destruct (header_app _ _ _ _ _ _ Hpq) as (E1 & E2 & E3); [congruence|congruence|].
  exists p1, p2, p3, L. split; [exact Hp|]. split; [exact L1|]. split; [congruence|].
  rewrite <- Hb, E3, app_length. destruct q; [congruence|]. cbn [length]. lia.
Qed.

Lemma std_truncated : forall f p q r, frame_at 5 f f [] -> f = p ++ q -> q <> [] -> stream r p ->
  match fin r with
  | Some e => exists r', ReadStandardFrame r = Done (Err e) r'
  | None => ReadStandardFrame r = Blocked
  end.
Proof.
  intros f p q r Hf Hpq Hq Hs. pose proof (frame_at_prefix_incomplete 5 _ _ _ ltac:(lia) Hf Hpq Hq) as I.
  unfold stream in Hs. rewrite <- Hs in I. pose proof (ReadStandardFrame_short _ I) as C.
  destruct (fin r); [|exact C]. destruct C as (r' & ? & _). eauto.
Qed.
Lemma startup_truncated : forall f p q r, frame_at 4 f f [] -> f = p ++ q -> q <> [] -> stream r p ->
  match fin r with
  | Some e => exists r', ReadStartupFrame r = Done (Err e) r'
  | None => ReadStartupFrame r = Blocked
  end.
Proof.
  intros f p q r Hf Hpq Hq Hs. pose proof (frame_at_prefix_incomplete 4 _ _ _ ltac:(lia) Hf Hpq Hq) as I.
  unfold stream in Hs. rewrite <- Hs in I. pose proof (ReadStartupFrame_short _ I) as C.
  destruct (fin r); [|exact C]. destruct C as (r' & ? & _). eauto.
Qed.

Lemma std_only_complete : forall r f r', ReadStandardFrame r = Done (Ok f) r' ->
  exists fb, f = StandardFrame fb /\ frame_at 5 (concat (chunks r)) fb (concat (chunks r')).
Proof.
  intros r f r' H. destruct (ReadStandardFrame_inv _ _ _ H) as [_ [(fb & [= ->] & F)|(e & ? & _)]]; [eauto|discriminate].
Qed.
Lemma startup_only_complete : forall r f r', ReadStartupFrame r = Done (Ok f) r' ->
  exists fb, f = StartupFrame fb /\ frame_at 4 (concat (chunks r)) fb (concat (chunks r')).
Proof.
  intros r f r' H. destruct (ReadStartupFrame_inv _ _ _ H) as [_ [(fb & [= ->] & F)|(e & ? & _)]]; [eauto|discriminate].
Qed.

Lemma std_length_field : forall L t len s r, int32_repr L len -> stream r (t :: len ++ s) ->
  (announced_body L <= Z.of_nat (length s) ->
     exists body rest r', s = body ++ rest /\ Z.of_nat (length body) = announced_body L /\
       ReadStandardFrame r = Done (Ok (StandardFrame (t :: len ++ body))) r' /\
       stream r' rest /\ fin r' = fin r) /\
  (Z.of_nat (length s) < announced_body L ->
     match fin r with
     | Some e => exists r', ReadStandardFrame r = Done (Err e) r'
     | None => ReadStandardFrame r = Blocked
     end).
Proof.
  intros L t len s r HL Hs. unfold stream in *. split; intros Hl.
  - pose proof (announced_body_nonneg L (int32_repr_range _ _ HL)) as Hnn.
    set (n := Z.to_nat (announced_body L)).
    assert (frame_at 5 (concat (chunks r)) (t :: len ++ firstn n s) (skipn n s)) as F.
    { exists [t], len, (firstn n s), L. rewrite Hs. split.
      - cbn [app]. rewrite <- app_assoc, firstn_skipn. reflexivity.
      - repeat split; try apply HL. rewrite firstn_length. lia. }
    destruct (ReadStandardFrame_ok _ _ _ F) as (r' & E & H1 & H2).
    exists (firstn n s), (skipn n s), r'. rewrite firstn_skipn, firstn_length. repeat split; try assumption. lia.
  - assert (frame_incomplete 5 (concat (chunks r))) as I.
    { right. exists [t], len, s, L. rewrite Hs. repeat split; try apply HL. exact Hl. }
    pose proof (ReadStandardFrame_short _ I) as C. destruct (fin r); [|exact C]. destruct C as (r' & ? & _). eauto.
Qed.
Lemma startup_length_field : forall L len s r, int32_repr L len -> stream r (len ++ s) ->
  (announced_body L <= Z.of_nat (length s) ->
     exists body rest r', s = body ++ rest /\ Z.of_nat (length body) = announced_body L /\
       ReadStartupFrame r = Done (Ok (StartupFrame (len ++ body))) r' /\
       stream r' rest /\ fin r' = fin r) /\
  (Z.of_nat (length s) < announced_body L ->
     match fin r with
     | Some e => exists r', ReadStartupFrame r = Done (Err e) r'
     | None => ReadStartupFrame r = Blocked
     end).
Proof.
  intros L len s r HL Hs. unfold stream in *. split; intros Hl.
  - pose proof (announced_body_nonneg L (int32_repr_range _ _ HL)) as Hnn.
    set (n := Z.to_nat (announced_body L)).
    assert (frame_at 4 (concat (chunks r)) (len ++ firstn n s) (skipn n s)) as F.
    { exists [], len, (firstn n s), L. rewrite Hs. split.
      - rewrite <- app_assoc, firstn_skipn. reflexivity.
      - repeat split; try apply HL. rewrite firstn_length. lia. }
    destruct (ReadStartupFrame_ok _ _ _ F) as (r' & E & H1 & H2).
    exists (firstn n s), (skipn n s), r'. rewrite firstn_skipn, firstn_length. repeat split; try assumption. lia.
  - assert (frame_incomplete 4 (concat (chunks r))) as I.
    { right. exists [], len, s, L. rewrite Hs. repeat split; try apply HL. exact Hl. }
    pose proof (ReadStartupFrame_short _ I) as C. destruct (fin r); [|exact C]. destruct C as (r' & ? & _). eauto.
Qed.

(** an illegal length yields an empty-bodied frame carrying that length *)
Lemma illegal_length_accepted : forall L t len s r, - 2 ^ 31 + 4 <= L < 4 ->
  int32_repr L len -> stream r (t :: len ++ s) ->
  exists r', ReadStandardFrame r = Done (Ok (StandardFrame (t :: len))) r' /\ stream r' s.
Proof.
  intros L t len s r HL R Hs. destruct (std_length_field L t len s r R Hs) as [H _].
  assert (announced_body L = 0) as H0.
  { unfold announced_body. destruct (4 <=? L) eqn:?; [lia|]. destruct (L <? _) eqn:?; lia. }
  rewrite H0 in H. destruct H as (body & rest & r' & -> & Hb & E & H1 & _); [lia|].
  destruct body; [|cbn in Hb; lia]. rewrite app_nil_r in E. exists r'. auto.
Qed.

Lemma length_header : forall t b,
  exists len, Bytes (NewStandardFrame t b) = t :: len ++ b /\ Bytes (NewStartupFrame b) = len ++ b /\
    length len = 4%nat /\
    (int32_repr (Z.of_nat (length b) + 4) len <-> Z.of_nat (length b) + 4 < 2 ^ 31).
Proof.
  intros t b. exists (put_uint32 (uwrap32 (wrap32 (Z.of_nat (length b) + 4)))).
  split; [reflexivity|]. split; [reflexivity|]. split; [reflexivity|]. split.
  - intros (_ & H & _). change (8 * Z.of_nat 4 - 1) with 31 in H. lia.
  - apply len_repr.
Qed.
