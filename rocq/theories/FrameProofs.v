(** Lemmas about Frames.v. *)
From Verif Require Import GoBase SpecWire SpecFrames Frames BufferProofs.
From Coq Require Import ZifyBool ZifyNat ZifyN.
Ltac Zify.zify_post_hook ::= Z.div_mod_to_equations.

Arguments Z.pow : simpl never.
Arguments Z.add : simpl never.
Arguments Z.mul : simpl never.
Arguments Z.of_nat : simpl never.
Arguments Z.to_nat : simpl never.

Lemma take_chunks_spec need cs d missing unread :
  take_chunks need cs = (d, missing, unread) ->
  concat cs = d ++ concat unread /\ (length d + missing)%nat = need /\ (missing <> O -> concat unread = []).
Proof.
  revert need d missing unread. induction cs as [|c cs IH]; intros need d missing unread H.
  - cbn in H. injection H as <- <- <-. cbn. repeat split; lia.
  - cbn [take_chunks] in H. destruct need as [|need'].
    + injection H as <- <- <-. cbn. repeat split; lia.
    + destruct (Nat.leb (length c) (S need')) eqn:E.
      * apply Nat.leb_le in E.
        destruct (take_chunks (S need' - length c) cs) as [[d1 m1] l1] eqn:E1.
        injection H as <- <- <-. apply IH in E1. destruct E1 as (H1 & H2 & H3).
        cbn [concat]. rewrite H1, <- app_assoc, app_length. repeat split; [lia | exact H3].
      * apply Nat.leb_gt in E. injection H as <- <- <-. cbn [concat].
        change (match c with [] => [] | a :: l => a :: firstn need' l end) with (firstn (S need') c).
        change (match c with [] => [] | _ :: l => skipn need' l end) with (skipn (S need') c).
        rewrite app_assoc, firstn_skipn, firstn_length. repeat split; lia.
Qed.

Lemma app_inv_len {A} (a b c d : list A) : a ++ b = c ++ d -> length a = length c -> a = c /\ b = d.
Proof.
  revert c. induction a as [|x a IH]; intros [|y c] H L; try discriminate L; [auto|].
  cbn in H. injection H as -> H. injection L as L. destruct (IH _ H L) as [-> ->]. auto.
Qed.

Lemma CopyN_enough r n d rest :
  concat (chunks r) = d ++ rest -> length d = Z.to_nat n ->
  exists r', CopyN r n = Done (d, None) r' /\ concat (chunks r') = rest /\ fin r' = fin r.
Proof.
  intros Hs Hd. unfold CopyN. destruct (take_chunks (Z.to_nat n) (chunks r)) as [[d1 m1] l1] eqn:E.
  apply take_chunks_spec in E. destruct E as (H1 & H2 & H3). rewrite Hs in H1.
  destruct m1 as [|m1].
  - destruct (app_inv_len _ _ _ _ H1) as [-> ->]; [lia|]. eexists. split; [reflexivity|]. auto.
  - rewrite H3 in H1 by discriminate. rewrite app_nil_r in H1. subst d1. rewrite app_length in H2. lia.
Qed.

Lemma CopyN_short r n :
  Z.of_nat (length (concat (chunks r))) < n ->
  match fin r with
  | None => CopyN r n = Blocked
  | Some e => exists r', CopyN r n = Done (concat (chunks r), Some e) r' /\
                         concat (chunks r') = [] /\ fin r' = fin r
  end.
Proof.
  intros Hlt. unfold CopyN. destruct (take_chunks (Z.to_nat n) (chunks r)) as [[d1 m1] l1] eqn:E.
  apply take_chunks_spec in E. destruct E as (H1 & H2 & H3).
  destruct m1 as [|m1].
  - rewrite H1, app_length in Hlt. lia.
  - rewrite H1, H3, app_nil_r by discriminate. destruct (fin r) as [e|]; [|reflexivity].
    eexists. split; [reflexivity|]. split; [apply H3; discriminate | reflexivity].
Qed.

(** announced_body is the code's [int64(frameLength-4)] clipped at 0 *)
Lemma announced_body_eq L : in_int32 L -> Z.to_nat (wrap32 (L - 4)) = Z.to_nat (announced_body L).
Proof.
  intros H. unfold in_int32 in H. unfold announced_body.
  destruct (4 <=? L) eqn:E1.
  - rewrite wrap32_id; [reflexivity|]. unfold in_int32. change (2 ^ 31) with 2147483648 in *. lia.
  - destruct (L <? - 2 ^ 31 + 4) eqn:E2.
    + unfold wrap32, wrap_signed. change (2 ^ 31) with 2147483648 in *.
      change (2 ^ (32 - 1)) with 2147483648 in *. change (2 ^ 32) with 4294967296.
      destruct ((L - 4) mod 4294967296 <? 2147483648) eqn:E3; lia.
    + rewrite wrap32_id; [lia|]. unfold in_int32. change (2 ^ 31) with 2147483648 in *. lia.
Qed.

Lemma announced_body_nonneg L : in_int32 L -> 0 <= announced_body L.
Proof.
  unfold in_int32, announced_body. change (2 ^ 31) with 2147483648. change (2 ^ 32) with 4294967296.
  intros H. destruct (4 <=? L) eqn:?; [lia|]. destruct (L <? _) eqn:?; lia.
Qed.

(** Every stream either starts with exactly one complete frame or is incomplete. *)
Lemma frame_total hdr s : (4 <= hdr)%nat ->
  (exists f rest, frame_at hdr s f rest) \/ frame_incomplete hdr s.
Proof.
  intros Hh. destruct (Nat.ltb (length s) hdr) eqn:E.
  - right. left. lia.
  - assert (hdr <= length s)%nat by lia.
    set (tag := firstn (hdr - 4) s). set (s1 := skipn (hdr - 4) s).
    set (len := firstn 4 s1). set (s2 := skipn 4 s1).
    assert (s = tag ++ len ++ s2) as Hs by (unfold len, s2; rewrite firstn_skipn; unfold tag, s1; rewrite firstn_skipn; reflexivity).
    assert (length tag = (hdr - 4)%nat) as Ht by (unfold tag; rewrite firstn_length; lia).
    assert (length s1 = (length s - (hdr - 4))%nat) as Hs1 by (unfold s1; rewrite skipn_length; lia).
    assert (length len = 4%nat) as Hl by (unfold len; rewrite firstn_length; lia).
    pose proof (int32_repr_wrap _ Hl) as R. set (L := wrap32 (be_value len)) in *.
    pose proof (announced_body_nonneg L (int32_repr_range _ _ R)) as Hnn.
    destruct (Z.of_nat (length s2) <? announced_body L) eqn:E2.
    + right. right. exists tag, len, s2, L. repeat split; try assumption; try apply R. lia.
    + left. set (n := Z.to_nat (announced_body L)).
      exists (tag ++ len ++ firstn n s2), (skipn n s2). exists tag, len, (firstn n s2), L.
      repeat split; try assumption; try apply R.
      * rewrite <- !app_assoc, firstn_skipn. exact Hs.
      * rewrite firstn_length. lia.
Qed.

Lemma header_app {A} (a b c d e f : list A) :
  a ++ b ++ c = d ++ e ++ f -> length a = length d -> length b = length e -> a = d /\ b = e /\ c = f.
Proof.
  intros H H1 H2. apply app_inv_len in H as [-> H]; [|exact H1].
  apply app_inv_len in H as [-> ->]; [|exact H2]. auto.
Qed.

Lemma frame_at_fun hdr s f rest f' rest' : frame_at hdr s f rest -> frame_at hdr s f' rest' -> f = f' /\ rest = rest'.
Proof.
  intros (tag & len & body & L & Hs & Hf & Ht & HL & Hb) (tag' & len' & body' & L' & Hs' & Hf' & Ht' & HL' & Hb').
  subst f f' s. rewrite <- !app_assoc in Hs'.
  destruct (header_app _ _ _ _ _ _ Hs') as (-> & -> & Hr).
  - congruence.
  - rewrite (int32_repr_length _ _ HL), (int32_repr_length _ _ HL'). reflexivity.
  - assert (L = L') by (eapply int_repr_fun; eassumption). subst L'.
    destruct (header_app [] body rest [] body' rest' Hr eq_refl) as (_ & -> & ->); [lia|]. auto.
Qed.

Lemma frame_at_not_incomplete hdr s f rest : (4 <= hdr)%nat -> frame_at hdr s f rest -> ~ frame_incomplete hdr s.
Proof.
  intros Hh (tag & len & body & L & -> & -> & Ht & HL & Hb) [H|(tag' & len' & body' & L' & Hs & Ht' & HL' & Hb')].
  - rewrite !app_length, (int32_repr_length _ _ HL) in H. lia.
  - rewrite <- !app_assoc in Hs. destruct (header_app _ _ _ _ _ _ Hs) as (-> & -> & Hr).
    + congruence.
    + rewrite (int32_repr_length _ _ HL), (int32_repr_length _ _ HL'). reflexivity.
    + assert (L = L') by (eapply int_repr_fun; eassumption). subst L' body'.
      rewrite app_length in Hb'. lia.
Qed.

Lemma ReadStandardFrame_ok r f rest : frame_at 5 (concat (chunks r)) f rest ->
  exists r', ReadStandardFrame r = Done (Ok (StandardFrame f)) r' /\ concat (chunks r') = rest /\ fin r' = fin r.
Proof.
  intros (tag & len & body & L & Hs & -> & Ht & HL & Hb).
  destruct tag as [|t [|? ?]]; try discriminate Ht. clear Ht.
  pose proof (int32_repr_length _ _ HL) as Hlen.
  unfold ReadStandardFrame.
  rewrite <- !app_assoc in Hs.
  destruct (CopyN_enough r 5 ([t] ++ len) (body ++ rest)) as (r1 & -> & H1 & F1).
  { rewrite <- app_assoc. exact Hs. } { rewrite app_length, Hlen. reflexivity. }
  unfold rd_bind. cbn [app]. rewrite ReadByte_app, <- (app_nil_r len), (ReadInt32_repr _ _ _ HL), app_nil_r.
  destruct (CopyN_enough r1 (wrap32 (L - 4)) body rest H1) as (r2 & -> & H2 & F2).
  { rewrite announced_body_eq by (eapply int32_repr_range; exact HL). lia. }
  exists r2. rewrite app_comm_cons. split; [reflexivity|]. split; congruence.
Qed.

Lemma ReadStandardFrame_short r : frame_incomplete 5 (concat (chunks r)) ->
  match fin r with
  | None => ReadStandardFrame r = Blocked
  | Some e => exists r', ReadStandardFrame r = Done (Err e) r' /\ concat (chunks r') = [] /\ fin r' = fin r
  end.
Proof.
  intros [H | (tag & len & body & L & Hs & Ht & HL & Hb)]; unfold ReadStandardFrame.
  - pose proof (CopyN_short r 5 ltac:(lia)) as C. destruct (fin r) as [e|].
    + destruct C as (r' & -> & H1 & H2). eauto.
    + rewrite C. reflexivity.
  - destruct tag as [|t [|? ?]]; try discriminate Ht. clear Ht.
    pose proof (int32_repr_length _ _ HL) as Hlen.
    destruct (CopyN_enough r 5 ([t] ++ len) body) as (r1 & -> & H1 & F1).
    { rewrite <- app_assoc. exact Hs. } { rewrite app_length, Hlen. reflexivity. }
    unfold rd_bind. cbn [app]. rewrite ReadByte_app, <- (app_nil_r len), (ReadInt32_repr _ _ _ HL), app_nil_r.
    assert (Z.of_nat (length (concat (chunks r1))) < wrap32 (L - 4)) as Hlt.
    { rewrite H1. pose proof (announced_body_eq L (int32_repr_range _ _ HL)). lia. }
    pose proof (CopyN_short r1 _ Hlt) as C. rewrite F1 in C. destruct (fin r) as [e|].
    + destruct C as (r' & -> & H2 & H3). eauto.
    + rewrite C. reflexivity.
Qed.

Lemma ReadStartupFrame_ok r f rest : frame_at 4 (concat (chunks r)) f rest ->
  exists r', ReadStartupFrame r = Done (Ok (StartupFrame f)) r' /\ concat (chunks r') = rest /\ fin r' = fin r.
Proof.
  intros (tag & len & body & L & Hs & -> & Ht & HL & Hb).
  destruct tag as [|t ?]; try discriminate Ht. clear Ht. cbn [app] in *.
  pose proof (int32_repr_length _ _ HL) as Hlen.
  unfold ReadStartupFrame.
  rewrite <- !app_assoc in Hs.
  destruct (CopyN_enough r 4 len (body ++ rest) Hs) as (r1 & -> & H1 & F1).
  { rewrite Hlen. reflexivity. }
  rewrite <- (app_nil_r len), (ReadInt32_repr _ _ _ HL), app_nil_r.
  destruct (CopyN_enough r1 (wrap32 (L - 4)) body rest H1) as (r2 & -> & H2 & F2).
  { rewrite announced_body_eq by (eapply int32_repr_range; exact HL). lia. }
  exists r2. split; [reflexivity|]. split; congruence.
Qed.

Lemma ReadStartupFrame_short r : frame_incomplete 4 (concat (chunks r)) ->
  match fin r with
  | None => ReadStartupFrame r = Blocked
  | Some e => exists r', ReadStartupFrame r = Done (Err e) r' /\ concat (chunks r') = [] /\ fin r' = fin r
  end.
Proof.
  intros [H | (tag & len & body & L & Hs & Ht & HL & Hb)]; unfold ReadStartupFrame.
  - pose proof (CopyN_short r 4 ltac:(lia)) as C. destruct (fin r) as [e|].
    + destruct C as (r' & -> & H1 & H2). eauto.
    + rewrite C. reflexivity.
  - destruct tag as [|t ?]; try discriminate Ht. clear Ht. cbn [app] in *.
    pose proof (int32_repr_length _ _ HL) as Hlen.
    destruct (CopyN_enough r 4 len body Hs) as (r1 & -> & H1 & F1).
    { rewrite Hlen. reflexivity. }
    rewrite <- (app_nil_r len), (ReadInt32_repr _ _ _ HL), app_nil_r.
    assert (Z.of_nat (length (concat (chunks r1))) < wrap32 (L - 4)) as Hlt.
    { rewrite H1. pose proof (announced_body_eq L (int32_repr_range _ _ HL)). lia. }
    pose proof (CopyN_short r1 _ Hlt) as C. rewrite F1 in C. destruct (fin r) as [e|].
    + destruct C as (r' & -> & H2 & H3). eauto.
    + rewrite C. reflexivity.
Qed.

(** inversion *)
Lemma ReadStandardFrame_inv r x r' : ReadStandardFrame r = Done x r' ->
  fin r' = fin r /\
  ((exists f, x = Ok (StandardFrame f) /\ frame_at 5 (concat (chunks r)) f (concat (chunks r'))) \/
   (exists e, x = Err e /\ fin r = Some e /\ frame_incomplete 5 (concat (chunks r)) /\ concat (chunks r') = [])).
Proof.
  intros H. destruct (frame_total 5 (concat (chunks r)) ltac:(lia)) as [(f & rest & Hf) | Hi].
  - destruct (ReadStandardFrame_ok _ _ _ Hf) as (r1 & E & H1 & H2). rewrite E in H. injection H as <- <-.
    split; [exact H2|]. left. exists f. subst rest. auto.
  - pose proof (ReadStandardFrame_short _ Hi) as C. destruct (fin r) as [e|] eqn:F.
    + destruct C as (r1 & E & H1 & H2). rewrite E in H. injection H as <- <-. split; [exact H2|]. right. eauto.
    + congruence.
Qed.

Lemma ReadStartupFrame_inv r x r' : ReadStartupFrame r = Done x r' ->
  fin r' = fin r /\
  ((exists f, x = Ok (StartupFrame f) /\ frame_at 4 (concat (chunks r)) f (concat (chunks r'))) \/
   (exists e, x = Err e /\ fin r = Some e /\ frame_incomplete 4 (concat (chunks r)) /\ concat (chunks r') = [])).
Proof.
  intros H. destruct (frame_total 4 (concat (chunks r)) ltac:(lia)) as [(f & rest & Hf) | Hi].
  - destruct (ReadStartupFrame_ok _ _ _ Hf) as (r1 & E & H1 & H2). rewrite E in H. injection H as <- <-.
    split; [exact H2|]. left. exists f. subst rest. auto.
  - pose proof (ReadStartupFrame_short _ Hi) as C. destruct (fin r) as [e|] eqn:F.
    + destruct C as (r1 & E & H1 & H2). rewrite E in H. injection H as <- <-. split; [exact H2|]. right. eauto.
    + congruence.
Qed.

(** NewStandardFrame / NewStartupFrame bytes *)
Lemma NewStandardFrame_bytes t b :
  Bytes (NewStandardFrame t b) = t :: put_uint32 (uwrap32 (wrap32 (Z.of_nat (length b) + 4))) ++ b.
Proof. reflexivity. Qed.
Lemma NewStartupFrame_bytes b :
  Bytes (NewStartupFrame b) = put_uint32 (uwrap32 (wrap32 (Z.of_nat (length b) + 4))) ++ b.
Proof. reflexivity. Qed.
Lemma NewStandardFrame_type t b : MessageType (NewStandardFrame t b) = Ok t.
Proof. reflexivity. Qed.
Lemma NewStandardFrame_body t b : MessageBody (NewStandardFrame t b) = Ok b.
Proof. reflexivity. Qed.
Lemma NewStartupFrame_body b : MessageBody (NewStartupFrame b) = Ok b.
Proof. reflexivity. Qed.

Lemma len_repr b : Z.of_nat (length b) + 4 < 2 ^ 31 ->
  int32_repr (Z.of_nat (@length byte b) + 4) (put_uint32 (uwrap32 (wrap32 (Z.of_nat (length b) + 4)))).
Proof.
  intros H. assert (in_int32 (Z.of_nat (length b) + 4)) as R
    by (unfold in_int32; change (2 ^ 31) with 2147483648 in *; lia).
  rewrite wrap32_id by exact R. apply put32_repr. exact R.
Qed.

Lemma announced_len n : 0 <= n -> announced_body (n + 4) = n.
Proof. intros H. unfold announced_body. destruct (4 <=? n + 4) eqn:?; lia. Qed.

Lemma frame_at_std t b rest : Z.of_nat (length b) + 4 < 2 ^ 31 ->
  frame_at 5 (Bytes (NewStandardFrame t b) ++ rest) (Bytes (NewStandardFrame t b)) rest.
Proof.
  intros H. exists [t], (put_uint32 (uwrap32 (wrap32 (Z.of_nat (length b) + 4)))), b, (Z.of_nat (length b) + 4).
  split; [reflexivity|]. split; [reflexivity|]. split; [reflexivity|]. split; [apply len_repr; exact H|].
  rewrite announced_len; lia.
Qed.
Lemma frame_at_startup b rest : Z.of_nat (length b) + 4 < 2 ^ 31 ->
  frame_at 4 (Bytes (NewStartupFrame b) ++ rest) (Bytes (NewStartupFrame b)) rest.
Proof.
  intros H. exists [], (put_uint32 (uwrap32 (wrap32 (Z.of_nat (length b) + 4)))), b, (Z.of_nat (length b) + 4).
  split; [reflexivity|]. split; [reflexivity|]. split; [reflexivity|]. split; [apply len_repr; exact H|].
  rewrite announced_len; lia.
Qed.
