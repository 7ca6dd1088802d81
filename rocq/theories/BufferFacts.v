(** The statements of P_Buffers.v, proved from BufferProofs.v. *)
From Verif Require Import GoBase SpecWire Buffers BufferProofs.
From Coq Require Import ZifyBool ZifyNat ZifyN.
Ltac Zify.zify_post_hook ::= Z.div_mod_to_equations.
Arguments Z.pow : simpl never.
Arguments Z.mul : simpl never.

Lemma int32_roundtrip : forall z b rest, in_int32 z ->
  exists l, WriteInt32 b z = b ++ l /\ int32_repr z l /\ ReadInt32 (l ++ rest) = (Ok z, rest).
Proof.
  intros z b rest H. exists (put_uint32 (uwrap32 z)). split; [reflexivity|].
  pose proof (put32_repr z H) as R. split; [exact R|]. apply ReadInt32_repr. exact R.
Qed.
Lemma int16_roundtrip : forall z b rest, in_int16 z ->
  exists l, WriteInt16 b z = b ++ l /\ int16_repr z l /\ ReadInt16 (l ++ rest) = (Ok z, rest).
Proof.
  intros z b rest H. exists (put_uint16 (uwrap16 z)). split; [reflexivity|].
  pose proof (put16_repr z H) as R. split; [exact R|]. apply ReadInt16_repr. exact R.
Qed.
Lemma int32_total : forall l rest, length l = 4%nat ->
  exists z, int32_repr z l /\ in_int32 z /\ ReadInt32 (l ++ rest) = (Ok z, rest) /\ WriteInt32 [] z = l.
Proof.
  intros l rest H. pose proof (int32_repr_wrap l H) as R. exists (wrap32 (be_value l)).
  split; [exact R|]. split; [exact (int32_repr_range _ _ R)|]. split; [apply ReadInt32_repr; exact R|].
  symmetry. apply int32_repr_put. exact R.
Qed.
Lemma int16_total : forall l rest, length l = 2%nat ->
  exists z, int16_repr z l /\ in_int16 z /\ ReadInt16 (l ++ rest) = (Ok z, rest) /\ WriteInt16 [] z = l.
Proof.
  intros l rest H. pose proof (int16_repr_wrap l H) as R. exists (wrap16 (be_value l)).
  split; [exact R|]. split; [exact (int16_repr_range _ _ R)|]. split; [apply ReadInt16_repr; exact R|].
  symmetry. apply int16_repr_put. exact R.
Qed.
Lemma string_roundtrip : forall s b rest, nul_free s ->
  exists l, WriteString b s = b ++ l /\ ReadString (l ++ rest) = (Ok s, rest).
Proof.
  intros s b rest H. exists (s ++ [x00]). unfold WriteString. rewrite app_assoc. split; [reflexivity|].
  apply ReadString_repr. split; auto.
Qed.
Lemma read_string_exactly : forall b,
  (exists s rest, b = s ++ x00 :: rest /\ nul_free s /\ ReadString b = (Ok s, rest)) \/
  (nul_free b /\ ReadString b = (Err ErrNoTerminator, b)).
Proof.
  intros b. destruct (ReadString b) as [r b'] eqn:E.
  destruct (ReadString_inv _ _ _ E) as [(s & l & -> & -> & Hs & ->) | (-> & -> & Hn)].
  - left. exists s, b'. rewrite <- app_assoc. auto.
  - right. auto.
Qed.
Lemma int32_array_roundtrip : forall arr b rest,
  Forall in_int32 arr -> Z.of_nat (length arr) * 4 <= 2 ^ 48 ->
  exists l, WriteInt32Array b arr = b ++ l /\ seq_repr int32_repr arr l /\
            ReadInt32Array (Z.of_nat (length arr)) (l ++ rest) = (Ok arr, rest).
Proof.
  intros arr b rest H Hl. destruct (WriteInt32Array_eq b arr H) as (l & E & S). exists l.
  split; [exact E|]. split; [exact S|]. apply ReadInt32Array_repr; assumption.
Qed.
Lemma int16_array_roundtrip : forall arr b rest,
  Forall in_int16 arr -> Z.of_nat (length arr) * 2 <= 2 ^ 48 ->
  exists l, WriteInt16Array b arr = b ++ l /\ seq_repr int16_repr arr l /\
            ReadInt16Array (Z.of_nat (length arr)) (l ++ rest) = (Ok arr, rest).
Proof.
  intros arr b rest H Hl. destruct (WriteInt16Array_eq b arr H) as (l & E & S). exists l.
  split; [exact E|]. split; [exact S|]. apply ReadInt16Array_repr; assumption.
Qed.
Lemma failed_read : forall b,
  (forall n e b', ReadBytes n b = (Err e, b') -> b' = b) /\
  (forall e b', ReadByte b = (Err e, b') -> b' = b) /\
  (forall e b', ReadInt32 b = (Err e, b') -> b' = b) /\
  (forall e b', ReadInt16 b = (Err e, b') -> b' = b) /\
  (forall e b', ReadString b = (Err e, b') -> b' = b) /\
  (forall k e b', - 2 ^ 63 <= k < 2 ^ 63 -> ReadInt32Array k b = (Err e, b') -> b' = b) /\
  (forall k e b', - 2 ^ 63 <= k < 2 ^ 63 -> ReadInt16Array k b = (Err e, b') -> b' = b).
Proof.
  intros b. repeat split.
  - intros n e b' H. apply ReadBytes_inv in H. destruct H as [(v & ? & _)|[(_ & ? & _)|(? & _)]]; congruence.
  - intros e b' H. apply ReadByte_inv in H. destruct H as [(v & ? & _)|(_ & ? & _)]; congruence.
  - intros e b' H. apply ReadInt32_inv in H. destruct H as [(v & l & ? & _)|(_ & ? & _)]; congruence.
  - intros e b' H. apply ReadInt16_inv in H. destruct H as [(v & l & ? & _)|(_ & ? & _)]; congruence.
  - intros e b' H. apply ReadString_inv in H. destruct H as [(v & l & ? & _)|(_ & ? & _)]; congruence.
  - intros k e b' Hk H. apply ReadInt32Array_inv in H; [|exact Hk].
    destruct H as [(v & l & ? & _)|[(_ & ? & _)|((p & ?) & _)]]; congruence.
  - intros k e b' Hk H. apply ReadInt16Array_inv in H; [|exact Hk].
    destruct H as [(v & l & ? & _)|[(_ & ? & _)|((p & ?) & _)]]; congruence.
Qed.
Lemma successful_read : forall b,
  (forall n v b', ReadBytes n b = (Ok v, b') -> b = v ++ b' /\ Z.of_nat (length v) = n) /\
  (forall c b', ReadByte b = (Ok c, b') -> b = c :: b') /\
  (forall z b', ReadInt32 b = (Ok z, b') -> exists l, b = l ++ b' /\ length l = 4%nat /\ int32_repr z l) /\
  (forall z b', ReadInt16 b = (Ok z, b') -> exists l, b = l ++ b' /\ length l = 2%nat /\ int16_repr z l) /\
  (forall s b', ReadString b = (Ok s, b') -> b = (s ++ [x00]) ++ b' /\ nul_free s) /\
  (forall k a b', - 2 ^ 63 <= k < 2 ^ 63 -> ReadInt32Array k b = (Ok a, b') ->
     exists l, b = l ++ b' /\ seq_repr int32_repr a l /\
               Z.of_nat (length a) = k /\ Z.of_nat (length l) = 4 * k) /\
  (forall k a b', - 2 ^ 63 <= k < 2 ^ 63 -> ReadInt16Array k b = (Ok a, b') ->
     exists l, b = l ++ b' /\ seq_repr int16_repr a l /\
               Z.of_nat (length a) = k /\ Z.of_nat (length l) = 2 * k).
Proof.
  intros b. split; [|split; [|split; [|split; [|split; [|split]]]]].
  - intros n v b' H. apply ReadBytes_inv in H. destruct H as [(w & E & _ & ? & ?)|[(E & _)|(E & _)]]; try discriminate E.
    injection E as <-. auto.
  - intros c b' H. apply ReadByte_inv in H. destruct H as [(w & E & ?)|(E & _)]; try discriminate E. congruence.
  - intros z b' H. apply ReadInt32_inv in H. destruct H as [(w & l & E & ? & R)|(E & _)]; try discriminate E.
    injection E as <-. exists l. pose proof (int32_repr_length _ _ R). auto.
  - intros z b' H. apply ReadInt16_inv in H. destruct H as [(w & l & E & ? & R)|(E & _)]; try discriminate E.
    injection E as <-. exists l. pose proof (int16_repr_length _ _ R). auto.
  - intros s b' H. apply ReadString_inv in H. destruct H as [(w & l & E & ? & R)|(E & _)]; try discriminate E.
    injection E as <-. destruct R as [R ->]. auto.
  - intros k a b' Hk H. apply ReadInt32Array_inv in H; [|exact Hk].
    destruct H as [(v & l & E & ? & S & ? & _)|[(E & _)|((p & E) & _)]]; try discriminate E.
    injection E as <-. exists l. pose proof (seq_repr_length _ 4 _ _ int32_repr_length S).
    split; [assumption|]. split; [exact S|]. lia.
  - intros k a b' Hk H. apply ReadInt16Array_inv in H; [|exact Hk].
    destruct H as [(v & l & E & ? & S & ? & _)|[(E & _)|((p & E) & _)]]; try discriminate E.
    injection E as <-. exists l. pose proof (seq_repr_length _ 2 _ _ int16_repr_length S).
    split; [assumption|]. split; [exact S|]. lia.
Qed.
Lemma read_bytes_exactly : forall n b,
  (0 <= n <= rb_len b ->
     ReadBytes n b = (Ok (firstn (Z.to_nat n) b), skipn (Z.to_nat n) b)) /\
  (rb_len b < n -> ReadBytes n b = (Err EOF, b)) /\
  (n < 0 -> exists p, fst (ReadBytes n b) = Panic p).
Proof.
  intros n b. unfold ReadBytes. repeat split; intros H.
  - destruct (rb_len b <? n) eqn:?; [lia|]. destruct (n <? 0) eqn:?; [lia|]. reflexivity.
  - destruct (rb_len b <? n) eqn:?; [reflexivity|lia].
  - unfold rb_len. destruct (Z.of_nat (length b) <? n) eqn:?; [lia|]. destruct (n <? 0) eqn:?; [cbn; eauto|lia].
Qed.
Lemma read_int32_array_exactly : forall k b, - 2 ^ 63 <= k < 2 ^ 63 ->
  (0 <= k -> k * 4 <= 2 ^ 48 -> k * 4 <= rb_len b -> exists a, fst (ReadInt32Array k b) = Ok a) /\
  (0 <= k -> k * 4 <= 2 ^ 48 -> rb_len b < k * 4 -> fst (ReadInt32Array k b) = Err EOF) /\
  (k < 0 \/ 2 ^ 48 < k * 4 ->
     (rb_len b < wrap64 (k * 4) -> fst (ReadInt32Array k b) = Err EOF) /\
     (wrap64 (k * 4) <= rb_len b -> exists p, fst (ReadInt32Array k b) = Panic p)).
Proof.
  intros k b Hk. destruct (ReadInt32Array k b) as [r b'] eqn:E. cbn [fst].
  apply ReadInt32Array_inv in E; [|exact Hk].
  assert (0 <= k -> k * 4 <= 2 ^ 48 -> wrap64 (k * 4) = k * 4) as W.
  { intros. apply wrap64_id. change (2 ^ 48) with 281474976710656 in *. change (2 ^ 63) with 9223372036854775808. lia. }
  destruct E as [(a & l & -> & _ & _ & H1 & H2 & H3)|[(-> & _ & H1)|((p & ->) & H1 & H2)]].
  - repeat split; intros; try (eexists; reflexivity); try lia.
  - repeat split; intros; try reflexivity; try lia; try (rewrite W in H1 by lia; lia).
  - repeat split; intros; try (eexists; reflexivity); try lia; try (rewrite W in H1, H2 by lia; lia).
Qed.
Lemma read_int16_array_exactly : forall k b, - 2 ^ 63 <= k < 2 ^ 63 ->
  (0 <= k -> k * 2 <= 2 ^ 48 -> k * 2 <= rb_len b -> exists a, fst (ReadInt16Array k b) = Ok a) /\
  (0 <= k -> k * 2 <= 2 ^ 48 -> rb_len b < k * 2 -> fst (ReadInt16Array k b) = Err EOF) /\
  (k < 0 \/ 2 ^ 48 < k * 2 ->
     (rb_len b < wrap64 (k * 2) -> fst (ReadInt16Array k b) = Err EOF) /\
     (wrap64 (k * 2) <= rb_len b -> exists p, fst (ReadInt16Array k b) = Panic p)).
Proof.
  intros k b Hk. destruct (ReadInt16Array k b) as [r b'] eqn:E. cbn [fst].
  apply ReadInt16Array_inv in E; [|exact Hk].
  assert (0 <= k -> k * 2 <= 2 ^ 48 -> wrap64 (k * 2) = k * 2) as W.
  { intros. apply wrap64_id. change (2 ^ 48) with 281474976710656 in *. change (2 ^ 63) with 9223372036854775808. lia. }
  destruct E as [(a & l & -> & _ & _ & H1 & H2 & H3)|[(-> & _ & H1)|((p & ->) & H1 & H2)]].
  - repeat split; intros; try (eexists; reflexivity); try lia.
  - repeat split; intros; try reflexivity; try lia; try (rewrite W in H1 by lia; lia).
  - repeat split; intros; try (eexists; reflexivity); try lia; try (rewrite W in H1, H2 by lia; lia).
Qed.
Lemma writes_append : forall b,
  (forall v, WriteBytes b v = b ++ v) /\
  (forall c, WriteByte b c = b ++ [c]) /\
  (forall z, in_int32 z -> exists l, WriteInt32 b z = b ++ l /\ length l = 4%nat /\ int32_repr z l) /\
  (forall z, in_int16 z -> exists l, WriteInt16 b z = b ++ l /\ length l = 2%nat /\ int16_repr z l) /\
  (forall s, WriteString b s = b ++ s ++ [x00]) /\
  (forall a, Forall in_int32 a ->
     exists l, WriteInt32Array b a = b ++ l /\ seq_repr int32_repr a l /\ length l = (4 * length a)%nat) /\
  (forall a, Forall in_int16 a ->
     exists l, WriteInt16Array b a = b ++ l /\ seq_repr int16_repr a l /\ length l = (2 * length a)%nat).
Proof.
  intros b. split; [reflexivity|]. split; [reflexivity|]. split; [|split; [|split; [|split]]].
  - intros z H. exists (put_uint32 (uwrap32 z)). split; [reflexivity|]. split; [reflexivity|]. apply put32_repr. exact H.
  - intros z H. exists (put_uint16 (uwrap16 z)). split; [reflexivity|]. split; [reflexivity|]. apply put16_repr. exact H.
  - intros s. unfold WriteString. rewrite app_assoc. reflexivity.
  - intros a H. destruct (WriteInt32Array_eq b a H) as (l & E & S). exists l. split; [exact E|]. split; [exact S|].
    pose proof (seq_repr_length _ 4 _ _ int32_repr_length S). lia.
  - intros a H. destruct (WriteInt16Array_eq b a H) as (l & E & S). exists l. split; [exact E|]. split; [exact S|].
    pose proof (seq_repr_length _ 2 _ _ int16_repr_length S). lia.
Qed.
