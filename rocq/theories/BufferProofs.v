(** Lemmas about Buffers.v against SpecWire.v. *)
From Verif Require Import SpecWire Buffers.
From Coq Require Import Strings.Byte.
From Coq Require Import ZifyBool ZifyNat ZifyN.
Ltac Zify.zify_post_hook ::= Z.div_mod_to_equations.

Arguments Z.pow : simpl never.
Arguments Z.add : simpl never.
Arguments Z.mul : simpl never.

(** * bytes *)
Lemma Z_of_byte_range b : 0 <= Z_of_byte b < 256.
Proof. unfold Z_of_byte. pose proof (Byte.to_N_bounded b). lia. Qed.

Lemma byte_of_Z_of_byte b : byte_of_Z (Z_of_byte b) = b.
Proof.
  unfold byte_of_Z. rewrite Z.mod_small by apply Z_of_byte_range.
  unfold Z_of_byte. rewrite N2Z.id, Byte.of_to_N. reflexivity.
Qed.

Lemma Z_of_byte_of_Z z : Z_of_byte (byte_of_Z z) = z mod 256.
Proof.
  unfold byte_of_Z. destruct (Byte.of_N (Z.to_N (z mod 256))) eqn:E.
  - apply Byte.to_of_N in E. unfold Z_of_byte. rewrite E. lia.
  - apply Byte.of_N_None_iff in E. lia.
Qed.

Lemma Z_of_byte_inj a b : Z_of_byte a = Z_of_byte b -> a = b.
Proof. intros H. rewrite <- (byte_of_Z_of_byte a), <- (byte_of_Z_of_byte b), H. reflexivity. Qed.

Lemma byte_eqb_spec a b : reflect (a = b) (byte_eqb a b).
Proof. unfold byte_eqb. apply iff_reflect. split; [intros ->; apply Byte.byte_dec_lb | apply Byte.byte_dec_bl]; reflexivity. Qed.

Lemma byte_eqb_refl a : byte_eqb a a = true.
Proof. destruct (byte_eqb_spec a a); congruence. Qed.

Lemma byte_eqb_neq a b : a <> b -> byte_eqb a b = false.
Proof. destruct (byte_eqb_spec a b); congruence. Qed.

Lemma bytes_eqb_spec a b : reflect (a = b) (bytes_eqb a b).
Proof.
  apply iff_reflect. revert b. induction a as [|x a IH]; intros [|y b]; cbn [bytes_eqb]; try (split; congruence).
  rewrite Bool.andb_true_iff. rewrite <- IH. destruct (byte_eqb_spec x y); split; intuition congruence.
Qed.

(** * big-endian values *)
Lemma be_value_snoc l b : be_value (l ++ [b]) = 256 * be_value l + Z_of_byte b.
Proof. unfold be_value. rewrite fold_left_app. reflexivity. Qed.

Lemma be_value_range l : 0 <= be_value l < 2 ^ (8 * Z.of_nat (length l)).
Proof.
  induction l as [|b l IH] using rev_ind; [cbn; lia|].
  rewrite be_value_snoc, app_length. cbn [length].
  replace (8 * Z.of_nat (length l + 1)) with (8 * Z.of_nat (length l) + 8) by lia.
  rewrite Z.pow_add_r by lia. pose proof (Z_of_byte_range b). change (2^8) with 256. lia.
Qed.

Lemma be_value_inj l l' : length l = length l' -> be_value l = be_value l' -> l = l'.
Proof.
  revert l'. induction l as [|b l IH] using rev_ind; intros l' Hlen Hv.
  - destruct l'; [reflexivity | discriminate].
  - destruct (@exists_last _ l') as [l'' [b' ->]].
    { intros ->. rewrite app_length in Hlen. cbn in Hlen. lia. }
    rewrite !be_value_snoc in Hv. rewrite !app_length in Hlen. cbn [length] in Hlen.
    pose proof (Z_of_byte_range b). pose proof (Z_of_byte_range b').
    assert (be_value l = be_value l'') by lia.
    assert (Z_of_byte b = Z_of_byte b') by lia.
    f_equal; [apply IH; [lia|assumption] | f_equal; apply Z_of_byte_inj; assumption].
Qed.

Lemma int_repr_inj w z l l' : int_repr w z l -> int_repr w z l' -> l = l'.
Proof. intros (H1 & _ & H2) (H1' & _ & H2'). apply be_value_inj; congruence. Qed.

Lemma int_repr_fun w z z' l : int_repr w z l -> int_repr w z' l -> z = z'.
Proof.
  intros (H1 & R1 & H2) (_ & R2 & H2'). rewrite H2 in H2'.
  destruct w as [|w].
  - change (8 * Z.of_nat 0 - 1) with (-1) in *. change (2 ^ -1) with 0 in *. lia.
  - assert (2 ^ (8 * Z.of_nat (S w)) = 2 * 2 ^ (8 * Z.of_nat (S w) - 1)) as E.
    { rewrite <- Z.pow_succ_r by lia. f_equal. lia. }
    rewrite E in H2'. set (P := 2 ^ (8 * Z.of_nat (S w) - 1)) in *.
    destruct (z <? 0) eqn:?, (z' <? 0) eqn:?; lia.
Qed.

Lemma wrap_signed_range w z : 0 < w -> - 2 ^ (w - 1) <= wrap_signed w z < 2 ^ (w - 1).
Proof.
  intros Hw. unfold wrap_signed.
  assert (2 ^ w = 2 * 2 ^ (w - 1)) as E by (rewrite <- Z.pow_succ_r by lia; f_equal; lia).
  pose proof (Z.pow_pos_nonneg 2 (w - 1) ltac:(lia) ltac:(lia)).
  pose proof (Z.mod_pos_bound z (2 ^ w) ltac:(lia)).
  destruct (z mod 2 ^ w <? 2 ^ (w - 1)) eqn:C; lia.
Qed.

Lemma wrap_signed_id w z : 0 < w -> - 2 ^ (w - 1) <= z < 2 ^ (w - 1) -> wrap_signed w z = z.
Proof.
  intros Hw Hz. unfold wrap_signed.
  assert (2 ^ w = 2 * 2 ^ (w - 1)) as E by (rewrite <- Z.pow_succ_r by lia; f_equal; lia).
  destruct (Z_lt_dec z 0).
  - replace (z mod 2 ^ w) with (z + 2 ^ w); [destruct (z + 2 ^ w <? 2 ^ (w - 1)) eqn:C; lia|].
    apply Z.mod_unique with (-1); lia.
  - rewrite Z.mod_small by lia. destruct (z <? 2 ^ (w - 1)) eqn:C; lia.
Qed.

Lemma wrap_signed_mod w z : 0 < w -> wrap_signed w z mod 2 ^ w = z mod 2 ^ w.
Proof.
  intros Hw. unfold wrap_signed. pose proof (Z.pow_pos_nonneg 2 w ltac:(lia) ltac:(lia)).
  destruct (z mod 2 ^ w <? 2 ^ (w - 1)).
  - apply Z.mod_mod. lia.
  - rewrite <- (Z.mod_mod z (2 ^ w)) at 2 by lia.
    replace (z mod 2 ^ w - 2 ^ w) with (z mod 2 ^ w + (-1) * 2 ^ w) by lia.
    apply Z.mod_add. lia.
Qed.

Lemma wrap32_id z : in_int32 z -> wrap32 z = z.
Proof. intros H. apply wrap_signed_id; [lia | exact H]. Qed.
Lemma wrap16_id z : in_int16 z -> wrap16 z = z.
Proof. intros H. apply wrap_signed_id; [lia | exact H]. Qed.
Lemma wrap64_id z : - 2 ^ 63 <= z < 2 ^ 63 -> wrap64 z = z.
Proof. intros H. apply wrap_signed_id; [lia | exact H]. Qed.
Lemma wrap32_range z : in_int32 (wrap32 z).
Proof. exact (wrap_signed_range 32 z ltac:(lia)). Qed.
Lemma wrap16_range z : in_int16 (wrap16 z).
Proof. exact (wrap_signed_range 16 z ltac:(lia)). Qed.

(** value of explicit byte lists *)
Lemma be_value_4 a b c d :
  be_value [a; b; c; d] = Z_of_byte a * 16777216 + Z_of_byte b * 65536 + Z_of_byte c * 256 + Z_of_byte d.
Proof. unfold be_value. cbn [fold_left]. lia. Qed.
Lemma be_value_2 a b : be_value [a; b] = Z_of_byte a * 256 + Z_of_byte b.
Proof. unfold be_value. cbn [fold_left]. lia. Qed.

Lemma be_value_put32 v : be_value (put_uint32 v) = v mod 2 ^ 32.
Proof.
  unfold put_uint32. rewrite be_value_4, !Z_of_byte_of_Z, !Z.shiftr_div_pow2 by lia.
  change (2 ^ 24) with 16777216. change (2 ^ 16) with 65536. change (2 ^ 8) with 256.
  change (2 ^ 32) with 4294967296. lia.
Qed.
Lemma be_value_put16 v : be_value (put_uint16 v) = v mod 2 ^ 16.
Proof.
  unfold put_uint16. rewrite be_value_2, !Z_of_byte_of_Z, !Z.shiftr_div_pow2 by lia.
  change (2 ^ 8) with 256. change (2 ^ 16) with 65536. lia.
Qed.

Lemma length_put32 v : length (put_uint32 v) = 4%nat.
Proof. reflexivity. Qed.
Lemma length_put16 v : length (put_uint16 v) = 2%nat.
Proof. reflexivity. Qed.

(** the bytes written represent the number *)
Lemma put32_repr z : in_int32 z -> int32_repr z (put_uint32 (uwrap32 z)).
Proof.
  intros Hz. split; [reflexivity|]. change (8 * Z.of_nat 4) with 32.
  split; [exact Hz|]. rewrite be_value_put32. unfold uwrap32.
  unfold in_int32 in Hz. change (2^31) with 2147483648 in *. change (2 ^ 32) with 4294967296.
  destruct (z <? 0) eqn:?; lia.
Qed.
Lemma put16_repr z : in_int16 z -> int16_repr z (put_uint16 (uwrap16 z)).
Proof.
  intros Hz. split; [reflexivity|]. change (8 * Z.of_nat 2) with 16.
  split; [exact Hz|]. rewrite be_value_put16. unfold uwrap16.
  unfold in_int16 in Hz. change (2^15) with 32768 in *. change (2 ^ 16) with 65536.
  destruct (z <? 0) eqn:?; lia.
Qed.

Lemma int32_repr_range z l : int32_repr z l -> in_int32 z.
Proof. intros (_ & H & _). exact H. Qed.
Lemma int16_repr_range z l : int16_repr z l -> in_int16 z.
Proof. intros (_ & H & _). exact H. Qed.
Lemma int32_repr_length z l : int32_repr z l -> length l = 4%nat.
Proof. intros (H & _). exact H. Qed.
Lemma int16_repr_length z l : int16_repr z l -> length l = 2%nat.
Proof. intros (H & _). exact H. Qed.

Lemma int32_repr_put z l : int32_repr z l -> l = put_uint32 (uwrap32 z).
Proof. intros H. eapply int_repr_inj; [exact H | apply put32_repr; eapply int32_repr_range; exact H]. Qed.
Lemma int16_repr_put z l : int16_repr z l -> l = put_uint16 (uwrap16 z).
Proof. intros H. eapply int_repr_inj; [exact H | apply put16_repr; eapply int16_repr_range; exact H]. Qed.

(** any 4 (2) bytes represent exactly one number *)
Lemma int32_repr_wrap l : length l = 4%nat -> int32_repr (wrap32 (be_value l)) l.
Proof.
  intros Hl. split; [exact Hl|]. split; [apply wrap32_range|].
  pose proof (be_value_range l) as R. rewrite Hl in R. unfold wrap32, wrap_signed.
  change (8 * Z.of_nat 4) with 32 in *. rewrite Z.mod_small by lia.
  change (2 ^ (32 - 1)) with 2147483648. change (2 ^ 32) with 4294967296 in *.
  destruct (be_value l <? 2147483648) eqn:?;
  match goal with |- _ = (if ?x <? 0 then _ else _) => destruct (x <? 0) eqn:? end; lia.
Qed.
Lemma int16_repr_wrap l : length l = 2%nat -> int16_repr (wrap16 (be_value l)) l.
Proof.
  intros Hl. split; [exact Hl|]. split; [apply wrap16_range|].
  pose proof (be_value_range l) as R. rewrite Hl in R. unfold wrap16, wrap_signed.
  change (8 * Z.of_nat 2) with 16 in *. rewrite Z.mod_small by lia.
  change (2 ^ (16 - 1)) with 32768. change (2 ^ 16) with 65536 in *.
  destruct (be_value l <? 32768) eqn:?;
  match goal with |- _ = (if ?x <? 0 then _ else _) => destruct (x <? 0) eqn:? end; lia.
Qed.

Lemma get32_repr z l r : int32_repr z l -> res_map wrap32 (get_uint32 (l ++ r)) = Ok z.
Proof.
  intros H. pose proof (int32_repr_length _ _ H) as Hl.
  destruct l as [|a [|b [|c [|d [|? ?]]]]]; try discriminate Hl. cbn [app get_uint32 res_map].
  f_equal. rewrite <- be_value_4. eapply int_repr_fun; [|exact H]. apply int32_repr_wrap. reflexivity.
Qed.
Lemma get16_repr z l r : int16_repr z l -> res_map wrap16 (get_uint16 (l ++ r)) = Ok z.
Proof.
  intros H. pose proof (int16_repr_length _ _ H) as Hl.
  destruct l as [|a [|b [|? ?]]]; try discriminate Hl. cbn [app get_uint16 res_map].
  f_equal. rewrite <- be_value_2. eapply int_repr_fun; [|exact H]. apply int16_repr_wrap. reflexivity.
Qed.

(** * ReadBuffer: one lemma per method for success ("reads exactly this") and inversion. *)

Lemma ReadBytes_app n l r : length l = n -> ReadBytes (Z.of_nat n) (l ++ r) = (Ok l, r).
Proof.
  intros <-. unfold ReadBytes, rb_len. rewrite app_length.
  destruct (Z.of_nat (length l + length r) <? Z.of_nat (length l)) eqn:?; [lia|].
  destruct (Z.of_nat (length l) <? 0) eqn:?; [lia|].
  rewrite Nat2Z.id, firstn_app, skipn_app, firstn_all, skipn_all, Nat.sub_diag.
  cbn. rewrite app_nil_r. reflexivity.
Qed.

Lemma ReadBytes_inv n b r b' : ReadBytes n b = (r, b') ->
  (exists v, r = Ok v /\ 0 <= n <= rb_len b /\ b = v ++ b' /\ Z.of_nat (length v) = n) \/
  (r = Err EOF /\ b' = b /\ rb_len b < n) \/
  (r = Panic PanicSliceBounds /\ b' = b /\ n < 0).
Proof.
  unfold ReadBytes, rb_len. destruct (Z.of_nat (length b) <? n) eqn:E1.
  - intros [= <- <-]. right. left. repeat split; lia.
  - destruct (n <? 0) eqn:E2; intros [= <- <-].
    + right. right. repeat split; lia.
    + left. eexists. repeat split; try lia.
      * symmetry. apply firstn_skipn.
      * rewrite firstn_length. lia.
Qed.

Lemma ReadByte_app c r : ReadByte (c :: r) = (Ok c, r).
Proof.
  unfold ReadByte, rd_bind. change (c :: r) with ([c] ++ r).
  change 1 with (Z.of_nat 1). rewrite (ReadBytes_app 1 [c]); reflexivity.
Qed.

Lemma ReadByte_nil : ReadByte [] = (Err EOF, []).
Proof. reflexivity. Qed.

Lemma ReadInt32_repr z l r : int32_repr z l -> ReadInt32 (l ++ r) = (Ok z, r).
Proof.
  intros H. unfold ReadInt32, rd_bind. change 4 with (Z.of_nat 4).
  rewrite (ReadBytes_app 4 l) by (eapply int32_repr_length; exact H).
  unfold rd_lift. rewrite <- (app_nil_r l), (get32_repr _ _ _ H). reflexivity.
Qed.
Lemma ReadInt16_repr z l r : int16_repr z l -> ReadInt16 (l ++ r) = (Ok z, r).
Proof.
  intros H. unfold ReadInt16, rd_bind. change 2 with (Z.of_nat 2).
  rewrite (ReadBytes_app 2 l) by (eapply int16_repr_length; exact H).
  unfold rd_lift. rewrite <- (app_nil_r l), (get16_repr _ _ _ H). reflexivity.
Qed.

Lemma ReadInt32_inv b r b' : ReadInt32 b = (r, b') ->
  (exists z l, r = Ok z /\ b = l ++ b' /\ int32_repr z l) \/
  (r = Err EOF /\ b' = b /\ rb_len b < 4).
Proof.
  unfold ReadInt32, rd_bind. destruct (ReadBytes 4 b) as [r1 b1] eqn:E.
  destruct (ReadBytes_inv _ _ _ _ E) as [(v & -> & _ & -> & Hv)|[(-> & -> & Hl)|(-> & _ & Hneg)]].
  - unfold rd_lift. intros [= <- <-]. left.
    assert (int32_repr (wrap32 (be_value v)) v) as R by (apply int32_repr_wrap; lia).
    exists (wrap32 (be_value v)), v. rewrite <- (get32_repr _ _ [] R), app_nil_r. auto.
  - intros [= <- <-]. right. auto.
  - lia.
Qed.
Lemma ReadInt16_inv b r b' : ReadInt16 b = (r, b') ->
  (exists z l, r = Ok z /\ b = l ++ b' /\ int16_repr z l) \/
  (r = Err EOF /\ b' = b /\ rb_len b < 2).
Proof.
  unfold ReadInt16, rd_bind. destruct (ReadBytes 2 b) as [r1 b1] eqn:E.
  destruct (ReadBytes_inv _ _ _ _ E) as [(v & -> & _ & -> & Hv)|[(-> & -> & Hl)|(-> & _ & Hneg)]].
  - unfold rd_lift. intros [= <- <-]. left.
    assert (int16_repr (wrap16 (be_value v)) v) as R by (apply int16_repr_wrap; lia).
    exists (wrap16 (be_value v)), v. rewrite <- (get16_repr _ _ [] R), app_nil_r. auto.
  - intros [= <- <-]. right. auto.
  - lia.
Qed.

Lemma ReadByte_inv b r b' : ReadByte b = (r, b') ->
  (exists c, r = Ok c /\ b = c :: b') \/ (r = Err EOF /\ b' = b /\ b = []).
Proof.
  destruct b as [|c b]; intros H.
  - right. rewrite ReadByte_nil in H. injection H as <- <-. auto.
  - left. rewrite ReadByte_app in H. injection H as <- <-. eauto.
Qed.

Lemma index_byte_app s c r : ~ In c s -> index_byte (s ++ c :: r) c = Some (length s).
Proof.
  induction s as [|x s IH]; intros H; cbn [app index_byte length].
  - rewrite byte_eqb_refl. reflexivity.
  - rewrite byte_eqb_neq by (intros ->; apply H; left; reflexivity).
    rewrite IH by (intros ?; apply H; right; assumption). reflexivity.
Qed.

Lemma index_byte_inv b c : match index_byte b c with
  | Some i => exists s r, b = s ++ c :: r /\ length s = i /\ ~ In c s
  | None => ~ In c b
  end.
Proof.
  induction b as [|x b IH]; cbn [index_byte]; [intros []|].
  destruct (byte_eqb_spec x c) as [->|Hne].
  - exists [], b. repeat split. intros [].
  - destruct (index_byte b c) as [i|]; cbn [option_map].
    + destruct IH as (s & r & -> & <- & Hn). exists (x :: s), r. repeat split.
      intros [?|?]; auto.
    + intros [?|?]; auto.
Qed.

Lemma ReadString_repr s l r : cstring_repr s l -> ReadString (l ++ r) = (Ok s, r).
Proof.
  intros [Hs ->]. unfold ReadString. rewrite <- app_assoc. cbn [app].
  rewrite index_byte_app by exact Hs. unfold rd_bind.
  replace (Z.of_nat (length s) + 1) with (Z.of_nat (length (s ++ [x00]))) by (rewrite app_length; cbn; lia).
  change (x00 :: r) with ([x00] ++ r). rewrite app_assoc.
  rewrite (ReadBytes_app _ (s ++ [x00]) r eq_refl). unfold rd_ret.
  rewrite firstn_app, firstn_all, Nat.sub_diag. cbn. rewrite app_nil_r. reflexivity.
Qed.

Lemma ReadString_inv b r b' : ReadString b = (r, b') ->
  (exists s l, r = Ok s /\ b = l ++ b' /\ cstring_repr s l) \/
  (r = Err ErrNoTerminator /\ b' = b /\ nul_free b).
Proof.
  intros H. pose proof (index_byte_inv b x00) as I. destruct (index_byte b x00) as [i|] eqn:E.
  - destruct I as (s & t & -> & _ & Hs). left.
    assert (cstring_repr s (s ++ [x00])) as R by (split; [exact Hs | reflexivity]).
    pose proof (ReadString_repr _ _ t R) as Q. rewrite <- app_assoc in Q. cbn [app] in Q.
    rewrite Q in H. injection H as <- <-. exists s, (s ++ [x00]).
    rewrite <- app_assoc. auto.
  - unfold ReadString in H. rewrite E in H. injection H as <- <-. right. auto.
Qed.

Lemma cstring_inj s l l' : cstring_repr s l -> cstring_repr s l' -> l = l'.
Proof. intros [_ ->] [_ ->]. reflexivity. Qed.

(** * Arrays *)

Lemma decode_array_repr get w (R : Z -> bytes -> Prop) :
  (forall z l r, R z l -> get (l ++ r) = Ok z) -> (forall z l, R z l -> length l = w) ->
  forall arr l r, seq_repr R arr l -> decode_array get w (length arr) (l ++ r) = Ok arr.
Proof.
  intros Hg Hw arr l r H. revert r. induction H as [|z arr lz l Hz Hs IH]; intros r; [reflexivity|].
  cbn [length decode_array]. rewrite <- app_assoc, (Hg _ _ _ Hz). cbn [res_bind].
  rewrite skipn_app, (Hw _ _ Hz), Nat.sub_diag. cbn [skipn].
  rewrite skipn_all2 by (rewrite (Hw _ _ Hz); lia). cbn [app]. rewrite IH. reflexivity.
Qed.

Lemma decode_array_total w (R : Z -> bytes -> Prop) (dec : bytes -> Z) :
  (forall l, length l = w -> R (dec l) l) ->
  forall k l, length l = (k * w)%nat ->
  exists arr, length arr = k /\ seq_repr R arr l.
Proof.
  intros Hd k. induction k as [|k IH]; intros l Hl.
  - destruct l; [|discriminate]. exists []. split; [reflexivity|constructor].
  - destruct (IH (skipn w l)) as (arr & Ha & Hs). { rewrite skipn_length. lia. }
    exists (dec (firstn w l) :: arr). split; [cbn; congruence|].
    rewrite <- (firstn_skipn w l) at 2. constructor; [|exact Hs]. apply Hd.
    rewrite firstn_length. lia.
Qed.

Lemma seq_repr_length {A} (R : A -> bytes -> Prop) w xs l :
  (forall a la, R a la -> length la = w) -> seq_repr R xs l -> length l = (length xs * w)%nat.
Proof.
  intros Hw H. induction H as [|a xs la l Ha Hs IH]; [reflexivity|].
  rewrite app_length, (Hw _ _ Ha), IH. cbn. lia.
Qed.

(** the whole behaviour of the two array readers, as one lemma over the element width *)
Lemma read_array_inv (get : bytes -> res Z) (w : nat) (R : Z -> bytes -> Prop) (dec : bytes -> Z) k b r b' :
  (w = 4 \/ w = 2)%nat -> - 2 ^ 63 <= k < 2 ^ 63 ->
  (forall z l r, R z l -> get (l ++ r) = Ok z) -> (forall z l, R z l -> length l = w) ->
  (forall l, length l = w -> R (dec l) l) ->
  (arrBytes <- ReadBytes (wrap64 (k * Z.of_nat w)) ;;
   _ <- rd_lift (make_slice k (Z.of_nat w)) ;;
   rd_lift (decode_array get w (Z.to_nat k) arrBytes)) b = (r, b') ->
  let n := wrap64 (k * Z.of_nat w) in
  (exists arr l, r = Ok arr /\ b = l ++ b' /\ seq_repr R arr l /\
     k = Z.of_nat (length arr) /\ k * Z.of_nat w <= 2 ^ 48 /\ k * Z.of_nat w <= rb_len b) \/
  (r = Err EOF /\ b' = b /\ rb_len b < n) \/
  ((exists p, r = Panic p) /\ n <= rb_len b /\ (n < 0 \/ k < 0 \/ 2 ^ 48 < k * Z.of_nat w)).
Proof.
  intros Hw Hk Hget HR Hdec H n. unfold rd_bind at 1 in H. fold n in H.
  destruct (ReadBytes n b) as [r1 b1] eqn:E.
  destruct (ReadBytes_inv _ _ _ _ E) as [(v & -> & Hr & -> & Hv)|[(-> & -> & Hl)|(-> & -> & Hneg)]].
  - unfold rd_bind, rd_lift, make_slice in H.
    destruct ((k <? 0) || (2 ^ 48 <? k * Z.of_nat w)) eqn:Em.
    + injection H as <- <-. right. right. split; [eauto|]. split; [lia|].
      apply orb_true_iff in Em. destruct Em as [Em|Em]; [apply Z.ltb_lt in Em | apply Z.ltb_lt in Em]; auto.
    + apply orb_false_iff in Em. destruct Em as [E1 E2].
      apply Z.ltb_ge in E1. apply Z.ltb_ge in E2. injection H as <- <-. left.
      assert (n = k * Z.of_nat w) as Hn.
      { unfold n. apply wrap64_id. change (2 ^ 48) with 281474976710656 in E2.
        change (2 ^ 63) with 9223372036854775808. destruct Hw as [-> | ->]; lia. }
      destruct (decode_array_total w R dec Hdec (Z.to_nat k) v) as (arr & Ha & Hs).
      { destruct Hw as [-> | ->]; lia. }
      exists arr, v. rewrite <- Ha, <- (app_nil_r v) at 1.
      rewrite (decode_array_repr get w R Hget HR _ _ [] Hs).
      repeat split; try assumption; try lia.
  - injection H as <- <-. right. left. auto.
  - injection H as <- <-. right. right. split; [eauto|]. split; [unfold rb_len; lia|]. auto.
Qed.

Lemma ReadInt32Array_inv k b r b' : - 2 ^ 63 <= k < 2 ^ 63 -> ReadInt32Array k b = (r, b') ->
  (exists arr l, r = Ok arr /\ b = l ++ b' /\ seq_repr int32_repr arr l /\
     k = Z.of_nat (length arr) /\ k * 4 <= 2 ^ 48 /\ k * 4 <= rb_len b) \/
  (r = Err EOF /\ b' = b /\ rb_len b < wrap64 (k * 4)) \/
  ((exists p, r = Panic p) /\ wrap64 (k * 4) <= rb_len b /\
     (wrap64 (k * 4) < 0 \/ k < 0 \/ 2 ^ 48 < k * 4)).
Proof.
  intros Hk H. exact (read_array_inv _ 4 int32_repr (fun l => wrap32 (be_value l)) k b r b' (or_introl eq_refl) Hk
    get32_repr int32_repr_length int32_repr_wrap H).
Qed.
Lemma ReadInt16Array_inv k b r b' : - 2 ^ 63 <= k < 2 ^ 63 -> ReadInt16Array k b = (r, b') ->
  (exists arr l, r = Ok arr /\ b = l ++ b' /\ seq_repr int16_repr arr l /\
     k = Z.of_nat (length arr) /\ k * 2 <= 2 ^ 48 /\ k * 2 <= rb_len b) \/
  (r = Err EOF /\ b' = b /\ rb_len b < wrap64 (k * 2)) \/
  ((exists p, r = Panic p) /\ wrap64 (k * 2) <= rb_len b /\
     (wrap64 (k * 2) < 0 \/ k < 0 \/ 2 ^ 48 < k * 2)).
Proof.
  intros Hk H. exact (read_array_inv _ 2 int16_repr (fun l => wrap16 (be_value l)) k b r b' (or_intror eq_refl) Hk
    get16_repr int16_repr_length int16_repr_wrap H).
Qed.

Lemma WriteInt32Array_eq b arr : Forall in_int32 arr ->
  exists l, WriteInt32Array b arr = b ++ l /\ seq_repr int32_repr arr l.
Proof.
  intros H. eexists. split; [reflexivity|].
  induction H as [|z arr Hz Hs IH]; cbn [map concat]; [constructor|]. constructor; [apply put32_repr; exact Hz | exact IH].
Qed.
Lemma WriteInt16Array_eq b arr : Forall in_int16 arr ->
  exists l, WriteInt16Array b arr = b ++ l /\ seq_repr int16_repr arr l.
Proof.
  intros H. eexists. split; [reflexivity|].
  induction H as [|z arr Hz Hs IH]; cbn [map concat]; [constructor|]. constructor; [apply put16_repr; exact Hz | exact IH].
Qed.

Lemma ReadInt32Array_repr arr l r : seq_repr int32_repr arr l -> Z.of_nat (length arr) * 4 <= 2 ^ 48 ->
  ReadInt32Array (Z.of_nat (length arr)) (l ++ r) = (Ok arr, r).
Proof.
  intros H Hl. pose proof (seq_repr_length _ 4 _ _ int32_repr_length H) as Hlen.
  change (2 ^ 48) with 281474976710656 in Hl.
  unfold ReadInt32Array, rd_bind at 1. rewrite wrap64_id by (change (2 ^ 63) with 9223372036854775808; lia).
  replace (Z.of_nat (length arr) * 4) with (Z.of_nat (length l)) by lia.
  rewrite (ReadBytes_app _ _ _ eq_refl). unfold rd_bind, rd_lift, make_slice.
  change (2 ^ 48) with 281474976710656.
  destruct ((_ <? 0) || _) eqn:E; [lia|].
  rewrite Nat2Z.id, <- (app_nil_r l), (decode_array_repr _ 4 int32_repr get32_repr int32_repr_length _ _ [] H).
  reflexivity.
Qed.
Lemma ReadInt16Array_repr arr l r : seq_repr int16_repr arr l -> Z.of_nat (length arr) * 2 <= 2 ^ 48 ->
  ReadInt16Array (Z.of_nat (length arr)) (l ++ r) = (Ok arr, r).
Proof.
  intros H Hl. pose proof (seq_repr_length _ 2 _ _ int16_repr_length H) as Hlen.
  change (2 ^ 48) with 281474976710656 in Hl.
  unfold ReadInt16Array, rd_bind at 1. rewrite wrap64_id by (change (2 ^ 63) with 9223372036854775808; lia).
  replace (Z.of_nat (length arr) * 2) with (Z.of_nat (length l)) by lia.
  rewrite (ReadBytes_app _ _ _ eq_refl). unfold rd_bind, rd_lift, make_slice.
  change (2 ^ 48) with 281474976710656.
  destruct ((_ <? 0) || _) eqn:E; [lia|].
  rewrite Nat2Z.id, <- (app_nil_r l), (decode_array_repr _ 2 int16_repr get16_repr int16_repr_length _ _ [] H).
  reflexivity.
Qed.
