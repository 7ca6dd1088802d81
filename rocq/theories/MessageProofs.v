(** Lemmas about Messages.v against SpecProtocol.v: writers produce the specified bytes, parsers
    accept them (completeness) and accept nothing else up to trailing bytes (soundness). *)
From Verif Require Import SpecWire SpecProtocol Messages BufferProofs.
From Coq Require Import ZifyBool ZifyNat ZifyN.
Ltac Zify.zify_post_hook ::= Z.div_mod_to_equations.

Arguments Z.pow : simpl never.
Arguments Z.add : simpl never.
Arguments Z.mul : simpl never.
Arguments Z.of_nat : simpl never.
Arguments Z.to_nat : simpl never.

(** * Reader combinators *)

(** [complete P R]: P reads exactly the bytes R prescribes. *)
Definition complete {A} (P : rd A) (R : A -> bytes -> Prop) : Prop :=
  forall a l r, R a l -> P (l ++ r) = (Ok a, r).
(** [sound P R]: whatever P accepts, R prescribes. *)
Definition sound {A} (P : rd A) (R : A -> bytes -> Prop) : Prop :=
  forall b a b', P b = (Ok a, b') -> exists l, b = l ++ b' /\ R a l.

Lemma rd_bind_ok {A B} (m : rd A) (k : A -> rd B) b c b' :
  rd_bind m k b = (Ok c, b') -> exists a b1, m b = (Ok a, b1) /\ k a b1 = (Ok c, b').
Proof. unfold rd_bind. destruct (m b) as [[a|e|p] b1]; intros H; try discriminate. eauto. Qed.

Lemma complete_int32 : complete ReadInt32 int32_repr.
Proof. intros z l r H. apply ReadInt32_repr. exact H. Qed.
Lemma complete_int16 : complete ReadInt16 int16_repr.
Proof. intros z l r H. apply ReadInt16_repr. exact H. Qed.
Lemma complete_string : complete ReadString cstring_repr.
Proof. intros z l r H. apply ReadString_repr. exact H. Qed.

Lemma sound_int32 : sound ReadInt32 int32_repr.
Proof. intros b a b' H. destruct (ReadInt32_inv _ _ _ H) as [(z & l & [= <-] & -> & R)|(? & _)]; [eauto|discriminate]. Qed.
Lemma sound_int16 : sound ReadInt16 int16_repr.
Proof. intros b a b' H. destruct (ReadInt16_inv _ _ _ H) as [(z & l & [= <-] & -> & R)|(? & _)]; [eauto|discriminate]. Qed.
Lemma sound_string : sound ReadString cstring_repr.
Proof. intros b a b' H. destruct (ReadString_inv _ _ _ H) as [(z & l & [= <-] & -> & R)|(? & _)]; [eauto|discriminate]. Qed.
Lemma sound_byte : sound ReadByte (fun c l => l = [c]).
Proof. intros b a b' H. destruct (ReadByte_inv _ _ _ H) as [(c & [= <-] & ->)|(? & _)]; [exists [a]; auto|discriminate]. Qed.
Lemma sound_bytes n : sound (ReadBytes n) (fun v l => l = v /\ Z.of_nat (length v) = n).
Proof.
  intros b a b' H. destruct (ReadBytes_inv _ _ _ _ H) as [(v & [= <-] & _ & -> & Hl)|[(? & _)|(? & _)]];
  [exists a; auto|discriminate|discriminate].
Qed.

(** OIDs: the int32 <-> uint32 conversions. *)
Lemma oid_int32 z l : oid_repr z l -> int32_repr (wrap32 z) l.
Proof. intros [H1 H2]. rewrite <- H2. apply int32_repr_wrap. exact H1. Qed.
Lemma oid_range z l : oid_repr z l -> in_uint32 z.
Proof. intros [H1 <-]. pose proof (be_value_range l) as R. rewrite H1 in R. exact R. Qed.
Lemma uwrap32_wrap32 z : in_uint32 z -> uwrap32 (wrap32 z) = z.
Proof.
  intros H. unfold uwrap32, wrap32. rewrite wrap_signed_mod by lia. apply Z.mod_small. exact H.
Qed.
Lemma int32_oid z l : int32_repr z l -> oid_repr (uwrap32 z) l.
Proof.
  intros (H1 & H2 & H3). split; [exact H1|]. rewrite H3. unfold uwrap32.
  change (8 * Z.of_nat 4) with 32 in *. change (2 ^ (32-1)) with 2147483648 in *.
  change (2 ^ 32) with 4294967296. destruct (z <? 0) eqn:?; lia.
Qed.
Lemma put_oid_repr z : in_uint32 z -> oid_repr z (put_uint32 (uwrap32 (wrap32 z))).
Proof.
  intros H. rewrite uwrap32_wrap32 by exact H. split; [reflexivity|].
  rewrite be_value_put32. apply Z.mod_small. exact H.
Qed.
Lemma oid_put z l : oid_repr z l -> l = put_uint32 (uwrap32 (wrap32 z)).
Proof.
  intros H. apply be_value_inj.
  - destruct H as [-> _]. reflexivity.
  - destruct (put_oid_repr z (oid_range _ _ H)) as [_ ->]. destruct H as [_ ->]. reflexivity.
Qed.

(** * Lists of items *)

Lemma parse_values_complete vs l r :
  seq_repr column_repr vs l -> parse_values (length vs) (l ++ r) = (Ok vs, r).
Proof.
  intros H. revert r. induction H as [|v vs lv l Hv Hs IH]; intros r; [reflexivity|].
  cbn [length parse_values]. unfold rd_bind at 1. rewrite <- app_assoc.
  destruct Hv as [lv Hl | v lv Hl].
  - rewrite (complete_int32 _ _ _ Hl). cbn [Z.eqb Z.opp Pos.eqb].
    unfold rd_bind. rewrite IH. reflexivity.
  - rewrite <- app_assoc, (complete_int32 _ _ _ Hl).
    replace (Z.of_nat (length v) =? -1) with false by lia.
    unfold rd_bind at 1. rewrite (ReadBytes_app _ v _ eq_refl). unfold rd_bind. rewrite IH. reflexivity.
Qed.

Lemma parse_values_sound n : sound (parse_values n) (fun vs l => length vs = n /\ seq_repr column_repr vs l).
Proof.
  induction n as [|n IH]; intros b vs b' H.
  - injection H as <- <-. exists []. split; [reflexivity|]. split; [reflexivity|constructor].
  - cbn [parse_values] in H. apply rd_bind_ok in H. destruct H as (z & b1 & H1 & H2).
    apply sound_int32 in H1. destruct H1 as (l1 & -> & R1).
    destruct (z =? -1) eqn:Ez.
    + apply rd_bind_ok in H2. destruct H2 as (vs' & b2 & H2 & H3).
      injection H3 as <- <-. apply IH in H2. destruct H2 as (l2 & -> & Hlen & R2).
      assert (z = -1) by lia. subst z.
      exists (l1 ++ l2). rewrite app_assoc. split; [reflexivity|]. split; [cbn; congruence|].
      constructor; [constructor; exact R1 | exact R2].
    + apply rd_bind_ok in H2. destruct H2 as (v & b2 & H2 & H3).
      apply sound_bytes in H2. destruct H2 as (lv & -> & -> & Hv).
      apply rd_bind_ok in H3. destruct H3 as (vs' & b3 & H3 & H4).
      injection H4 as <- <-. apply IH in H3. destruct H3 as (l2 & -> & Hlen & R2).
      exists ((l1 ++ v) ++ l2). rewrite <- !app_assoc. split; [reflexivity|]. split; [cbn; congruence|].
      rewrite app_assoc. constructor; [|exact R2]. constructor. rewrite Hv. exact R1.
Qed.

Lemma parse_descriptors_complete fs l r :
  seq_repr descriptor_repr fs l -> parse_descriptors (length fs) (l ++ r) = (Ok fs, r).
Proof.
  intros H. revert r. induction H as [|f fs lf l Hf Hs IH]; intros r; [reflexivity|].
  cbn [length parse_descriptors].
  destruct Hf as [f l1 l2 l3 l4 l5 l6 l7 H1 H2 H3 H4 H5 H6 H7].
  rewrite <- !app_assoc. unfold rd_bind at 1. rewrite (complete_string _ _ _ H1).
  unfold rd_bind at 1. rewrite (complete_int32 _ _ _ (oid_int32 _ _ H2)).
  unfold rd_bind at 1. rewrite (complete_int16 _ _ _ H3).
  unfold rd_bind at 1. rewrite (complete_int32 _ _ _ (oid_int32 _ _ H4)).
  unfold rd_bind at 1. rewrite (complete_int16 _ _ _ H5).
  unfold rd_bind at 1. rewrite (complete_int32 _ _ _ H6).
  unfold rd_bind at 1. rewrite (complete_int16 _ _ _ H7).
  unfold rd_bind. rewrite IH. unfold rd_ret.
  rewrite (uwrap32_wrap32 _ (oid_range _ _ H2)), (uwrap32_wrap32 _ (oid_range _ _ H4)).
  destruct f; reflexivity.
Qed.

Lemma parse_descriptors_sound n :
  sound (parse_descriptors n) (fun fs l => length fs = n /\ seq_repr descriptor_repr fs l).
Proof.
  induction n as [|n IH]; intros b fs b' H.
  - injection H as <- <-. exists []. split; [reflexivity|]. split; [reflexivity|constructor].
  - cbn [parse_descriptors] in H.
    apply rd_bind_ok in H. destruct H as (z1 & b1 & H1 & H). apply sound_string in H1. destruct H1 as (l1 & -> & R1).
    apply rd_bind_ok in H. destruct H as (z2 & b2 & H1 & H). apply sound_int32 in H1. destruct H1 as (l2 & -> & R2).
    apply rd_bind_ok in H. destruct H as (z3 & b3 & H1 & H). apply sound_int16 in H1. destruct H1 as (l3 & -> & R3).
    apply rd_bind_ok in H. destruct H as (z4 & b4 & H1 & H). apply sound_int32 in H1. destruct H1 as (l4 & -> & R4).
    apply rd_bind_ok in H. destruct H as (z5 & b5 & H1 & H). apply sound_int16 in H1. destruct H1 as (l5 & -> & R5).
    apply rd_bind_ok in H. destruct H as (z6 & b6 & H1 & H). apply sound_int32 in H1. destruct H1 as (l6 & -> & R6).
    apply rd_bind_ok in H. destruct H as (z7 & b7 & H1 & H). apply sound_int16 in H1. destruct H1 as (l7 & -> & R7).
    apply rd_bind_ok in H. destruct H as (fs' & b8 & H1 & H). apply IH in H1. destruct H1 as (l8 & -> & Hlen & R8).
    injection H as <- <-.
    exists ((l1 ++ l2 ++ l3 ++ l4 ++ l5 ++ l6 ++ l7) ++ l8). rewrite <- !app_assoc.
    split; [reflexivity|]. split; [cbn; congruence|].
    rewrite !app_assoc, <- !(app_assoc l1), <- !app_assoc.
    replace (l1 ++ l2 ++ l3 ++ l4 ++ l5 ++ l6 ++ l7 ++ l8)
      with ((l1 ++ l2 ++ l3 ++ l4 ++ l5 ++ l6 ++ l7) ++ l8) by (rewrite <- !app_assoc; reflexivity).
    constructor; [|exact R8]. constructor; cbn; auto using int32_oid.
Qed.

Lemma parse_options_complete os l r :
  seq_repr cstring_repr os l -> parse_options (length os) (l ++ r) = (Ok os, r).
Proof.
  intros H. revert r. induction H as [|o os lo l Ho Hs IH]; intros r; [reflexivity|].
  cbn [length parse_options]. unfold rd_bind at 1. rewrite <- app_assoc, (complete_string _ _ _ Ho).
  unfold rd_bind. rewrite IH. reflexivity.
Qed.

Lemma parse_options_sound n :
  sound (parse_options n) (fun os l => length os = n /\ seq_repr cstring_repr os l).
Proof.
  induction n as [|n IH]; intros b os b' H.
  - injection H as <- <-. exists []. split; [reflexivity|]. split; [reflexivity|constructor].
  - cbn [parse_options] in H. apply rd_bind_ok in H. destruct H as (o & b1 & H1 & H2).
    apply sound_string in H1. destruct H1 as (l1 & -> & R1).
    apply rd_bind_ok in H2. destruct H2 as (os' & b2 & H2 & H3).
    injection H3 as <- <-. apply IH in H2. destruct H2 as (l2 & -> & Hlen & R2).
    exists (l1 ++ l2). rewrite app_assoc. split; [reflexivity|]. split; [cbn; congruence|].
    constructor; assumption.
Qed.

Lemma cstring_length s l : cstring_repr s l -> length l = S (length s).
Proof. intros [_ ->]. rewrite app_length. cbn. lia. Qed.

Lemma seq_length_ge {A} (R : A -> bytes -> Prop) xs l :
  (forall a la, R a la -> (1 <= length la)%nat) -> seq_repr R xs l -> (length xs <= length l)%nat.
Proof.
  intros HR H. induction H as [|a xs la l Ha Hs IH]; [cbn; lia|].
  rewrite app_length. cbn. pose proof (HR _ _ Ha). lia.
Qed.

Lemma parse_fields_complete fs l r fuel :
  seq_repr mfield_repr fs l -> (length fs < fuel)%nat ->
  parse_fields fuel (l ++ x00 :: r) = (Ok fs, r).
Proof.
  intros H. revert fuel. induction H as [|f fs lf l Hf Hs IH]; intros fuel Hfuel.
  - destruct fuel; [cbn in Hfuel; lia|]. cbn [app parse_fields]. unfold rd_bind. rewrite ReadByte_app. reflexivity.
  - destruct fuel; [cbn in Hfuel; lia|]. cbn [parse_fields].
    destruct Hf as [f lf Ht Hv]. rewrite <- app_assoc. cbn [app].
    unfold rd_bind at 1. rewrite ReadByte_app, (byte_eqb_neq _ _ Ht).
    unfold rd_bind at 1. rewrite (complete_string _ _ _ Hv).
    unfold rd_bind. rewrite IH by (cbn in Hfuel; lia). destruct f; reflexivity.
Qed.

Lemma parse_fields_sound fuel :
  sound (parse_fields fuel) (fun fs l => exists l', l = l' ++ [x00] /\ seq_repr mfield_repr fs l').
Proof.
  induction fuel as [|n IH]; intros b fs b' H; [discriminate|].
  cbn [parse_fields] in H. apply rd_bind_ok in H. destruct H as (t & b1 & H1 & H2).
  apply sound_byte in H1. destruct H1 as (l1 & -> & ->).
  destruct (byte_eqb_spec t x00) as [->|Ht].
  - injection H2 as <- <-. exists [x00]. split; [reflexivity|]. exists []. split; [reflexivity|constructor].
  - apply rd_bind_ok in H2. destruct H2 as (v & b2 & H2 & H3). apply sound_string in H2. destruct H2 as (l2 & -> & R2).
    apply rd_bind_ok in H3. destruct H3 as (fs' & b3 & H3 & H4). injection H4 as <- <-.
    apply IH in H3. destruct H3 as (l3 & -> & l4 & -> & R4).
    exists ((t :: l2) ++ l4 ++ [x00]). cbn [app]. rewrite <- !app_assoc. split; [reflexivity|].
    exists ((t :: l2) ++ l4). split; [rewrite <- app_assoc; reflexivity|].
    constructor; [|exact R4]. exact (mfield_intro (Field t v) l2 Ht R2).
Qed.

(** the fuel of the Error/Notice loop never runs out *)
Lemma parse_fields_fuel fuel b r b' : (length b < fuel)%nat -> parse_fields fuel b = (r, b') ->
  r <> Err OutOfFuel /\ (forall p, r <> Panic p).
Proof.
  revert b r b'. induction fuel as [|n IH]; intros b r b' Hf H; [lia|].
  cbn [parse_fields] in H. unfold rd_bind at 1 in H.
  destruct (ReadByte b) as [r1 b1] eqn:E1.
  destruct (ReadByte_inv _ _ _ E1) as [(c & -> & ->)|(-> & -> & ->)].
  - destruct (byte_eqb c x00); [injection H as <- <-; split; congruence|].
    unfold rd_bind at 1 in H. destruct (ReadString b1) as [r2 b2] eqn:E2.
    destruct (ReadString_inv _ _ _ E2) as [(s & l & -> & -> & _)|(-> & -> & _)].
    + unfold rd_bind at 1 in H. destruct (parse_fields n b2) as [r3 b3] eqn:E3.
      apply IH in E3; [|cbn in Hf; rewrite app_length in Hf; lia].
      destruct E3 as [E3 E3']. destruct r3; injection H as <- <-; split; try congruence; try exact E3; exact E3'.
    + injection H as <- <-. split; congruence.
  - injection H as <- <-. split; congruence.
Qed.

Lemma parse_params_complete ps l r fuel :
  seq_repr param_repr ps l -> (length ps < fuel)%nat ->
  parse_params fuel (l ++ x00 :: r) = (Ok ps, r).
Proof.
  intros H. revert fuel. induction H as [|p ps lp l Hp Hs IH]; intros fuel Hfuel.
  - destruct fuel; [cbn in Hfuel; lia|]. cbn [app parse_params]. unfold rd_bind.
    change (x00 :: r) with ([x00] ++ r). rewrite (complete_string []); [reflexivity|].
    split; [intros []|reflexivity].
  - destruct fuel; [cbn in Hfuel; lia|]. cbn [parse_params].
    destruct Hp as [p l1 l2 Hn H1 H2]. rewrite <- !app_assoc.
    unfold rd_bind at 1. rewrite (complete_string _ _ _ H1).
    destruct (p_name p) as [|c n] eqn:En; [congruence|].
    unfold rd_bind at 1. rewrite (complete_string _ _ _ H2).
    unfold rd_bind. rewrite IH by (cbn in Hfuel; lia).
    destruct p; cbn in En; subst; reflexivity.
Qed.

Lemma parse_params_sound fuel :
  sound (parse_params fuel) (fun ps l => exists l', l = l' ++ [x00] /\ seq_repr param_repr ps l').
Proof.
  induction fuel as [|n IH]; intros b fs b' H; [discriminate|].
  cbn [parse_params] in H. apply rd_bind_ok in H. destruct H as (t & b1 & H1 & H2).
  apply sound_string in H1. destruct H1 as (l1 & -> & R1).
  destruct t as [|c t].
  - injection H2 as <- <-. exists l1. split; [reflexivity|]. exists [].
    destruct R1 as [_ ->]. split; [reflexivity|constructor].
  - apply rd_bind_ok in H2. destruct H2 as (v & b2 & H2 & H3). apply sound_string in H2. destruct H2 as (l2 & -> & R2).
    apply rd_bind_ok in H3. destruct H3 as (fs' & b3 & H3 & H4). injection H4 as <- <-.
    apply IH in H3. destruct H3 as (l3 & -> & l4 & -> & R4).
    exists ((l1 ++ l2) ++ l4 ++ [x00]). rewrite <- !app_assoc. split; [reflexivity|].
    exists ((l1 ++ l2) ++ l4). split; [rewrite <- !app_assoc; reflexivity|].
    constructor; [|exact R4].
    refine (param_intro (Param (c :: t) v) l1 l2 _ R1 R2). cbn. discriminate.
Qed.

Lemma parse_params_fuel fuel b r b' : (length b < fuel)%nat -> parse_params fuel b = (r, b') ->
  r <> Err OutOfFuel /\ (forall p, r <> Panic p).
Proof.
  revert b r b'. induction fuel as [|n IH]; intros b r b' Hf H; [lia|].
  cbn [parse_params] in H. unfold rd_bind at 1 in H.
  destruct (ReadString b) as [r1 b1] eqn:E1.
  destruct (ReadString_inv _ _ _ E1) as [(c & l & -> & -> & R)|(-> & -> & _)].
  - destruct c as [|c0 c]; [injection H as <- <-; split; congruence|].
    unfold rd_bind at 1 in H. destruct (ReadString b1) as [r2 b2] eqn:E2.
    destruct (ReadString_inv _ _ _ E2) as [(s & l' & -> & -> & _)|(-> & -> & _)].
    + unfold rd_bind at 1 in H. destruct (parse_params n b2) as [r3 b3] eqn:E3.
      apply cstring_length in R.
      apply IH in E3; [|rewrite !app_length in Hf; lia].
      destruct E3 as [E3 E3']. destruct r3; injection H as <- <-; split; try congruence; try exact E3; exact E3'.
    + injection H as <- <-. split; congruence.
  - injection H as <- <-. split; congruence.
Qed.

(** * Writers *)

Lemma fold_write {A} (w : bytes -> A -> bytes) (e : A -> bytes) :
  (forall b a, w b a = b ++ e a) -> forall xs b, fold_left w xs b = b ++ concat (map e xs).
Proof.
  intros Hw xs. induction xs as [|x xs IH]; intros b; cbn [fold_left map concat].
  - rewrite app_nil_r. reflexivity.
  - rewrite IH, Hw, app_assoc. reflexivity.
Qed.

Lemma seq_concat {A} (R : A -> bytes -> Prop) (e : A -> bytes) xs l :
  (forall a la, R a la -> la = e a) -> seq_repr R xs l -> l = concat (map e xs).
Proof. intros HR H. induction H as [|a xs la l Ha Hs IH]; [reflexivity|]. cbn. rewrite (HR _ _ Ha), IH. reflexivity. Qed.

Lemma seq_concat_intro {A} (R : A -> bytes -> Prop) (e : A -> bytes) xs :
  Forall (fun a => R a (e a)) xs -> seq_repr R xs (concat (map e xs)).
Proof. intros H. induction H as [|a xs Ha Hs IH]; cbn; constructor; assumption. Qed.

Definition enc_param p := (p_name p ++ [x00]) ++ (p_value p ++ [x00]).
Definition enc_field f := mf_type f :: (mf_value f ++ [x00]).
Definition enc_value (v : option bytes) :=
  match v with
  | None => put_uint32 (uwrap32 (-1))
  | Some v => put_uint32 (uwrap32 (wrap32 (Z.of_nat (length v)))) ++ v
  end.
Definition enc_descriptor f :=
  (fd_name f ++ [x00]) ++ put_uint32 (uwrap32 (wrap32 (fd_table_oid f))) ++
  put_uint16 (uwrap16 (fd_column_index f)) ++ put_uint32 (uwrap32 (wrap32 (fd_type_oid f))) ++
  put_uint16 (uwrap16 (fd_type_size f)) ++ put_uint32 (uwrap32 (fd_type_modifier f)) ++
  put_uint16 (uwrap16 (fd_format f)).

Lemma write_params_eq b ps : write_params b ps = b ++ concat (map enc_param ps).
Proof. apply fold_write. intros b' p. unfold WriteString, enc_param. rewrite <- !app_assoc. reflexivity. Qed.
Lemma write_fields_eq b fs : write_fields b fs = b ++ concat (map enc_field fs).
Proof. apply fold_write. intros b' f. unfold WriteString, WriteByte, enc_field. rewrite <- !app_assoc. reflexivity. Qed.
Lemma write_values_eq b vs : write_values b vs = b ++ concat (map enc_value vs).
Proof.
  apply fold_write. intros b' [v|]; unfold WriteBytes, WriteInt32, enc_value, WriteBytes; rewrite <- ?app_assoc; reflexivity.
Qed.
Lemma write_descriptors_eq b fs : write_descriptors b fs = b ++ concat (map enc_descriptor fs).
Proof.
  apply fold_write. intros b' f. unfold WriteString, WriteInt32, WriteInt16, WriteBytes, enc_descriptor.
  rewrite <- !app_assoc. reflexivity.
Qed.
Lemma write_options_eq b os : fold_left WriteString os b = b ++ concat (map (fun o => o ++ [x00]) os).
Proof. apply fold_write. intros b' o. unfold WriteString. rewrite <- app_assoc. reflexivity. Qed.

Lemma column_enc v l : column_repr v l -> l = enc_value v.
Proof.
  intros [l' H | v' l' H]; cbn [enc_value].
  - apply int32_repr_put. exact H.
  - rewrite (wrap32_id _ (int32_repr_range _ _ H)), (int32_repr_put _ _ H). reflexivity.
Qed.
Lemma mfield_enc f l : mfield_repr f l -> l = enc_field f.
Proof. intros [f' l' _ [_ ->]]. reflexivity. Qed.
Lemma param_enc p l : param_repr p l -> l = enc_param p.
Proof. intros [p' l1 l2 _ [_ ->] [_ ->]]. reflexivity. Qed.
Lemma descriptor_enc f l : descriptor_repr f l -> l = enc_descriptor f.
Proof.
  intros [f' l1 l2 l3 l4 l5 l6 l7 [_ ->] H2 H3 H4 H5 H6 H7]. unfold enc_descriptor.
  rewrite (oid_put _ _ H2), (int16_repr_put _ _ H3), (oid_put _ _ H4), (int16_repr_put _ _ H5),
    (int32_repr_put _ _ H6), (int16_repr_put _ _ H7). reflexivity.
Qed.
Lemma option_enc o l : cstring_repr o l -> l = o ++ [x00].
Proof. intros [_ ->]. reflexivity. Qed.

(** Everything [encodes] allows is what [Frame] writes. *)
Lemma encodes_Frame m t l : encodes m t l -> Frame m = NewStandardFrame t l.
Proof.
  intros H. destruct H; cbn [Frame]; try reflexivity;
    try match goal with H : int32_repr (Z.of_nat _) _ |- _ => rewrite (wrap32_id _ (int32_repr_range _ _ H)) end;
    repeat match goal with H : int32_repr _ ?l |- _ => apply int32_repr_put in H; subst l end;
    repeat match goal with H : cstring_repr _ ?l |- _ => apply option_enc in H; subst l end;
    try reflexivity.
  - rewrite write_values_eq, <- (seq_concat _ _ _ _ column_enc H0).
    rewrite (wrap16_id _ (int16_repr_range _ _ H)), (int16_repr_put _ _ H). reflexivity.
  - rewrite write_fields_eq, <- (seq_concat _ _ _ _ mfield_enc H). reflexivity.
  - rewrite write_fields_eq, <- (seq_concat _ _ _ _ mfield_enc H). reflexivity.
  - rewrite write_options_eq. rewrite <- (seq_concat _ _ _ _ option_enc H1).
    unfold WriteInt32, WriteBytes. rewrite <- !app_assoc. reflexivity.
  - unfold WriteString. rewrite <- app_assoc. reflexivity.
  - rewrite write_descriptors_eq, <- (seq_concat _ _ _ _ descriptor_enc H0).
    rewrite (wrap16_id _ (int16_repr_range _ _ H)), (int16_repr_put _ _ H). reflexivity.
Qed.
