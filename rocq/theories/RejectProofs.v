(** Which error a refused packet is reported with (statements C100 of P_Reject.v). *)
From Verif Require Import GoBase SpecWire SpecFrames SpecProtocol SpecReject Conn BufferProofs FrameProofs FrameFacts
  MessageProofs ConnProofs ConnFacts DecodeFacts.
From Coq Require Import ZifyBool ZifyNat ZifyN.
Arguments Z.pow : simpl never.

(** [fails m P]: the reader [m] fails with [e] exactly on the inputs [P]. *)
Definition fails {A} (m : rd A) (P : bytes -> error -> Prop) : Prop := forall b e, fst (m b) = Err e <-> P b e.

Lemma fails_bind {A B} (m : rd A) (k : A -> rd B) R P Q : sound m R -> complete m R -> fails m P ->
  (forall a, fails (k a) (Q a)) ->
  fails (rd_bind m k) (fun b e => P b e \/ exists a l r, b = l ++ r /\ R a l /\ Q a r e).
Proof.
  intros S C F K b e. unfold rd_bind. specialize (F b e). destruct (m b) as [[a|x|p] b1] eqn:E; cbn [fst] in *.
  - specialize (K a b1 e). rewrite K. destruct (S _ _ _ E) as (l & -> & Hr). split.
    + intros H. right. exists a, l, b1. auto.
    + intros [H|(a' & l' & r & Hb & R' & H)]; [apply F in H; discriminate|].
      rewrite Hb, (C _ _ _ R') in E. injection E as <- <-. exact H.
  - split; [intros [= ->]; left; apply F; reflexivity|]. intros [H|(a' & l' & r & -> & R' & H)]; [apply F in H; congruence|].
    rewrite (C _ _ _ R') in E. discriminate.
  - split; [discriminate|]. intros [H|(a' & l' & r & -> & R' & H)]; [apply F in H; congruence|].
    rewrite (C _ _ _ R') in E. discriminate.
Qed.
Lemma fails_ret {A} (a : A) : fails (rd_ret a) (fun _ _ => False).
Proof. intros b e. cbn. split; [discriminate|tauto]. Qed.
Lemma fails_ext {A} (m : rd A) P Q : fails m P -> (forall b e, P b e <-> Q b e) -> fails m Q.
Proof. intros F H b e. rewrite <- H. apply F. Qed.

Lemma fails_bytes n : 0 <= n -> fails (ReadBytes n) (fun b e => e = EOF /\ Z.of_nat (length b) < n).
Proof.
  intros Hn b e. unfold ReadBytes, rb_len. destruct (_ <? _) eqn:E; cbn [fst].
  - split; [intros [= <-]; split; [reflexivity|lia]|intros [-> _]; reflexivity].
  - destruct (n <? 0) eqn:E2; [lia|]. cbn. split; [discriminate|lia].
Qed.
Lemma complete_bytes n : 0 <= n -> complete (ReadBytes n) (fun v l => l = v /\ Z.of_nat (length v) = n).
Proof. intros Hn v l r [-> H]. subst n. apply ReadBytes_app. reflexivity. Qed.
Lemma complete_byte : complete ReadByte (fun c l => l = [c]).
Proof. intros c l r ->. apply ReadByte_app. Qed.
Lemma fails_byte : fails ReadByte (fun b e => e = EOF /\ b = []).
Proof.
  intros b e. destruct (ReadByte b) as [x b'] eqn:E. cbn. destruct (ReadByte_inv _ _ _ E) as [(c & -> & ->)|(-> & -> & ?)].
  - split; [discriminate|intros [_ ?]; discriminate].
  - split; [intros [= <-]; auto|intros [-> _]; reflexivity].
Qed.
Lemma fails_int32 : fails ReadInt32 (fun b e => e = EOF /\ short 4 b).
Proof.
  intros b e. destruct (ReadInt32 b) as [x b'] eqn:E. cbn. destruct (ReadInt32_inv _ _ _ E) as [(z & l & -> & -> & R)|(-> & -> & Hs)]; unfold rb_len in *.
  - split; [discriminate|]. intros [_ H]. unfold short in H. rewrite app_length in H. destruct R as [R _]. lia.
  - unfold short. split; [intros [= <-]; split; [reflexivity|lia]|intros [-> _]; reflexivity].
Qed.
Lemma fails_int16 : fails ReadInt16 (fun b e => e = EOF /\ short 2 b).
Proof.
  intros b e. destruct (ReadInt16 b) as [x b'] eqn:E. cbn. destruct (ReadInt16_inv _ _ _ E) as [(z & l & -> & -> & R)|(-> & -> & Hs)]; unfold rb_len in *.
  - split; [discriminate|]. intros [_ H]. unfold short in H. rewrite app_length in H. destruct R as [R _]. lia.
  - unfold short. split; [intros [= <-]; split; [reflexivity|lia]|intros [-> _]; reflexivity].
Qed.
Lemma fails_string : fails ReadString (fun b e => e = ErrNoTerminator /\ nul_free b).
Proof.
  intros b e. destruct (ReadString b) as [x b'] eqn:E. cbn. destruct (ReadString_inv _ _ _ E) as [(s & l & -> & -> & [_ ->])|(-> & -> & Hs)].
  - split; [discriminate|]. intros [_ H]. exfalso. apply H. rewrite <- app_assoc. apply in_or_app. right. left. reflexivity.
  - split; [intros [= <-]; auto|intros [-> _]; reflexivity].
Qed.

(** * The loops *)

(** [n] items, one after the other *)
Fixpoint items {A} (I : rd A) (n : nat) : rd (list A) :=
  match n with O => rd_ret [] | S n' => rd_bind I (fun v => rd_bind (items I n') (fun vs => rd_ret (v :: vs))) end.

Lemma items_sound {A} (I : rd A) R n : sound I R -> sound (items I n) (fun vs l => length vs = n /\ seq_repr R vs l).
Proof.
  intros S. induction n as [|n IH]; cbn [items]; intros b vs b' H.
  - injection H as <- <-. exists []. repeat constructor.
  - apply rd_bind_ok in H. destruct H as (v & b1 & H1 & H). apply rd_bind_ok in H. destruct H as (vs' & b2 & H2 & H).
    injection H as <- <-. apply S in H1. destruct H1 as (l & -> & Rv). apply IH in H2. destruct H2 as (l2 & -> & <- & R2).
    exists (l ++ l2). rewrite app_assoc. repeat split. constructor; assumption.
Qed.
Lemma items_complete {A} (I : rd A) R n : complete I R -> complete (items I n) (fun vs l => length vs = n /\ seq_repr R vs l).
Proof.
  intros C vs l r [<- H]. revert r. induction H as [|v vs lv l Hv Hs IH]; intros r; cbn [items length]; [reflexivity|].
  unfold rd_bind at 1. rewrite <- app_assoc, (C _ _ _ Hv). unfold rd_bind. rewrite IH. reflexivity.
Qed.
Lemma fails_items {A} (I : rd A) R P n : sound I R -> complete I R -> fails I P ->
  fails (items I n) (fun b e => exists vs lv r, b = lv ++ r /\ seq_repr R vs lv /\ (length vs < n)%nat /\ P r e).
Proof.
  intros S C F. induction n as [|n IH]; cbn [items].
  - intros b e. cbn. split; [discriminate|]. intros (vs & _ & _ & _ & _ & H & _). lia.
  - refine (fails_ext _ _ _ (fails_bind _ _ _ _ _ S C F (fun v => fails_bind _ _ _ _ _ (items_sound _ _ n S) (items_complete _ _ n C) IH
      (fun vs => fails_ret (v :: vs)))) _).
    intros b e. split.
    + intros [H|(v & l & r & -> & Rv & [(vs & lv & r' & -> & Rs & Hn & H)|(_ & _ & _ & _ & _ & [])])].
      * exists [], [], b. repeat split; [constructor|cbn; lia|exact H].
      * exists (v :: vs), (l ++ lv), r'. rewrite app_assoc. repeat split; [constructor; assumption|cbn; lia|exact H].
    + intros (vs & lv & r & -> & Rs & Hn & H). destruct Rs as [|v vs l lv Rv Rs]; [left; exact H|]. right.
      exists v, l, (lv ++ r). rewrite app_assoc. repeat split; [exact Rv|]. left. exists vs, lv, r. cbn in Hn.
      repeat split; [exact Rs|lia|exact H].
Qed.

(** ** DataRow *)
Definition read_column : rd (option bytes) :=
  rd_bind ReadInt32 (fun size => if size =? -1 then rd_ret None else rd_bind (ReadBytes size) (fun v => rd_ret (Some v))).
Lemma values_items n b : parse_values n b = items read_column n b.
Proof.
  revert b. induction n as [|n IH]; intros b; [reflexivity|]. cbn [parse_values items]. unfold read_column, rd_bind, rd_ret.
  destruct (ReadInt32 b) as [[z|e|p] b1]; try reflexivity. destruct (z =? -1).
  - rewrite IH. reflexivity.
  - destruct (ReadBytes z b1) as [[v|e|p] b2]; try reflexivity. rewrite IH. reflexivity.
Qed.
Lemma column_sound : sound read_column column_repr.
Proof.
  intros b v b' H. apply rd_bind_ok in H. destruct H as (z & b1 & H1 & H). apply sound_int32 in H1. destruct H1 as (l & -> & Rz).
  destruct (z =? -1) eqn:E.
  - injection H as <- <-. exists l. split; [reflexivity|]. constructor. replace (-1) with z by lia. exact Rz.
  - apply rd_bind_ok in H. destruct H as (w & b2 & H2 & H). injection H as <- <-. apply sound_bytes in H2. destruct H2 as (l2 & -> & -> & Hw).
    exists (l ++ w). rewrite app_assoc. split; [reflexivity|]. constructor. rewrite Hw. exact Rz.
Qed.
Lemma column_complete : complete read_column column_repr.
Proof.
  intros v l r H. unfold read_column, rd_bind. destruct H as [l Hl|v l Hl].
  - rewrite (complete_int32 _ _ _ Hl). reflexivity.
  - rewrite <- app_assoc, (complete_int32 _ _ _ Hl). replace (Z.of_nat (length v) =? -1) with false by lia.
    rewrite (ReadBytes_app _ v _ eq_refl). reflexivity.
Qed.
Lemma int32_unique z z' l l' r r' : int32_repr z l -> int32_repr z' l' -> l ++ r = l' ++ r' -> z = z' /\ l = l' /\ r = r'.
Proof.
  intros R R' H. pose proof (complete_int32 _ _ r R) as A. pose proof (complete_int32 _ _ r' R') as B. rewrite H, B in A.
  injection A as <- <-. apply app_inv_tail in H. auto.
Qed.
Lemma fails_column : fails read_column (fun b e => e = EOF /\ broken_column b).
Proof.
  intros b e. unfold read_column, rd_bind, rd_ret. pose proof (fails_int32 b e) as F.
  destruct (ReadInt32 b) as [[z|x|p] b1] eqn:E; cbn [fst] in *.
  - destruct (sound_int32 _ _ _ E) as (l & -> & Rz). assert (e = EOF /\ broken_column (l ++ b1) <-> e = EOF /\ Z.of_nat (length b1) < z) as ->.
    { split; intros [-> H]; (split; [reflexivity|]).
      - inversion H as [b Hs Hb|z' l' v Rz' Hz Hb].
        + exfalso. unfold short in Hs. rewrite app_length, (int32_repr_length _ _ Rz) in Hs. lia.
        + destruct (int32_unique _ _ _ _ _ _ Rz' Rz Hb) as (-> & -> & ->). exact Hz.
      - exact (bc_value _ _ _ Rz H). }
    destruct (z =? -1) eqn:Ez; cbn [fst]; [split; [discriminate|lia]|].
    destruct (ReadBytes z b1) as [x b2] eqn:E2. destruct (ReadBytes_inv _ _ _ _ E2) as [(v & -> & Hl & -> & Hv)|[(-> & -> & Hl)|(-> & -> & Hl)]];
      unfold rb_len in *; cbn [fst].
    + split; [discriminate|lia].
    + split; [intros [= <-]; auto|intros [-> _]; reflexivity].
    + split; [discriminate|lia].
  - split; [intros [= ->]; destruct F as [F _]; destruct (F eq_refl) as [-> Hs]; split; [reflexivity|constructor; exact Hs]|].
    intros [-> H]. f_equal. inversion H as [b0 Hs Hb|z' l' v Rz' Hz Hb]; subst.
    + destruct F as [_ F]. specialize (F (conj eq_refl Hs)). congruence.
    + rewrite (complete_int32 _ _ _ Rz') in E. discriminate.
  - split; [discriminate|]. intros [-> H]. inversion H as [b0 Hs Hb|z' l' v Rz' Hz Hb]; subst.
    + destruct F as [_ F]. specialize (F (conj eq_refl Hs)). congruence.
    + rewrite (complete_int32 _ _ _ Rz') in E. discriminate.
Qed.

(** ** RowDescription *)
Definition read_descriptor : rd field_descriptor :=
  rd_bind ReadString (fun name => rd_bind ReadInt32 (fun toid => rd_bind ReadInt16 (fun col => rd_bind ReadInt32 (fun doid =>
  rd_bind ReadInt16 (fun size => rd_bind ReadInt32 (fun mod_ => rd_bind ReadInt16 (fun fmt =>
  rd_ret (FieldDescriptor name (uwrap32 toid) col (uwrap32 doid) size mod_ fmt)))))))).
Lemma descriptors_items n b : parse_descriptors n b = items read_descriptor n b.
Proof.
  revert b. induction n as [|n IH]; intros b; [reflexivity|]. cbn [parse_descriptors items]. unfold read_descriptor, rd_bind, rd_ret.
  destruct (ReadString b) as [[z|e|p] b1]; try reflexivity.
  destruct (ReadInt32 b1) as [[z2|e|p] b2]; try reflexivity.
  destruct (ReadInt16 b2) as [[z3|e|p] b3]; try reflexivity.
  destruct (ReadInt32 b3) as [[z4|e|p] b4]; try reflexivity.
  destruct (ReadInt16 b4) as [[z5|e|p] b5]; try reflexivity.
  destruct (ReadInt32 b5) as [[z6|e|p] b6]; try reflexivity.
  destruct (ReadInt16 b6) as [[z7|e|p] b7]; try reflexivity.
  rewrite IH. reflexivity.
Qed.
Lemma descriptor_sound : sound read_descriptor descriptor_repr.
Proof.
  intros b f b' H.
  assert (items read_descriptor 1 b = (Ok [f], b')) as X by (cbn [items]; unfold rd_bind at 1; rewrite H; reflexivity).
  rewrite <- descriptors_items in X. apply parse_descriptors_sound in X. destruct X as (l & -> & _ & Rs).
  inversion Rs as [|? ? ? ? R0 R1]; subst. inversion R1; subst. rewrite app_nil_r. eauto.
Qed.
Lemma descriptor_complete : complete read_descriptor descriptor_repr.
Proof.
  intros f l r H. assert (seq_repr descriptor_repr [f] (l ++ [])) as Rs by (constructor; [exact H|constructor]).
  rewrite app_nil_r in Rs. pose proof (parse_descriptors_complete _ _ r Rs) as X. rewrite descriptors_items in X. cbn [items length] in X.
  unfold rd_bind at 1 in X. destruct (read_descriptor (l ++ r)) as [[g|e|p] b]; [|discriminate..].
  injection X as -> ->. reflexivity.
Qed.
(** a run of fixed-size integers fails exactly if there is not room for them all *)
Lemma fails_tail {A B} (m : rd A) (k : A -> rd B) R w n : sound m R -> complete m R ->
  (forall a l, R a l -> length l = w) -> (forall l, length l = w -> exists a, R a l) ->
  fails m (fun b e => e = EOF /\ short w b) ->
  (forall a, fails (k a) (fun b e => e = EOF /\ short n b)) ->
  fails (rd_bind m k) (fun b e => e = EOF /\ short (w + n) b).
Proof.
  intros S C L X F K. refine (fails_ext _ _ _ (fails_bind _ _ _ _ _ S C F K) _). intros b e. unfold short. split.
  - intros [[-> H]|(a & l & r & -> & Ra & -> & H)]; (split; [reflexivity|]); [lia|]. rewrite app_length, (L _ _ Ra). lia.
  - intros [-> H]. destruct (Nat.lt_ge_cases (length b) w) as [Hw|Hw]; [left; auto|]. right.
    destruct (X (firstn w b)) as (a & Ra); [apply firstn_length_le; exact Hw|].
    exists a, (firstn w b), (skipn w b). rewrite firstn_skipn. repeat split; [exact Ra|]. rewrite skipn_length. lia.
Qed.
Lemma int_exists w l : (0 < w)%nat -> length l = w -> exists z, int_repr w z l.
Proof.
  intros Hw H. pose proof (be_value_range l) as Rg. rewrite H in Rg.
  assert (2 ^ (8 * Z.of_nat w) = 2 * 2 ^ (8 * Z.of_nat w - 1)) as Hp.
  { rewrite <- Z.pow_succ_r by lia. f_equal. lia. }
  destruct (Z.lt_ge_cases (be_value l) (2 ^ (8 * Z.of_nat w - 1))) as [Hs|Hs].
  - exists (be_value l). split; [exact H|]. split; [lia|]. destruct (be_value l <? 0) eqn:E; lia.
  - exists (be_value l - 2 ^ (8 * Z.of_nat w)). split; [exact H|]. split; [lia|].
    destruct (be_value l - 2 ^ (8 * Z.of_nat w) <? 0) eqn:E; lia.
Qed.
Lemma tail32 {B} (k : Z -> rd B) n : (forall a, fails (k a) (fun b e => e = EOF /\ short n b)) ->
  fails (rd_bind ReadInt32 k) (fun b e => e = EOF /\ short (4 + n) b).
Proof. apply (fails_tail _ _ int32_repr 4 n sound_int32 complete_int32); [intros a l [H _]; exact H|intros l; apply int_exists; lia|exact fails_int32]. Qed.
Lemma tail16 {B} (k : Z -> rd B) n : (forall a, fails (k a) (fun b e => e = EOF /\ short n b)) ->
  fails (rd_bind ReadInt16 k) (fun b e => e = EOF /\ short (2 + n) b).
Proof. apply (fails_tail _ _ int16_repr 2 n sound_int16 complete_int16); [intros a l [H _]; exact H|intros l; apply int_exists; lia|exact fails_int16]. Qed.
Lemma fails_descriptor : fails read_descriptor broken_descriptor.
Proof.
  eapply fails_ext.
  - apply (fails_bind _ _ _ _ (fun _ b e => e = EOF /\ short 18 b) sound_string complete_string fails_string). intros name.
    apply (tail32 _ 14). intros ?. apply (tail16 _ 12). intros ?. apply (tail32 _ 8). intros ?. apply (tail16 _ 6). intros ?.
    apply (tail32 _ 2). intros ?. apply (tail16 _ 0). intros ?.
    refine (fails_ext _ _ _ (fails_ret _) _). unfold short. intros b e. split; [tauto|lia].
  - intros b e. split.
    + intros [[-> H]|(s & l & r & -> & Rs & -> & H)]; [constructor; exact H|exact (bd_rest _ _ _ Rs H)].
    + intros [b0 H|s l b0 Rs H]; [left; auto|right]. exists s, l, b0. auto.
Qed.

(** ** ErrorResponse and NoticeResponse *)
Lemma fails_fields fuel b e : (length b < fuel)%nat -> fst (parse_fields fuel b) = Err e <->
  exists fs lf r, b = lf ++ r /\ seq_repr mfield_repr fs lf /\ broken_field r e.
Proof.
  revert b. induction fuel as [|fuel IH]; intros b Hf; [lia|]. cbn [parse_fields]. unfold rd_bind at 1.
  destruct b as [|c b].
  { rewrite ReadByte_nil. cbn. split.
    - intros [= <-]. exists [], [], []. repeat constructor.
    - intros (fs & lf & r & H & Rs & Hb). symmetry in H. apply app_eq_nil in H. destruct H as [-> ->]. inversion Hb. reflexivity. }
  rewrite ReadByte_app. cbn [length] in Hf.
  assert (forall fs lf r, c :: b = lf ++ r -> seq_repr mfield_repr fs lf -> fs = [] /\ r = c :: b \/
    exists v l fs' lf', fs = Field c v :: fs' /\ c <> x00 /\ cstring_repr v l /\ b = l ++ lf' ++ r /\ seq_repr mfield_repr fs' lf') as Hd.
  { intros fs lf r H Rs. destruct Rs as [|f fs l0 lf Rf Rs]; [left; auto|right]. destruct Rf as [f l Hn Rv]. cbn in H. injection H as -> H.
    exists (mf_value f), l, fs, lf. destruct f as [ft fv]. cbn in *. repeat split; try assumption; try apply Rv. rewrite H, app_assoc. reflexivity. }
  destruct (byte_eqb_spec c x00) as [Ec|Hc].
  - subst c. cbn. split; [discriminate|]. intros (fs & lf & r & H & Rs & Hb).
    destruct (Hd _ _ _ H Rs) as [[_ ->]|(? & ? & ? & ? & _ & Hn & _)]; [|congruence]. inversion Hb. congruence.
  - unfold rd_bind at 1. destruct (ReadString b) as [x b1] eqn:E. destruct (ReadString_inv _ _ _ E) as [(s & l & -> & -> & Rs)|(-> & -> & Hs)].
    + unfold rd_bind, rd_ret. assert (fst (parse_fields fuel b1) = Err e <-> exists fs lf r, b1 = lf ++ r /\ seq_repr mfield_repr fs lf /\ broken_field r e) as IH1.
      { apply IH. rewrite app_length in Hf. lia. }
      transitivity (fst (parse_fields fuel b1) = Err e).
      { destruct (parse_fields fuel b1) as [[fs|x|p] b2]; cbn; split; congruence. }
      rewrite IH1. split.
      * intros (fs & lf & r & -> & Rf & Hb). exists (Field c s :: fs), ((c :: l) ++ lf), r. cbn [app]. rewrite app_assoc. split; [reflexivity|].
        split; [|exact Hb]. apply (seq_cons _ (Field c s) fs (c :: l) lf); [|exact Rf]. apply (mfield_intro (Field c s)); assumption.
      * intros (fs & lf & r & H & Rf & Hb). destruct (Hd _ _ _ H Rf) as [[_ ->]|(v & l' & fs' & lf' & -> & _ & Rv & Hb1 & Rf')].
        -- exfalso. inversion Hb as [|c0 b0 _ Hn]. apply Hn. apply in_or_app. left. destruct Rs as [_ ->]. apply in_or_app. right. left. reflexivity.
        -- pose proof (complete_string _ _ b1 Rs) as A. pose proof (complete_string _ _ (lf' ++ r) Rv) as B.
           rewrite Hb1 in A. rewrite B in A. injection A as _ A. exists fs', lf', r. auto.
    + cbn. split.
      * intros [= <-]. exists [], [], (c :: b). repeat split; constructor; assumption.
      * intros (fs & lf & r & H & Rf & Hb). destruct (Hd _ _ _ H Rf) as [[_ ->]|(v & l' & fs' & lf' & -> & _ & Rv & Hb1 & Rf')].
        -- inversion Hb. reflexivity.
        -- exfalso. rewrite Hb1, (complete_string _ _ _ Rv) in E. discriminate.
Qed.

(** ** Startup parameters *)
Lemma fails_params fuel b e : (length b < fuel)%nat -> fst (parse_params fuel b) = Err e <->
  e = ErrNoTerminator /\ exists ps lp r, b = lp ++ r /\ seq_repr param_repr ps lp /\ broken_param r.
Proof.
  revert b. induction fuel as [|fuel IH]; intros b Hf; [lia|]. cbn [parse_params]. unfold rd_bind at 1.
  destruct (ReadString b) as [x b1] eqn:E. destruct (ReadString_inv _ _ _ E) as [(s & l & -> & -> & Rs)|(-> & -> & Hs)].
  2: { cbn. split; [intros [= <-]; split; [reflexivity|]; exists [], [], b; repeat constructor; assumption|].
       intros [-> _]. reflexivity. }
  assert (forall ps lp r, l ++ b1 = lp ++ r -> seq_repr param_repr ps lp -> ps = [] /\ r = l ++ b1 \/
    exists v l2 ps' lp', s <> [] /\ cstring_repr v l2 /\ b1 = l2 ++ lp' ++ r /\ seq_repr param_repr ps' lp') as Hd.
  { intros ps lp r H Rp. destruct Rp as [|p ps l0 lp Rp0 Rp]; [left; auto|right]. destruct Rp0 as [p l1 l2 Hn R1 R2].
    rewrite <- !app_assoc in H. pose proof (complete_string _ _ b1 Rs) as A. rewrite H, (complete_string _ _ _ R1) in A. injection A as A1 A2. subst s b1.
    exists (p_value p), l2, ps, lp. repeat split; try assumption; apply R2. }
  assert (forall r, l ++ b1 = r -> broken_param r -> s <> [] /\ nul_free b1) as Hbr.
  { intros r H Hb. destruct Hb as [r Hn|s' l' r Hs R' Hn].
    - exfalso. apply Hn. rewrite <- H. destruct Rs as [_ ->]. apply in_or_app. left. apply in_or_app. right. left. reflexivity.
    - pose proof (complete_string _ _ b1 Rs) as A. rewrite H, (complete_string _ _ _ R') in A. injection A as -> ->. auto. }
  destruct s as [|c s].
  - cbn. split; [discriminate|]. intros (-> & ps & lp & r & H & Rp & Hb). exfalso.
    destruct (Hd _ _ _ H Rp) as [[_ ->]|(? & ? & ? & ? & Hn & _)]; [destruct (Hbr _ eq_refl Hb)|]; congruence.
  - unfold rd_bind at 1. destruct (ReadString b1) as [x b2] eqn:E2.
    assert (length b1 < fuel)%nat as Hf1.
    { rewrite app_length in Hf. destruct Rs as [_ ->]. rewrite app_length in Hf. cbn in Hf. lia. }
    destruct (ReadString_inv _ _ _ E2) as [(v & l2 & -> & -> & R2)|(-> & -> & Hs)].
    + unfold rd_bind, rd_ret. transitivity (fst (parse_params fuel b2) = Err e).
      { destruct (parse_params fuel b2) as [[fs|x|p] b3]; cbn; split; congruence. }
      rewrite IH by (rewrite app_length in Hf1; lia). split; intros (-> & ps & lp & r & H & Rp & Hb); (split; [reflexivity|]).
      * subst b2. exists (Param (c :: s) v :: ps), ((l ++ l2) ++ lp), r. rewrite <- !app_assoc. split; [reflexivity|]. split; [|exact Hb].
        rewrite app_assoc. constructor; [|exact Rp]. apply (param_intro (Param (c :: s) v)); [discriminate|exact Rs|exact R2].
      * destruct (Hd _ _ _ H Rp) as [[_ ->]|(v' & l2' & ps' & lp' & _ & R2' & Hb1 & Rp')].
        -- exfalso. destruct (Hbr _ eq_refl Hb) as [_ Hn]. apply Hn. apply in_or_app. left. destruct R2 as [_ ->]. apply in_or_app. right. left. reflexivity.
        -- pose proof (complete_string _ _ b2 R2) as A. rewrite Hb1, (complete_string _ _ _ R2') in A. injection A as _ <-.
           exists ps', lp', r. auto.
    + cbn. split.
      * intros [= <-]. split; [reflexivity|]. exists [], [], (l ++ b1). repeat split; [constructor|]. apply (bp_value (c :: s)); [discriminate|exact Rs|exact Hs].
      * intros [-> _]. reflexivity.
Qed.

(** * The parsers *)
Lemma typed_err t (body : rd message) b e :
  parse_typed t body (NewStandardFrame t b) = Err e <-> fst (body b) = Err e.
Proof. rewrite parse_typed_new. reflexivity. Qed.

Lemma fails_string1 (k : bytes -> message) : fails (rd_bind ReadString (fun s => rd_ret (k s))) (fun b e => e = ErrNoTerminator /\ nul_free b).
Proof.
  refine (fails_ext _ _ _ (fails_bind _ _ _ _ _ sound_string complete_string fails_string (fun s => fails_ret (k s))) _).
  intros b e. split; [intros [H|(? & ? & ? & _ & _ & [])]; exact H|auto].
Qed.

Lemma fails_counted {A} (I : rd A) R P (k : list A -> message) w : sound I R -> complete I R -> fails I P -> 0 < w < 2 ^ 32 ->
  fails (rd_bind ReadInt16 (fun n => rd_bind (rd_lift (make_slice n w)) (fun _ => rd_bind (items I (Z.to_nat n)) (fun vs => rd_ret (k vs)))))
    (fun b e => e = EOF /\ short 2 b \/ exists n l vs lv r, b = l ++ lv ++ r /\ int16_repr n l /\ seq_repr R vs lv /\ Z.of_nat (length vs) < n /\ P r e).
Proof.
  intros S C F Hw. eapply fails_ext.
  - apply (fails_bind _ _ _ _ (fun n r e => n * w <= 2 ^ 48 /\ exists vs lv r', r = lv ++ r' /\ seq_repr R vs lv /\ Z.of_nat (length vs) < n /\ P r' e)
      sound_int16 complete_int16 fails_int16).
    intros n b e. unfold rd_bind at 1, rd_lift. unfold make_slice. destruct (_ || _) eqn:E.
    + cbn. split; [discriminate|]. intros (Hm & vs & lv & r & -> & Rs & Hn & H). exfalso. lia.
    + pose proof (fails_bind _ _ _ _ _ (items_sound _ _ (Z.to_nat n) S) (items_complete _ _ (Z.to_nat n) C) (fails_items _ _ _ (Z.to_nat n) S C F)
        (fun vs => fails_ret (k vs)) b e) as X. cbn beta in X. rewrite X. clear X. split.
      * intros [(vs & lv & r & -> & Rs & Hn & H)|(? & ? & ? & _ & _ & [])]. split; [lia|]. exists vs, lv, r. repeat split; [exact Rs|lia|exact H].
      * intros (_ & vs & lv & r & -> & Rs & Hn & H). left. exists vs, lv, r. repeat split; [exact Rs|lia|exact H].
  - intros b e. split.
    + intros [H|(n & l & r & -> & Rn & _ & vs & lv & r' & -> & Rs & Hn & H)]; [left; exact H|right]. exists n, l, vs, lv, r'. auto.
    + intros [H|(n & l & vs & lv & r & -> & Rn & Rs & Hn & H)]; [left; exact H|right]. exists n, l, (lv ++ r). repeat split; try apply Rn.
      * pose proof (int16_repr_range _ _ Rn) as Hr. unfold in_int16 in Hr. change (2 ^ 48) with (2 ^ 16 * 2 ^ 32). apply Z.mul_le_mono_nonneg; lia.
      * exists vs, lv, r. auto.
Qed.

Lemma fails_empty m : fails (parse_empty m) (fun b e => e = ErrMalformedMessage /\ b <> []).
Proof.
  intros [|c b] e; unfold parse_empty, rb_len; cbn [length Z.of_nat Z.ltb].
  - cbn. split; [discriminate|intros [_ H]; congruence].
  - replace (0 <? Z.of_nat (S (length b))) with true by lia. cbn. split; [intros [= <-]; split; [reflexivity|discriminate]|intros [-> _]; reflexivity].
Qed.

Lemma fails_auth : fails parse_auth_body (rejected "R").
Proof.
  unfold parse_auth_body. eapply fails_ext.
  - apply (fails_bind _ _ _ _ (fun z b e => z = 5 /\ e = EOF /\ short 4 b \/ ~ In z [0; 2; 3; 5; 6; 7; 8; 9] /\ e = ErrUnsupportedAuth)
      sound_int32 complete_int32 fails_int32).
    intros z b e. unfold authStatusCodeOk, authStatusCodeKerberosV5, authStatusCodeCleartextPassword, authStatusCodeMD5Password,
      authStatusCodeSCMCredential, authStatusCodeGSS, authStatusCodeGSSContinue, authStatusCodeSSPI.
    repeat match goal with |- context [z =? ?k] => destruct (Z.eqb_spec z k) end; subst; cbn [In fst];
      try (cbn; split; [discriminate|intros [[? _]|[? _]]; [discriminate|exfalso; tauto]]).
    + (* MD5 *) unfold rd_bind. destruct (ReadBytes 4 b) as [x b1] eqn:E.
      destruct (ReadBytes_inv _ _ _ _ E) as [(v & -> & Hl & -> & Hv)|[(-> & -> & Hl)|(-> & -> & Hl)]]; unfold rb_len, short in *; [| |lia].
      * destruct v as [|s0 [|s1 [|s2 [|s3 [|s4 v]]]]]; cbn [length] in Hv; try lia. cbn.
        split; [discriminate|]. intros [(_ & _ & H)|[H _]]; [lia|tauto].
      * cbn [fst]. split; [intros [= <-]; left; repeat split; lia|intros [(_ & -> & _)|[H _]]; [reflexivity|tauto]].
    + (* GSS continue *) unfold rd_bind. destruct (ReadBytes (rb_len b) b) as [x b1] eqn:E.
      destruct (ReadBytes_inv _ _ _ _ E) as [(v & -> & Hl & -> & Hv)|[(-> & -> & Hl)|(-> & -> & Hl)]]; unfold rb_len in *; [|lia|lia].
      cbn. split; [discriminate|]. intros [(? & _)|[H _]]; [discriminate|tauto].
    + cbn. split.
      * intros [= <-]. right. split; [|reflexivity]. intros H. repeat (destruct H as [H|H]; [congruence|]). exact H.
      * intros [(H & _)|[_ ->]]; [congruence|reflexivity].
  - intros b e. split.
    + intros [[-> H]|(z & l & r & -> & Rz & [(-> & -> & H)|[H ->]])]; [exact (rej_auth_short _ H)|exact (rej_auth_salt _ _ Rz H)|exact (rej_auth_code _ _ _ Rz H)].
    + intros H. inversion H; subst; try (match goal with Hi : In "R"%byte _ |- _ => cbn in Hi; intuition discriminate end).
      * left. auto.
      * right. exists 5, l, b0. auto 6.
      * right. exists z, l, b0. auto 6.
Qed.

Ltac not_in := match goal with Hi : In _ _ |- _ => cbn in Hi; repeat (destruct Hi as [Hi|Hi]; [discriminate|]); contradiction end.

Lemma dispatch_err t b e : dispatch (NewStandardFrame t b) = Err e <-> rejected t b e.
Proof.
  destruct (structured_dec t) as [Hs|Hs].
  2: { assert (dispatch (NewStandardFrame t b) = Ok (GenericMessage t b)) as -> by (rewrite <- (app_nil_r b) at 1; apply dispatch_complete; [constructor; exact Hs|auto|auto]).
       split; [discriminate|]. intros H. exfalso. apply Hs. unfold structured_type. inversion H; subst; cbn; try tauto;
         repeat match goal with Hi : In _ _ |- _ => cbn in Hi; destruct Hi as [<-|Hi] | Hi : _ \/ _ |- _ => destruct Hi as [<-|Hi] end; tauto. }
  unfold structured_type in Hs. cbn in Hs. repeat (destruct Hs as [<-|Hs]); try contradiction.
  - (* R *) change (dispatch _) with (ParseAuthenticationRequestMessage (NewStandardFrame "R" b)). unfold ParseAuthenticationRequestMessage.
    rewrite (typed_err "R"). apply fails_auth.
  - (* K *) change (dispatch _) with (ParseBackendKeyDataMessage (NewStandardFrame "K" b)). unfold ParseBackendKeyDataMessage.
    rewrite (typed_err "K").
    transitivity (e = EOF /\ short 8 b).
    { apply (tail32 _ 4). intros z. apply (tail32 _ 0). intros z2. refine (fails_ext _ _ _ (fails_ret _) _). unfold short. intros ? ?. split; [tauto|lia]. }
    split; [intros [-> H]; constructor; exact H|]. intros H. inversion H; subst; try not_in. auto.
  - (* C *) change (dispatch _) with (ParseCommandCompleteMessage (NewStandardFrame "C" b)). unfold ParseCommandCompleteMessage.
    rewrite (typed_err "C"), (fails_string1 CommandComplete b e). split; [intros [-> H]; constructor; [cbn; tauto|exact H]|].
    intros H. inversion H; subst; try not_in. auto.
  - (* D *) change (dispatch _) with (ParseDataRowMessage (NewStandardFrame "D" b)). unfold ParseDataRowMessage.
    rewrite (typed_err "D").
    transitivity (e = EOF /\ short 2 b \/ exists n l vs lv r, b = l ++ lv ++ r /\ int16_repr n l /\ seq_repr column_repr vs lv /\ Z.of_nat (length vs) < n /\ e = EOF /\ broken_column r).
    { rewrite <- (fails_counted _ _ _ DataRow 24 column_sound column_complete fails_column ltac:(lia) b e). unfold rd_bind.
      destruct (ReadInt16 b) as [[n|x|p] b1]; [|reflexivity..]. destruct (rd_lift (make_slice n 24) b1) as [[u|x|p] b2]; [|reflexivity..].
      rewrite values_items. reflexivity. }
    split.
    + intros [[-> H]|(n & l & vs & lv & r & -> & Rn & Rs & Hn & -> & H)]; [constructor; [cbn; tauto|exact H]|]. exact (rej_column _ _ _ _ _ Rn Rs Hn H).
    + intros H. inversion H; subst; try not_in; [left; auto|right]. exists n, l, vs, lv, b0. auto 6.
  - (* I *) change (dispatch _) with (ParseEmptyQueryResponseMessage (NewStandardFrame "I" b)). unfold ParseEmptyQueryResponseMessage.
    rewrite (typed_err "I"), (fails_empty EmptyQueryResponse b e). split.
    + intros [-> H]. destruct b as [|c b]; [congruence|]. constructor. cbn. tauto.
    + intros H. inversion H; subst; try not_in. split; [reflexivity|discriminate].
  - (* E *) change (dispatch _) with (ParseErrorResponseMessage (NewStandardFrame "E" b)). unfold ParseErrorResponseMessage.
    rewrite (typed_err "E"). unfold rd_bind.
    pose proof (fails_fields (S (length b)) b e (Nat.lt_succ_diag_r _)) as X.
    transitivity (fst (parse_fields (S (length b)) b) = Err e).
    { destruct (parse_fields (S (length b)) b) as [[fs|x|p] b2]; cbn; split; congruence. }
    rewrite X. split.
    + intros (fs & lf & r & -> & Rs & H). apply (rej_field _ fs); [cbn; tauto|exact Rs|exact H].
    + intros H. inversion H; subst; try not_in. exists fs, lf, b0. auto.
  - (* N *) change (dispatch _) with (ParseNoticeResponseMessage (NewStandardFrame "N" b)). unfold ParseNoticeResponseMessage.
    rewrite (typed_err "N"). unfold rd_bind.
    pose proof (fails_fields (S (length b)) b e (Nat.lt_succ_diag_r _)) as X.
    transitivity (fst (parse_fields (S (length b)) b) = Err e).
    { destruct (parse_fields (S (length b)) b) as [[fs|x|p] b2]; cbn; split; congruence. }
    rewrite X. split.
    + intros (fs & lf & r & -> & Rs & H). apply (rej_field _ fs); [cbn; tauto|exact Rs|exact H].
    + intros H. inversion H; subst; try not_in. exists fs, lf, b0. auto.
  - (* v *) split; [|intros H; inversion H; subst; try not_in; reflexivity].
    intros H. assert (dispatch (NewStandardFrame "v" b) = Err ErrMalformedMessage) as X by reflexivity. rewrite X in H. injection H as <-. constructor.
  - (* S *) change (dispatch _) with (ParseParameterStatusMessage (NewStandardFrame "S" b)). unfold ParseParameterStatusMessage.
    rewrite (typed_err "S").
    rewrite (fails_bind _ _ _ _ _ sound_string complete_string fails_string (fun n => fails_string1 (ParameterStatus n)) b e). split.
    + intros [[-> H]|(s & l & r & -> & Rs & -> & H)]; [exact (rej_status_name _ H)|exact (rej_status_value _ _ _ Rs H)].
    + intros H. inversion H; subst; try not_in; [left; auto|right]. exists s, l, b0. auto.
  - (* p *) change (dispatch _) with (ParsePasswordMessage (NewStandardFrame "p" b)). unfold ParsePasswordMessage.
    rewrite (typed_err "p"), (fails_string1 Password b e). split; [intros [-> H]; constructor; [cbn; tauto|exact H]|].
    intros H. inversion H; subst; try not_in. auto.
  - (* Q *) change (dispatch _) with (ParseQueryMessage (NewStandardFrame "Q" b)). unfold ParseQueryMessage.
    rewrite (typed_err "Q"), (fails_string1 Query b e). split; [intros [-> H]; constructor; [cbn; tauto|exact H]|].
    intros H. inversion H; subst; try not_in. auto.
  - (* Z *) change (dispatch _) with (ParseReadyForQueryMessage (NewStandardFrame "Z" b)). unfold ParseReadyForQueryMessage.
    rewrite (typed_err "Z").
    rewrite (fails_bind _ _ _ _ _ sound_byte complete_byte fails_byte (fun c => fails_ret (ReadyForQuery c)) b e). split.
    + intros [[-> ->]|(? & ? & ? & _ & _ & [])]. constructor.
    + intros H. inversion H; subst; try not_in. left. auto.
  - (* T *) change (dispatch _) with (ParseRowDescriptionMessage (NewStandardFrame "T" b)). unfold ParseRowDescriptionMessage.
    rewrite (typed_err "T").
    transitivity (e = EOF /\ short 2 b \/ exists n l vs lv r, b = l ++ lv ++ r /\ int16_repr n l /\ seq_repr descriptor_repr vs lv /\ Z.of_nat (length vs) < n /\ broken_descriptor r e).
    { rewrite <- (fails_counted _ _ _ RowDescription 8 descriptor_sound descriptor_complete fails_descriptor ltac:(lia) b e). unfold rd_bind.
      destruct (ReadInt16 b) as [[n|x|p] b1]; [|reflexivity..]. destruct (rd_lift (make_slice n 8) b1) as [[u|x|p] b2]; [|reflexivity..].
      rewrite descriptors_items. reflexivity. }
    split.
    + intros [[-> H]|(n & l & vs & lv & r & -> & Rn & Rs & Hn & H)]; [constructor; [cbn; tauto|exact H]|]. exact (rej_descriptor _ _ _ _ _ _ Rn Rs Hn H).
    + intros H. inversion H; subst; try not_in; [left; auto|right]. exists n, l, fs, lf, b0. auto 6.
  - (* X *) change (dispatch _) with (ParseTerminateMessage (NewStandardFrame "X" b)). unfold ParseTerminateMessage.
    rewrite (typed_err "X"), (fails_empty Terminate b e). split.
    + intros [-> H]. destruct b as [|c b]; [congruence|]. constructor. cbn. tauto.
    + intros H. inversion H; subst; try not_in. split; [reflexivity|discriminate].
Qed.

Lemma rejected_exactly : forall t body l rest r e, packet t body l -> stream r (l ++ rest) ->
  (exists r', RecvMessage r = Done (Err e) r') <-> rejected t body e.
Proof.
  intros t body l rest r e Hp H. destruct (recv_packet _ _ _ _ _ Hp H) as (r' & E & _). rewrite <- dispatch_err. rewrite E. split.
  - intros (r2 & [= X _]). exact X.
  - intros ->. eauto.
Qed.

Lemma startup_err b e : ParseStartupMessage (NewStartupFrame b) = Err e <-> startup_rejected b e.
Proof.
  unfold ParseStartupMessage. rewrite NewStartupFrame_body. cbn [res_bind]. unfold parse_startup_body.
  pose proof (fails_bind ReadInt32 (fun v (b : bytes) => if 0 <? rb_len b then
      rd_bind (parse_params (S (length b))) (fun ps => rd_ret (StartupMessage v ps)) b else (Ok (StartupMessage v []), b)) _ _
    (fun _ b e => b <> [] /\ e = ErrNoTerminator /\ exists ps lp r, b = lp ++ r /\ seq_repr param_repr ps lp /\ broken_param r)
    sound_int32 complete_int32 fails_int32) as X.
  match type of X with ?A -> _ => assert A as Y end.
  { intros v b0 e0. destruct b0 as [|c b0].
    - cbn. split; [discriminate|intros [? _]; congruence].
    - replace (0 <? rb_len (c :: b0)) with true by (unfold rb_len; cbn [length]; lia).
      pose proof (fails_params (S (length (c :: b0))) (c :: b0) e0 (Nat.lt_succ_diag_r _)) as Z0. unfold rd_bind.
      transitivity (fst (parse_params (S (length (c :: b0))) (c :: b0)) = Err e0).
      { destruct (parse_params _ _) as [[fs|x|p] b2]; cbn; split; congruence. }
      rewrite Z0. split; [intros [-> H]; repeat split; [discriminate|exact H]|intros (_ & H); exact H]. }
  specialize (X Y). rewrite (X b e). clear. split.
  - intros [[-> H]|(v & l & r & -> & Rv & Hn & -> & ps & lp & r' & -> & Rp & H)]; [constructor; exact H|]. exact (srej_param _ _ _ _ _ Rv Rp Hn H).
  - intros [b0 H|v l ps lp b0 Rv Rp Hn H]; [left; auto|right]. exists v, l, (lp ++ b0). repeat split; try apply Rv; try exact Hn. exists ps, lp, b0. auto.
Qed.

Lemma startup_rejected_exactly : forall body l rest r e, startup_packet body l -> stream r (l ++ rest) ->
  (exists r', RecvStartupMessage r = Done (Err e) r') <-> startup_rejected body e.
Proof.
  intros body l rest r e Hp H. destruct (startup_packet_frame _ _ Hp) as [-> Hl].
  destruct (startup_frame_survives _ _ _ Hl H) as (r' & E & _). rewrite <- startup_err.
  unfold RecvStartupMessage. rewrite E. cbn [res_bind]. split.
  - intros (r2 & [= X _]). exact X.
  - intros ->. eauto.
Qed.

Lemma fates : forall t body, 
  (accepted t body \/ crashing t body \/ exists e, rejected t body e) /\
  ~ (accepted t body /\ crashing t body) /\
  (forall e, rejected t body e -> ~ accepted t body /\ ~ crashing t body) /\
  (forall e1 e2, rejected t body e1 -> rejected t body e2 -> e1 = e2).
Proof.
  intros t body.
  assert (accepted t body <-> exists m, dispatch (NewStandardFrame t body) = Ok m) as A.
  { split.
    - intros (m & k & d & -> & He & Hd & Hn). exists m. apply dispatch_complete; assumption.
    - intros (m & H). pose proof (dispatch_not_negotiate _ _ H) as N. apply dispatch_sound in H.
      destruct H as (t' & b' & Ht & Hb & k & d & -> & He & Hn).
      rewrite NewStandardFrame_type in Ht. rewrite NewStandardFrame_body in Hb. injection Ht as <-. injection Hb as ->. exists m, k, d. auto. }
  pose proof (dispatch_panic _ _ _ (NewStandardFrame_type t body) (NewStandardFrame_body t body)) as P.
  pose proof (dispatch_err t body) as E.
  destruct (dispatch (NewStandardFrame t body)) as [m|x|q] eqn:D.
  - assert (accepted t body) as Ha by (apply A; eauto). assert (~ crashing t body) as Hc by (intros H; apply P in H; destruct H; discriminate).
    split; [tauto|]. split; [tauto|]. split; [intros e H; apply E in H; discriminate|]. intros e1 e2 H1. apply E in H1. discriminate.
  - assert (~ accepted t body) as Ha by (intros H; apply A in H; destruct H; discriminate).
    assert (~ crashing t body) as Hc by (intros H; apply P in H; destruct H; discriminate).
    split; [right; right; exists x; apply E; reflexivity|]. split; [tauto|]. split; [tauto|]. intros e1 e2 H1 H2. apply E in H1, H2. congruence.
  - assert (~ accepted t body) as Ha by (intros H; apply A in H; destruct H; discriminate).
    assert (crashing t body) as Hc by (apply P; eauto).
    split; [tauto|]. split; [tauto|]. split; [intros e H; apply E in H; discriminate|]. intros e1 e2 H1. apply E in H1. discriminate.
Qed.
