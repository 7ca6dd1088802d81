(** Slices.v against SpecSlices.v. *)
From Verif Require Export SpecSlices.
Require Import Lia.
Local Open Scope nat_scope.

(** * Memory *)
Lemma set_array_length h : forall a l, length (set_array h a l) = length h.
Proof. induction h as [|x h IH]; intros [|a] l; cbn; auto. Qed.
Lemma set_array_same h : forall a l, a < length h -> nth a (set_array h a l) [] = l.
Proof. induction h as [|x h IH]; intros [|a] l H; cbn in *; [lia..|reflexivity|apply IH; lia]. Qed.
Lemma set_array_other h : forall a l c, c <> a -> nth c (set_array h a l) [] = nth c h [].
Proof. induction h as [|x h IH]; intros [|a] l [|c] H; cbn; try reflexivity; [congruence|apply IH; congruence]. Qed.
Lemma overwrite_length l i v : i + length v <= length l -> length (overwrite l i v) = length l.
Proof. intros H. unfold overwrite. rewrite !app_length, firstn_length, skipn_length. lia. Qed.
Lemma window_before (l : bytes) i v j k : i + length v <= length l -> j + k <= i -> firstn k (skipn j (overwrite l i v)) = firstn k (skipn j l).
Proof.
  intros H K. unfold overwrite. rewrite <- (firstn_skipn i l) at 3. rewrite !skipn_app, !firstn_app, !skipn_length, firstn_length.
  replace (k - (Nat.min i (length l) - j)) with 0 by lia. cbn. reflexivity.
Qed.
Lemma skipn_add {A} (l : list A) : forall a b, skipn a (skipn b l) = skipn (b + a) l.
Proof. intros a b. revert l. induction b as [|b IH]; intros l; [reflexivity|]. destruct l; [rewrite !skipn_nil; reflexivity|apply IH]. Qed.
Lemma skipn_overwrite (l : bytes) i v j : i + length v <= length l -> i + length v <= j -> skipn j (overwrite l i v) = skipn j l.
Proof.
  intros H K. unfold overwrite. rewrite app_assoc, skipn_app, app_length, firstn_length. rewrite skipn_all2 by (rewrite app_length, firstn_length; lia).
  cbn. rewrite skipn_add. f_equal. lia.
Qed.
Lemma firstn_overwrite (l : bytes) i v : i + length v <= length l -> firstn (i + length v) (overwrite l i v) = firstn i l ++ v.
Proof.
  intros H. unfold overwrite. rewrite app_assoc, firstn_app. rewrite firstn_all2 by (rewrite app_length, firstn_length; lia).
  rewrite app_length, firstn_length. replace (i + length v - (Nat.min i (length l) + length v)) with 0 by lia. cbn. now rewrite app_nil_r.
Qed.

Lemma contents_length h s : valid h s -> length (contents h s) = s_len s.
Proof. intros [H K]. unfold contents. rewrite firstn_length, skipn_length. lia. Qed.
Lemma valid_array h s : valid h s -> s_cap s <> 0 -> s_arr s < length h.
Proof.
  intros [_ K] C. destruct (Nat.lt_ge_cases (s_arr s) (length h)) as [H|H]; [exact H|]. unfold array in K. rewrite nth_overflow in K by exact H. cbn in K. lia.
Qed.
Lemma valid_nil h : valid h nil_slice.
Proof. split; cbn; lia. Qed.
Lemma valid_to h s n : valid h s -> n <= s_cap s -> valid h (slice_to s n).
Proof. intros [H K] N. split; cbn in *; [lia|]. unfold array in *. cbn. lia. Qed.
Lemma valid_from h s n : valid h s -> n <= s_len s -> valid h (slice_from s n).
Proof. intros [H K] N. split; cbn in *; [lia|]. unfold array in *. cbn. lia. Qed.
Lemma contents_to h s n : n <= s_len s -> contents h (slice_to s n) = firstn n (contents h s).
Proof. intros N. unfold contents, slice_to, array. cbn. rewrite firstn_firstn. f_equal. lia. Qed.
Lemma contents_from h s n : contents h (slice_from s n) = skipn n (contents h s).
Proof. unfold contents, slice_from, array. cbn. rewrite skipn_firstn_comm, skipn_add. reflexivity. Qed.

(** * Reading *)
Definition seen_res (h : heap) (x : res slice * slice) : res bytes * bytes := (res_map (contents h) (fst x), contents h (snd x)).
Lemma read_bytes h n b : valid h b -> seen_res h (hReadBytes n b) = ReadBytes n (contents h b).
Proof.
  intros V. unfold hReadBytes, ReadBytes, rb_len. rewrite contents_length by exact V. destruct (Z.of_nat (s_len b) <? n)%Z eqn:A; [reflexivity|].
  destruct (n <? 0)%Z eqn:B; [reflexivity|]. unfold seen_res. cbn [fst snd res_map]. rewrite contents_to by lia. now rewrite contents_from.
Qed.
Lemma read_valid h n b : valid h b -> valid h (snd (hReadBytes n b)) /\ match fst (hReadBytes n b) with Ok s => valid h s | _ => True end.
Proof.
  intros V. unfold hReadBytes. destruct (Z.of_nat (s_len b) <? n)%Z eqn:A; [split; [exact V|exact I]|]. destruct (n <? 0)%Z eqn:B; [split; [exact V|exact I]|]. cbn. destruct V as [V W].
  split; [apply valid_from; [split; assumption|lia]|apply valid_to; [split; assumption|lia]].
Qed.
Lemma hbytes_read {A} h n (k : bytes -> res A) b : valid h b ->
  (fst (hbytes h n k b), contents h (snd (hbytes h n k b))) = rd_bind (ReadBytes n) (fun v => rd_lift (k v)) (contents h b).
Proof.
  intros V. unfold hbytes, rd_bind, rd_lift. rewrite <- (read_bytes h n b V). unfold seen_res. destruct (hReadBytes n b) as [[s|e|p] b']; reflexivity.
Qed.
Lemma hbytes_valid {A} h n (k : bytes -> res A) b : valid h b -> valid h (snd (hbytes h n k b)).
Proof. intros V. destruct (read_valid h n b V) as [H _]. unfold hbytes. destruct (hReadBytes n b) as [[s|e|p] b']; exact H. Qed.
(** A read takes bytes from the front: the rest is a part of the buffer. *)
Definition within (x b : slice) : Prop := s_arr x = s_arr b /\ s_off b <= s_off x /\ s_off x + s_len x <= s_off b + s_len b.
Lemma within_refl b : within b b.
Proof. repeat split; lia. Qed.
Lemma read_within n b : within (snd (hReadBytes n b)) b /\ match fst (hReadBytes n b) with Ok s => within s b | _ => True end.
Proof.
  unfold hReadBytes. destruct (Z.of_nat (s_len b) <? n)%Z eqn:A; [split; [apply within_refl|exact I]|].
  destruct (n <? 0)%Z eqn:B; [split; [apply within_refl|exact I]|]. unfold within. cbn. lia.
Qed.
Lemma hbytes_within {A} h n (k : bytes -> res A) b : within (snd (hbytes h n k b)) b.
Proof. destruct (read_within n b) as [H _]. unfold hbytes. destruct (hReadBytes n b) as [[s|e|p] b']; exact H. Qed.
Lemma hReadString_within h b : within (snd (hReadString h b)) b.
Proof. unfold hReadString. destruct (index_byte (contents h b) x00); [apply hbytes_within|apply within_refl]. Qed.

Lemma hReadByte_ok h b : valid h b -> (fst (hReadByte h b), contents h (snd (hReadByte h b))) = ReadByte (contents h b).
Proof. intros V. unfold hReadByte. rewrite hbytes_read by exact V. unfold ReadByte, rd_bind. destruct (ReadBytes 1 (contents h b)) as [[[|c v]|e|p] b']; reflexivity. Qed.
Lemma hReadInt32_ok h b : valid h b -> (fst (hReadInt32 h b), contents h (snd (hReadInt32 h b))) = ReadInt32 (contents h b).
Proof. intros V. unfold hReadInt32. now rewrite hbytes_read by exact V. Qed.
Lemma hReadInt16_ok h b : valid h b -> (fst (hReadInt16 h b), contents h (snd (hReadInt16 h b))) = ReadInt16 (contents h b).
Proof. intros V. unfold hReadInt16. now rewrite hbytes_read by exact V. Qed.
Lemma hReadString_ok h b : valid h b -> (fst (hReadString h b), contents h (snd (hReadString h b))) = ReadString (contents h b).
Proof.
  intros V. unfold hReadString, ReadString. destruct (index_byte (contents h b) x00) as [n|]; [|reflexivity]. rewrite hbytes_read by exact V. reflexivity.
Qed.
Lemma hReadInt32Array_ok h k b : valid h b -> (fst (hReadInt32Array h k b), contents h (snd (hReadInt32Array h k b))) = ReadInt32Array k (contents h b).
Proof.
  intros V. unfold hReadInt32Array. rewrite hbytes_read by exact V. unfold ReadInt32Array, rd_bind, rd_lift.
  destruct (ReadBytes (wrap64 (k * 4)) (contents h b)) as [[v|e|p] b']; [|reflexivity..]. destruct (make_slice k 4); reflexivity.
Qed.
Lemma hReadInt16Array_ok h k b : valid h b -> (fst (hReadInt16Array h k b), contents h (snd (hReadInt16Array h k b))) = ReadInt16Array k (contents h b).
Proof.
  intros V. unfold hReadInt16Array. rewrite hbytes_read by exact V. unfold ReadInt16Array, rd_bind, rd_lift.
  destruct (ReadBytes (wrap64 (k * 2)) (contents h b)) as [[v|e|p] b']; [|reflexivity..]. destruct (make_slice k 2); reflexivity.
Qed.
Lemma hReadString_valid h b : valid h b -> valid h (snd (hReadString h b)).
Proof. intros V. unfold hReadString. destruct (index_byte (contents h b) x00); [apply hbytes_valid; exact V|exact V]. Qed.

(** * Writing *)
(** The part of memory a variable keeps others from writing to: a WriteBuffer all its capacity. *)
Definition extent (k : kind) (x : slice) : nat := match k with KWriter => s_cap x | KReader => s_len x end.
Definition sep (k : kind) (x b : slice) : Prop :=
  s_arr x <> s_arr b \/ s_off x + extent k x <= s_off b + s_len b \/ s_off b + s_cap b <= s_off x.
Lemma sep_apart h k x b : valid h x -> sep k x b -> apart x b.
Proof. intros [V _] S. unfold apart, sep in *. destruct k; cbn in S; lia. Qed.

(** Writing [l] to [b] *)
Record grows (h : heap) (b : slice) (l : bytes) (h' : heap) (b' : slice) : Prop := {
  g_contents : contents h' b' = contents h b ++ l;
  g_valid : valid h' b';
  g_others : forall x, valid h x -> valid h' x;
  g_frame : forall x, valid h x -> apart x b -> contents h' x = contents h x;
  g_sep : forall k x, valid h x -> sep k x b -> sep k x b';
  g_free : forall w, valid h w -> sep KWriter b w -> sep KWriter b' w
}.
Lemma grows_nothing h b : valid h b -> grows h b [] h b.
Proof. intros V. split; auto. now rewrite app_nil_r. Qed.
Lemma grows_trans h b l h1 b1 l1 h2 b2 : grows h b l h1 b1 -> grows h1 b1 l1 h2 b2 -> grows h b (l ++ l1) h2 b2.
Proof.
  intros A B. split.
  - rewrite (g_contents _ _ _ _ _ B), (g_contents _ _ _ _ _ A). now rewrite app_assoc.
  - apply (g_valid _ _ _ _ _ B).
  - intros x V. apply (g_others _ _ _ _ _ B), (g_others _ _ _ _ _ A), V.
  - intros x V S. rewrite (g_frame _ _ _ _ _ B); [|apply (g_others _ _ _ _ _ A), V|]. { apply (g_frame _ _ _ _ _ A); assumption. }
    apply (g_sep _ _ _ _ _ A KReader); assumption.
  - intros k x V S. apply (g_sep _ _ _ _ _ B); [apply (g_others _ _ _ _ _ A), V|]. apply (g_sep _ _ _ _ _ A); assumption.
  - intros w V S. apply (g_free _ _ _ _ _ B); [apply (g_others _ _ _ _ _ A), V|]. apply (g_free _ _ _ _ _ A); assumption.
Qed.

Lemma array_app h h' s : s_arr s < length h -> array (h ++ h') s = array h s.
Proof. intros H. unfold array. now rewrite app_nth1. Qed.
Lemma valid_app h h' s : valid h s -> valid (h ++ h') s.
Proof.
  intros [V W]. split; [exact V|]. destruct (Nat.lt_ge_cases (s_arr s) (length h)) as [H|H]; [now rewrite array_app|].
  unfold array in W. rewrite nth_overflow in W by exact H. cbn in W. lia.
Qed.
Lemma contents_app h h' s : valid h s -> contents (h ++ h') s = contents h s.
Proof.
  intros [V W]. unfold contents. destruct (Nat.lt_ge_cases (s_arr s) (length h)) as [H|H]; [now rewrite array_app|].
  unfold array in W. rewrite nth_overflow in W by exact H. cbn in W. replace (s_len s) with 0 by lia. reflexivity.
Qed.
Lemma alloc_ok h l n : let '(h', s) := alloc h l n in contents h' s = l /\ valid h' s /\ h' = h ++ [l ++ repeat x00 n].
Proof.
  unfold alloc, contents, valid, array. cbn. rewrite app_nth2, Nat.sub_diag by lia. cbn. split; [|split; [|reflexivity]].
  - rewrite firstn_app, Nat.sub_diag, firstn_all. cbn. now rewrite app_nil_r.
  - rewrite app_length, repeat_length. lia.
Qed.

Lemma append_grows P h b v : valid h b -> grows h b v (fst (append P h b v)) (snd (append P h b v)).
Proof.
  intros V. unfold append. destruct (s_len b + length v <=? s_cap b) eqn:N.
  - apply Nat.leb_le in N. cbn [fst snd]. pose proof V as [V1 V2].
    destruct (Nat.eq_dec (s_cap b) 0) as [C|C].
    + assert (v = []) as -> by (destruct v; [reflexivity|cbn in N; lia]). cbn. rewrite Nat.add_0_r.
      replace (overwrite (array h b) (s_off b + s_len b) []) with (array h b) by (unfold overwrite; cbn; rewrite Nat.add_0_r, firstn_skipn; reflexivity).
      replace (set_array h (s_arr b) (array h b)) with h by (unfold array; generalize (s_arr b); clear; induction h as [|x h IH]; intros [|a]; cbn; congruence).
      replace (Slice (s_arr b) (s_off b) (s_len b) (s_cap b)) with b by (destruct b; reflexivity). apply grows_nothing, V.
    + pose proof (valid_array _ _ V C) as A. assert (s_off b + s_len b + length v <= length (array h b)) as F by lia.
      assert (forall x, valid h x -> valid (set_array h (s_arr b) (overwrite (array h b) (s_off b + s_len b) v)) x) as O.
      { intros x [X1 X2]. split; [exact X1|]. unfold array at 1. destruct (Nat.eq_dec (s_arr x) (s_arr b)) as [E|E].
        - rewrite E, set_array_same by exact A. rewrite overwrite_length by exact F. unfold array in *. now rewrite <- E.
        - rewrite set_array_other by exact E. exact X2. }
      split.
      * unfold contents, array at 1. cbn [s_len s_off s_arr]. rewrite set_array_same by exact A.
        rewrite firstn_skipn_comm. replace (s_off b + (s_len b + length v)) with (s_off b + s_len b + length v) by lia.
        rewrite firstn_overwrite by exact F. rewrite skipn_app, firstn_length. replace (s_off b - Nat.min (s_off b + s_len b) (length (array h b))) with 0 by lia.
        cbn. f_equal. now rewrite firstn_skipn_comm.
      * apply (O (Slice (s_arr b) (s_off b) (s_len b + length v) (s_cap b))). split; cbn; [exact N|exact V2].
      * exact O.
      * intros x [X1 X2] S. unfold contents, array at 1. destruct (Nat.eq_dec (s_arr x) (s_arr b)) as [E|E].
        2: now rewrite set_array_other by exact E.
        rewrite E, set_array_same by exact A. replace (array h x) with (array h b) by (unfold array; now rewrite E).
        destruct S as [S|[S|S]]; [congruence| |].
        -- apply window_before; assumption.
        -- rewrite skipn_overwrite; [reflexivity|exact F|lia].
      * intros k x _ [S|[S|S]]; [left; exact S|right; left; cbn; lia|right; right; exact S].
      * intros w _ S. exact S.
  - apply Nat.leb_gt in N. pose proof (alloc_ok h (contents h b ++ v) (P (s_cap b) (s_len b + length v))) as A.
    unfold alloc in *. cbn [fst snd]. destruct A as (A1 & A2 & _). split.
    + exact A1.
    + exact A2.
    + intros x X. apply valid_app, X.
    + intros x X _. apply contents_app, X.
    + intros k x X _. destruct (Nat.eq_dec (s_arr x) (length h)) as [E|E]; [|left; exact E]. right. left. cbn.
      destruct X as [X1 X2]. unfold array in X2. rewrite nth_overflow in X2 by lia. cbn in X2. destruct k; cbn; lia.
    + intros w W _. destruct (Nat.eq_dec (length h) (s_arr w)) as [E|E]; [|left; exact E]. right. right. cbn.
      destruct W as [W1 W2]. unfold array in W2. rewrite nth_overflow in W2 by lia. cbn in W2. lia.
Qed.
Lemma fresh_grows P h b l : valid h b -> grows h b l (fst (hWriteFresh P h b l)) (snd (hWriteFresh P h b l)).
Proof.
  intros V. unfold hWriteFresh. pose proof (alloc_ok h l 0) as A. destruct (alloc h l 0) as [h1 v]. destruct A as (A1 & A2 & A3).
  unfold hWriteBytes. rewrite A1. rewrite <- (app_nil_l l) at 1. apply (grows_trans _ _ _ h1 b).
  - rewrite A3. split; auto.
    + rewrite contents_app by exact V. now rewrite app_nil_r.
    + apply valid_app, V.
    + intros x X. apply valid_app, X.
    + intros x X _. apply contents_app, X.
  - apply append_grows. rewrite A3. apply valid_app, V.
Qed.
Lemma write_grows P h vs b w : valid h b -> exists l, grows h b l (fst (do_write P h vs b w)) (snd (do_write P h vs b w)) /\
  contents h b ++ l = write_value (seen h vs) (contents h b) w.
Proof.
  intros V. destruct w as [j|c|z|z|s|l|l]; cbn [do_write write_value].
  - eexists. split; [apply append_grows, V|]. unfold WriteBytes. f_equal. unfold var, value, seen. rewrite nth_error_map.
    destruct (nth_error vs j) as [[k x]|]; [reflexivity|]. unfold contents, nil_slice, array. cbn. reflexivity.
  - eexists. split; [apply append_grows, V|reflexivity].
  - eexists. split; [apply fresh_grows, V|reflexivity].
  - eexists. split; [apply fresh_grows, V|reflexivity].
  - unfold hWriteString. pose proof (append_grows P h b s V) as G. destruct (append P h b s) as [h1 b1]. cbn [fst snd] in G.
    exists (s ++ [x00]). split; [|unfold WriteString; now rewrite app_assoc]. eapply grows_trans; [exact G|]. apply append_grows, (g_valid _ _ _ _ _ G).
  - eexists. split; [apply fresh_grows, V|reflexivity].
  - eexists. split; [apply fresh_grows, V|reflexivity].
Qed.

(** * Programs *)
Record fine (h : heap) (vs : vars) : Prop := {
  f_valid : forall i k x, nth_error vs i = Some (k, x) -> valid h x;
  f_sep : forall i j k b x, nth_error vs i = Some (KWriter, b) -> nth_error vs j = Some (k, x) -> i <> j -> sep k x b
}.
Lemma assign_length {A} (vs : list A) : forall i x, length (assign vs i x) = length vs.
Proof. induction vs as [|y vs IH]; intros [|i] x; cbn; auto. Qed.
Lemma nth_assign {A} (vs : list A) : forall i j x, nth_error (assign vs i x) j = if Nat.eqb i j then match nth_error vs j with Some _ => Some x | None => None end else nth_error vs j.
Proof. induction vs as [|y vs IH]; intros [|i] [|j] x; cbn; try reflexivity; [destruct (Nat.eqb i j); reflexivity|apply IH]. Qed.
Lemma map_assign {A B} (f : A -> B) (vs : list A) : forall i x, map f (assign vs i x) = assign (map f vs) i (f x).
Proof. induction vs as [|y vs IH]; intros [|i] x; cbn; congruence. Qed.
Lemma assign_self {A} (vs : list A) : forall i x, nth_error vs i = Some x -> assign vs i x = vs.
Proof. induction vs as [|y vs IH]; intros [|i] x H; cbn in *; try discriminate; [congruence|f_equal; auto]. Qed.

Lemma fine_nil h : fine h [].
Proof. split; intros [|i] ? ?; try discriminate; intros [|j]; discriminate. Qed.
Lemma sep_within k x b y : sep k x b -> within y x -> (extent k x = s_len x \/ k = KReader) -> sep KReader y b.
Proof. unfold sep, within. intros S (A & B & C) H. cbn. destruct H as [H| ->]; [rewrite H in S|cbn in S]; rewrite A; lia. Qed.
Lemma sep_reader h k x b y : valid h x -> sep k x b -> within y x -> sep KReader y b.
Proof. intros [V _] S (A & B & C). unfold sep in *. cbn. rewrite A. destruct k; cbn in S; lia. Qed.
Lemma nth_seen h vs i : nth_error (seen h vs) i = option_map (fun x => (fst x, contents h (snd x))) (nth_error vs i).
Proof. unfold seen. apply nth_error_map. Qed.
Lemma seen_app h a b : seen h (a ++ b) = seen h a ++ seen h b.
Proof. apply map_app. Qed.
Lemma contents_nil h : contents h nil_slice = [].
Proof. reflexivity. Qed.

(** adding a variable *)
Lemma fine_add h vs k y : fine h vs -> valid h y -> (forall i b, nth_error vs i = Some (KWriter, b) -> sep k y b) ->
  (k = KWriter -> forall i k' x, nth_error vs i = Some (k', x) -> sep k' x y) -> fine h (vs ++ [(k, y)]).
Proof.
  intros F V S W.
  assert (forall i k' x, nth_error (vs ++ [(k, y)]) i = Some (k', x) -> nth_error vs i = Some (k', x) \/ (i = length vs /\ k' = k /\ x = y)) as N.
  { intros i k' x H. destruct (Nat.lt_ge_cases i (length vs)) as [L|L]; [left; now rewrite nth_error_app1 in H|]. rewrite nth_error_app2 in H by exact L.
    destruct (i - length vs) as [|[|n]] eqn:E; cbn in H; try discriminate. injection H as <- <-. right. split; [lia|split; reflexivity]. }
  split.
  - intros i k' x H. apply N in H. destruct H as [H|(_ & _ & ->)]; [eapply f_valid; eassumption|exact V].
  - intros i j k' b x Hi Hj D. apply N in Hi. apply N in Hj. destruct Hi as [Hi|(Ei & Ki & ->)], Hj as [Hj|(Ej & -> & ->)].
    + eapply f_sep; eassumption.
    + eapply S; eassumption.
    + eapply W; [symmetry; exact Ki|exact Hj].
    + lia.
Qed.
(** a read variable moves on *)
Lemma fine_read h vs i b y : fine h vs -> nth_error vs i = Some (KReader, b) -> valid h y -> within y b -> fine h (assign vs i (KReader, y)).
Proof.
  intros F E V W. split.
  - intros j k x H. rewrite nth_assign in H. destruct (Nat.eqb i j) eqn:Q; [|eapply f_valid; eassumption].
    destruct (nth_error vs j); [|discriminate]. injection H as _ <-. exact V.
  - intros w j k c x Hw Hj D. rewrite nth_assign in Hw, Hj. destruct (Nat.eqb i w) eqn:Qw; [destruct (nth_error vs w); discriminate|].
    destruct (Nat.eqb i j) eqn:Qj; [|exact (f_sep _ _ F _ _ _ _ _ Hw Hj D)]. apply Nat.eqb_eq in Qj. subst j. rewrite E in Hj. injection Hj as <- <-.
    apply (sep_reader h KReader b c y); [eapply f_valid; eassumption| |exact W]. exact (f_sep _ _ F _ _ _ _ _ Hw E D).
Qed.
Lemma fine_new_reader h vs i k b y : fine h vs -> nth_error vs i = Some (k, b) -> valid h y -> within y b -> fine h (vs ++ [(KReader, y)]).
Proof.
  intros F E V W. apply fine_add; [exact F|exact V| |discriminate]. intros j c H. destruct (Nat.eq_dec j i) as [->|D].
  - rewrite E in H. injection H as -> ->. destruct W as (A & B & C). right. left. cbn. lia.
  - apply (sep_reader h k b c y); [eapply f_valid; eassumption| |exact W]. eapply (f_sep _ _ F); eassumption.
Qed.

Lemma read_ok h b r : valid h b -> let '(x, b', new) := do_read h b r in
  read_value (contents h b) r = (x, contents h b', seen h new) /\ valid h b' /\ within b' b /\
  (new = [] \/ exists y, new = [(KReader, y)] /\ valid h y /\ within y b).
Proof.
  intros V. destruct r as [n| | | | |k|k]; cbn [do_read read_value].
  - pose proof (read_bytes h n b V) as R. pose proof (read_valid h n b V) as [A B]. pose proof (read_within n b) as [C D].
    rewrite <- R. unfold seen_res. destruct (hReadBytes n b) as [[s|e|p] b']; cbn in *; (split; [reflexivity|]); (split; [exact A|]); (split; [exact C|]); [right; eauto|left; reflexivity..].
  - pose proof (hReadByte_ok h b V) as R. pose proof (hbytes_valid h 1 (fun value => match value with c :: _ => Ok c | [] => Panic PanicIndex end) b V) as A.
    pose proof (hbytes_within h 1 (fun value => match value with c :: _ => Ok c | [] => Panic PanicIndex end) b) as W. fold (hReadByte h b) in A, W.
    rewrite <- R. unfold hReadByte in *. destruct (hbytes h 1 _ b) as [x b']. cbn in *. auto.
  - pose proof (hReadInt32_ok h b V) as R. rewrite <- R. unfold hReadInt32 in *.
    match goal with |- context [hbytes h ?n ?k b] => pose proof (hbytes_valid h n k b V) as A; pose proof (hbytes_within h n k b) as W; destruct (hbytes h n k b) as [x b'] end. cbn in *. auto.
  - pose proof (hReadInt16_ok h b V) as R. rewrite <- R. unfold hReadInt16 in *.
    match goal with |- context [hbytes h ?n ?k b] => pose proof (hbytes_valid h n k b V) as A; pose proof (hbytes_within h n k b) as W; destruct (hbytes h n k b) as [x b'] end. cbn in *. auto.
  - pose proof (hReadString_ok h b V) as R. rewrite <- R. pose proof (hReadString_valid h b V) as A. pose proof (hReadString_within h b) as W.
    destruct (hReadString h b) as [x b']. cbn in *. auto.
  - pose proof (hReadInt32Array_ok h k b V) as R. rewrite <- R. unfold hReadInt32Array in *.
    match goal with |- context [hbytes h ?n ?k b] => pose proof (hbytes_valid h n k b V) as A; pose proof (hbytes_within h n k b) as W; destruct (hbytes h n k b) as [x b'] end. cbn in *. auto.
  - pose proof (hReadInt16Array_ok h k b V) as R. rewrite <- R. unfold hReadInt16Array in *.
    match goal with |- context [hbytes h ?n ?k b] => pose proof (hbytes_valid h n k b V) as A; pose proof (hbytes_within h n k b) as W; destruct (hbytes h n k b) as [x b'] end. cbn in *. auto.
Qed.

Lemma nth_error_ext {A} (l : list A) : forall m, (forall i, nth_error l i = nth_error m i) -> l = m.
Proof.
  induction l as [|a l IH]; intros [|b m] H; [reflexivity|specialize (H 0); discriminate..|].
  pose proof (H 0) as E. injection E as ->. f_equal. apply IH. intros i. exact (H (S i)).
Qed.
Lemma hexec_ok P h vs o : fine h vs -> let '(h', vs', x) := hexec P (h, vs) o in fine h' vs' /\ exec (seen h vs) o = (seen h' vs', x).
Proof.
  intros F. destruct o as [|i w|i|i r]; cbn [hexec exec].
  - split; [|now rewrite seen_app]. apply fine_add; [exact F|apply valid_nil| |].
    + intros i b _. right. left. cbn. lia.
    + intros _ i k x _. right. right. cbn. lia.
  - rewrite nth_seen. destruct (nth_error vs i) as [[[|] b]|] eqn:E; cbn [option_map fst snd]; [|auto..].
    pose proof (f_valid _ _ F _ _ _ E) as V. destruct (write_grows P h vs b w V) as (l & G & Q). destruct (do_write P h vs b w) as [h' b']. cbn [fst snd] in G. split.
    + split.
      * intros j k x H. rewrite nth_assign in H. destruct (Nat.eqb i j) eqn:D.
        -- destruct (nth_error vs j); [|discriminate]. injection H as _ <-. apply (g_valid _ _ _ _ _ G).
        -- apply (g_others _ _ _ _ _ G). eapply f_valid; eassumption.
      * intros a j k c x Ha Hj D. rewrite nth_assign in Ha, Hj. destruct (Nat.eqb i a) eqn:Da, (Nat.eqb i j) eqn:Dj.
        -- apply Nat.eqb_eq in Da, Dj. congruence.
        -- apply Nat.eqb_eq in Da. subst a. rewrite E in Ha. injection Ha as <-. apply (g_sep _ _ _ _ _ G); [eapply f_valid; eassumption|]. eapply (f_sep _ _ F); eassumption.
        -- apply Nat.eqb_eq in Dj. subst j. rewrite E in Hj. injection Hj as <- <-. apply (g_free _ _ _ _ _ G); [eapply f_valid; eassumption|]. eapply (f_sep _ _ F); eassumption.
        -- eapply (f_sep _ _ F); eassumption.
    + f_equal. unfold seen at 3. rewrite map_assign. cbn [fst snd]. rewrite (g_contents _ _ _ _ _ G), Q.
      apply nth_error_ext. intros j. rewrite !nth_assign, nth_seen, nth_error_map. destruct (Nat.eqb i j) eqn:D; [destruct (nth_error vs j); reflexivity|].
      destruct (nth_error vs j) as [[k x]|] eqn:Ej; [|reflexivity]. cbn. rewrite (g_frame _ _ _ _ _ G); [reflexivity|eapply f_valid; eassumption|].
      apply Nat.eqb_neq in D. eapply sep_apart; [eapply f_valid; eassumption|]. eapply (f_sep _ _ F); eassumption.
  - assert (value (seen h vs) i = contents h (var vs i)) as Q.
    { unfold value, var. rewrite nth_seen. destruct (nth_error vs i) as [[k x]|]; reflexivity. }
    rewrite Q, seen_app. split; [|reflexivity]. unfold var. destruct (nth_error vs i) as [[k x]|] eqn:E.
    + eapply fine_new_reader; [exact F|exact E|eapply f_valid; eassumption|apply within_refl].
    + apply fine_add; [exact F|apply valid_nil| |discriminate]. intros j b _. right. left. cbn. lia.
  - rewrite nth_seen. destruct (nth_error vs i) as [[[|] b]|] eqn:E; cbn [option_map fst snd]; [auto| |auto].
    pose proof (f_valid _ _ F _ _ _ E) as V. pose proof (read_ok h b r V) as R. destruct (do_read h b r) as [[x b'] new]. destruct R as (R & V' & W & N). rewrite R.
    assert (fine h (assign vs i (KReader, b'))) as F' by (eapply fine_read; eassumption). split.
    + destruct N as [->|(y & -> & Vy & Wy)]; [rewrite app_nil_r; exact F'|]. apply fine_add; [exact F'|exact Vy| |discriminate].
      intros j c H. rewrite nth_assign in H. destruct (Nat.eqb i j) eqn:D; [destruct (nth_error vs j); discriminate|]. apply Nat.eqb_neq in D.
      eapply sep_reader; [exact V| |exact Wy]. eapply (f_sep _ _ F); [exact H|exact E|congruence].
    + rewrite seen_app. unfold seen at 3. rewrite map_assign. reflexivity.
Qed.
Lemma hrun_ok P os : forall h vs, fine h vs -> let '(h', vs', xs) := hrun P (h, vs) os in fine h' vs' /\ run_values (seen h vs) os = (seen h' vs', xs).
Proof.
  induction os as [|o os IH]; intros h vs F; [cbn; auto|]. cbn [hrun run_values]. pose proof (hexec_ok P h vs o F) as X.
  destruct (hexec P (h, vs) o) as [[h1 vs1] x]. destruct X as [F1 X]. rewrite X. specialize (IH _ _ F1). destruct (hrun P (h1, vs1) os) as [[h2 vs2] xs]. destruct IH as [F2 IH].
  rewrite IH. auto.
Qed.

(** * Sharing *)
(** Two copies of one WriteBuffer with spare capacity: the second write lands on the first. *)
Lemma append_inplace P h b v : valid h b -> s_len b + length v <= s_cap b -> s_cap b <> 0 -> forall x, s_arr x = s_arr b ->
  let h' := fst (append P h b v) in
  snd (append P h b v) = Slice (s_arr b) (s_off b) (s_len b + length v) (s_cap b) /\
  contents h' x = firstn (s_len x) (skipn (s_off x) (overwrite (array h b) (s_off b + s_len b) v)).
Proof.
  intros V N C x E. unfold append. replace (s_len b + length v <=? s_cap b) with true by (symmetry; apply Nat.leb_le; exact N). cbn [fst snd]. split; [reflexivity|].
  unfold contents, array at 1. rewrite E, set_array_same by (apply valid_array; assumption). reflexivity.
Qed.
Lemma copies_clash P h b c d : valid h b -> s_len b < s_cap b ->
  let '(h1, b1) := hWriteByte P h b c in
  let '(h2, b2) := hWriteByte P h1 b d in
  contents h2 b1 = contents h b ++ [d] /\ contents h2 b2 = contents h b ++ [d].
Proof.
  intros V N. unfold hWriteByte.
  pose proof (append_grows P h b [c] V) as G1. pose proof (append_inplace P h b [c] V ltac:(cbn; lia) ltac:(lia) b eq_refl) as [E1 _].
  destruct (append P h b [c]) as [h1 b1]. cbn [fst snd] in *. subst b1.
  assert (valid h1 b) as V1 by (apply (g_others _ _ _ _ _ G1), V).
  pose proof (append_grows P h1 b [d] V1) as G2. pose proof (append_inplace P h1 b [d] V1 ltac:(cbn; lia) ltac:(lia) b eq_refl) as [E2 _].
  destruct (append P h1 b [d]) as [h2 b2]. cbn [fst snd] in *. subst b2.
  pose proof (g_contents _ _ _ _ _ G2) as C. rewrite (g_frame _ _ _ _ _ G1) in C; [|exact V|right; left; lia]. split; exact C.
Qed.
(** Appending to bytes ReadBytes returned overwrites what follows them in the buffer. *)
Lemma skipn_into (l : bytes) i v k : i + length v <= length l -> k <= length v -> skipn (i + k) (overwrite l i v) = skipn k v ++ skipn (i + length v) l.
Proof.
  intros H K. unfold overwrite. rewrite skipn_app, firstn_length. rewrite skipn_all2 by (rewrite firstn_length; lia).
  replace (i + k - Nat.min i (length l)) with k by lia. cbn. rewrite skipn_app. replace (k - length v) with 0 by lia. reflexivity.
Qed.
Lemma append_over P h v a w g : valid h v -> s_arr w = s_arr v -> s_off w = s_off v + s_len v + g -> s_len w + s_len v + g <= s_cap v ->
  g <= length a -> length a <= g + s_len w -> g + s_len w <> 0 ->
  contents (fst (append P h v a)) w = skipn g a ++ skipn (length a - g) (contents h w).
Proof.
  intros V E O L G N Z. pose proof V as [V1 V2]. destruct (append_inplace P h v a V ltac:(lia) ltac:(lia) w E) as [_ ->].
  rewrite O. rewrite skipn_into by lia. rewrite firstn_app, skipn_length. rewrite firstn_all2 by (rewrite skipn_length; lia). f_equal.
  unfold contents, array. rewrite skipn_firstn_comm, skipn_add, E, O. match goal with |- firstn ?a (skipn ?b ?l) = firstn ?c (skipn ?d ?l) => replace c with a by lia; replace d with b by lia end. reflexivity.
Qed.
Lemma read_clash P h b n v r a : valid h b -> hReadBytes n b = (Ok v, r) -> length a <= s_len r -> s_len r <> 0 ->
  contents (fst (append P h v a)) r = a ++ skipn (length a) (contents h r).
Proof.
  intros V R N Z. unfold hReadBytes in R. destruct (Z.of_nat (s_len b) <? n)%Z eqn:A; [discriminate|]. destruct (n <? 0)%Z eqn:B; [discriminate|]. injection R as <- <-.
  pose proof V as [V1 V2]. rewrite (append_over P h _ a _ 0); cbn in *; try lia; [now rewrite Nat.sub_0_r|]. apply valid_to; [exact V|lia].
Qed.

(** * DataRow *)
Lemma hparse_ok h n : forall b, valid h b -> res_map (map (option_map (contents h))) (hparse_values h n b) = fst (parse_values n (contents h b)).
Proof.
  induction n as [|n IH]; intros b V; [reflexivity|]. cbn [hparse_values parse_values]. unfold rd_bind, rd_ret.
  rewrite <- (hReadInt32_ok h b V). assert (valid h (snd (hReadInt32 h b))) as V1 by (apply hbytes_valid, V).
  destruct (hReadInt32 h b) as [[size|e|p] b1]; cbn [fst snd] in *; [|reflexivity..]. destruct (size =? -1)%Z.
  - specialize (IH b1 V1). destruct (parse_values n (contents h b1)) as [[l|e|p] r]; cbn [fst] in *; destruct (hparse_values h n b1); try discriminate; cbn in *; congruence.
  - rewrite <- (read_bytes h size b1 V1). destruct (read_valid h size b1 V1) as [V2 _]. unfold seen_res.
    destruct (hReadBytes size b1) as [[v|e|p] b2]; cbn [fst snd res_map] in *; [|reflexivity..].
    specialize (IH b2 V2). destruct (parse_values n (contents h b2)) as [[l|e|p] r]; cbn [fst] in *; destruct (hparse_values h n b2); try discriminate; cbn in *; congruence.
Qed.
Lemma hParse_ok h f : valid h f ->
  res_map (fun vs => DataRow (map (option_map (contents h)) vs)) (hParseDataRowMessage h f) = ParseDataRowMessage (StandardFrame (contents h f)).
Proof.
  intros V. unfold hParseDataRowMessage, ParseDataRowMessage, parse_typed, MessageType, MessageBody. pose proof (contents_length h f V) as L.
  destruct (contents h f) as [|t rest] eqn:C; [reflexivity|]. cbn [res_bind]. destruct (byte_eqb t DataRowMessageType); [|reflexivity].
  rewrite L. destruct (s_len f <? 5) eqn:N; [reflexivity|]. apply Nat.ltb_ge in N. cbn [res_bind]. rewrite <- C, <- contents_from.
  assert (valid h (slice_from f 5)) as V5 by (apply valid_from; assumption). unfold rd_bind, rd_lift, rd_ret. rewrite <- (hReadInt16_ok h _ V5).
  assert (valid h (snd (hReadInt16 h (slice_from f 5)))) as V1 by (apply hbytes_valid, V5).
  destruct (hReadInt16 h (slice_from f 5)) as [[z|e|p] b]; cbn [fst snd] in *; [|reflexivity..]. destruct (make_slice z 24) as [u|e|p]; cbn; [|reflexivity..].
  pose proof (hparse_ok h (Z.to_nat z) b V1) as Q. destruct (parse_values (Z.to_nat z) (contents h b)) as [[l|e|p] r]; cbn [fst] in Q; destruct (hparse_values h (Z.to_nat z) b); try discriminate; cbn in *; congruence.
Qed.
Lemma hReadBytes_some n b v r : hReadBytes n b = (Ok v, r) -> exists m, m <= s_len b /\ v = slice_to b m /\ r = slice_from b m.
Proof.
  unfold hReadBytes. destruct (Z.of_nat (s_len b) <? n)%Z eqn:A; [discriminate|]. destruct (n <? 0)%Z eqn:B; [discriminate|]. intros H. injection H as <- <-.
  exists (Z.to_nat n). split; [lia|split; reflexivity].
Qed.
Lemma hReadInt_some {A} h n (k : bytes -> res A) b z r : hbytes h n k b = (Ok z, r) -> (0 <= n)%Z -> Z.to_nat n <= s_len b /\ r = slice_from b (Z.to_nat n).
Proof.
  unfold hbytes, hReadBytes. intros H N. destruct (Z.of_nat (s_len b) <? n)%Z eqn:E; [discriminate|]. destruct (n <? 0)%Z eqn:B; [discriminate|]. injection H as _ <-. split; [lia|reflexivity].
Qed.
(** where the values lie: in the frame, up to its capacity, in order, four bytes of length before each *)
Lemma layout h n : forall b vs, valid h b -> hparse_values h n b = Ok vs ->
  (forall k v, nth_error vs k = Some (Some v) -> s_arr v = s_arr b /\ s_off b + 4 <= s_off v /\ s_off v + s_len v <= s_off b + s_len b /\ s_off v + s_cap v = s_off b + s_cap b /\ (k = 0 -> s_off v = s_off b + 4)) /\
  (forall j k v w, j < k -> nth_error vs j = Some (Some v) -> nth_error vs k = Some (Some w) -> s_off v + s_len v + 4 <= s_off w /\ (k = S j -> s_off w = s_off v + s_len v + 4)).
Proof.
  induction n as [|n IH]; intros b vs V H; cbn [hparse_values] in H.
  - injection H as <-. split; [intros [|k] v H|intros j [|k] v w _ _ H]; discriminate.
  - pose proof V as [Va Vb]. destruct (hReadInt32 h b) as [[size|e|p] b1] eqn:R; [|discriminate..]. destruct (hReadInt_some _ _ _ _ _ _ R ltac:(lia)) as [L ->].
    change (Z.to_nat 4) with 4 in *. assert (valid h (slice_from b 4)) as V1 by (apply valid_from; assumption). destruct (size =? -1)%Z.
    + destruct (hparse_values h n (slice_from b 4)) as [l|e|p] eqn:P; [|discriminate..]. injection H as <-. destruct (IH _ _ V1 P) as [I1 I2]. cbn in I1. split.
      * intros [|k] v H; cbn in H; [discriminate|]. destruct (I1 _ _ H) as (X1 & X2 & X3 & X4 & X5). repeat split; try lia.
      * intros [|j] [|k] v w J Hj Hk; cbn in Hj, Hk; try discriminate. destruct (I2 _ _ _ _ (proj2 (Nat.succ_lt_mono j k) J) Hj Hk) as [Y1 Y2]. split; [exact Y1|]. intros E. apply Y2. lia.
    + destruct (hReadBytes size (slice_from b 4)) as [[u|e|p] b2] eqn:Q; [|discriminate..]. destruct (hReadBytes_some _ _ _ _ Q) as (m & M & -> & ->). cbn in M.
      assert (valid h (slice_from (slice_from b 4) m)) as V2 by (apply valid_from; [exact V1|cbn; lia]).
      destruct (hparse_values h n (slice_from (slice_from b 4) m)) as [l|e|p] eqn:P; [|discriminate..]. injection H as <-. destruct (IH _ _ V2 P) as [I1 I2]. cbn in I1. split.
      * intros [|k] v H; cbn in H; [injection H as <-; cbn; repeat split; lia|]. destruct (I1 _ _ H) as (X1 & X2 & X3 & X4 & X5). repeat split; lia.
      * intros [|j] [|k] v w J Hj Hk; cbn in Hj, Hk; try lia.
        -- injection Hj as <-. destruct (I1 _ _ Hk) as (X1 & X2 & X3 & X4 & X5). cbn. split; [lia|]. intros E. rewrite X5 by lia. lia.
        -- destruct (I2 _ _ _ _ (proj2 (Nat.succ_lt_mono j k) J) Hj Hk) as [Y1 Y2]. split; [exact Y1|]. intros E. apply Y2. lia.
Qed.
Lemma hParse_layout h f vs : valid h f -> hParseDataRowMessage h f = Ok vs ->
  (forall k v, nth_error vs k = Some (Some v) -> valid h v /\ s_arr v = s_arr f /\ s_off f + 11 <= s_off v /\ s_off v + s_len v <= s_off f + s_len f /\ s_off v + s_cap v = s_off f + s_cap f) /\
  (forall j k v w, j < k -> nth_error vs j = Some (Some v) -> nth_error vs k = Some (Some w) -> s_off v + s_len v + 4 <= s_off w /\ (k = S j -> s_off w = s_off v + s_len v + 4)).
Proof.
  intros V H. unfold hParseDataRowMessage in H. destruct (contents h f) as [|t rest]; [discriminate|]. destruct (byte_eqb t DataRowMessageType); [|discriminate].
  destruct (s_len f <? 5) eqn:N; [discriminate|]. apply Nat.ltb_ge in N. assert (valid h (slice_from f 5)) as V5 by (apply valid_from; assumption).
  destruct (hReadInt16 h (slice_from f 5)) as [[z|e|p] b] eqn:R; [|discriminate..]. destruct (hReadInt_some _ _ _ _ _ _ R ltac:(lia)) as [L ->]. change (Z.to_nat 2) with 2 in *.
  destruct (make_slice z 24); [|discriminate..]. cbn in L, H. assert (valid h (slice_from (slice_from f 5) 2)) as V7 by (apply valid_from; [exact V5|cbn; lia]).
  destruct (layout _ _ _ _ V7 H) as [A B]. split; [|exact B]. intros k v E. destruct (A _ _ E) as (X1 & X2 & X3 & X4 & _). cbn in X1, X2, X3, X4. pose proof V as [Va Vb].
  split; [|repeat split; lia]. split; [lia|]. unfold array. rewrite X1. fold (array h f). lia.
Qed.

(** in-place edits *)
Lemma store_frame h s i c x : valid h s -> valid h x -> i < s_len s -> s_arr x <> s_arr s \/ s_off x + s_len x <= s_off s + i \/ s_off s + i < s_off x ->
  contents (store h s i c) x = contents h x.
Proof.
  intros [V1 V2] [X1 X2] I S. unfold store, contents, array at 1. destruct (Nat.eq_dec (s_arr x) (s_arr s)) as [E|E]; [|now rewrite set_array_other by exact E].
  assert (s_arr s < length h) as A by (apply valid_array; [split; assumption|lia]). rewrite E, set_array_same by exact A. unfold array in *. rewrite <- E in *.
  destruct S as [S|[S|S]]; [congruence| |].
  - apply window_before; cbn; lia.
  - rewrite skipn_overwrite; cbn; [reflexivity|lia..].
Qed.
Lemma store_self h s i c : valid h s -> i < s_len s -> contents (store h s i c) s = overwrite (contents h s) i [c].
Proof.
  intros V I. pose proof V as [V1 V2]. unfold store, contents, array at 1. rewrite set_array_same by (apply valid_array; [exact V|lia]).
  unfold overwrite at 1. rewrite skipn_app, firstn_length. replace (s_off s - Nat.min (s_off s + i) (length (array h s))) with 0 by lia.
  rewrite firstn_app, skipn_length, firstn_length. replace (Nat.min (s_off s + i) (length (array h s)) - s_off s) with i by lia.
  rewrite firstn_all2 by (rewrite skipn_length, firstn_length; lia). rewrite <- firstn_skipn_comm. unfold overwrite. rewrite firstn_firstn. replace (Nat.min i (s_len s)) with i by lia. f_equal.
  cbn [app length]. replace (skipn 0 (c :: skipn (s_off s + i + 1) (array h s))) with (c :: skipn (s_off s + i + 1) (array h s)) by reflexivity.
  replace (s_len s - i) with (S (s_len s - (i + 1))) by lia. cbn [firstn]. f_equal. rewrite skipn_firstn_comm, skipn_add. f_equal. f_equal. lia.
Qed.
