(** C96, C97: the buffers and the parsed DataRow in Go's memory, where slices share arrays. *)
From Verif Require Import SlicesProofs.
Require Import Lia.
Local Open Scope nat_scope.

(** C96: a program that only reads from read buffers and only writes to write buffers, each WriteBuffer in one
    variable, sees bytes, not memory: whatever the runtime's growth policy and however views are made. *)
Theorem C96_buffers_are_values : forall P os, let '(h, vs, xs) := hrun P ([], []) os in run_values [] os = (seen h vs, xs).
Proof.
  intros P os. assert (let '(h, vs, xs) := hrun P ([], []) os in fine h vs /\ run_values [] os = (seen h vs, xs)) as H by exact (hrun_ok P os [] [] (fine_nil [])).
  destruct (hrun P ([], []) os) as [[h vs] xs]. apply H.
Qed.
Print Assumptions C96_buffers_are_values.
(** a view of the first buffer is taken, the buffer grows in place, another buffer copies it, the view is read *)
Definition C96_program : list op :=
  [ONew; OWrite 0 (WInt32 258); OView 0; OWrite 0 (WString [x41; x42]); ONew; OWrite 1 (WByte x43); ORead 1 RInt16; OWrite 2 (WBytes 0); OView 0; OWrite 0 (WByte x44);
   ORead 1 (RBytes 2); ORead 1 RByte; ORead 3 RInt32; ORead 3 RString; OWrite 2 (WBytes 4)].
Example C96_instance : let '(h, vs, xs) := hrun (fun _ n => n) ([], []) C96_program in
  s_arr (var vs 0) = s_arr (var vs 1) /\ s_arr (var vs 0) = s_arr (var vs 3) /\
  seen h vs = [(KWriter, [x00; x00; x01; x02; x41; x42; x00; x44]); (KReader, []); (KWriter, [x00; x00; x01; x02; x41; x42; x00; x01; x02]); (KReader, []); (KReader, [x01; x02])] /\
  xs = [OutNone; OutNone; OutNone; OutNone; OutNone; OutNone; OutInt (Ok 0%Z); OutNone; OutNone; OutNone; OutBytes (Ok [x01; x02]); OutByte (Err EOF); OutInt (Ok 258%Z); OutBytes (Ok [x41; x42]); OutNone].
Proof. vm_compute. repeat split. Qed.

(** A write changes nothing but the free capacity of the buffer written to; bytes once written stay. *)
Theorem C96_write_frame : forall P h vs b w, valid h b ->
  let (h', b') := do_write P h vs b w in
  contents h' b' = write_value (seen h vs) (contents h b) w /\
  contents h' b = contents h b /\
  (forall x, valid h x -> apart x b -> contents h' x = contents h x).
Proof.
  intros P h vs b w V. destruct (write_grows P h vs b w V) as (l & G & Q). destruct (do_write P h vs b w) as [h' b']. cbn [fst snd] in G.
  split; [rewrite (g_contents _ _ _ _ _ G); exact Q|]. split; [|exact (g_frame _ _ _ _ _ G)]. apply (g_frame _ _ _ _ _ G); [exact V|right; left; apply le_n].
Qed.
Print Assumptions C96_write_frame.
(** A read changes no memory: it yields what the list model says. *)
Theorem C96_read : forall h b r, valid h b -> let '(x, b', new) := do_read h b r in read_value (contents h b) r = (x, contents h b', seen h new).
Proof. intros h b r V. pose proof (read_ok h b r V) as H. destruct (do_read h b r) as [[x b'] new]. apply H. Qed.
Print Assumptions C96_read.
Example C96_frame_instance : let h := [[x01; x02; x00; x00; x05]] in let b := Slice 0 0 2 4 in let x := Slice 0 4 1 1 in
  valid h b /\ valid h x /\ apart x b /\ do_write (fun _ _ => 0) h [] b (WByte x03) = ([[x01; x02; x03; x00; x05]], Slice 0 0 3 4) /\
  do_write (fun _ _ => 0) h [] b (WString [x03; x04]) = ([[x01; x02; x03; x04; x05]; [x01; x02; x03; x04; x00]], Slice 1 0 5 5).
Proof. unfold valid, apart. vm_compute. repeat split; auto using le_n, le_S. Qed.

(** Refuted: two copies of one WriteBuffer are not independent: with spare capacity, what is written to the
    second replaces what was written to the first. *)
Theorem C96_copies_are_independent_refuted : forall P h b c d, valid h b -> s_len b < s_cap b ->
  let '(h1, b1) := hWriteByte P h b c in
  let '(h2, b2) := hWriteByte P h1 b d in
  contents h1 b1 = contents h b ++ [c] /\ contents h2 b1 = contents h b ++ [d] /\ contents h2 b2 = contents h b ++ [d].
Proof.
  intros P h b c d V N. pose proof (copies_clash P h b c d V N) as C. pose proof (g_contents _ _ _ _ _ (append_grows P h b [c] V)) as G. unfold hWriteByte in *.
  destruct (append P h b [c]) as [h1 b1]. destruct (append P h1 b [d]) as [h2 b2]. split; [exact G|exact C].
Qed.
Print Assumptions C96_copies_are_independent_refuted.
(** Refuted: the bytes ReadBytes returns are not the caller's: appending to them overwrites what is unread. *)
Theorem C96_read_bytes_are_private_refuted : forall P h b n v rest a, valid h b -> hReadBytes n b = (Ok v, rest) -> length a <= s_len rest -> 0 < s_len rest ->
  contents (fst (append P h v a)) rest = a ++ skipn (length a) (contents h rest).
Proof. intros P h b n v rest a V R N Z. eapply read_clash; try eassumption. intros E. rewrite E in Z. inversion Z. Qed.
Print Assumptions C96_read_bytes_are_private_refuted.
(** after [v, _ := buf.ReadBytes(2)], [append(v, 0x58)] changes the next byte [buf] reads *)
Example C96_refuted_instance : let h := [[x01; x02; x03; x04]] in let b := Slice 0 0 4 4 in
  hReadBytes 2 b = (Ok (Slice 0 0 2 4), Slice 0 2 2 2) /\
  hReadByte h (Slice 0 2 2 2) = (Ok x03, Slice 0 3 1 1) /\
  hReadByte (fst (append (fun _ _ => 0) h (Slice 0 0 2 4) [x58])) (Slice 0 2 2 2) = (Ok x58, Slice 0 3 1 1).
Proof. vm_compute. repeat split. Qed.

(** C97: ParseDataRowMessage in memory returns windows into the frame which hold the values. *)
Theorem C97_data_row_values : forall h f, valid h f ->
  res_map (fun vs => DataRow (map (option_map (contents h)) vs)) (hParseDataRowMessage h f) = ParseDataRowMessage (StandardFrame (contents h f)).
Proof. exact hParse_ok. Qed.
Print Assumptions C97_data_row_values.
(** The frame's bytes are those of the values: no copy is made, no two values share a byte. *)
Theorem C97_values_are_windows : forall h f vs, valid h f -> hParseDataRowMessage h f = Ok vs ->
  (forall k v, nth_error vs k = Some (Some v) -> valid h v /\ s_arr v = s_arr f /\ s_off f <= s_off v /\ s_off v + s_len v <= s_off f + s_len f) /\
  (forall j k v w, j < k -> nth_error vs j = Some (Some v) -> nth_error vs k = Some (Some w) -> s_off v + s_len v <= s_off w).
Proof.
  intros h f vs V H. destruct (hParse_layout _ _ _ V H) as [A B]. split.
  - intros k v E. destruct (A _ _ E) as (X0 & X1 & X2 & X3 & _). repeat split; try assumption; try apply X0. lia.
  - intros j k v w L Hj Hk. destruct (B _ _ _ _ L Hj Hk) as [Y _]. lia.
Qed.
Print Assumptions C97_values_are_windows.
(** Overwriting a byte of one value in place changes that byte of that value and no other value. *)
Theorem C97_edit_in_place : forall h f vs j v i c, valid h f -> hParseDataRowMessage h f = Ok vs -> nth_error vs j = Some (Some v) -> i < s_len v ->
  let h' := store h v i c in
  contents h' v = firstn i (contents h v) ++ [c] ++ skipn (i + 1) (contents h v) /\
  (forall k w, nth_error vs k = Some (Some w) -> k <> j -> contents h' w = contents h w).
Proof.
  intros h f vs j v i c V H Hj I. destruct (hParse_layout _ _ _ V H) as [A B]. destruct (A _ _ Hj) as (Vv & _). cbn zeta. split; [apply store_self; assumption|].
  intros k w Hk D. destruct (A _ _ Hk) as (Vw & _). apply store_frame; try assumption. destruct (Nat.lt_ge_cases j k) as [L|L].
  - destruct (B _ _ _ _ L Hj Hk) as [Y _]. lia.
  - destruct (B k j _ _ ltac:(lia) Hk Hj) as [Y _]. lia.
Qed.
Print Assumptions C97_edit_in_place.
(** Appending up to four bytes to a value, or more than the frame has room for, leaves the others alone. *)
Theorem C97_append_harmless : forall P h f vs j v a, valid h f -> hParseDataRowMessage h f = Ok vs -> nth_error vs j = Some (Some v) ->
  length a <= 4 \/ s_off f + s_cap f < s_off v + s_len v + length a ->
  let (h', v') := append P h v a in
  contents h' v' = contents h v ++ a /\ (forall k w, nth_error vs k = Some (Some w) -> contents h' w = contents h w).
Proof.
  intros P h f vs j v a V H Hj Ha. destruct (hParse_layout _ _ _ V H) as [A B]. destruct (A _ _ Hj) as (Vv & Av & _ & _ & Cv).
  pose proof (append_grows P h v a Vv) as G. destruct (append P h v a) as [h' v'] eqn:E. cbn [fst snd] in G. split; [apply (g_contents _ _ _ _ _ G)|].
  intros k w Hk. destruct (A _ _ Hk) as (Vw & Aw & _ & _ & Cw). destruct Ha as [Ha|Ha].
  - destruct (Nat.lt_trichotomy k j) as [L|[->|L]].
    + apply (g_frame _ _ _ _ _ G); [exact Vw|]. destruct (B _ _ _ _ L Hk Hj) as [Y _]. unfold apart. lia.
    + rewrite Hj in Hk. injection Hk as <-. apply (g_frame _ _ _ _ _ G); [exact Vw|]. unfold apart. lia.
    + destruct (B _ _ _ _ L Hj Hk) as [Y _]. pose proof Vv as [Vv1 Vv2]. pose proof Vw as [Vw1 Vw2]. destruct (Nat.le_gt_cases (s_len v + length a) (s_cap v)) as [F|F].
      * destruct (Nat.eq_dec (s_cap v) 0) as [Z|Z]; [lia|]. destruct (append_inplace P h v a Vv F Z w ltac:(congruence)) as [_ C]. rewrite E in C. cbn [fst] in C. rewrite C.
        rewrite skipn_overwrite by lia. unfold contents, array. now rewrite Aw, Av.
      * unfold append in E. replace (s_len v + length a <=? s_cap v) with false in E by (symmetry; apply Nat.leb_gt; exact F). injection E as <- _. apply contents_app, Vw.
  - unfold append in E. replace (s_len v + length a <=? s_cap v) with false in E by (symmetry; apply Nat.leb_gt; lia). injection E as <- _. apply contents_app, Vw.
Qed.
Print Assumptions C97_append_harmless.
(** Refuted: the values of a row are not independent: bytes appended to one, beyond the four of a length, land on
    the next. *)
Theorem C97_values_are_independent_refuted : forall P h f vs k v w a, valid h f -> hParseDataRowMessage h f = Ok vs ->
  nth_error vs k = Some (Some v) -> nth_error vs (S k) = Some (Some w) -> 4 <= length a -> length a <= 4 + s_len w ->
  contents (fst (append P h v a)) w = skipn 4 a ++ skipn (length a - 4) (contents h w).
Proof.
  intros P h f vs k v w a V H Hv Hw L U. destruct (hParse_layout _ _ _ V H) as [A B]. destruct (A _ _ Hv) as (Vv & Av & _ & _ & Cv). destruct (A _ _ Hw) as (Vw & Aw & _ & Fw & Cw).
  destruct (B _ _ _ _ (Nat.lt_succ_diag_r k) Hv Hw) as [_ Y]. specialize (Y eq_refl). pose proof Vv as [Vv1 Vv2]. pose proof Vw as [Vw1 Vw2]. apply append_over; try assumption; lia.
Qed.
Print Assumptions C97_values_are_independent_refuted.
(** the row ("AB", NULL, "CD", "EF") as the list model serialises it; "CD" ++ 5 bytes turns "EF" into "xF" *)
Example C97_instance : let b := Bytes (NewStandardFrame x44 [x00; x04; x00; x00; x00; x02; x41; x42; xff; xff; xff; xff; x00; x00; x00; x02; x43; x44; x00; x00; x00; x02; x45; x46]) in
  let h := [b] in let f := Slice 0 0 29 29 in let v := Slice 0 21 2 8 in
  valid h f /\ hParseDataRowMessage h f = Ok [Some (Slice 0 11 2 18); None; Some v; Some (Slice 0 27 2 2)] /\
  ParseDataRowMessage (StandardFrame b) = Ok (DataRow [Some [x41; x42]; None; Some [x43; x44]; Some [x45; x46]]) /\
  contents (fst (append (fun _ _ => 0) h v [x61; x61; x61; x61; x78])) (Slice 0 27 2 2) = [x78; x46] /\
  contents (store h v 1 x58) v = [x43; x58] /\ contents (store h v 1 x58) (Slice 0 27 2 2) = [x45; x46].
Proof. unfold valid. vm_compute. repeat split; auto using le_n. Qed.
