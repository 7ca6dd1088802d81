(** Inspect.v against SpecInspect.v. *)
From Coq Require Import NArith DecimalString String DecimalNat Decimal Lia ZifyBool ZifyN.
From Verif Require Export SpecInspect.
Local Open Scope list_scope.

Lemma hex_check c : match hex_byte c with [a; b] => match digit a, digit b with Some d, Some e => N.eqb (16 * d + e) (Byte.to_N c) | _, _ => false end | _ => false end = true.
Proof. destruct c; reflexivity. Qed.
Lemma hex_value c n l acc : hexadecimal n (hex_byte c ++ l) acc <-> hexadecimal n l (256 * acc + Byte.to_N c).
Proof.
  assert (exists a b d e, hex_byte c = [a; b] /\ digit a = Some d /\ digit b = Some e /\ (16 * d + e = Byte.to_N c)%N) as (a & b & d & e & -> & A & B & V).
  { pose proof (hex_check c) as H. destruct (hex_byte c) as [|a [|b [|? ?]]]; try discriminate H. destruct (digit a) as [d|] eqn:A; [|discriminate H]. destruct (digit b) as [e|] eqn:B; [|discriminate H].
    exists a, b, d, e. apply N.eqb_eq in H. auto. }
  cbn [app hexadecimal]. rewrite A. cbn [app hexadecimal]. rewrite B. replace (16 * (16 * acc + d) + e)%N with (256 * acc + Byte.to_N c)%N by lia. reflexivity.
Qed.
Lemma hex_byte_repr c : hexadecimal (Byte.to_N c) (hex_byte c) 0.
Proof. rewrite <- (app_nil_r (hex_byte c)). apply hex_value. cbn. lia. Qed.
Lemma hex_byte_length c : length (hex_byte c) = 2%nat.
Proof. reflexivity. Qed.
Lemma low_byte_N n : Byte.to_N (low_byte n) = (n mod 256)%N.
Proof.
  unfold low_byte. destruct (Byte.of_N (n mod 256)) as [c|] eqn:E; [apply Byte.to_of_N_iff; exact E|].
  apply Byte.of_N_None_iff in E. pose proof (N.mod_lt n 256 ltac:(lia)). lia.
Qed.
Lemma offset_repr n : exists off, hex_offset n = off ++ [" "; " "]%byte /\ length off = 8%nat /\ hexadecimal (n mod 2 ^ 32) off 0.
Proof.
  exists (hex_byte (low_byte (N.shiftr n 24)) ++ hex_byte (low_byte (N.shiftr n 16)) ++ hex_byte (low_byte (N.shiftr n 8)) ++ hex_byte (low_byte n)). split.
  - unfold hex_offset. rewrite <- !app_assoc. reflexivity.
  - split; [reflexivity|]. rewrite !hex_value, <- (app_nil_r (hex_byte (low_byte n))), hex_value. cbn [hexadecimal]. rewrite !low_byte_N, !N.shiftr_div_pow2.
    change (2 ^ 24)%N with (256 * 256 * 256)%N. change (2 ^ 16)%N with (256 * 256)%N. change (2 ^ 8)%N with 256%N. change (2 ^ 32)%N with 4294967296%N.
    rewrite <- !N.div_div by lia. pose proof (N.div_mod' n 256) as E0. pose proof (N.div_mod' (n / 256) 256) as E1. pose proof (N.div_mod' (n / 256 / 256) 256) as E2.
    pose proof (N.div_mod' (n / 256 / 256 / 256) 256) as E3. pose proof (N.mod_lt n 256 ltac:(lia)). pose proof (N.mod_lt (n / 256) 256 ltac:(lia)).
    pose proof (N.mod_lt (n / 256 / 256) 256 ltac:(lia)). pose proof (N.mod_lt (n / 256 / 256 / 256) 256 ltac:(lia)).
    revert E0 E1 E2 E3 H H0 H1 H2. generalize (n mod 256)%N ((n / 256) mod 256)%N ((n / 256 / 256) mod 256)%N ((n / 256 / 256 / 256) mod 256)%N (n / 256 / 256 / 256 / 256)%N.
    generalize (n / 256 / 256 / 256)%N. generalize (n / 256 / 256)%N. generalize (n / 256)%N. intros q1 q2 q3 b0 b1 b2 b3 q4 E0 E1 E2 E3 L0 L1 L2 L3.
    apply (N.mod_unique _ _ q4); lia.
Qed.
Lemma toChar_shown c : toChar c = shown c.
Proof. destruct c; reflexivity. Qed.

(** * One line *)
Lemma cell_ok i c : cell_repr i (Some c) (hex_byte c ++ (if Nat.eqb i 7 then text "  " else if Nat.eqb i 15 then text "  " else text " ")).
Proof. exists (hex_byte c). split; [destruct (Nat.eqb i 7), (Nat.eqb i 15); reflexivity|split; [reflexivity|apply hex_byte_repr]]. Qed.
Lemma cell_none i : cell_repr i None (if Nat.eqb i 7 then text "    " else if Nat.eqb i 15 then text "    " else text "   ").
Proof. exists [" "; " "]%byte. split; [destruct (Nat.eqb i 7), (Nat.eqb i 15); reflexivity|split; reflexivity]. Qed.
(** the cells of a part of a line *)
Inductive part (chunk : bytes) : nat -> nat -> bytes -> Prop :=
| part_end i : part chunk i i []
| part_next i j l l' : (i < 16)%nat -> cell_repr i (nth_error chunk i) l -> part chunk (S i) j l' -> part chunk i j (l ++ l').
Lemma part_snoc chunk i j l : part chunk i j l -> forall l', (j < 16)%nat -> cell_repr j (nth_error chunk j) l' -> part chunk i (S j) (l ++ l').
Proof.
  induction 1 as [i|i j l1 l2 I C H IH]; intros l' J C'.
  - cbn [app]. rewrite <- (app_nil_r l'). apply part_next; [exact J|exact C'|constructor].
  - rewrite <- app_assoc. apply part_next; [exact I|exact C|]. apply IH; assumption.
Qed.
Lemma part_cells chunk i j l : part chunk i j l -> forall l', cells_repr chunk j l' -> cells_repr chunk i (l ++ l').
Proof. induction 1 as [i|i j l1 l2 I C H IH]; intros l' D; [exact D|]. rewrite <- app_assoc. constructor; auto. Qed.
Lemma part_ext chunk chunk' i j l : part chunk i j l -> (forall k, (k < j)%nat -> nth_error chunk k = nth_error chunk' k) -> (i <= j)%nat -> part chunk' i j l.
Proof.
  induction 1 as [i|i j l1 l2 I C H IH]; intros E L; [constructor|]. assert (S i <= j)%nat by (clear - H; induction H; lia). constructor; [exact I|rewrite <- E by lia; exact C|apply IH; assumption].
Qed.
Lemma pad_cells chunk : forall k i, (i + k = 16)%nat -> (length chunk <= i)%nat -> (0 < k)%nat -> exists l, dump_pad k i = l ++ ["|"%byte] /\ cells_repr chunk i l.
Proof.
  induction k as [|k IH]; intros i E L K; [lia|]. cbn [dump_pad]. pose proof (cell_none i) as C. replace None with (nth_error chunk i) in C by (apply nth_error_None; exact L).
  destruct k as [|k].
  - assert (i = 15)%nat as -> by lia. cbn [dump_pad Nat.eqb] in *. exists (text "    "). split; [reflexivity|]. rewrite <- (app_nil_r (text "    ")). constructor; [lia|exact C|constructor].
  - destruct (IH (S i) ltac:(lia) ltac:(lia) ltac:(lia)) as (l & -> & D). replace (Nat.eqb i 15) with false in * by (symmetry; apply Nat.eqb_neq; lia).
    eexists. split; [apply app_assoc|]. constructor; [lia|exact C|exact D].
Qed.
(** the dumper within a line that began at offset [off], having printed [done], all of [chunk] *)
Record within_line (off : N) (before chunk : bytes) (h : dumper) : Prop := {
  w_used : d_used h = length chunk; w_short : (0 < length chunk < 16)%nat; w_n : d_n h = (off + N.of_nat (length chunk))%N;
  w_right : d_right h = map shown chunk;
  w_out : exists o cells, d_out h = before ++ o ++ [" "; " "]%byte ++ cells /\ length o = 8%nat /\ hexadecimal (off mod 2 ^ 32) o 0 /\ part chunk 0 (length chunk) cells }.
Lemma first_byte off before c : within_line off before [c] (dump_byte (Dumper 0 off [] before) c).
Proof.
  unfold dump_byte. cbn [d_used d_n d_right d_out Nat.eqb]. destruct (offset_repr off) as (o & E & L & V). rewrite E. split; cbn [d_used d_n d_right d_out length map app]; try lia; try reflexivity.
  - now rewrite toChar_shown.
  - exists o, (hex_byte c ++ text " "). rewrite <- !app_assoc. split; [reflexivity|split; [exact L|split; [exact V|]]].
    rewrite <- (app_nil_r (hex_byte c ++ text " ")). apply part_next; [lia|exact (cell_ok 0 c)|constructor].
Qed.
Lemma next_byte off before chunk h c : within_line off before chunk h ->
  let h' := dump_byte h c in
  if Nat.eqb (length chunk) 15 then exists l, h' = Dumper 0 (off + 16) [] (before ++ l) /\ line_repr off (chunk ++ [c]) l
  else within_line off before (chunk ++ [c]) h'.
Proof.
  intros [U Sh N R (o & cells & O & L & V & P)]. cbn zeta. unfold dump_byte. rewrite U, N, R, O. replace (Nat.eqb (length chunk) 0) with false by (symmetry; apply Nat.eqb_neq; lia). cbn [app].
  assert (part (chunk ++ [c]) 0 (length chunk) cells) as P' by (eapply part_ext; [exact P|intros k K; now rewrite nth_error_app1|lia]).
  assert (nth_error (chunk ++ [c]) (length chunk) = Some c) as Z by (rewrite nth_error_app2, Nat.sub_diag; [reflexivity|lia]).
  pose proof (cell_ok (length chunk) c) as C. rewrite <- Z in C. destruct (Nat.eqb (length chunk) 15) eqn:E.
  - apply Nat.eqb_eq in E. rewrite E in *. cbn [Nat.eqb] in *. eexists. split.
    + f_equal; [lia|]. rewrite <- !app_assoc. reflexivity.
    + exists o, (cells ++ hex_byte c ++ text "  "). split; [exact L|split; [exact V|split]].
      * rewrite <- (app_nil_r (cells ++ hex_byte c ++ text "  ")). apply (part_cells _ 0 16); [|constructor]. apply part_snoc; [exact P'|lia|exact C].
      * rewrite map_app, toChar_shown. cbn [map]. rewrite <- !app_assoc. reflexivity.
  - apply Nat.eqb_neq in E. replace (Nat.eqb (S (length chunk)) 16) with false by (symmetry; apply Nat.eqb_neq; lia).
    split; cbn [d_used d_n d_right d_out]; rewrite ?app_length; cbn [length]; try lia.
    + rewrite map_app, toChar_shown. reflexivity.
    + exists o, (cells ++ hex_byte c ++ (if Nat.eqb (length chunk) 7 then text "  " else text " ")). rewrite <- !app_assoc. split; [reflexivity|split; [exact L|split; [exact V|]]].
      rewrite Nat.add_1_r. apply part_snoc; [exact P'|lia|exact C].
Qed.
Lemma close_line off before chunk h : within_line off before chunk h -> exists l, dump_close h = before ++ l /\ line_repr off chunk l.
Proof.
  intros [U Sh N R (o & cells & O & L & V & P)]. unfold dump_close. rewrite U, R, O. replace (Nat.eqb (length chunk) 0) with false by (symmetry; apply Nat.eqb_neq; lia).
  destruct (pad_cells chunk (16 - length chunk) (length chunk) ltac:(lia) (le_n _) ltac:(lia)) as (l & -> & D). eexists. split; [rewrite <- !app_assoc; reflexivity|].
  exists o, (cells ++ l). split; [exact L|split; [exact V|split; [eapply part_cells; eassumption|]]]. rewrite <- !app_assoc. reflexivity.
Qed.

(** * All lines *)
Lemma dump_lines : forall data,
  (forall off before, exists l, (match data with [] => before | _ => dump_close (fold_left dump_byte data (Dumper 0 off [] before)) end) = before ++ l /\ dump_repr off data l) /\
  (forall off before chunk h, within_line off before chunk h -> exists l, dump_close (fold_left dump_byte data h) = before ++ l /\ dump_repr off (chunk ++ data) l).
Proof.
  induction data as [|c data [IH1 IH2]].
  - split.
    + intros off before. exists []. split; [now rewrite app_nil_r|constructor].
    + intros off before chunk h W. destruct (close_line _ _ _ _ W) as (l & E & L). exists l. split; [exact E|]. rewrite app_nil_r. constructor; [apply (w_short _ _ _ _ W)|exact L].
  - split.
    + intros off before. apply (IH2 off before [c] _ (first_byte off before c)).
    + intros off before chunk h W. cbn [fold_left]. pose proof (next_byte off before chunk h c W) as X. cbn zeta in X. destruct (Nat.eqb (length chunk) 15) eqn:E.
      * apply Nat.eqb_eq in E. destruct X as (l & -> & L). destruct (IH1 (off + 16)%N (before ++ l)) as (l' & Q & D). exists (l ++ l'). replace (chunk ++ c :: data) with ((chunk ++ [c]) ++ data) by (rewrite <- app_assoc; reflexivity). split.
        -- rewrite app_assoc, <- Q. destruct data; reflexivity.
        -- apply dump_line; [rewrite app_length, E; reflexivity|exact L|exact D].
      * destruct (IH2 off before (chunk ++ [c]) _ X) as (l & Q & D). exists l. split; [exact Q|]. rewrite <- app_assoc in D. exact D.
Qed.
Lemma Dump_ok data : dump_repr 0 data (Dump data).
Proof. destruct (proj1 (dump_lines data) 0%N []) as (l & E & D). unfold Dump. rewrite E. exact D. Qed.

(** * The bytes can be read off the dump *)
Lemma hexadecimal_inj n n' l : forall acc, hexadecimal n l acc -> hexadecimal n' l acc -> n = n'.
Proof. induction l as [|c l IH]; intros acc A B; cbn in *; [congruence|]. destruct (digit c); [eauto|contradiction]. Qed.
Lemma app_same_length {A} (a b : list A) : forall c d, length a = length b -> a ++ c = b ++ d -> a = b /\ c = d.
Proof.
  revert b. induction a as [|x a IH]; intros [|y b] c d L E; try discriminate L; [auto|]. injection L as L. injection E as -> E. destruct (IH b c d L E) as [-> ->]. auto.
Qed.
Lemma cell_inj i c c' l l' t t' : cell_repr i c l -> cell_repr i c' l' -> l ++ t = l' ++ t' -> c = c' /\ t = t'.
Proof.
  intros (x & -> & L & V) (x' & -> & L' & V') E. rewrite <- !app_assoc in E. apply app_same_length in E; [|congruence]. destruct E as [<- E]. apply app_same_length in E; [|reflexivity]. destruct E as [_ <-].
  split; [|reflexivity]. destruct c as [c|], c' as [c'|]; [|subst x; vm_compute in V; contradiction|subst x; vm_compute in V'; contradiction|reflexivity].
  pose proof (hexadecimal_inj _ _ _ _ V V') as Q. f_equal. apply (f_equal Byte.of_N) in Q. rewrite !Byte.of_to_N in Q. congruence.
Qed.
Lemma cells_inj chunk chunk' i l : cells_repr chunk i l -> forall l' t t', cells_repr chunk' i l' -> l ++ t = l' ++ t' ->
  (forall k, (i <= k < 16)%nat -> nth_error chunk k = nth_error chunk' k) /\ t = t'.
Proof.
  induction 1 as [|i l1 l2 I C H IH]; intros l' t t' D E.
  - inversion D as [|? ? ? I]; [subst; split; [lia|exact E]|lia].
  - inversion D as [|? l1' l2' I' C' D']; [lia|subst]. rewrite <- !app_assoc in E. destruct (cell_inj _ _ _ _ _ _ _ C C' E) as [N T]. destruct (IH _ _ _ D' T) as [K U]. split; [|exact U].
    intros k B. destruct (Nat.eq_dec i k) as [<-|]; [exact N|apply K; lia].
Qed.
Lemma list_ext {A} (l : list A) : forall m, (length l <= 16)%nat -> (length m <= 16)%nat -> (forall k, (k < 16)%nat -> nth_error l k = nth_error m k) -> l = m.
Proof.
  assert (forall n (l m : list A), (length l <= n)%nat -> (length m <= n)%nat -> (forall k, (k < n)%nat -> nth_error l k = nth_error m k) -> l = m) as G.
  { clear. induction n as [|n IH]; intros l m L M E; [destruct l, m; cbn in *; try lia; reflexivity|]. pose proof (E 0%nat ltac:(lia)) as Z. destruct l as [|x l], m as [|y m]; cbn in *; try discriminate; [reflexivity|].
    injection Z as ->. f_equal. apply IH; try lia. intros k K. apply (E (S k)). lia. }
  intros m L M E. exact (G 16%nat l m L M E).
Qed.
Lemma line_inj off c c' l l' t t' : line_repr off c l -> line_repr off c' l' -> (length c <= 16)%nat -> (length c' <= 16)%nat -> l ++ t = l' ++ t' -> c = c' /\ t = t'.
Proof.
  intros (o & cells & L & V & C & ->) (o' & cells' & L' & V' & C' & ->) M M' E. rewrite <- !app_assoc in E.
  apply app_same_length in E; [|congruence]. destruct E as [_ E]. apply app_same_length in E; [|reflexivity]. destruct E as [_ E].
  destruct (cells_inj _ _ _ _ C _ _ _ C' E) as [K T]. assert (c = c') as <- by (apply list_ext; auto; intros k B; apply K; lia). split; [reflexivity|].
  apply app_same_length in T; [|reflexivity]. destruct T as [_ T]. apply app_same_length in T; [|reflexivity]. destruct T as [_ T]. apply app_same_length in T; [|reflexivity]. apply T.
Qed.
Lemma line_nonempty off c l : line_repr off c l -> l <> [].
Proof. intros (o & cells & L & _ & _ & ->). destruct o; discriminate. Qed.
Lemma dump_inj off a l : dump_repr off a l -> forall b, dump_repr off b l -> a = b.
Proof.
  induction 1 as [off|off c l N L|off c l data rest N L D IH]; intros b B; inversion B as [o1|o1 c' l' N' L'|o1 c' l' data' rest' N' L' D']; subst.
  - reflexivity.
  - exfalso. eapply line_nonempty; [eassumption|reflexivity].
  - exfalso. eapply line_nonempty; [exact L'|]. destruct l'; [reflexivity|discriminate].
  - exfalso. eapply line_nonempty; [eassumption|reflexivity].
  - apply (line_inj off c b l l [] []); auto; lia.
  - exfalso. destruct (line_inj off c c' (l' ++ rest') l' [] rest' L L' ltac:(lia) ltac:(lia) (app_nil_r _)) as [<- _]. lia.
  - exfalso. eapply line_nonempty; [exact L|]. destruct l; [reflexivity|discriminate].
  - exfalso. destruct (line_inj off c b l (l ++ rest) rest [] L L' ltac:(lia) ltac:(lia) (eq_sym (app_nil_r _))) as [<- _]. lia.
  - assert (l ++ rest = l' ++ rest') as E by (symmetry; assumption). destruct (line_inj off c c' l l' rest rest' L L' ltac:(lia) ltac:(lia) E) as [<- <-]. f_equal. apply IH. exact D'.
Qed.

(** * The header *)
Lemma uint_digits d : forall acc, decimal_repr (Nat.of_uint_acc d acc) (text (NilEmpty.string_of_uint d)) acc.
Proof.
  induction d as [|d IH|d IH|d IH|d IH|d IH|d IH|d IH|d IH|d IH|d IH]; intros acc; cbn [NilEmpty.string_of_uint text decimal_repr Nat.of_uint_acc]; [reflexivity|..].
  all: rewrite Nat.tail_mul_spec; split; [vm_compute; discriminate|].
  all: match goal with |- decimal_repr (Nat.of_uint_acc _ ?a) _ ?b => replace b with a; [apply IH|] end.
  all: match goal with |- context [N.to_nat ?x] => let v := eval vm_compute in (N.to_nat x) in change (N.to_nat x) with v end; lia.
Qed.
Lemma decimal_ok n : decimal_repr n (decimal n) 0 /\ decimal n <> [].
Proof.
  unfold decimal. pose proof (Unsigned.of_to n) as E. pose proof (uint_digits (Nat.to_uint n) 0) as H. unfold Nat.of_uint in E. rewrite E in H.
  destruct (Nat.to_uint n) eqn:U; cbn [NilZero.string_of_uint]; [cbn in E; subst n; split; [cbn; split; [lia|reflexivity]|discriminate]|..]; (split; [exact H|discriminate]).
Qed.
Lemma digit_printable c d : digit c = Some d -> (32 <= Byte.to_N c < 127)%N.
Proof. unfold digit. destruct ((48 <=? Byte.to_N c) && (Byte.to_N c <=? 57))%N eqn:A; [intros _; lia|]. destruct ((97 <=? Byte.to_N c) && (Byte.to_N c <=? 102))%N eqn:B; [intros _; lia|discriminate]. Qed.
Lemma decimal_printable n l : forall acc, decimal_repr n l acc -> Forall (fun c => (32 <= Byte.to_N c < 127)%N) l.
Proof. induction l as [|c l IH]; intros acc H; [constructor|]. cbn in H. destruct (digit c) eqn:D; [|contradiction]. constructor; [eapply digit_printable; exact D|eapply IH; apply H]. Qed.
Lemma hexadecimal_printable n l : forall acc, hexadecimal n l acc -> Forall printable l.
Proof. induction l as [|c l IH]; intros acc H; [constructor|]. cbn in H. destruct (digit c) eqn:D; [|contradiction]. constructor; [left; eapply digit_printable; exact D|eapply IH; exact H]. Qed.
Lemma space_printable : printable " ".
Proof. left. vm_compute. split; [discriminate|reflexivity]. Qed.
Lemma bar_printable : printable "|".
Proof. left. vm_compute. split; [discriminate|reflexivity]. Qed.
Lemma cells_printable chunk i l : cells_repr chunk i l -> Forall printable l.
Proof.
  pose proof space_printable as SP. induction 1 as [|i l1 l2 I (x & -> & L & V) H IH]; [constructor|]. apply Forall_app. split; [|exact IH]. apply Forall_app. split.
  - destruct (nth_error chunk i); [eapply hexadecimal_printable; exact V|subst x; auto].
  - destruct (_ || _)%bool; auto.
Qed.
Lemma shown_printable c : printable (shown c).
Proof. unfold shown. destruct ((32 <=? Byte.to_N c) && (Byte.to_N c <? 127))%N eqn:E; left; [lia|vm_compute; split; [discriminate|reflexivity]]. Qed.
Lemma dump_printable off a l : dump_repr off a l -> Forall printable l.
Proof.
  assert (forall off c l, line_repr off c l -> Forall printable l) as P.
  { intros o c k (x & cells & L & V & C & ->). pose proof space_printable. pose proof bar_printable. repeat (apply Forall_app; split); auto.
    - eapply hexadecimal_printable; exact V.
    - eapply cells_printable; exact C.
    - apply Forall_forall. intros y Y. apply in_map_iff in Y as (z & <- & _). apply shown_printable.
    - constructor; [assumption|constructor; [right; reflexivity|constructor]]. }
  induction 1 as [off|off c l N L|off c l data rest N L D IH]; [constructor|eauto|]. apply Forall_app. split; [eauto|exact IH].
Qed.
Lemma Inspect_printable b : Forall printable (Inspect b).
Proof.
  unfold Inspect. apply Forall_app. split; [|apply Forall_app; split; [|apply Forall_app; split]].
  - apply Forall_forall. intros c H. left. vm_compute in H. repeat (destruct H as [<-|H]; [vm_compute; split; [discriminate|reflexivity]|]). contradiction.
  - eapply Forall_impl; [|eapply decimal_printable; apply (decimal_ok (length b))]. intros c H. left. exact H.
  - constructor; [right; reflexivity|constructor].
  - eapply dump_printable. apply Dump_ok.
Qed.
Lemma split_at (c : byte) a : forall b x y, ~ In c a -> ~ In c b -> a ++ c :: x = b ++ c :: y -> a = b /\ x = y.
Proof.
  induction a as [|p a IH]; intros [|q b] x y A B E; cbn in E.
  - injection E as ->. auto.
  - injection E as -> _. exfalso. apply B. left. reflexivity.
  - injection E as -> _. exfalso. apply A. left. reflexivity.
  - injection E as -> E. destruct (IH b x y) as [-> ->]; auto; intros I; [apply A|apply B]; right; exact I.
Qed.
Lemma Inspect_inj a b : Inspect a = Inspect b -> a = b.
Proof.
  intros E. unfold Inspect in E. apply app_same_length in E; [|reflexivity]. destruct E as [_ E]. cbn [app] in E.
  assert (forall n, ~ In x0a (decimal n)) as N.
  { intros n I. pose proof (decimal_printable _ _ _ (proj1 (decimal_ok n))) as F. rewrite Forall_forall in F. specialize (F _ I). vm_compute in F. destruct F as [F _]. apply F. reflexivity. }
  apply split_at in E; [|apply N..]. destruct E as [_ E]. pose proof (Dump_ok a) as A. rewrite E in A. exact (dump_inj _ _ _ A _ (Dump_ok b)).
Qed.
