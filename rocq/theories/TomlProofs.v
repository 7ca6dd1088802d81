(** Proofs about the model of the configuration file: the lexer and parser accept exactly the documents of the
    grammar of SpecToml.v. *)
From Coq Require Import Permutation.
From Verif Require Import GoBase Config BufferProofs NetUrl SpecUri NetUrlProofs Toml SpecToml.
Local Notation between := NetUrl.between.

Ltac Zify.zify_post_hook ::= Z.to_euclidean_division_equations.

(** * Characters *)

Lemma ws_spec c : isWhitespace c = true <-> blank c.
Proof. unfold isWhitespace, blank. destruct (byte_eqb_spec c x09), (byte_eqb_spec c " "); cbn; split; intros H; subst; try discriminate; auto; destruct H; congruence. Qed.
Lemma nl_spec c : isNL c = true <-> newline c.
Proof. unfold isNL, newline. destruct (byte_eqb_spec c x0a), (byte_eqb_spec c x0d); cbn; split; intros H; subst; try discriminate; auto; destruct H; congruence. Qed.
Lemma bare_spec c : isBareKeyChar c = true <-> bare c.
Proof.
  unfold isBareKeyChar, bare. rewrite !orb_true_iff, is_letter_spec, is_digit_spec. destruct (byte_eqb_spec c "_"), (byte_eqb_spec c "-"); intuition congruence.
Qed.
Lemma printable_spec c : byte_eqb c x00 || isNL c = false <-> printable c.
Proof.
  unfold printable. rewrite orb_false_iff, <- nl_spec. destruct (byte_eqb_spec c x00), (isNL c); intuition congruence.
Qed.
Lemma quote_spec c : isQuote c = true <-> c = """"%byte \/ c = "'"%byte.
Proof. unfold isQuote. destruct (byte_eqb_spec c """"), (byte_eqb_spec c "'"); cbn; intuition congruence. Qed.

(** * Unicode *)

Lemma byte_value z b : Z_of_byte b = z -> b = byte_of_Z z.
Proof. intros <-. now rewrite byte_of_Z_of_byte. Qed.
Lemma value_byte z : 0 <= z < 256 -> Z_of_byte (byte_of_Z z) = z.
Proof. intros R. rewrite Z_of_byte_of_Z. now apply Z.mod_small. Qed.
Lemma utf8_fun n u u' : utf8 n u -> utf8 n u' -> u = u'.
Proof.
  intros A B. destruct A; inversion B; subst; try lia; repeat f_equal; apply Z_of_byte_inj; congruence.
Qed.
Lemma encode_utf8 n : 0 <= n <= 1114111 -> utf8 n (encode_rune n).
Proof.
  intros R. unfold encode_rune. destruct (Z.ltb_spec n 128); [|destruct (Z.ltb_spec n 2048); [|destruct (Z.ltb_spec n 65536)]]; constructor; try lia; apply value_byte; lia.
Qed.
Lemma utf8_high n u : utf8 n u -> 128 <= n -> Forall (fun c => 128 <= Z_of_byte c) u.
Proof. intros A R. destruct A; try lia; repeat constructor; lia. Qed.

Lemma rune_width_sound s w : rune_width s = S w ->
  exists n u r, 128 <= n /\ character n /\ utf8 n u /\ s = u ++ r /\ length u = S w.
Proof.
  unfold rune_width. destruct s as [|a [|b r]]; [discriminate|discriminate|].
  destruct (between 194 223 a) eqn:A.
  - destruct (between 128 191 b) eqn:B; [intros [= <-]|discriminate]. apply between_spec in A, B.
    exists ((Z_of_byte a - 192) * 64 + (Z_of_byte b - 128)), [a; b], r.
    split; [lia|]. split; [unfold character; lia|]. split; [constructor; lia|split; reflexivity].
  - destruct r as [|c r]; [discriminate|]. destruct (between 224 239 a) eqn:A'.
    + destruct (between 128 191 c) eqn:C; [|rewrite andb_false_r; discriminate]. apply between_spec in A', C.
      destruct (if Z_of_byte a =? 224 then between 160 191 b else if Z_of_byte a =? 237 then between 128 159 b else between 128 191 b) eqn:B; [intros [= <-]|discriminate].
      exists ((Z_of_byte a - 224) * 4096 + (Z_of_byte b - 128) * 64 + (Z_of_byte c - 128)), [a; b; c], r.
      destruct (Z.eqb_spec (Z_of_byte a) 224) as [E|E]; [|destruct (Z.eqb_spec (Z_of_byte a) 237) as [E'|E']]; apply between_spec in B;
      (split; [lia|split; [unfold character; lia|split; [constructor; lia|split; reflexivity]]]).
    + destruct r as [|d r]; [discriminate|].
      destruct (between 128 191 d) eqn:D; [|rewrite andb_false_r; discriminate]. destruct (between 128 191 c) eqn:C; [|rewrite andb_false_r; discriminate].
      destruct (between 240 244 a) eqn:A''; [|discriminate]. apply between_spec in A'', C, D. cbn [andb].
      destruct (if Z_of_byte a =? 240 then between 144 191 b else if Z_of_byte a =? 244 then between 128 143 b else between 128 191 b) eqn:B; [intros [= <-]|discriminate].
      exists ((Z_of_byte a - 240) * 262144 + (Z_of_byte b - 128) * 4096 + (Z_of_byte c - 128) * 64 + (Z_of_byte d - 128)), [a; b; c; d], r.
      destruct (Z.eqb_spec (Z_of_byte a) 240) as [E|E]; [|destruct (Z.eqb_spec (Z_of_byte a) 244) as [E'|E']]; apply between_spec in B;
      (split; [lia|split; [unfold character; lia|split; [constructor; lia|split; reflexivity]]]).
Qed.
Lemma between_true lo hi c : lo <= Z_of_byte c <= hi -> between lo hi c = true.
Proof. apply between_spec. Qed.
Lemma between_false lo hi c : ~ lo <= Z_of_byte c <= hi -> between lo hi c = false.
Proof. rewrite <- between_spec. now destruct (between lo hi c). Qed.
Lemma rune_width_complete n u r : 128 <= n -> character n -> utf8 n u -> rune_width (u ++ r) = length u.
Proof.
  intros R C U. unfold character in C. destruct U as [|n a b R' Ea Eb|n a b c R' Ea Eb Ec|n a b c d R' Ea Eb Ec Ed]; [lia|..]; cbn [app length].
  - unfold rune_width. now rewrite !between_true by lia.
  - unfold rune_width. rewrite (between_false 194 223), (between_true 224 239), (between_true 128 191 c) by lia. rewrite andb_true_r.
    destruct (Z.eqb_spec (Z_of_byte a) 224) as [E|E]; [|destruct (Z.eqb_spec (Z_of_byte a) 237) as [E'|E']]; now rewrite between_true by lia.
  - unfold rune_width. rewrite (between_false 194 223), (between_false 224 239), (between_true 240 244), (between_true 128 191 c), (between_true 128 191 d) by lia. rewrite !andb_true_r. cbn [andb].
    destruct (Z.eqb_spec (Z_of_byte a) 240) as [E|E]; [|destruct (Z.eqb_spec (Z_of_byte a) 244) as [E'|E']]; now rewrite between_true by lia.
Qed.

(** * Strings *)

(** the bytes the lexer takes for a string without ending it *)
Fixpoint scan (esc : bool) (s : bytes) : bool :=
  match s with
  | [] => negb esc
  | c :: r =>
      if byte_eqb c x00 || isNL c then false
      else if esc then scan false r
      else if byte_eqb c "\" then scan true r
      else if byte_eqb c """" then false
      else scan false r
  end.

Lemma hexadecimal_app s n s' : hexadecimal n (s ++ s') = match hexadecimal n s with Some m => hexadecimal m s' | None => None end.
Proof. revert n. induction s as [|c s IH]; intros n; cbn; [reflexivity|]. destruct (unhex c); [apply IH|reflexivity]. Qed.
Lemma hexadecimal_spec s n : hexadecimal 0 s = Some n <-> hex_number s n.
Proof.
  split.
  - revert n. induction s as [|c s IH] using rev_ind; intros n; cbn; [intros [= <-]; constructor|]. rewrite hexadecimal_app. cbn.
    destruct (hexadecimal 0 s) as [m|]; [|discriminate]. destruct (unhex c) as [v|] eqn:U; [intros [= <-]|discriminate].
    constructor; [now apply IH|now apply unhex_spec].
  - induction 1 as [|s n c v _ IH V]; [reflexivity|]. rewrite hexadecimal_app, IH. cbn. apply unhex_spec in V. now rewrite V.
Qed.
Lemma hex_positive s n : hex_number s n -> 0 <= n.
Proof. induction 1 as [|s n c v _ IH V]; [lia|]. apply hex_range in V. lia. Qed.
Lemma valid_rune n : 0 <= n -> ValidRune n = true <-> character n.
Proof. intros P. unfold ValidRune, character. rewrite orb_true_iff, andb_true_iff, !Z.ltb_lt, Z.leb_le. lia. Qed.
Lemma character_range n : character n -> 0 <= n <= 1114111.
Proof. unfold character. lia. Qed.
Lemma unicode_spec d u : asciiEscapeToUnicode d = Some u <-> exists n, hex_number d n /\ character n /\ utf8 n u.
Proof.
  unfold asciiEscapeToUnicode. destruct (hexadecimal 0 d) as [n|] eqn:H.
  - apply hexadecimal_spec in H. pose proof (hex_positive _ _ H) as P. destruct (ValidRune n) eqn:V.
    + apply (valid_rune n P) in V. pose proof (encode_utf8 n (character_range n V)) as U. split.
      * intros [= <-]. eauto.
      * intros (m & M & C & U'). f_equal. assert (m = n) as -> by (apply hexadecimal_spec in H, M; congruence). eapply utf8_fun; eauto.
    + split; [discriminate|]. intros (m & M & C & U'). assert (m = n) as -> by (apply hexadecimal_spec in H, M; congruence). apply (valid_rune n P) in C. congruence.
  - split; [discriminate|]. intros (m & M & _). apply hexadecimal_spec in M. congruence.
Qed.
Lemma escaped_spec e b : escaped e = Some b <-> short_escape e (Z_of_byte b).
Proof.
  unfold escaped. split.
  - repeat match goal with |- context [byte_eqb e ?x] => destruct (byte_eqb_spec e x) as [->|?]; [intros [= <-]; constructor|] end. discriminate.
  - intros H. inversion H as [A B|A B|A B|A B|A B|A B|A B]; cbn; f_equal; apply Z_of_byte_inj; rewrite <- B; reflexivity.
Qed.
Lemma short_ascii e n : short_escape e n -> 0 <= n < 128 /\ exists b, n = Z_of_byte b.
Proof. intros H. split; [destruct H; lia|]. exists (byte_of_Z n). rewrite value_byte; [reflexivity|]. destruct H; lia. Qed.

Lemma replace_copy u r : replaceEscapes (length u) (u ++ r) = option_map (app u) (replaceEscapes 0 r).
Proof.
  induction u as [|c u IH]; cbn; [now destruct (replaceEscapes 0 r)|]. rewrite IH. now destruct (replaceEscapes 0 r).
Qed.
Lemma replace_high c s : 128 <= Z_of_byte c -> replaceEscapes 0 (c :: s) =
  match rune_width (c :: s) with O => option_map (app rune_error) (replaceEscapes 0 s) | S w => option_map (cons c) (replaceEscapes w s) end.
Proof.
  intros H. change (replaceEscapes 0 (c :: s)) with
    (if byte_eqb c "\" then match s with [] => None | e :: r1 => match escaped e with Some b => option_map (cons b) (replaceEscapes 0 r1) | None =>
       match r1 with a1 :: a2 :: a3 :: a4 :: r2 => if byte_eqb e "u" then match asciiEscapeToUnicode [a1; a2; a3; a4] with Some u => option_map (app u) (replaceEscapes 0 r2) | None => None end
         else if byte_eqb e "U" then match r2 with a5 :: a6 :: a7 :: a8 :: r3 => match asciiEscapeToUnicode [a1; a2; a3; a4; a5; a6; a7; a8] with Some u => option_map (app u) (replaceEscapes 0 r3) | None => None end | _ => None end else None
       | _ => None end end end
     else if Z_of_byte c <? 128 then option_map (cons c) (replaceEscapes 0 s)
     else match rune_width (c :: s) with O => option_map (app rune_error) (replaceEscapes 0 s) | S w => option_map (cons c) (replaceEscapes w s) end).
  rewrite byte_eqb_neq by (intros ->; cbv in H; lia). destruct (Z.ltb_spec (Z_of_byte c) 128); [lia|reflexivity].
Qed.
Lemma replace_escape e r1 : replaceEscapes 0 ("\"%byte :: e :: r1) =
  match escaped e with
  | Some b => option_map (cons b) (replaceEscapes 0 r1)
  | None =>
      match r1 with
      | a1 :: a2 :: a3 :: a4 :: r2 =>
          if byte_eqb e "u" then match asciiEscapeToUnicode [a1; a2; a3; a4] with Some u => option_map (app u) (replaceEscapes 0 r2) | None => None end
          else if byte_eqb e "U" then
            match r2 with
            | a5 :: a6 :: a7 :: a8 :: r3 => match asciiEscapeToUnicode [a1; a2; a3; a4; a5; a6; a7; a8] with Some u => option_map (app u) (replaceEscapes 0 r3) | None => None end
            | _ => None
            end
          else None
      | _ => None
      end
  end.
Proof. reflexivity. Qed.
Lemma high_printable c : 128 <= Z_of_byte c -> printable c /\ c <> """"%byte /\ c <> "\"%byte.
Proof.
  intros H. unfold printable, newline. repeat split; try intros [E|E]; try intros E; subst; cbv in H; lia.
Qed.
Lemma scan_high u s : Forall (fun c => 128 <= Z_of_byte c) u -> scan false (u ++ s) = scan false s.
Proof.
  induction 1 as [|c u H _ IH]; [reflexivity|]. cbn [app scan]. destruct (high_printable c H) as (P & Q & B). apply printable_spec in P.
  now rewrite P, !byte_eqb_neq.
Qed.
Lemma scan_plain esc c s : printable c -> esc = true \/ c <> """"%byte /\ c <> "\"%byte -> scan esc (c :: s) = scan false s.
Proof. intros P H. cbn [scan]. apply printable_spec in P. rewrite P. destruct H as [->|[Q B]]; [reflexivity|]. destruct esc; [reflexivity|]. now rewrite !byte_eqb_neq. Qed.
Lemma hex_plain c v : hex_digit c v -> printable c /\ c <> """"%byte /\ c <> "\"%byte.
Proof.
  intros H. unfold hex_digit in H. unfold printable, newline. repeat split; try intros [E|E]; try intros E; subst; cbv [Z_of_byte Byte.to_N Z.of_N] in H; lia.
Qed.
Lemma scan_hex d n s : hex_number d n -> scan false (d ++ s) = scan false s.
Proof.
  intros H. revert s. induction H as [|d n c v _ IH V]; intros s; [reflexivity|]. rewrite <- app_assoc, IH. cbn [app]. apply scan_plain; [|right]; apply (hex_plain _ _ V).
Qed.

Lemma basic_complete s t : basic_text s t -> scan false s = true /\ replaceEscapes 0 s = Some t.
Proof.
  induction 1 as [|c s t P A Q B H [IH1 IH2]|n u s t N C U H [IH1 IH2]|c s t P J H [IH1 IH2]|e n u s t E U H [IH1 IH2]|d n u s t D N C U H [IH1 IH2]|d n u s t D N C U H [IH1 IH2]].
  - split; reflexivity.
  - rewrite scan_plain by auto. split; [exact IH1|]. cbn [replaceEscapes]. rewrite byte_eqb_neq by exact B. apply Z.ltb_lt in A. rewrite A. now rewrite IH2.
  - rewrite scan_high by (eapply utf8_high; eauto). split; [exact IH1|]. pose proof (rune_width_complete n u s N C U) as W. pose proof (utf8_high n u U N) as G.
    destruct u as [|c u]; [inversion U|]. inversion G as [|? ? G1 _]; subst. change ((c :: u) ++ s) with (c :: (u ++ s)) in *. rewrite (replace_high _ _ G1), W. cbn [length].
    rewrite replace_copy, IH2. reflexivity.
  - destruct (high_printable c P) as (P1 & P2 & P3). rewrite scan_plain by auto. split; [exact IH1|]. rewrite (replace_high _ _ P). destruct (rune_width (c :: s)) as [|w] eqn:W; [now rewrite IH2|].
    destruct (rune_width_sound _ _ W) as (n & u & r & _ & C & U & E & _). now destruct (J n u r C U).
  - destruct (short_ascii _ _ E) as (R & b & ->). pose proof (proj2 (escaped_spec _ _) E) as X.
    assert (printable e) as P by (destruct E; unfold printable, newline; repeat split; try intros [Y|Y]; discriminate).
    split; [cbn [scan]; apply printable_spec in P; rewrite P; exact IH1|]. rewrite replace_escape, X, IH2. inversion U; subst; try lia. cbn. f_equal. f_equal. now apply Z_of_byte_inj.
  - split; [cbn [scan]; now rewrite (scan_hex _ _ _ N)|]. destruct d as [|a1 [|a2 [|a3 [|a4 [|]]]]]; try discriminate. cbn [app]. rewrite replace_escape.
    change (escaped "u") with (@None byte). cbv iota. change (byte_eqb "u" "u") with true. cbv iota. rewrite (proj2 (unicode_spec _ u)) by eauto. now rewrite IH2.
  - split; [cbn [scan]; now rewrite (scan_hex _ _ _ N)|]. destruct d as [|a1 [|a2 [|a3 [|a4 [|a5 [|a6 [|a7 [|a8 [|]]]]]]]]]; try discriminate. cbn [app]. rewrite replace_escape.
    change (escaped "U") with (@None byte). cbv iota. change (byte_eqb "U" "u") with false. change (byte_eqb "U" "U") with true. cbv iota. rewrite (proj2 (unicode_spec _ u)) by eauto. now rewrite IH2.
Qed.
Lemma basic_sound k s t : (length s <= k)%nat -> scan false s = true -> replaceEscapes 0 s = Some t -> basic_text s t.
Proof.
  revert s t. induction k as [|k IH]; intros s t L H R.
  - destruct s; [|cbn in L; lia]. injection R as <-. constructor.
  - destruct s as [|c s]; [injection R as <-; constructor|]. cbn in L.
    destruct (byte_eqb c x00 || isNL c) eqn:P; [cbn [scan] in H; rewrite P in H; discriminate|]. pose proof (proj1 (printable_spec c) P) as P'.
    destruct (byte_eqb_spec c "\") as [->|B].
    + cbn [scan] in H. change (byte_eqb "\" x00 || isNL "\") with false in H. change (byte_eqb "\" "\") with true in H. cbv iota in H.
      destruct s as [|e s]; [discriminate|]. rewrite replace_escape in R.
      cbn [scan] in H. destruct (byte_eqb e x00 || isNL e) eqn:Pe; [discriminate|].
      destruct (escaped e) as [b|] eqn:E.
      * destruct (replaceEscapes 0 s) as [t0|] eqn:R0; [|discriminate]. injection R as <-. apply escaped_spec in E. change (b :: t0) with ([b] ++ t0). eapply bt_escape; [exact E| |apply IH; [cbn in L; lia|exact H|reflexivity || exact R0]].
        constructor; [|reflexivity]. apply short_ascii in E. tauto.
      * destruct s as [|a1 [|a2 [|a3 [|a4 s]]]]; try discriminate. cbn in L. destruct (byte_eqb_spec e "u") as [->|NU].
        -- destruct (asciiEscapeToUnicode [a1; a2; a3; a4]) as [u|] eqn:U; [|discriminate]. destruct (replaceEscapes 0 s) as [t0|] eqn:R0; [|discriminate]. injection R as <-.
           apply unicode_spec in U. destruct U as (n & N & C & U). change (a1 :: a2 :: a3 :: a4 :: s) with ([a1; a2; a3; a4] ++ s) in *. rewrite (scan_hex _ _ _ N) in H.
           eapply bt_short; eauto. apply IH; auto. lia.
        -- destruct (byte_eqb_spec e "U") as [->|NU']; [|discriminate]. destruct s as [|a5 [|a6 [|a7 [|a8 s]]]]; try discriminate. cbn in L.
           destruct (asciiEscapeToUnicode [a1; a2; a3; a4; a5; a6; a7; a8]) as [u|] eqn:U; [|discriminate]. destruct (replaceEscapes 0 s) as [t0|] eqn:R0; [|discriminate]. injection R as <-.
           apply unicode_spec in U. destruct U as (n & N & C & U). change (a1 :: a2 :: a3 :: a4 :: a5 :: a6 :: a7 :: a8 :: s) with ([a1; a2; a3; a4; a5; a6; a7; a8] ++ s) in *. rewrite (scan_hex _ _ _ N) in H.
           eapply bt_long; eauto. apply IH; auto. lia.
    + destruct (byte_eqb_spec c """") as [->|Q]; [cbn [scan] in H; discriminate|].
      rewrite scan_plain in H by auto. destruct (Z.ltb_spec (Z_of_byte c) 128) as [A|A].
      * cbn [replaceEscapes] in R. rewrite byte_eqb_neq in R by exact B. rewrite (proj2 (Z.ltb_lt _ _) A) in R. destruct (replaceEscapes 0 s) as [t0|] eqn:R0; [|discriminate]. injection R as <-.
        constructor; auto. apply IH; auto. lia.
      * rewrite (replace_high _ _ A) in R. destruct (rune_width (c :: s)) as [|w] eqn:W.
        -- destruct (replaceEscapes 0 s) as [t0|] eqn:R0; [|discriminate]. injection R as <-. change (xef :: xbf :: xbd :: t0) with ([xef; xbf; xbd] ++ t0). apply bt_junk; [exact A| |apply IH; auto; lia].
           intros n u r C U E. assert (128 <= n) as N. { destruct U; injection E as -> _; lia. }
           pose proof (rune_width_complete n u r N C U) as X. rewrite <- E, W in X. destruct u; [inversion U|discriminate].
        -- destruct (rune_width_sound _ _ W) as (n & u & r & N & C & U & E & LU). destruct u as [|c' u]; [discriminate|]. injection E as <- ->. injection LU as <-.
           rewrite replace_copy in R. destruct (replaceEscapes 0 r) as [t0|] eqn:R0; [|discriminate]. injection R as <-. change (c :: u ++ r) with ((c :: u) ++ r). change (c :: u ++ t0) with ((c :: u) ++ t0).
           eapply bt_char; eauto. pose proof (utf8_high _ _ U N) as G. inversion G as [|? ? _ G']; subst. rewrite scan_high in H by exact G'. apply IH; auto. rewrite app_length in L. lia.
Qed.
Lemma basic_spec s t : basic_text s t <-> scan false s = true /\ replaceEscapes 0 s = Some t.
Proof. split; [apply basic_complete|]. intros [A B]. exact (basic_sound (length s) s t (le_n _) A B). Qed.

(** * The lexer *)

Notation keys l := (map (@fst bytes value) l).
(** lexer and parser have read [s] *)
Notation lex s x := (fold_left feed s x).

Lemma bytes_eqb_eq a b : bytes_eqb a b = true <-> a = b.
Proof. destruct (bytes_eqb_spec a b); intuition congruence. Qed.
Lemma define_new l k v : ~ In k (keys l) -> define l k v = Going TopEnd (l ++ [(k, v)]).
Proof.
  intros N. unfold define. replace (existsb _ l) with false; [reflexivity|]. symmetry. apply not_true_is_false. intros H. apply existsb_exists in H.
  destruct H as ([k' v'] & I & E). apply bytes_eqb_eq in E. cbn in E. subst. apply N. now apply (in_map fst) in I.
Qed.
Lemma define_cases l k v : define l k v = Failed \/ define l k v = Going TopEnd (l ++ [(k, v)]) /\ ~ In k (keys l).
Proof.
  unfold define. destruct (existsb _ l) eqn:H; [now left|right]. split; [reflexivity|]. intros I. apply in_map_iff in I. destruct I as ([k' v'] & <- & I).
  apply not_true_iff_false in H. apply H. apply existsb_exists. eexists. split; [exact I|]. now apply bytes_eqb_eq.
Qed.
Lemma lex_dead s x : (forall m l, x <> Going m l) -> lex s x = x.
Proof. intros D. induction s as [|c s IH]; [reflexivity|]. cbn. destruct x; try exact IH. now destruct (D m l). Qed.
Lemma lex_failed s : lex s Failed = Failed.
Proof. now apply lex_dead. Qed.
Lemma lex_outside s : lex s Outside = Outside.
Proof. now apply lex_dead. Qed.
Lemma lex_ended s l : lex s (Ended l) = Ended l.
Proof. now apply lex_dead. Qed.

(** ** Every accepted text is a document *)

Definition after_key (k t : bytes) (l : table) : Prop :=
  exists b b' vs v s l', t = b ++ "="%byte :: b' ++ vs ++ s /\ Forall blank b /\ Forall blank b' /\ val vs v /\ rest_of_line s l' /\ l = (k, v) :: l'.
Definition cont (g : target) (v t : bytes) (l : table) : Prop :=
  match g with TKey => after_key v t l | TValue k => exists l', l = (k, VString v) :: l' /\ rest_of_line t l' end.
(** the texts that may follow in each state *)
Definition rest (m : mode) (t : bytes) (l : table) : Prop :=
  match m with
  | Top => document t l
  | Comment => exists x s, t = x ++ s /\ Forall printable x /\ line_end s /\ document s l
  | BareKey k => exists k' s, t = k' ++ s /\ Forall bare k' /\ after_key (k ++ k') s l
  | KeyEnd k => after_key k t l
  | Value k => exists b' vs v s l', t = b' ++ vs ++ s /\ Forall blank b' /\ val vs v /\ rest_of_line s l' /\ l = (k, v) :: l'
  | Quote1 q g =>
      if byte_eqb q """" then exists body s v, t = body ++ """"%byte :: s /\ basic_text body v /\ cont g v s l
      else exists body s, t = body ++ "'"%byte :: s /\ Forall printable body /\ ~ In "'"%byte body /\ cont g body s l
  | Quote2 q g => cont g [] t l
  | Basic g raw esc => exists body s v, t = body ++ """"%byte :: s /\ scan esc body = true /\ replaceEscapes 0 (raw ++ body) = Some v /\ cont g v s l
  | Raw g raw => exists body s, t = body ++ "'"%byte :: s /\ Forall printable body /\ ~ In "'"%byte body /\ cont g (raw ++ body) s l
  | InBool k w => exists w' s v l', t = w' ++ s /\ w ++ w' = (if v : bool then str "true" else str "false") /\ l = (k, VBool v) :: l' /\ rest_of_line s l'
  | InInt k w => exists w' s l', t = w' ++ s /\ Forall digit w' /\ decimal (w ++ w') < 2 ^ 63 /\ l = (k, VInt (decimal (w ++ w'))) :: l' /\ rest_of_line s l'
  | TopEnd => rest_of_line t l
  end.
(** [q] is one of the quotation marks *)
Definition sane (m : mode) : Prop := match m with Quote1 q _ | Quote2 q _ => q = """"%byte \/ q = "'"%byte | _ => True end.

Section Step.
  Variables (t : bytes) (L : table).
  (** what is known of the texts accepted from a state *)
  Hypothesis IH : forall m l, at_end (lex t (Going m l)) = Ended L -> sane m -> exists l', L = l ++ l' /\ rest m t l'.

  Lemma top_end_sound l c : at_end (lex t (top_end l c)) = Ended L -> exists l', L = l ++ l' /\ rest_of_line (c :: t) l'.
  Proof.
    unfold top_end. destruct (byte_eqb_spec c "#") as [->|N1].
    - intros H. destruct (IH _ _ H I) as (l' & -> & x & s & -> & X & E & D). exists l'. split; [reflexivity|]. now constructor.
    - destruct (isWhitespace c) eqn:W; [|destruct (isNL c) eqn:NL; [|destruct (byte_eqb_spec c x00) as [->|N2]]].
      + intros H. destruct (IH _ _ H I) as (l' & -> & R). exists l'. split; [reflexivity|]. apply ws_spec in W. now constructor.
      + intros H. destruct (IH _ _ H I) as (l' & -> & R). exists l'. split; [reflexivity|]. apply nl_spec in NL. now constructor.
      + rewrite lex_ended. intros [= <-]. exists []. rewrite app_nil_r. split; [reflexivity|apply rol_nul].
      + rewrite lex_failed. discriminate.
  Qed.
  Lemma close_sound l k v c : at_end (lex t (close_item (define l k v) c)) = Ended L -> exists l', L = l ++ (k, v) :: l' /\ rest_of_line (c :: t) l'.
  Proof.
    destruct (define_cases l k v) as [E|[E _]]; rewrite E; [cbn [close_item]; rewrite lex_failed; discriminate|]. cbn [close_item]. intros H.
    destruct (top_end_sound _ _ H) as (l' & -> & R). exists l'. now rewrite <- app_assoc.
  Qed.
  Lemma define_sound l k v : at_end (lex t (define l k v)) = Ended L -> exists l', L = l ++ (k, v) :: l' /\ rest_of_line t l'.
  Proof.
    destruct (define_cases l k v) as [E|[E _]]; rewrite E; [rewrite lex_failed; discriminate|]. intros H.
    destruct (IH _ _ H I) as (l' & -> & R). exists l'. now rewrite <- app_assoc.
  Qed.
  Lemma key_end_sound l k c : at_end (lex t (key_end l k c)) = Ended L -> exists l', L = l ++ l' /\ after_key k (c :: t) l'.
  Proof.
    unfold key_end. destruct (byte_eqb_spec c "=") as [->|N].
    - intros H. destruct (IH _ _ H I) as (l' & -> & b' & vs & v & s & l'' & -> & B & V & R & ->).
      eexists. split; [reflexivity|]. exists [], b', vs, v, s, l''. repeat split; auto.
    - destruct (isWhitespace c) eqn:W; [|rewrite lex_failed; discriminate]. intros H. apply ws_spec in W.
      destruct (IH _ _ H I) as (l' & -> & b & b' & vs & v & s & l'' & -> & B & B' & V & R & ->). eexists. split; [reflexivity|]. exists (c :: b), b', vs, v, s, l''. repeat split; auto.
  Qed.
  Lemma done_sound l g s : at_end (lex t (string_done l g s)) = Ended L -> exists l', L = l ++ l' /\ cont g s t l'.
  Proof.
    destruct g as [|k]; cbn [string_done cont]; intros H.
    - exact (IH _ _ H I).
    - destruct (define_sound _ _ _ H) as (l' & -> & R). eauto.
  Qed.
  Lemma basic_step_sound l g raw esc c : at_end (lex t (basic l g raw esc c)) = Ended L -> exists l', L = l ++ l' /\ rest (Basic g raw esc) (c :: t) l'.
  Proof.
    unfold basic. destruct (byte_eqb c x00 || isNL c) eqn:P; [rewrite lex_failed; discriminate|].
    assert (forall esc', (if esc then esc' = false else c <> """"%byte /\ esc' = byte_eqb c "\") -> at_end (lex t (Going (Basic g (raw ++ [c]) esc') l)) = Ended L ->
      exists l', L = l ++ l' /\ rest (Basic g raw esc) (c :: t) l') as G.
    { intros esc' E H. destruct (IH _ _ H I) as (l' & -> & body & s & v & -> & S & R & C). exists l'. split; [reflexivity|]. exists (c :: body), s, v. rewrite <- app_assoc in R.
      repeat split; auto. cbn [scan]. rewrite P. destruct esc; [now subst|]. destruct E as [N ->]. destruct (byte_eqb c "\"); [exact S|]. now rewrite byte_eqb_neq. }
    destruct esc; [now apply G|]. destruct (byte_eqb_spec c "\") as [->|N]; [apply G; split; [discriminate|reflexivity]|].
    destruct (byte_eqb_spec c """") as [->|N'].
    - destruct (replaceEscapes 0 raw) as [s|] eqn:R; [|rewrite lex_failed; discriminate]. intros H. destruct (done_sound _ _ _ H) as (l' & -> & C).
      exists l'. split; [reflexivity|]. exists [], t, s. rewrite app_nil_r. auto.
    - apply G. now split.
  Qed.
  Lemma literal_sound l g raw c : at_end (lex t (literal l g raw c)) = Ended L -> exists l', L = l ++ l' /\ rest (Raw g raw) (c :: t) l'.
  Proof.
    unfold literal. destruct (byte_eqb c x00 || isNL c) eqn:P; [rewrite lex_failed; discriminate|]. apply printable_spec in P. destruct (byte_eqb_spec c "'") as [->|N]; intros H.
    - destruct (done_sound _ _ _ H) as (l' & -> & C). exists l'. split; [reflexivity|]. exists [], t. rewrite app_nil_r. repeat split; auto.
    - destruct (IH _ _ H I) as (l' & -> & body & s & -> & F & NI & C). exists l'. split; [reflexivity|]. exists (c :: body), s. rewrite <- app_assoc in C. repeat split; auto. intros [E|E]; auto.
  Qed.
  Lemma bare_key_sound l k c : at_end (lex t (bare_key l k c)) = Ended L -> exists l', L = l ++ l' /\ rest (BareKey k) (c :: t) l'.
  Proof.
    unfold bare_key. destruct (isBareKeyChar c) eqn:B.
    - intros H. apply bare_spec in B. destruct (IH _ _ H I) as (l' & -> & k' & s & -> & F & A). exists l'. split; [reflexivity|]. exists (c :: k'), s. rewrite <- app_assoc in A. auto.
    - destruct (isWhitespace c || byte_eqb c "="); [|rewrite lex_failed; discriminate]. intros H. destruct (key_end_sound _ _ _ H) as (l' & -> & A).
      exists l'. split; [reflexivity|]. exists [], (c :: t). rewrite app_nil_r. auto.
  Qed.
End Step.

Lemma decimal_number w : Forall digit w -> number w (decimal w).
Proof.
  induction w as [|c w IH] using rev_ind; intros F; [constructor|]. apply Forall_app in F. destruct F as [F D]. inversion D; subst.
  unfold decimal. rewrite fold_left_app. cbn [fold_left]. constructor; auto.
Qed.
Lemma number_decimal w n : number w n -> Forall digit w /\ decimal w = n.
Proof.
  induction 1 as [|w n c _ [F IH] D]; [now split|]. split; [apply Forall_app; auto|]. unfold decimal in *. rewrite fold_left_app. cbn [fold_left]. now rewrite IH.
Qed.
Lemma cont_nil g v l : cont g v [] l -> exists k, g = TValue k /\ l = [(k, VString v)].
Proof.
  destruct g as [|k]; cbn.
  - intros (b & b' & vs & v' & s & l' & E & _). now destruct b.
  - intros (l' & -> & R). inversion R. eauto.
Qed.

(** lexer and parser accept nothing but documents, and find what they set *)
Lemma lex_sound t : forall m l L, at_end (lex t (Going m l)) = Ended L -> sane m -> exists l', L = l ++ l' /\ rest m t l'.
Proof.
  induction t as [|c t IH]; intros m l L H Q.
  - cbn [fold_left] in H. destruct m; cbn [at_end] in H; try discriminate; cbn [rest].
    + injection H as <-. exists []. rewrite app_nil_r. split; [reflexivity|constructor].
    + injection H as <-. exists []. rewrite app_nil_r. split; [reflexivity|]. exists [], []. repeat split; auto; [now left|constructor].
    + destruct g as [|k]; [discriminate|]. destruct (define_cases l k (VString [])) as [E|[E _]]; rewrite E in H; [discriminate|]. injection H as <-. eexists. split; [reflexivity|]. exists []. split; [reflexivity|constructor].
    + unfold bool_done in H. destruct (bytes_eqb_spec w (str "true")) as [->|_]; [|destruct (bytes_eqb_spec w (str "false")) as [->|_]; [|discriminate]].
      * destruct (define_cases l k (VBool true)) as [E|[E _]]; rewrite E in H; [discriminate|]. injection H as <-. eexists. split; [reflexivity|]. exists [], [], true, []. repeat split; constructor.
      * destruct (define_cases l k (VBool false)) as [E|[E _]]; rewrite E in H; [discriminate|]. injection H as <-. eexists. split; [reflexivity|]. exists [], [], false, []. repeat split; constructor.
    + unfold int_done in H. destruct (Z.ltb_spec (decimal w) (2 ^ 63)) as [B|_]; [|discriminate].
      destruct (define_cases l k (VInt (decimal w))) as [E|[E _]]; rewrite E in H; [discriminate|]. injection H as <-. eexists. split; [reflexivity|]. exists [], [], []. rewrite (app_nil_r w). repeat (split; [auto; fail|]). constructor.
    + injection H as <-. exists []. rewrite app_nil_r. split; [reflexivity|constructor].
  - cbn [fold_left feed] in H. pose proof (fun m l => IH m l L) as IH'. destruct m.
    + (* Top *) unfold top in H. destruct (isWhitespace c || isNL c) eqn:W; [|destruct (byte_eqb_spec c "#") as [->|N1]; [|destruct (byte_eqb_spec c "[") as [->|N2]; [|destruct (byte_eqb_spec c x00) as [->|N3]; [|
        destruct (byte_eqb_spec c "=") as [->|N4]; [|destruct (isQuote c) eqn:QU]]]]].
      * destruct (IH' _ _ H I) as (l' & -> & D). exists l'. split; [reflexivity|]. apply orb_true_iff in W. rewrite ws_spec, nl_spec in W. now apply doc_space.
      * destruct (IH' _ _ H I) as (l' & -> & x & s & -> & F & E & D). exists l'. split; [reflexivity|]. now apply doc_comment.
      * rewrite lex_outside in H. discriminate.
      * rewrite lex_failed in H. discriminate.
      * rewrite lex_failed in H. discriminate.
      * apply quote_spec in QU. destruct (IH' _ _ H QU) as (l' & -> & R). exists l'. split; [reflexivity|]. cbn [rest cont] in R |- *. destruct QU as [->| ->].
        -- change (byte_eqb """" """") with true in R. cbv iota in R. destruct R as (body & s & v & -> & B & b & b' & vs & v' & s' & l'' & -> & F & F' & V & R & ->).
           replace (""""%byte :: body ++ """"%byte :: b ++ "="%byte :: b' ++ vs ++ s') with ((""""%byte :: body ++ [""""%byte]) ++ b ++ "="%byte :: b' ++ vs ++ s') by (cbn; now rewrite <- app_assoc).
           apply doc_set; auto. apply key_quoted. now constructor.
        -- change (byte_eqb "'" """") with false in R. cbv iota in R. destruct R as (body & s & -> & P & NI & b & b' & vs & v' & s' & l'' & -> & F & F' & V & R & ->).
           replace ("'"%byte :: body ++ "'"%byte :: b ++ "="%byte :: b' ++ vs ++ s') with (("'"%byte :: body ++ ["'"%byte]) ++ b ++ "="%byte :: b' ++ vs ++ s') by (cbn; now rewrite <- app_assoc).
           apply doc_set; auto. apply key_quoted. now constructor.
      * unfold bare_key in H. destruct (isBareKeyChar c) eqn:B.
        -- apply bare_spec in B. destruct (IH' _ _ H I) as (l' & -> & k' & s & -> & F & b & b' & vs & v' & s' & l'' & -> & G & G' & V & R & ->). eexists. split; [reflexivity|].
           cbn [rest]. change (c :: k' ++ b ++ "="%byte :: b' ++ vs ++ s') with ((c :: k') ++ b ++ "="%byte :: b' ++ vs ++ s'). apply doc_set; auto. apply key_bare; [discriminate|]. now constructor.
        -- apply orb_false_iff in W. destruct W as [W _]. rewrite W, (byte_eqb_neq _ _ N4) in H. cbn [orb] in H. rewrite lex_failed in H. discriminate.
    + (* Comment *) cbn [rest]. destruct (isNL c) eqn:NL; [|destruct (byte_eqb_spec c x00) as [->|N]].
      * destruct (IH' _ _ H I) as (l' & -> & D). exists l'. split; [reflexivity|]. apply nl_spec in NL. exists [], (c :: t). repeat split; auto; [right; eauto|]. apply doc_space; auto.
      * rewrite lex_failed in H. discriminate.
      * destruct (IH' _ _ H I) as (l' & -> & x & s & -> & F & E & D). exists l'. split; [reflexivity|]. exists (c :: x), s. repeat split; auto. constructor; [|exact F].
        apply printable_spec. now rewrite NL, byte_eqb_neq.
    + exact (bare_key_sound _ _ IH' _ _ _ H).
    + exact (key_end_sound _ _ IH' _ _ _ H).
    + (* Value *) unfold on_value in H. cbn [rest]. destruct (isWhitespace c) eqn:W; [|destruct (is_digit c) eqn:D; [|destruct (byte_eqb c "[" || byte_eqb c "{" || byte_eqb c "+" || byte_eqb c "-"); [|destruct (isQuote c) eqn:QU; [|destruct (is_letter c) eqn:LE]]]].
      * apply ws_spec in W. destruct (IH' _ _ H I) as (l' & -> & b' & vs & v & s & l'' & -> & B & V & R & ->). eexists. split; [reflexivity|]. exists (c :: b'), vs, v, s, l''. repeat split; auto.
      * apply is_digit_spec in D. destruct (IH' _ _ H I) as (l' & -> & w' & s & l'' & -> & F & B & -> & R). eexists. split; [reflexivity|].
        exists [], (c :: w'), (VInt (decimal (c :: w'))), s, l''. repeat split; auto. apply val_int; [discriminate|apply decimal_number; now constructor|exact B].
      * rewrite lex_outside in H. discriminate.
      * apply quote_spec in QU. destruct (IH' _ _ H QU) as (l' & -> & R). exists l'. split; [reflexivity|]. cbn [rest cont] in R. destruct QU as [->| ->].
        -- change (byte_eqb """" """") with true in R. cbv iota in R. destruct R as (body & s & v & -> & B & l'' & -> & R). exists [], (""""%byte :: body ++ [""""%byte]), (VString v), s, l''.
           repeat split; auto; [cbn; now rewrite <- app_assoc|]. apply val_string. now constructor.
        -- change (byte_eqb "'" """") with false in R. cbv iota in R. destruct R as (body & s & -> & P & NI & l'' & -> & R). exists [], ("'"%byte :: body ++ ["'"%byte]), (VString body), s, l''.
           repeat split; auto; [cbn; now rewrite <- app_assoc|]. apply val_string. now constructor.
      * destruct (IH' _ _ H I) as (l' & -> & w' & s & v & l'' & -> & E & -> & R). eexists. split; [reflexivity|]. exists [], (c :: w'), (VBool v), s, l''. repeat split; auto.
        change (c :: w') with ([c] ++ w'). rewrite E. destruct v; constructor.
      * rewrite lex_failed in H. discriminate.
    + (* Quote1 *) cbn [sane] in Q. cbn [rest]. destruct (byte_eqb_spec c q) as [->|N].
      * destruct (IH' _ _ H Q) as (l' & -> & C). exists l'. split; [reflexivity|]. cbn [rest] in C. destruct Q as [->| ->].
        -- change (byte_eqb """" """") with true. cbv iota. exists [], t, []. repeat split; auto. constructor.
        -- change (byte_eqb "'" """") with false. cbv iota. exists [], t. repeat split; auto.
      * destruct Q as [->| ->].
        -- change (byte_eqb """" """") with true in *. cbv iota in *. destruct (basic_step_sound _ _ IH' _ _ _ _ _ H) as (l' & -> & body & s & v & E & S & R & C). exists l'. split; [reflexivity|].
           exists body, s, v. repeat split; auto. apply basic_spec. auto.
        -- change (byte_eqb "'" """") with false in *. cbv iota in *. exact (literal_sound _ _ IH' _ _ _ _ H).
    + (* Quote2 *) cbn [rest]. destruct (byte_eqb_spec c q) as [->|N]; [rewrite lex_outside in H; discriminate|]. destruct g as [|k]; cbn [cont].
      * exact (key_end_sound _ _ IH' _ _ _ H).
      * destruct (close_sound _ _ IH' _ _ _ _ H) as (l' & -> & R). eauto.
    + exact (basic_step_sound _ _ IH' _ _ _ _ _ H).
    + exact (literal_sound _ _ IH' _ _ _ _ H).
    + (* InBool *) cbn [rest]. destruct (is_letter c).
      * destruct (IH' _ _ H I) as (l' & -> & w' & s & v & l'' & -> & E & -> & R). eexists. split; [reflexivity|]. exists (c :: w'), s, v, l''. rewrite <- app_assoc in E. auto.
      * unfold bool_done in H. destruct (bytes_eqb_spec w (str "true")) as [->|_]; [|destruct (bytes_eqb_spec w (str "false")) as [->|_]; [|cbn [close_item] in H; rewrite lex_failed in H; discriminate]];
          destruct (close_sound _ _ IH' _ _ _ _ H) as (l' & -> & R); eexists; (split; [reflexivity|]).
        -- exists [], (c :: t), true, l'. auto.
        -- exists [], (c :: t), false, l'. auto.
    + (* InInt *) cbn [rest]. destruct (is_digit c) eqn:D; [|destruct (byte_eqb c "-" || byte_eqb c "_" || byte_eqb c "." || byte_eqb c "e" || byte_eqb c "E")].
      * apply is_digit_spec in D. destruct (IH' _ _ H I) as (l' & -> & w' & s & l'' & -> & F & B & -> & R). rewrite <- app_assoc in B. rewrite <- app_assoc. eexists. split; [reflexivity|]. exists (c :: w'), s, l''. repeat split; auto.
      * rewrite lex_outside in H. discriminate.
      * unfold int_done in H. destruct (Z.ltb_spec (decimal w) (2 ^ 63)) as [B|_]; [|cbn [close_item] in H; rewrite lex_failed in H; discriminate].
        destruct (close_sound _ _ IH' _ _ _ _ H) as (l' & -> & R). eexists. split; [reflexivity|]. exists [], (c :: t), l'. rewrite (app_nil_r w). repeat (split; [auto; fail|]). exact R.
    + exact (top_end_sound _ _ IH' _ _ H).
Qed.
Lemma lex_nodup t : forall x L, match x with Going _ l | Ended l => NoDup (keys l) | _ => True end -> at_end (lex t x) = Ended L -> NoDup (keys L).
Proof.
  assert (forall l k v, NoDup (keys l) -> match define l k v with Going _ l | Ended l => NoDup (keys l) | _ => True end) as D.
  { intros l k v N. destruct (define_cases l k v) as [E|[E NI]]; rewrite E; [exact I|]. rewrite map_app. cbn [map fst]. apply (Permutation_NoDup (Permutation_cons_append (keys l) k)). now constructor. }
  assert (forall x c, match x with Going _ l | Ended l => NoDup (keys l) | _ => True end -> match feed x c with Going _ l | Ended l => NoDup (keys l) | _ => True end) as F.
  { intros [m l|l| |] c N; cbn [feed]; auto.
    assert (forall k v, match close_item (define l k v) c with Going _ l | Ended l => NoDup (keys l) | _ => True end) as C.
    { intros k v. specialize (D l k v N). destruct (define_cases l k v) as [E|[E _]]; rewrite E in *; [exact I|]. cbn [close_item]. unfold top_end. repeat (match goal with |- context [if ?b then _ else _] => destruct b end); auto. }
    destruct m; unfold top, bare_key, key_end, on_value, basic, literal, bare_key, key_end, top_end, string_done, bool_done, int_done;
      repeat (match goal with |- context [if ?b then _ else _] => destruct b | |- context [match ?g with TKey => _ | TValue _ => _ end] => destruct g | |- context [match replaceEscapes ?n ?s with Some _ => _ | None => _ end] => destruct (replaceEscapes n s) end); first [exact I|exact N|apply C|apply D; exact N]. }
  induction t as [|c t IH]; intros x L N H.
  - cbn [fold_left] in H. destruct x as [m l|l| |]; cbn [at_end] in H; try discriminate; [|now injection H as <-].
    destruct m; try discriminate; try (injection H as <-; exact N).
    + destruct g as [|k]; [discriminate|]. specialize (D l k (VString []) N). destruct (define l k (VString [])); try discriminate; injection H as <-; exact D.
    + unfold bool_done in H. pose proof (D l k (VBool true) N). pose proof (D l k (VBool false) N). destruct (bytes_eqb w (str "true")); [|destruct (bytes_eqb w (str "false")); [|discriminate]].
      * destruct (define l k (VBool true)); try discriminate; now injection H as <-.
      * destruct (define l k (VBool false)); try discriminate; now injection H as <-.
    + unfold int_done in H. destruct (decimal w <? 2 ^ 63); [|discriminate]. specialize (D l k (VInt (decimal w)) N). destruct (define l k (VInt (decimal w))); try discriminate; now injection H as <-.
  - cbn [fold_left] in H. eapply IH; [|exact H]. now apply F.
Qed.

(** ** Every document is accepted *)

Lemma lex_blanks b m l : Forall blank b -> (exists k, m = KeyEnd k) \/ (exists k, m = Value k) \/ m = TopEnd -> lex b (Going m l) = Going m l.
Proof.
  intros F M. induction F as [|c b B _ IH]; [reflexivity|]. cbn [fold_left]. rewrite <- IH at 2. f_equal. apply ws_spec in B.
  destruct M as [[k ->]|[[k ->]| ->]]; cbn [feed]; unfold key_end, on_value, top_end; rewrite B; [|reflexivity|];
  (rewrite byte_eqb_neq; [reflexivity|]; intros ->; discriminate).
Qed.
Lemma lex_bare k l w : Forall bare w -> lex w (Going (BareKey k) l) = Going (BareKey (k ++ w)) l.
Proof.
  intros F. revert k. induction F as [|c w B _ IH]; intros k; [now rewrite app_nil_r|]. cbn [fold_left feed]. unfold bare_key. apply bare_spec in B. rewrite B, IH. now rewrite <- app_assoc.
Qed.
Lemma lex_scan g raw esc l s : scan esc s = true -> lex s (Going (Basic g raw esc) l) = Going (Basic g (raw ++ s) false) l.
Proof.
  revert raw esc. induction s as [|c s IH]; intros raw esc H; cbn [scan] in H.
  - destruct esc; [discriminate|]. now rewrite app_nil_r.
  - cbn [fold_left feed]. unfold basic. destruct (byte_eqb c x00 || isNL c); [discriminate|]. destruct esc; [|destruct (byte_eqb c "\"); [|destruct (byte_eqb c """"); [discriminate|]]];
      rewrite IH by exact H; now rewrite <- app_assoc.
Qed.
Lemma lex_literal g raw l s : Forall printable s -> ~ In "'"%byte s -> lex s (Going (Raw g raw) l) = Going (Raw g (raw ++ s)) l.
Proof.
  intros F. revert raw. induction F as [|c s P _ IH]; intros raw N; [now rewrite app_nil_r|]. cbn [fold_left feed]. unfold literal. apply printable_spec in P.
  rewrite P, byte_eqb_neq by (intros ->; apply N; now left). rewrite IH by (intros ?; apply N; now right). now rewrite <- app_assoc.
Qed.
(** the state after a string has been read, before the next byte is looked at *)
Definition string_read (l : table) (g : target) (q : byte) (t s : bytes) : lexed :=
  match t with [_; _] => Going (Quote2 q g) l | _ => string_done l g s end.
Lemma lex_quoted t s l g : quoted t s -> exists q, In q (str "'""") /\
  lex t (match g with TKey => Going Top l | TValue k => Going (Value k) l end) = string_read l g q t s /\ (exists t', t = q :: t') /\ (length t = 2%nat -> s = []) /\ (2 <= length t)%nat.
Proof.
  intros H. destruct H as [t s B|t P N].
  - exists """"%byte. split; [cbn; tauto|]. split; [|split; [eauto|split]].
    + assert (feed (match g with TKey => Going Top l | TValue k => Going (Value k) l end) """" = Going (Quote1 """" g) l) as E by (destruct g; reflexivity).
      cbn [fold_left]. rewrite E. destruct (basic_complete _ _ B) as [S R]. destruct t as [|c t]; [reflexivity|].
      assert (c <> """"%byte) as NQ by (intros ->; discriminate). cbn [app fold_left feed]. rewrite (byte_eqb_neq _ _ NQ). change (byte_eqb """" """") with true. cbv iota.
      assert (basic l g [] false c = Going (Basic g [c] (byte_eqb c "\")) l) as ->.
      { unfold basic. cbn [scan] in S. destruct (byte_eqb c x00 || isNL c); [discriminate|]. destruct (byte_eqb c "\"); [reflexivity|]. now rewrite (byte_eqb_neq _ _ NQ). }
      rewrite fold_left_app, lex_scan.
      * cbn [fold_left feed app]. unfold basic. change (byte_eqb """" x00 || isNL """") with false. change (byte_eqb """" "\") with false. change (byte_eqb """" """") with true. cbv iota.
        rewrite R. destruct t; reflexivity.
      * cbn [scan] in S. destruct (byte_eqb c x00 || isNL c); [discriminate|]. destruct (byte_eqb c "\"); [exact S|]. now rewrite (byte_eqb_neq _ _ NQ) in S.
    + intros L. cbn in L. rewrite app_length in L. cbn in L. destruct t; [|cbn in L; lia]. inversion B as [|? ? ? ? ? ? ? ? X|? ? ? ? ? ? U ? X|? ? ? ? ? ? X|? ? ? ? ? ? ? ? X|? ? ? ? ? ? ? ? ? ? X|? ? ? ? ? ? ? ? ? ? X]; try discriminate; [reflexivity|]. inversion U; subst; discriminate.
    + cbn. rewrite app_length. cbn. lia.
  - exists "'"%byte. split; [cbn; tauto|]. split; [|split; [eauto|split]].
    + assert (feed (match g with TKey => Going Top l | TValue k => Going (Value k) l end) "'" = Going (Quote1 "'" g) l) as E by (destruct g; reflexivity).
      cbn [fold_left]. rewrite E. destruct t as [|c t]; [reflexivity|].
      assert (c <> "'"%byte) as NQ by (intros ->; apply N; now left). cbn [app fold_left feed]. rewrite (byte_eqb_neq _ _ NQ). change (byte_eqb "'" """") with false. cbv iota. inversion P as [|? ? P1 P2]; subst.
      unfold literal at 1. apply printable_spec in P1. rewrite P1, (byte_eqb_neq _ _ NQ), fold_left_app. cbn [app]. rewrite lex_literal by (try exact P2; intros ?; apply N; now right). cbn [fold_left feed]. unfold literal.
      change (byte_eqb "'" x00 || isNL "'") with false. change (byte_eqb "'" "'") with true. cbv iota. destruct t; reflexivity.
    + intros L. cbn in L. rewrite app_length in L. cbn in L. destruct t; [reflexivity|cbn in L; lia].
    + cbn. rewrite app_length. cbn. lia.
Qed.
(** what a rest of line begins with *)
Lemma rest_head c s l : rest_of_line (c :: s) l -> is_letter c = false /\ is_digit c = false /\
  (byte_eqb c "-" || byte_eqb c "_" || byte_eqb c "." || byte_eqb c "e" || byte_eqb c "E") = false /\ c <> """"%byte /\ c <> "'"%byte.
Proof.
  intros H. assert (c = " "%byte \/ c = x09 \/ c = x0a \/ c = x0d \/ c = "#"%byte \/ c = x00) as E.
  { inversion H as [|? ? ? [E|E]|? ? ? [E|E]|? ? ? ? ? ? E|]; subst; tauto. }
  destruct E as [->|[->|[->|[->|[->| ->]]]]]; repeat split; discriminate.
Qed.
(** a pending item is defined by whatever follows *)
Lemma lex_pending m l l1 s ls x : rest_of_line s ls -> x = Going TopEnd l1 ->
  (exists k w, m = InBool k w /\ bool_done l k w = x) \/ (exists k w, m = InInt k w /\ int_done l k w = x) \/
  (exists q k, m = Quote2 q (TValue k) /\ In q (str "'""") /\ define l k (VString []) = x) ->
  at_end (lex s (Going m l)) = at_end (lex s x).
Proof.
  intros R X M. destruct s as [|c s].
  - destruct M as [(k & w & -> & E)|[(k & w & -> & E)|(q & k & -> & _ & E)]]; cbn; rewrite E, X; reflexivity.
  - destruct (rest_head _ _ _ R) as (A & B & C & D & F). cbn [fold_left feed]. f_equal. f_equal.
    destruct M as [(k & w & -> & E)|[(k & w & -> & E)|(q & k & -> & Q & E)]].
    + now rewrite A, E, X.
    + now rewrite B, C, E, X.
    + rewrite byte_eqb_neq; [now rewrite E, X|]. intros ->. destruct Q as [<-|[<-|[]]]; auto.
Qed.
Lemma lex_letters k w0 w l : Forall letter w -> lex w (Going (InBool k w0) l) = Going (InBool k (w0 ++ w)) l.
Proof. intros F. revert w0. induction F as [|c w B _ IH]; intros w0; [now rewrite app_nil_r|]. cbn [fold_left feed]. apply is_letter_spec in B. rewrite B, IH. now rewrite <- app_assoc. Qed.
Lemma lex_digits k w0 w l : Forall digit w -> lex w (Going (InInt k w0) l) = Going (InInt k (w0 ++ w)) l.
Proof. intros F. revert w0. induction F as [|c w B _ IH]; intros w0; [now rewrite app_nil_r|]. cbn [fold_left feed]. apply is_digit_spec in B. rewrite B, IH. now rewrite <- app_assoc. Qed.

Lemma lex_value vs v k l s ls : val vs v -> ~ In k (keys l) -> rest_of_line s ls ->
  at_end (lex (vs ++ s) (Going (Value k) l)) = at_end (lex s (Going TopEnd (l ++ [(k, v)]))).
Proof.
  intros V N R. rewrite fold_left_app. destruct V as [t s0 Q| | |w n NE W B].
  - destruct (lex_quoted _ _ l (TValue k) Q) as (q & IQ & -> & _ & L & L2). unfold string_read.
    destruct t as [|c [|c' [|c'' t]]]; try (cbn in L2; lia).
    + specialize (L eq_refl). subst s0. eapply lex_pending; eauto using define_new. right; right. exists q, k. rewrite define_new by exact N. auto.
    + cbn [string_done]. now rewrite define_new.
  - change (lex (str "true") (Going (Value k) l)) with (Going (InBool k (str "true")) l). eapply lex_pending; eauto. left. exists k, (str "true"). split; [reflexivity|]. unfold bool_done. rewrite !define_new by exact N. reflexivity.
  - change (lex (str "false") (Going (Value k) l)) with (Going (InBool k (str "false")) l). eapply lex_pending; eauto. left. exists k, (str "false"). split; [reflexivity|]. unfold bool_done. rewrite !define_new by exact N. reflexivity.
  - destruct (number_decimal _ _ W) as [F E]. destruct w as [|c w]; [congruence|]. inversion F as [|? ? F1 F2]; subst. cbn [fold_left feed]. unfold on_value. assert (isWhitespace c = false) as ->.
    { apply not_true_is_false. intros H. apply ws_spec in H. destruct H as [->| ->]; cbv in F1; destruct F1 as [F1 _]; now apply F1. }
    pose proof (proj2 (is_digit_spec c) F1) as D. rewrite D, lex_digits by exact F2. cbn [app]. eapply lex_pending; eauto. right; left. exists k, (c :: w). split; [reflexivity|].
    unfold int_done. rewrite (proj2 (Z.ltb_lt _ _) B). now apply define_new.
Qed.
Lemma lex_key ks k b s l : key ks k -> Forall blank b -> lex (ks ++ b ++ "="%byte :: s) (Going Top l) = lex s (Going (Value k) l).
Proof.
  intros K B. rewrite !fold_left_app. cbn [fold_left].
  assert (forall b l0, Forall blank b -> feed (lex b (Going (KeyEnd k) l0)) "=" = Going (Value k) l0) as KE. { intros b0 l0 B0. rewrite lex_blanks by eauto. reflexivity. }
  destruct K as [k NE F|t k Q].
  - f_equal. destruct k as [|c k]; [congruence|]. inversion F as [|? ? F1 F2]; subst. cbn [fold_left feed]. assert (top l c = Going (BareKey [c]) l) as ->.
    { pose proof (proj2 (bare_spec c) F1) as B1. unfold top, bare_key. rewrite B1. unfold bare, letter, digit in F1.
      assert (isWhitespace c || isNL c = false) as ->. { apply orb_false_iff; split; apply not_true_is_false; rewrite ?ws_spec, ?nl_spec; intros [->| ->]; cbv [Z_of_byte Byte.to_N Z.of_N] in F1; intuition (try lia; discriminate). }
      rewrite !byte_eqb_neq by (intros ->; cbv [Z_of_byte Byte.to_N Z.of_N] in F1; intuition (try lia; discriminate)).
      replace (isQuote c) with false; [reflexivity|]. symmetry. apply not_true_is_false. rewrite quote_spec. intros [->| ->]; cbv [Z_of_byte Byte.to_N Z.of_N] in F1; intuition (try lia; discriminate). }
    rewrite lex_bare by exact F2. cbn [app]. destruct B as [|c' b B1 B2]; cbn [fold_left].
    + reflexivity.
    + cbn [feed]. replace (bare_key l (c :: k) c') with (Going (KeyEnd (c :: k)) l); [now apply KE|].
      { destruct B1 as [->| ->]; reflexivity. }
  - f_equal. destruct (lex_quoted _ _ l TKey Q) as (q & IQ & -> & _ & L & L2). unfold string_read. destruct t as [|c [|c' [|c'' t]]]; try (cbn in L2; lia); [|now apply KE].
    specialize (L eq_refl). subst k. destruct B as [|c0 b B1 B2]; cbn [fold_left].
    + cbn [feed]. destruct IQ as [<-|[<-|[]]]; reflexivity.
    + cbn [feed]. assert (byte_eqb c0 q = false) as -> by (destruct B1 as [->| ->], IQ as [<-|[<-|[]]]; reflexivity). replace (key_end l [] c0) with (Going (KeyEnd []) l) by (destruct B1 as [->| ->]; reflexivity).
      now apply KE.
Qed.
Lemma lex_comment x s l ls : Forall printable x -> line_end s -> document s ls -> at_end (lex (x ++ s) (Going Comment l)) = at_end (lex s (Going Top l)).
Proof.
  intros F E D. rewrite fold_left_app. replace (lex x (Going Comment l)) with (Going Comment l).
  - destruct E as [->|(c & s' & NL & ->)]; [reflexivity|]. cbn [fold_left feed]. unfold top. pose proof (proj2 (nl_spec c) NL) as N. now rewrite N, orb_true_r.
  - symmetry. induction F as [|c x P _ IH]; [reflexivity|]. cbn [fold_left feed]. apply printable_spec in P. apply orb_false_iff in P. destruct P as [-> ->]. exact IH.
Qed.

Scheme document_ind' := Minimality for document Sort Prop
  with rest_of_line_ind' := Minimality for rest_of_line Sort Prop.
Combined Scheme document_both from document_ind', rest_of_line_ind'.

Lemma lex_complete :
  (forall s l, document s l -> forall l0, NoDup (keys (l0 ++ l)) -> at_end (lex s (Going Top l0)) = Ended (l0 ++ l)) /\
  (forall s l, rest_of_line s l -> forall l0, NoDup (keys (l0 ++ l)) -> at_end (lex s (Going TopEnd l0)) = Ended (l0 ++ l)).
Proof.
  apply document_both.
  - intros l0 _. now rewrite app_nil_r.
  - intros c s l C _ IH l0 N. cbn [fold_left feed]. unfold top. rewrite (proj2 (orb_true_iff _ _)) by (rewrite ws_spec, nl_spec; exact C). now apply IH.
  - intros x s l F E D IH l0 N. change (lex ("#"%byte :: x ++ s) (Going Top l0)) with (lex (x ++ s) (Going Comment l0)). rewrite (lex_comment _ _ _ _ F E D). now apply IH.
  - intros ks k b b' vs v s l K B B' V R IH l0 N. rewrite (lex_key ks k) by assumption. rewrite fold_left_app, lex_blanks by eauto.
    rewrite map_app in N. cbn [map fst] in N. pose proof (NoDup_remove_2 _ _ _ N) as NI. rewrite (lex_value vs v k l0 s l V); [|intros I0; apply NI; apply in_or_app; now left|exact R].
    rewrite IH; [now rewrite <- app_assoc|]. rewrite <- app_assoc, map_app. exact N.
  - intros l0 _. now rewrite app_nil_r.
  - intros c s l C _ IH l0 N. cbn [fold_left feed]. unfold top_end. rewrite (proj2 (ws_spec c) C). rewrite byte_eqb_neq by (intros ->; destruct C; discriminate). now apply IH.
  - intros c s l C _ IH l0 N. cbn [fold_left feed]. unfold top_end. rewrite (proj2 (nl_spec c) C). rewrite byte_eqb_neq by (intros ->; destruct C; discriminate).
    replace (isWhitespace c) with false by (destruct C as [->| ->]; reflexivity). now apply IH.
  - intros x s l F E D IH l0 N. change (lex ("#"%byte :: x ++ s) (Going TopEnd l0)) with (lex (x ++ s) (Going Comment l0)). rewrite (lex_comment _ _ _ _ F E D). now apply IH.
  - intros s l0 _. cbn [fold_left feed]. change (top_end l0 x00) with (Ended l0). rewrite lex_ended, app_nil_r. reflexivity.
Qed.

(** parse accepts exactly the documents that set no key twice *)
Lemma parse_spec s l : parse s = Ended l <-> document s l /\ NoDup (keys l).
Proof.
  unfold parse. split.
  - intros H. split; [|eapply lex_nodup; [|exact H]; constructor]. destruct (lex_sound _ _ _ _ H I) as (l' & -> & D). exact D.
  - intros [D N]. now rewrite (proj1 lex_complete s l D []).
Qed.
