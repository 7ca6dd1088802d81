(** Proofs about the model of net/url: url.Parse accepts exactly the URIs of the grammar of SpecUri.v. *)
From Verif Require Import GoBase BufferProofs NetUrl SpecUri.
Require Import Lia.

(** * Characters *)

Lemma between_spec lo hi c : between lo hi c = true <-> lo <= Z_of_byte c <= hi.
Proof. unfold between. rewrite andb_true_iff, !Z.leb_le. reflexivity. Qed.
Lemma is_letter_spec c : is_letter c = true <-> letter c.
Proof. unfold is_letter, letter. rewrite orb_true_iff, !between_spec. reflexivity. Qed.
Lemma is_digit_spec c : is_digit c = true <-> digit c.
Proof. apply between_spec. Qed.
Lemma one_of_spec l c : one_of l c = true <-> In c l.
Proof.
  unfold one_of. rewrite existsb_exists. split.
  - intros (x & I & E). destruct (byte_eqb_spec c x); [now subst|discriminate].
  - intros I. exists c. split; [exact I|apply byte_eqb_refl].
Qed.
Lemma is_control_spec c : is_control c = true <-> control c.
Proof. unfold is_control, control. rewrite orb_true_iff, Z.ltb_lt, Z.eqb_eq. reflexivity. Qed.
Lemma shouldEscape_spec c : shouldEscape c = false <-> host_char c.
Proof.
  unfold shouldEscape, host_char. rewrite negb_false_iff, !orb_true_iff, is_letter_spec, is_digit_spec, !one_of_spec.
  change (str "!$&'()*+,;=:[]<>""-_.~") with (str "!$&'()*+,;=:[]<>""" ++ str "-_.~"). rewrite in_app_iff. tauto.
Qed.
Lemma unhex_spec c v : unhex c = Some v <-> hex_digit c v.
Proof.
  unfold unhex, hex_digit. destruct (is_digit c) eqn:D; [|destruct (between 97 102 c) eqn:A; [|destruct (between 65 70 c) eqn:B]].
  - apply is_digit_spec in D. unfold digit in D. split; [intros [= <-]; left; auto|]. intros [[_ ->]|[[? ?]|[? ?]]]; [reflexivity|lia|lia].
  - apply between_spec in A. split; [intros [= <-]; right; right; auto|]. intros [[? ?]|[[? ?]|[_ ->]]]; [lia|lia|reflexivity].
  - apply between_spec in B. split; [intros [= <-]; right; left; auto|]. intros [[? ?]|[[_ ->]|[? ?]]]; [lia|reflexivity|lia].
  - assert (~ digit c) by (rewrite <- is_digit_spec, D; discriminate). assert (~ 97 <= Z_of_byte c <= 102) by (rewrite <- between_spec, A; discriminate).
    assert (~ 65 <= Z_of_byte c <= 70) by (rewrite <- between_spec, B; discriminate). unfold digit in *. split; [discriminate|intros [[? ?]|[[? ?]|[? ?]]]; lia].
Qed.
Lemma hex_range c v : hex_digit c v -> 0 <= v < 16.
Proof. unfold hex_digit. lia. Qed.

(** * Cutting *)

Lemma cut_none c s : cut c s = None <-> ~ In c s.
Proof.
  induction s as [|x s IH]; cbn; [tauto|]. destruct (byte_eqb_spec x c) as [->|N]; [split; [discriminate|tauto]|].
  destruct (cut c s) as [[a b]|]; [split; [discriminate|]|split; [|reflexivity]].
  - intros H. assert (~ In c s) as H' by tauto. apply IH in H'. discriminate.
  - intros _ [E|I]; [tauto|]. now apply IH.
Qed.
Lemma cut_some c s a b : cut c s = Some (a, b) <-> s = a ++ c :: b /\ ~ In c a.
Proof.
  revert a. induction s as [|x s IH]; intros a; cbn.
  - split; [discriminate|]. intros [H _]. now destruct a.
  - destruct (byte_eqb_spec x c) as [->|N].
    + split; [intros [= <- <-]; split; [reflexivity|intros []]|]. intros [H1 H2]. destruct a as [|y a]; [now injection H1 as ->|].
      injection H1 as <- _. exfalso. apply H2. now left.
    + destruct (cut c s) as [[a0 b0]|] eqn:E.
      * split.
        -- intros [= <- <-]. destruct (proj1 (IH a0) eq_refl) as [-> I]. split; [reflexivity|]. intros [?|?]; auto.
        -- intros [H1 H2]. destruct a as [|y a]; [injection H1 as ? _; congruence|]. injection H1 as <- H1.
           assert (Some (a0, b0) = Some (a, b)) as [= <- <-]; [|reflexivity]. apply IH. split; [exact H1|]. intros ?. apply H2. now right.
      * split; [discriminate|]. intros [H1 H2]. destruct a as [|y a]; [injection H1 as ? _; congruence|]. injection H1 as <- H1.
        assert (None = Some (a, b)) as X; [|discriminate]. apply IH. split; [exact H1|]. intros ?. apply H2. now right.
Qed.
Lemma cut_last_none c s : cut_last c s = None <-> ~ In c s.
Proof.
  induction s as [|x s IH]; cbn; [tauto|]. destruct (cut_last c s) as [[a b]|].
  - split; [discriminate|]. intros H. assert (~ In c s) as H' by tauto. apply IH in H'. discriminate.
  - destruct (byte_eqb_spec x c) as [->|N]; [split; [discriminate|tauto]|]. split; [|reflexivity]. intros _ [E|I]; [tauto|]. now apply IH.
Qed.
Lemma cut_last_some c s a b : cut_last c s = Some (a, b) <-> s = a ++ c :: b /\ ~ In c b.
Proof.
  revert a. induction s as [|x s IH]; intros a; cbn.
  - split; [discriminate|]. intros [H _]. now destruct a.
  - destruct (cut_last c s) as [[a0 b0]|] eqn:E.
    + split.
      * intros [= <- <-]. destruct (proj1 (IH a0) eq_refl) as [-> I]. split; [reflexivity|exact I].
      * intros [H1 H2]. destruct a as [|y a]; cbn in H1; injection H1 as -> ->.
        -- destruct (cut_last_none c b) as [_ X]. rewrite (X H2) in E. discriminate.
        -- assert (Some (a0, b0) = Some (a, b)) as [= -> ->] by (apply IH; auto). reflexivity.
    + apply cut_last_none in E. destruct (byte_eqb_spec x c) as [->|N].
      * split; [intros [= <- <-]; split; [reflexivity|exact E]|]. intros [H1 H2]. destruct a as [|y a]; cbn in H1; [injection H1 as ->; reflexivity|]. injection H1 as <- H1.
        exfalso. apply E. rewrite H1. apply in_or_app. right. now left.
      * split; [discriminate|]. intros [H1 H2]. destruct a as [|y a]; cbn in H1; injection H1 as ? H1; [congruence|].
        exfalso. apply E. rewrite H1. apply in_or_app. right. now left.
Qed.
Lemma has_prefix_spec p s : has_prefix p s = true <-> exists s', s = p ++ s'.
Proof.
  revert s. induction p as [|x p IH]; intros s; cbn; [split; [eauto|reflexivity]|]. destruct s as [|y s]; [split; [discriminate|intros (s' & ?); discriminate]|].
  rewrite andb_true_iff, IH. destruct (byte_eqb_spec x y) as [->|N].
  - split; [intros [_ (s' & ->)]; eauto|]. intros (s' & [= ->]). eauto.
  - split; [intros [? _]; discriminate|]. intros (s' & [= ? ?]). congruence.
Qed.

Definition z25 := str "%25".
Lemma no_zone_tail x s : no_zone (x :: s) -> no_zone s.
Proof. intros H a b ->. apply (H (x :: a) b). reflexivity. Qed.
Lemma cut_zone_none s : cut_zone s = None <-> no_zone s.
Proof.
  induction s as [|x s IH].
  - split; [|reflexivity]. intros _ a b H. destruct a; discriminate.
  - cbn [cut_zone]. destruct (has_prefix (str "%25") (x :: s)) eqn:P.
    + apply has_prefix_spec in P. destruct P as (s' & ->). split; [discriminate|]. intros H. exfalso. apply (H [] s'). reflexivity.
    + destruct (cut_zone s) as [[a b]|].
      * split; [discriminate|]. intros H. apply no_zone_tail, IH in H. discriminate.
      * split; [|reflexivity]. intros _ a b H. destruct a as [|y a].
        -- assert (has_prefix (str "%25") (x :: s) = true) by (apply has_prefix_spec; exists b; exact H). congruence.
        -- cbn in H. injection H as -> H. eapply (proj1 IH eq_refl); exact H.
Qed.
Lemma no_zone_prefix x a z : no_zone (x :: a) -> has_prefix (str "%25") ((x :: a) ++ z25 ++ z) = false.
Proof.
  intros H. destruct (has_prefix (str "%25") ((x :: a) ++ z25 ++ z)) eqn:P; [|reflexivity]. exfalso. apply has_prefix_spec in P. destruct P as (s' & E).
  destruct a as [|y [|w a]]; cbn in E; try discriminate. injection E as -> -> -> _. apply (H [] a). reflexivity.
Qed.
Lemma cut_zone_some s a b : cut_zone s = Some (a, b) <-> (exists z, b = z25 ++ z) /\ s = a ++ b /\ no_zone a.
Proof.
  revert a. induction s as [|x s IH]; intros a.
  - split; [discriminate|]. intros ((z & ->) & H & _). destruct a; discriminate.
  - cbn [cut_zone]. destruct (has_prefix (str "%25") (x :: s)) eqn:P.
    + split.
      * intros [= <- <-]. apply has_prefix_spec in P. destruct P as (z & ->). split; [exists z; reflexivity|]. split; [reflexivity|]. intros [|? ?] ? ?; discriminate.
      * intros ((z & ->) & H & N). destruct a as [|y a]; [now rewrite H|]. rewrite H in P. rewrite no_zone_prefix in P by exact N. discriminate.
    + destruct (cut_zone s) as [[a0 b0]|] eqn:E.
      * split.
        -- intros [= <- <-]. destruct (proj1 (IH a0) eq_refl) as (Z & -> & N). split; [exact Z|]. split; [reflexivity|]. intros u v H. destruct u as [|y u].
           ++ destruct Z as (z & ->). cbn in H. injection H as -> H. rewrite H in P. cbn in P. discriminate.
           ++ cbn in H. injection H as -> H. eapply N; exact H.
        -- intros ((z & ->) & H & N). destruct a as [|y a].
           ++ cbn [app] in H. rewrite H in P. cbn in P. discriminate.
           ++ cbn in H. injection H as -> H. assert (Some (a0, b0) = Some (a, z25 ++ z)) as [= -> ->]; [|reflexivity].
              apply IH. split; [eauto|]. split; [exact H|]. eapply no_zone_tail; exact N.
      * split; [discriminate|]. intros ((z & ->) & H & N). destruct a as [|y a].
        -- cbn [app] in H. rewrite H in P. cbn in P. discriminate.
        -- cbn in H. injection H as -> H. assert (None = Some (a, z25 ++ z)) as X; [|discriminate].
           apply IH. split; [eauto|]. split; [exact H|]. eapply no_zone_tail; exact N.
Qed.

(** * Spelling *)

Definition mode_raw (mode : encoding) (c b : byte) : Prop :=
  c <> "%"%byte /\ (c = "+"%byte /\ b = match mode with encodeQueryComponent => " "%byte | _ => "+"%byte end \/
                    c <> "+"%byte /\ char_ok mode c = true /\ b = c).
Definition mode_esc (mode : encoding) (b : byte) : Prop := escape_ok mode (Z_of_byte b / 16) b = true.

Lemma unescape_nopanic mode s p : unescape mode s <> Panic p.
Proof.
  assert (forall n s, (length s <= n)%nat -> unescape mode s <> Panic p) as X; [|eapply X; reflexivity].
  clear s. induction n as [|n IH]; intros s L; [destruct s; [discriminate|cbn in L; lia]|]. destruct s as [|c s]; [discriminate|]. cbn in L. cbn.
  destruct (byte_eqb c "%").
  - destruct s as [|h [|l s]]; try discriminate. destruct (unhex h), (unhex l); try discriminate. destruct (escape_ok _ _ _); [|discriminate].
    cbn in L. specialize (IH s ltac:(lia)). destruct (unescape mode s); cbn in *; congruence.
  - specialize (IH s ltac:(lia)). destruct (byte_eqb c "+"); [|destruct (char_ok mode c); [|discriminate]]; destruct (unescape mode s); cbn in *; congruence.
Qed.
Lemma unescape_sound mode s t : unescape mode s = Ok t -> spelled (mode_raw mode) (mode_esc mode) s t.
Proof.
  assert (forall n s t, (length s <= n)%nat -> unescape mode s = Ok t -> spelled (mode_raw mode) (mode_esc mode) s t) as X; [|eapply X; reflexivity].
  clear s t. induction n as [|n IH]; intros s t L H; [destruct s; [injection H as <-; constructor|cbn in L; lia]|].
  destruct s as [|c s]; [injection H as <-; constructor|]. cbn in L. cbn in H. destruct (byte_eqb_spec c "%") as [->|N].
  - destruct s as [|h [|l s]]; try discriminate. cbn in L. destruct (unhex h) as [vh|] eqn:Eh; [|discriminate]. destruct (unhex l) as [vl|] eqn:El; [|discriminate].
    apply unhex_spec in Eh, El. pose proof (hex_range _ _ Eh). pose proof (hex_range _ _ El).
    assert (Z_of_byte (byte_of_Z (vh * 16 + vl)) = 16 * vh + vl) as EZ by (rewrite Z_of_byte_of_Z, Z.mod_small; lia).
    destruct (escape_ok mode vh _) eqn:EE; [|discriminate]. destruct (unescape mode s) as [t'| |] eqn:Et; try discriminate. injection H as <-.
    eapply spelled_esc; try eassumption.
    + unfold mode_esc. rewrite EZ. replace ((16 * vh + vl) / 16) with vh; [exact EE|]. rewrite Z.mul_comm, Z.div_add_l by lia. rewrite Z.div_small; lia.
    + apply IH; [lia|exact Et].
  - destruct (byte_eqb_spec c "+") as [->|NP].
    + destruct (unescape mode s) as [t'| |] eqn:Et; try discriminate. injection H as <-. constructor; [|apply IH; [lia|exact Et]]. split; [exact N|]. left. split; reflexivity.
    + destruct (char_ok mode c) eqn:K; [|discriminate]. destruct (unescape mode s) as [t'| |] eqn:Et; try discriminate. injection H as <-.
      constructor; [|apply IH; [lia|exact Et]]. split; [exact N|]. right. auto.
Qed.
Lemma unescape_complete mode s t : spelled (mode_raw mode) (mode_esc mode) s t -> unescape mode s = Ok t.
Proof.
  induction 1 as [|c b s t [N R] S IH|h l vh vl b s t Hh Hl E M S IH]; [reflexivity|..].
  - cbn. rewrite (byte_eqb_neq c "%") by exact N. destruct R as [[-> ->]|(NP & K & ->)].
    + rewrite byte_eqb_refl, IH. reflexivity.
    + rewrite (byte_eqb_neq c "+") by exact NP. rewrite K, IH. reflexivity.
  - cbn. pose proof (hex_range _ _ Hh). pose proof (hex_range _ _ Hl). apply unhex_spec in Hh, Hl. rewrite Hh, Hl.
    assert (byte_of_Z (vh * 16 + vl) = b) as -> by (apply Z_of_byte_inj; rewrite Z_of_byte_of_Z, Z.mod_small; lia).
    unfold mode_esc in M. replace (Z_of_byte b / 16) with vh in M; [|rewrite E, Z.mul_comm, Z.div_add_l by lia; rewrite Z.div_small; lia].
    rewrite M, IH. reflexivity.
Qed.
Lemma spelled_mono (raw raw' : byte -> byte -> Prop) (esc esc' : byte -> Prop) s t :
  (forall c b, raw c b -> raw' c b) -> (forall b, esc b -> esc' b) -> spelled raw esc s t -> spelled raw' esc' s t.
Proof. intros A B. induction 1; [constructor|apply spelled_raw; auto|eapply spelled_esc; eauto]. Qed.
Lemma unescape_spelled mode raw esc s t :
  (forall c b, mode_raw mode c b <-> raw c b) -> (forall b, mode_esc mode b <-> esc b) -> unescape mode s = Ok t <-> spelled raw esc s t.
Proof.
  intros A B. split.
  - intros H. apply unescape_sound in H. eapply spelled_mono; [| |exact H]; intros; [now apply A|now apply B].
  - intros H. apply unescape_complete. eapply spelled_mono; [| |exact H]; intros; [now apply A|now apply B].
Qed.
Lemma unescape_text mode s t : mode = encodePath \/ mode = encodeUserPassword \/ mode = encodeFragment -> unescape mode s = Ok t <-> text s t.
Proof.
  intros M. apply unescape_spelled.
  - intros c b. unfold mode_raw. destruct (byte_eqb_spec c "+") as [->|N].
    + destruct M as [->|[->| ->]]; (split; [intros [? [[_ ->]|(? & _)]]; [split; [reflexivity|discriminate]|congruence]|intros [<- _]; split; [discriminate|auto]]).
    + destruct M as [->|[->| ->]]; cbn; (split; [intros [? [[? _]|(_ & _ & ->)]]; [congruence|auto]|intros [<- ?]; split; [assumption|right; auto]]).
  - intros b. unfold mode_esc. destruct M as [->|[->| ->]]; cbn; split; auto.
Qed.
Lemma unescape_query s t : unescape encodeQueryComponent s = Ok t <-> query_text s t.
Proof.
  apply unescape_spelled.
  - intros c b. unfold mode_raw. cbn. split.
    + intros [? [?|(? & _ & ->)]]; auto.
    + intros [[-> ->]|(<- & ? & ?)]; [split; [discriminate|auto]|split; [assumption|right; auto]].
  - intros b. unfold mode_esc. cbn. split; auto.
Qed.
Lemma host_raw_mode mode c b : mode = encodeHost \/ mode = encodeZone -> mode_raw mode c b <-> host_raw c b.
Proof.
  intros M. unfold mode_raw, host_raw.
  assert (char_ok mode c = true <-> host_char c \/ 128 <= Z_of_byte c) as K.
  { assert (char_ok mode c = negb ((Z_of_byte c <? 128) && shouldEscape c)) as -> by (destruct M as [->| ->]; reflexivity).
    rewrite negb_true_iff, andb_false_iff, Z.ltb_ge, shouldEscape_spec. tauto. }
  assert (host_char "+") as KP by (right; right; cbn; tauto).
  assert (~ (host_char "%" \/ 128 <= Z_of_byte "%")) as KN.
  { intros [H|H]; [apply shouldEscape_spec in H; discriminate|vm_compute in H; now apply H]. }
  destruct (byte_eqb_spec c "+") as [->|N].
  - assert (match mode with encodeQueryComponent => " "%byte | _ => "+"%byte end = "+"%byte) as -> by (destruct M as [->| ->]; reflexivity).
    split; [intros [? [[_ ->]|(? & _)]]; [auto|congruence]|intros [<- _]; split; [discriminate|auto]].
  - split; [intros [? [[? _]|(_ & X & ->)]]; [congruence|split; [reflexivity|tauto]]|intros [<- X]; split; [intros ->; tauto|right; tauto]].
Qed.
Lemma unescape_host s t : unescape encodeHost s = Ok t <-> host_text s t.
Proof.
  apply unescape_spelled; [intros; apply host_raw_mode; auto|]. intros b. unfold mode_esc, escape_ok.
  rewrite orb_true_iff, negb_true_iff, Z.ltb_ge. destruct (byte_eqb_spec b "%") as [->|N].
  - tauto.
  - pose proof (Z_of_byte_range b). split; [intros [H0|?]; [left|discriminate]|intros [H0|?]; [left|congruence]].
    + pose proof (Z_div_mod_eq_full (Z_of_byte b) 16). pose proof (Z.mod_pos_bound (Z_of_byte b) 16). lia.
    + apply Z.div_le_lower_bound; lia.
Qed.
Lemma unescape_zone s t : unescape encodeZone s = Ok t <-> zone_text s t.
Proof.
  apply unescape_spelled; [intros; apply host_raw_mode; auto|]. intros b. unfold mode_esc, escape_ok.
  rewrite !orb_true_iff, negb_true_iff, shouldEscape_spec. destruct (byte_eqb_spec b "%") as [->|N]; [tauto|]. destruct (byte_eqb_spec b " ") as [->|N']; [tauto|].
  split; [intros [[?|?]|?]; [discriminate|discriminate|auto]|intros [?|[?|?]]; [auto|congruence|congruence]].
Qed.

(** no escape goes across a character that is neither a percent sign nor a hexadecimal digit *)
Lemma spelled_cut raw esc s t : spelled raw esc s t -> forall a c b, s = a ++ c :: b -> c <> "%"%byte -> (forall v, ~ hex_digit c v) ->
  exists ta tc tb, t = ta ++ tc :: tb /\ spelled raw esc a ta /\ raw c tc /\ spelled raw esc b tb.
Proof.
  induction 1 as [|c0 b0 s t R S IH|h l vh vl b0 s t Hh Hl E M S IH]; intros a c b Es N X.
  - destruct a; discriminate.
  - destruct a as [|y a]; cbn in Es; injection Es as -> Es.
    + subst b. exists [], b0, t. split; [reflexivity|]. split; [constructor|auto].
    + destruct (IH _ _ _ Es N X) as (ta & tc & tb & -> & A & B & C). exists (b0 :: ta), tc, tb. split; [reflexivity|]. split; [constructor; assumption|auto].
  - destruct a as [|y [|w [|x a]]]; cbn in Es.
    + injection Es as <- Es. congruence.
    + injection Es as <- <- Es. exfalso. eapply X, Hh.
    + injection Es as <- <- <- Es. exfalso. eapply X, Hl.
    + injection Es as <- <- <- Es. destruct (IH _ _ _ Es N X) as (ta & tc & tb & -> & A & B & C). exists (b0 :: ta), tc, tb.
      split; [reflexivity|]. split; [eapply spelled_esc; eassumption|auto].
Qed.
Lemma spelled_app raw esc a ta b tb : spelled raw esc a ta -> spelled raw esc b tb -> spelled raw esc (a ++ b) (ta ++ tb).
Proof. induction 1; intros; cbn; [assumption|apply spelled_raw; auto|eapply spelled_esc; eauto]. Qed.

(** * Hosts and ports *)

Ltac nothex := let v := fresh in let H := fresh in intros v H; unfold hex_digit in H; cbv [Z_of_byte Byte.to_N Z.of_N] in H; lia.
Lemma digit_not c : digit c -> c <> ":"%byte /\ c <> "]"%byte /\ c <> "["%byte /\ c <> "%"%byte /\ c <> "@"%byte.
Proof. intros D. repeat split; intros ->; unfold digit in D; cbv [Z_of_byte Byte.to_N Z.of_N] in D; lia. Qed.
Lemma valid_port s : validOptionalPort s = true <-> exists p, port_part s p.
Proof.
  destruct s as [|c s]; cbn; [split; [exists []; constructor|reflexivity]|]. rewrite andb_true_iff, forallb_forall. split.
  - intros [C D]. destruct (byte_eqb_spec c ":") as [->|]; [|discriminate]. exists s. constructor. apply Forall_forall. intros x I. now apply is_digit_spec, D.
  - intros (p & P). inversion P as [|p' F]; subst. split; [apply byte_eqb_refl|]. intros x I. apply is_digit_spec. now apply (proj1 (Forall_forall _ _) F).
Qed.
Lemma port_host s p : port_part s p -> host_text s s.
Proof.
  assert (forall p, Forall digit p -> host_text p p) as X.
  { induction 1; [constructor|apply spelled_raw; [|assumption]]. split; [reflexivity|]. left. right. now left. }
  destruct 1 as [|p F]; [constructor|]. apply spelled_raw; [|now apply X]. split; [reflexivity|]. left. right. right. cbn. tauto.
Qed.
Lemma port_free s p c : port_part s p -> c = "]"%byte \/ c = "@"%byte -> ~ In c s.
Proof.
  destruct 1 as [|p F]; [tauto|]. intros C [E|I]; [destruct C as [->| ->]; discriminate|]. apply (proj1 (Forall_forall _ _) F), digit_not in I. tauto.
Qed.
Lemma digits_free p : Forall digit p -> ~ In ":"%byte p.
Proof. intros F I. apply (proj1 (Forall_forall _ _) F), digit_not in I. tauto. Qed.

Lemma host_text_in s t c : host_text s t -> Z_of_byte c < 128 -> c <> "%"%byte -> In c t -> In c s.
Proof.
  intros H Z N. induction H as [|c0 b s t [-> _] S IH|h l vh vl b s t Hh Hl E M S IH]; [intros []|..].
  - intros [->|I]; [now left|right; auto].
  - intros [->|I]; [destruct M; [lia|congruence]|right; right; right; auto].
Qed.
Lemma host_text_raw c s t : host_text (c :: s) t -> c <> "%"%byte -> exists t', t = c :: t' /\ host_text s t'.
Proof. intros H N. inversion H as [|c0 b s' t' [-> _] S|]; subst; [eauto|congruence]. Qed.
Lemma host_text_cons c s t : host_char c -> host_text s t -> host_text (c :: s) (c :: t).
Proof. intros H S. apply spelled_raw; [split; auto|exact S]. Qed.
Lemma host_text_det s t t' : host_text s t -> host_text s t' -> t' = t.
Proof. intros A B. apply unescape_host in A, B. congruence. Qed.
Lemma percent_host : ~ host_char "%".
Proof. intros H. apply shouldEscape_spec in H. discriminate. Qed.
Lemma host_bracket t t' s : host_text s t -> t = "["%byte :: t' -> exists s', s = "["%byte :: s'.
Proof.
  intros H E. destruct H as [|c b s t [-> _] S|h l vh vl b s t Hh Hl Eb M S]; [discriminate|..]; injection E as -> ->; [eauto|].
  destruct M as [M|M]; [vm_compute in M; congruence|discriminate].
Qed.
Lemma hc_special c : In c (str "[]:") -> host_char c.
Proof. intros [<-|[<-|[<-|[]]]]; right; right; cbn; tauto. Qed.

Lemma split_name h pp p : port_part pp p -> (pp = [] -> ~ In ":"%byte h) -> (forall h', h <> "["%byte :: h') -> splitHostPort (h ++ pp) = (h, p).
Proof.
  intros P C B. unfold splitHostPort.
  assert (match cut_last ":" (h ++ pp) with Some (h0, p0) => if validOptionalPort (":"%byte :: p0) then (h0, p0) else (h ++ pp, []) | None => (h ++ pp, []) end = (h, p)) as ->.
  { destruct P as [|p F].
    - rewrite app_nil_r. destruct (cut_last ":" h) as [[x y]|] eqn:E; [|reflexivity]. apply cut_last_some in E. destruct E as [-> _]. exfalso. apply C; [reflexivity|].
      apply in_or_app. right. now left.
    - destruct (cut_last_some ":" (h ++ ":"%byte :: p) h p) as [_ X]. rewrite X by (split; [reflexivity|now apply digits_free]).
      assert (validOptionalPort (":"%byte :: p) = true) as -> by (apply valid_port; exists p; now constructor). reflexivity. }
  f_equal. destruct h as [|c h]; [reflexivity|]. destruct (byte_eqb_spec c "[") as [->|]; [|reflexivity]. exfalso. eapply B; reflexivity.
Qed.
Lemma split_bracket h pp p : port_part pp p -> splitHostPort ("["%byte :: h ++ "]"%byte :: pp) = (h, p).
Proof.
  intros P. unfold splitHostPort.
  assert (match cut_last ":" ("["%byte :: h ++ "]"%byte :: pp) with Some (h0, p0) => if validOptionalPort (":"%byte :: p0) then (h0, p0) else ("["%byte :: h ++ "]"%byte :: pp, []) | None => ("["%byte :: h ++ "]"%byte :: pp, []) end
    = ("["%byte :: h ++ [("]"%byte)], p)) as ->.
  { destruct P as [|p F].
    - destruct (cut_last ":" ("["%byte :: h ++ [("]"%byte)])) as [[x y]|] eqn:E; [|reflexivity]. apply cut_last_some in E. destruct E as [E _].
      destruct (validOptionalPort (":"%byte :: y)) eqn:V; [|reflexivity]. exfalso. apply valid_port in V. destruct V as (p & V). assert (Forall digit y) as F by (inversion V; assumption).
      change ("["%byte :: h ++ ["]"%byte]) with (("["%byte :: h) ++ ["]"%byte]) in E. destruct y as [|z y _] using rev_ind.
      + apply app_inj_tail in E. destruct E. discriminate.
      + change (x ++ ":"%byte :: y ++ [z]) with (x ++ (":"%byte :: y) ++ [z]) in E. rewrite app_assoc in E. apply app_inj_tail in E. destruct E as [_ <-].
        apply Forall_app in F. destruct F as [_ F]. inversion F as [|? ? D]; subst. apply digit_not in D. tauto.
    - replace ("["%byte :: h ++ "]"%byte :: ":"%byte :: p) with (("["%byte :: h ++ ["]"%byte]) ++ ":"%byte :: p) by (cbn; rewrite <- app_assoc; reflexivity).
      match goal with |- context [cut_last ":" (?a ++ _)] => destruct (cut_last_some ":" (a ++ ":"%byte :: p) a p) as [_ X] end.
      rewrite X by (split; [reflexivity|now apply digits_free]).
      assert (validOptionalPort (":"%byte :: p) = true) as -> by (apply valid_port; exists p; now constructor). reflexivity. }
  rewrite byte_eqb_refl. change (last ("["%byte :: h ++ ["]"%byte]) x00) with (last (("["%byte :: h) ++ ["]"%byte]) x00). rewrite last_last, removelast_last. reflexivity.
Qed.

Lemma zone_head z t : zone_text (str "%25" ++ z) t -> exists t', t = "%"%byte :: t' /\ zone_text z t'.
Proof.
  intros H. apply unescape_zone in H. change (str "%25" ++ z) with ("%"%byte :: "2"%byte :: "5"%byte :: z) in H.
  cbn [unescape] in H. change (byte_eqb "%" "%") with true in H. cbn iota in H. change (unhex "2") with (Some 2) in H. change (unhex "5") with (Some 5) in H. cbv zeta iota in H.
  change (byte_of_Z (2 * 16 + 5)) with "%"%byte in H. change (escape_ok encodeZone 2 "%") with true in H. cbn iota in H.
  destruct (unescape encodeZone z) as [t'| |] eqn:E; try discriminate. injection H as <-. exists t'. split; [reflexivity|now apply unescape_zone].
Qed.
Lemma zone_head_intro z t : zone_text z t -> zone_text (str "%25" ++ z) ("%"%byte :: t).
Proof. intros H. eapply (spelled_esc _ _ "2" "5" 2 5); [left|left| |right; right; reflexivity|exact H]; [vm_compute; intuition congruence|vm_compute; intuition congruence|reflexivity]. Qed.

Lemma host_sound s hp h p : parseHost s = Ok hp -> splitHostPort hp = (h, p) -> host_port s h p.
Proof.
  unfold parseHost. intros H S. destruct (has_prefix (str "[") s) eqn:B.
  - apply has_prefix_spec in B. destruct B as (s1 & ->). change (str "[" ++ s1) with ("["%byte :: s1) in *.
    destruct (cut_last "]" ("["%byte :: s1)) as [[inside cp]|] eqn:L; [|discriminate]. apply cut_last_some in L. destruct L as [E NB].
    destruct inside as [|c a]; [discriminate|]. cbn in E. injection E as <- ->.
    destruct (validOptionalPort cp) eqn:V; [|discriminate]. cbn [negb] in H. apply valid_port in V. destruct V as (p' & V).
    destruct (cut_zone ("["%byte :: a)) as [[host1 zone]|] eqn:Z.
    + apply cut_zone_some in Z. destruct Z as ((z & ->) & E & N). destruct host1 as [|c host1]; [discriminate|]. cbn [app] in E. injection E as <- ->.
      destruct (unescape encodeHost ("["%byte :: host1)) as [h1| |] eqn:E1; try discriminate. cbn [res_bind] in H.
      destruct (unescape encodeZone (z25 ++ z)) as [h2| |] eqn:E2; try discriminate. cbn [res_bind] in H.
      destruct (unescape encodeHost ("]"%byte :: cp)) as [h3| |] eqn:E3; try discriminate. cbn [res_bind] in H. injection H as <-.
      apply unescape_host in E1, E3. apply unescape_zone in E2. apply host_text_raw in E1; [|discriminate]. apply host_text_raw in E3; [|discriminate].
      destruct E1 as (ha & -> & E1). destruct E3 as (cp' & -> & E3). apply zone_head in E2. destruct E2 as (hz & -> & E2).
      rewrite (host_text_det _ _ _ (port_host _ _ V) E3) in S.
      match type of S with splitHostPort ?x = _ => replace x with ("["%byte :: (ha ++ "%"%byte :: hz) ++ "]"%byte :: cp) in S by (cbn [app]; rewrite <- ?app_assoc; reflexivity) end.
      rewrite (split_bracket _ _ _ V) in S. injection S as <- <-. rewrite <- !app_assoc. apply hp_zone; try assumption. eapply no_zone_tail; exact N.
    + apply cut_zone_none in Z. apply unescape_host in H. apply host_text_raw in H; [|discriminate]. destruct H as (t & -> & H).
      destruct (spelled_cut _ _ _ _ H a "]"%byte cp eq_refl ltac:(discriminate) ltac:(nothex)) as (ta & tc & tb & -> & A & [<- _] & C).
      rewrite (host_text_det _ _ _ (port_host _ _ V) C) in S. rewrite (split_bracket _ _ _ V) in S. injection S as <- <-. apply hp_address; try assumption. eapply no_zone_tail; exact Z.
  - assert (forall n', s <> "["%byte :: n') as NB by (intros n' ->; cbn in B; discriminate).
    destruct (cut_last ":" s) as [[n pt]|] eqn:L.
    + apply cut_last_some in L. destruct L as [-> _]. destruct (validOptionalPort (":"%byte :: pt)) eqn:V; [|discriminate]. cbn [negb] in H. apply valid_port in V. destruct V as (p' & V).
      apply unescape_host in H. destruct (spelled_cut _ _ _ _ H n ":"%byte pt eq_refl ltac:(discriminate) ltac:(nothex)) as (ta & tc & tb & -> & A & [<- _] & C).
      assert (tb = pt) as ->.
      { destruct (host_text_raw _ _ _ (port_host _ _ V) ltac:(discriminate)) as (x & [= <-] & X). eapply host_text_det; eassumption. }
      assert (forall n', n <> "["%byte :: n') as NB' by (intros n' ->; eapply NB; reflexivity).
      rewrite (split_name _ _ _ V) in S; [|discriminate|intros h' ->; destruct (host_bracket _ _ _ A eq_refl) as (n' & ->); eapply NB'; reflexivity].
      injection S as <- <-. apply hp_name; try assumption. discriminate.
    + apply cut_last_none in L. apply unescape_host in H. rewrite <- (app_nil_r hp) in S.
      rewrite (split_name hp [] []) in S; [|constructor| |].
      * injection S as <- <-. rewrite <- (app_nil_r s). apply hp_name; try assumption; [constructor|auto].
      * intros _ I. apply L. eapply host_text_in; [exact H|reflexivity|discriminate|exact I].
      * intros h' ->. destruct (host_bracket _ _ _ H eq_refl) as (n' & ->). eapply NB; reflexivity.
Qed.
Lemma host_complete s h p : host_port s h p -> exists hp, parseHost s = Ok hp /\ splitHostPort hp = (h, p).
Proof.
  unfold parseHost. destruct 1 as [n pp h p T P NB NC|a pp h p T P NZ|a z pp h h' p T T' P NZ].
  - exists (h ++ pp). split.
    + assert (unescape encodeHost (n ++ pp) = Ok (h ++ pp)) as X by (apply unescape_host, spelled_app; [exact T|eapply port_host; exact P]). rewrite X.
      destruct (has_prefix (str "[") (n ++ pp)) eqn:B.
      * apply has_prefix_spec in B. destruct B as (s' & E). destruct n as [|c n]; [|injection E as -> _; exfalso; eapply NB; reflexivity].
        destruct P; discriminate.
      * destruct (cut_last ":" (n ++ pp)) as [[x y]|] eqn:L; [|reflexivity]. destruct P as [|p F].
        -- exfalso. rewrite app_nil_r in L. apply cut_last_some in L. destruct L as [-> _]. apply (NC eq_refl). apply in_or_app. right. now left.
        -- destruct (cut_last_some ":" (n ++ ":"%byte :: p) n p) as [_ Y]. rewrite Y in L by (split; [reflexivity|now apply digits_free]). injection L as <- <-.
           assert (validOptionalPort (":"%byte :: p) = true) as -> by (apply valid_port; exists p; now constructor). reflexivity.
    + apply split_name; [exact P| |].
      * intros E I. apply (NC E). eapply host_text_in; [exact T|reflexivity|discriminate|exact I].
      * intros h' ->. destruct (host_bracket _ _ _ T eq_refl) as (n' & ->). eapply NB; reflexivity.
  - exists ("["%byte :: h ++ "]"%byte :: pp). split; [|apply split_bracket; exact P]. cbn [has_prefix str].
    change (has_prefix (str "[") ("["%byte :: a ++ "]"%byte :: pp)) with true. cbn iota.
    destruct (cut_last_some "]" ("["%byte :: a ++ "]"%byte :: pp) ("["%byte :: a) pp) as [_ Y]. rewrite Y by (split; [reflexivity|eapply port_free; eauto]).
    assert (validOptionalPort pp = true) as -> by (apply valid_port; eauto). cbn [negb].
    assert (cut_zone ("["%byte :: a) = None) as ->.
    { apply cut_zone_none. intros u v E. destruct u as [|c u]; [discriminate|]. cbn [app] in E. injection E as _ E. eapply NZ; exact E. }
    apply unescape_host. apply host_text_cons; [apply hc_special; cbn; tauto|]. apply spelled_app; [exact T|]. apply host_text_cons; [apply hc_special; cbn; tauto|]. eapply port_host; exact P.
  - exists ("["%byte :: (h ++ "%"%byte :: h') ++ "]"%byte :: pp). split; [|apply split_bracket; exact P].
    change (has_prefix (str "[") ("["%byte :: a ++ str "%25" ++ z ++ "]"%byte :: pp)) with true. cbn iota.
    destruct (cut_last_some "]" ("["%byte :: a ++ str "%25" ++ z ++ "]"%byte :: pp) ("["%byte :: a ++ str "%25" ++ z) pp) as [_ Y].
    rewrite Y by (split; [cbn [app]; rewrite <- !app_assoc; reflexivity|eapply port_free; eauto]).
    assert (validOptionalPort pp = true) as -> by (apply valid_port; eauto). cbn [negb].
    destruct (cut_zone_some ("["%byte :: a ++ str "%25" ++ z) ("["%byte :: a) (z25 ++ z)) as [_ X]. rewrite X.
    + assert (unescape encodeHost ("["%byte :: a) = Ok ("["%byte :: h)) as -> by (apply unescape_host, host_text_cons; [apply hc_special; cbn; tauto|exact T]).
      assert (unescape encodeZone (z25 ++ z) = Ok ("%"%byte :: h')) as -> by (apply unescape_zone, zone_head_intro, T').
      assert (unescape encodeHost ("]"%byte :: pp) = Ok ("]"%byte :: pp)) as -> by (apply unescape_host, host_text_cons; [apply hc_special; cbn; tauto|eapply port_host; exact P]).
      cbn [res_bind app]. rewrite <- app_assoc. reflexivity.
    + split; [eauto|]. split; [reflexivity|]. intros u v E. destruct u as [|c u]; [discriminate|]. cbn [app] in E. injection E as _ E. eapply NZ; exact E.
Qed.

(** * User names and passwords *)

Lemma valid_userinfo s : validUserinfo s = true <-> Forall user_char s.
Proof.
  unfold validUserinfo. rewrite forallb_forall, Forall_forall. split; intros H c I; specialize (H c I); unfold user_char in *.
  - rewrite !orb_true_iff, is_letter_spec, is_digit_spec, one_of_spec in H. tauto.
  - rewrite !orb_true_iff, is_letter_spec, is_digit_spec, one_of_spec. tauto.
Qed.
Lemma user_colon : user_char ":".
Proof. right. right. cbn. tauto. Qed.
Lemma authority_sound s ui hp h p : parseAuthority s = Ok (ui, hp) -> splitHostPort hp = (h, p) -> authority s ui h p.
Proof.
  unfold parseAuthority. intros H S. destruct (cut_last "@" s) as [[u s']|] eqn:L.
  - apply cut_last_some in L. destruct L as [-> N]. destruct (parseHost s') as [host| |] eqn:E; try discriminate. cbn [res_bind] in H.
    destruct (validUserinfo u) eqn:V; [|discriminate]. cbn [negb] in H. apply valid_userinfo in V. destruct (cut ":" u) as [[n pw]|] eqn:C.
    + apply cut_some in C. destruct C as [-> NC]. destruct (unescape encodeUserPassword n) as [n'| |] eqn:En; try discriminate. cbn [res_bind] in H.
      destruct (unescape encodeUserPassword pw) as [pw'| |] eqn:Ep; try discriminate. cbn [res_bind] in H. injection H as <- <-.
      apply unescape_text in En; [|auto]. apply unescape_text in Ep; [|auto]. constructor; [|exact N|eapply host_sound; eassumption].
      apply up_password; try assumption. apply Forall_app in V. destruct V as [V1 V2]. inversion V2; subst. apply Forall_app. auto.
    + apply cut_none in C. destruct (unescape encodeUserPassword u) as [n'| |] eqn:En; try discriminate. cbn [res_bind] in H. injection H as <- <-.
      apply unescape_text in En; [|auto]. constructor; [|exact N|eapply host_sound; eassumption]. apply up_name; assumption.
  - apply cut_last_none in L. destruct (parseHost s) as [host| |] eqn:E; try discriminate. cbn [res_bind] in H. injection H as <- <-. constructor; [exact L|eapply host_sound; eassumption].
Qed.
Lemma authority_complete s ui h p : authority s ui h p -> exists hp, parseAuthority s = Ok (ui, hp) /\ splitHostPort hp = (h, p).
Proof.
  unfold parseAuthority. destruct 1 as [s h p N H|s ui s' h p U N H]; apply host_complete in H; destruct H as (hp & E & S); exists hp; (split; [|exact S]).
  - apply cut_last_none in N. rewrite N, E. reflexivity.
  - destruct (cut_last_some "@" (s ++ "@"%byte :: s') s s') as [_ X]. rewrite X by auto. rewrite E. cbn [res_bind]. destruct U as [s n F C T|s n s'' pw F C T T'].
    + apply valid_userinfo in F. rewrite F. cbn [negb]. apply cut_none in C. rewrite C. apply (unescape_text encodeUserPassword) in T; [|auto]. rewrite T. reflexivity.
    + assert (validUserinfo (s ++ ":"%byte :: s'') = true) as ->.
      { apply valid_userinfo. apply Forall_app in F. destruct F. apply Forall_app. split; [assumption|constructor; [exact user_colon|assumption]]. }
      cbn [negb]. destruct (cut_some ":" (s ++ ":"%byte :: s'') s s'') as [_ Y]. rewrite Y by auto.
      apply (unescape_text encodeUserPassword) in T, T'; auto. rewrite T, T'. reflexivity.
Qed.

(** * Queries *)

Lemma query_text_dec s : (exists k, unescape encodeQueryComponent s = Ok k /\ query_text s k) \/ ((forall k, unescape encodeQueryComponent s <> Ok k) /\ forall k, ~ query_text s k).
Proof.
  destruct (unescape encodeQueryComponent s) as [k|e|q] eqn:E; [left; exists k; split; [reflexivity|now apply unescape_query]|right..];
    (split; [discriminate|]; intros k T; apply unescape_query in T; congruence).
Qed.
Lemma semicolon_cons s s' : In ";"%byte (s ++ "="%byte :: s') <-> In ";"%byte (s ++ s').
Proof. rewrite !in_app_iff. cbn. split; [intros [?|[?|?]]; [auto|discriminate|auto]|tauto]. Qed.
Lemma piece_sound legacy s : piece legacy s (query_pair legacy s).
Proof.
  unfold query_pair. destruct (negb legacy && one_of s ";") eqn:L.
  - apply andb_true_iff in L. destruct L as [L1 L2]. apply piece_semicolon; [now destruct legacy|now apply one_of_spec].
  - assert (legacy = false -> ~ In ";"%byte s) as NS. { intros ->. cbn in L. rewrite <- one_of_spec, L. discriminate. }
    destruct s as [|c s]; [apply piece_empty|]. set (w := c :: s) in *. destruct (cut "=" w) as [[k v]|] eqn:C.
    + apply cut_some in C. destruct C as [-> N]. destruct (query_text_dec k) as [(k' & -> & K)|[K K']].
      * destruct (query_text_dec v) as [(v' & -> & V)|[V V']].
        -- apply piece_pair; try assumption. intros F I. apply (NS F). now apply semicolon_cons.
        -- destruct (unescape encodeQueryComponent v) eqn:E; [exfalso; eapply V; reflexivity|..]; (apply piece_bad_pair; [exact N|]; intros ? ? [_ T]; eapply V'; exact T).
      * destruct (unescape encodeQueryComponent k) eqn:E; [exfalso; eapply K; reflexivity|..]; (apply piece_bad_pair; [exact N|]; intros ? ? [T _]; eapply K'; exact T).
    + apply cut_none in C. change (unescape encodeQueryComponent []) with (@Ok bytes []). destruct (query_text_dec w) as [(k' & -> & K)|[K K']].
      * apply piece_key; try assumption. discriminate.
      * destruct (unescape encodeQueryComponent w) eqn:E; [exfalso; eapply K; reflexivity|..]; (apply piece_bad_key; assumption).
Qed.
Lemma query_text_det s k k' : query_text s k -> query_text s k' -> k' = k.
Proof. intros A B. apply unescape_query in A, B. congruence. Qed.
Lemma cut_unique (c : byte) a b a' b' : a ++ c :: b = a' ++ c :: b' -> ~ In c a -> ~ In c a' -> a = a' /\ b = b'.
Proof.
  intros E N N'. assert (cut c (a ++ c :: b) = Some (a, b)) as X by (apply cut_some; auto). assert (cut c (a' ++ c :: b') = Some (a', b')) as X' by (apply cut_some; auto).
  rewrite E, X' in X. injection X as -> ->. auto.
Qed.
Lemma piece_det legacy s l l' : piece legacy s l -> piece legacy s l' -> l' = l.
Proof.
  assert (forall a b : bytes, ~ (~ In "="%byte (a ++ "="%byte :: b))) as X by (intros a b H; apply H, in_or_app; right; now left).
  assert (query_text [] []) as Q by constructor.
  intros A B. destruct A; inversion B; subst; try reflexivity; try congruence; try (exfalso; eapply X; eassumption);
    try match goal with H : [] = ?a ++ _ |- _ => destruct a; discriminate | H : ?a ++ _ = [] |- _ => destruct a; discriminate end;
    try match goal with H : _ ++ "="%byte :: _ = _ ++ "="%byte :: _ |- _ => apply cut_unique in H; [|assumption|assumption]; destruct H; subst end;
    try match goal with H : forall k, ~ query_text _ k |- _ => exfalso; eapply H; eassumption end;
    try match goal with H : forall k v, ~ (query_text _ k /\ query_text _ v) |- _ => exfalso; eapply H; split; eassumption end;
    try (exfalso; match goal with H : false = false -> ~ In ";"%byte _ |- _ => apply (H eq_refl) end; rewrite ?semicolon_cons in *; assumption);
    try (exfalso; match goal with H : ?l = false -> ~ In ";"%byte _, L : ?l = false |- _ => apply (H L) end; rewrite ?semicolon_cons in *; assumption).
  - rewrite (query_text_det s k k0) by assumption. reflexivity.
  - rewrite (query_text_det s k k0), (query_text_det s' v v0) by assumption. reflexivity.
Qed.

Definition is_separator (legacy : bool) (c : byte) : bool := byte_eqb c "&" || legacy && byte_eqb c ";".
Lemma is_separator_spec legacy c : is_separator legacy c = true <-> separator legacy c.
Proof.
  unfold is_separator, separator. rewrite orb_true_iff, andb_true_iff. destruct (byte_eqb_spec c "&"), (byte_eqb_spec c ";"); intuition congruence.
Qed.
Lemma segments_one sep s : Forall (fun c => sep c = false) s -> segments sep s = [s].
Proof. induction 1 as [|c s H F IH]; [reflexivity|]. cbn. rewrite H, IH. reflexivity. Qed.
Lemma segments_more sep s c s' : Forall (fun c => sep c = false) s -> sep c = true -> segments sep (s ++ c :: s') = s :: segments sep s'.
Proof. intros F C. induction F as [|x s H F IH]; cbn; [rewrite C; reflexivity|]. rewrite H, IH. reflexivity. Qed.
Lemma first_separator (sep : byte -> bool) s : Forall (fun c => sep c = false) s \/ exists a c b, s = a ++ c :: b /\ Forall (fun c => sep c = false) a /\ sep c = true.
Proof.
  induction s as [|x s [IH|(a & c & b & -> & F & C)]]; [left; constructor|..]; (destruct (sep x) eqn:E; [right; eexists [], x, _; repeat split; auto|]).
  - left. constructor; assumption.
  - right. exists (x :: a), c, b. repeat split; auto.
Qed.
Lemma nosep legacy s : Forall (fun c => ~ separator legacy c) s <-> Forall (fun c => is_separator legacy c = false) s.
Proof. rewrite !Forall_forall. split; intros H c I; specialize (H c I); rewrite <- is_separator_spec in *; destruct (is_separator legacy c); congruence. Qed.
Lemma query_sound legacy s : query legacy s (parseQuery legacy s).
Proof.
  assert (forall n s, (length s <= n)%nat -> query legacy s (parseQuery legacy s)) as X; [|eapply X; reflexivity].
  clear s. unfold parseQuery. fold (is_separator legacy). induction n as [|n IH]; intros s L.
  - destruct s; [|cbn in L; lia]. apply query_last; [constructor|]. cbn. rewrite app_nil_r. apply piece_sound.
  - destruct (first_separator (is_separator legacy) s) as [F|(a & c & b & -> & F & C)].
    + rewrite segments_one by exact F. cbn. rewrite app_nil_r. apply query_last; [now apply nosep|apply piece_sound].
    + rewrite segments_more by assumption. cbn. apply query_more; [now apply nosep|apply piece_sound|now apply is_separator_spec|].
      apply IH. rewrite app_length in L. cbn in L. lia.
Qed.
Lemma query_complete legacy s l : query legacy s l -> parseQuery legacy s = l.
Proof.
  unfold parseQuery. fold (is_separator legacy). induction 1 as [s l F P|s l c s' l' F P C Q IH].
  - apply nosep in F. rewrite segments_one by exact F. cbn. rewrite app_nil_r. eapply piece_det; [exact P|apply piece_sound].
  - apply nosep in F. apply is_separator_spec in C. rewrite segments_more by assumption. cbn. rewrite IH. f_equal. eapply piece_det; [exact P|apply piece_sound].
Qed.

(** * Schemes *)

Definition scheme_char (c : byte) : Prop := letter c \/ digit c \/ In c (str "+-.").
Lemma scheme_char_spec c : is_letter c || is_digit c || one_of (str "+-.") c = true <-> scheme_char c.
Proof. unfold scheme_char. rewrite !orb_true_iff, is_letter_spec, is_digit_spec, one_of_spec. tauto. Qed.
Lemma scheme_char_colon c : scheme_char c -> c <> ":"%byte.
Proof. intros H ->. apply scheme_char_spec in H. discriminate. Qed.
Lemma getscheme_false s a b : getscheme false s = Ok (Some (a, b)) <-> s = a ++ ":"%byte :: b /\ Forall scheme_char a.
Proof.
  revert a. induction s as [|c s IH]; intros a; cbn [getscheme].
  - split; [discriminate|]. intros [H _]. now destruct a.
  - destruct (is_letter c || is_digit c || one_of (str "+-.") c) eqn:K.
    + apply scheme_char_spec in K. cbn [andb]. destruct (getscheme false s) as [[[a0 b0]|]|e|q] eqn:E; cbn [res_map].
      * split.
        -- intros [= <- <-]. destruct (proj1 (IH a0) eq_refl) as [-> F]. split; [reflexivity|constructor; assumption].
        -- intros [H F]. destruct a as [|x a]; [injection H as -> _; now apply scheme_char_colon in K|]. cbn in H. injection H as <- H.
           inversion F as [|? ? ? F']; subst. assert (X := proj2 (IH a) (conj eq_refl F')). injection X as -> ->. reflexivity.
      * split; [discriminate|]. intros [H F]. destruct a as [|x a]; [injection H as -> _; now apply scheme_char_colon in K|]. cbn in H. injection H as <- H.
        inversion F as [|? ? ? F']; subst. assert (X := proj2 (IH a) (conj eq_refl F')). discriminate.
      * split; [discriminate|]. intros [H F]. destruct a as [|x a]; [injection H as -> _; now apply scheme_char_colon in K|]. cbn in H. injection H as <- H.
        inversion F as [|? ? ? F']; subst. assert (X := proj2 (IH a) (conj eq_refl F')). discriminate.
      * split; [discriminate|]. intros [H F]. destruct a as [|x a]; [injection H as -> _; now apply scheme_char_colon in K|]. cbn in H. injection H as <- H.
        inversion F as [|? ? ? F']; subst. assert (X := proj2 (IH a) (conj eq_refl F')). discriminate.
    + assert (~ scheme_char c) as NK by (rewrite <- scheme_char_spec, K; discriminate). destruct (byte_eqb_spec c ":") as [->|N].
      * split; [intros [= <- <-]; auto|]. intros [H F]. destruct a as [|x a]; [now injection H as ->|]. cbn in H. injection H as <- _. inversion F; subst. contradiction.
      * split; [discriminate|]. intros [H F]. destruct a as [|x a]; [injection H as -> _; congruence|]. cbn in H. injection H as <- _. inversion F; subst. contradiction.
Qed.
Lemma getscheme_true s a b : getscheme true s = Ok (Some (a, b)) <-> s = a ++ ":"%byte :: b /\ exists c a', a = c :: a' /\ letter c /\ Forall scheme_char a'.
Proof.
  destruct s as [|c s]; cbn [getscheme]; [split; [discriminate|]; intros [H _]; now destruct a|].
  destruct (is_letter c || is_digit c || one_of (str "+-.") c) eqn:K.
  - destruct (is_letter c) eqn:L; cbn [andb negb].
    + apply is_letter_spec in L. destruct (getscheme false s) as [[[a0 b0]|]|e|q] eqn:E; cbn [res_map].
      * split.
        -- intros [= <- <-]. apply getscheme_false in E. destruct E as [-> F]. split; [reflexivity|]. exists c, a0. auto.
        -- intros [H (c' & a' & -> & _ & F)]. cbn in H. injection H as <- ->. assert (X := proj2 (getscheme_false _ a' b) (conj eq_refl F)). rewrite E in X. injection X as -> ->. reflexivity.
      * split; [discriminate|]. intros [H (c' & a' & -> & _ & F)]. cbn in H. injection H as <- ->. assert (X := proj2 (getscheme_false _ a' b) (conj eq_refl F)). congruence.
      * split; [discriminate|]. intros [H (c' & a' & -> & _ & F)]. cbn in H. injection H as <- ->. assert (X := proj2 (getscheme_false _ a' b) (conj eq_refl F)). congruence.
      * split; [discriminate|]. intros [H (c' & a' & -> & _ & F)]. cbn in H. injection H as <- ->. assert (X := proj2 (getscheme_false _ a' b) (conj eq_refl F)). congruence.
    + split; [discriminate|]. intros [H (c' & a' & -> & X & F)]. cbn in H. injection H as <- _. apply is_letter_spec in X. congruence.
  - assert (~ letter c) as NL by (rewrite <- is_letter_spec; destruct (is_letter c); [discriminate|congruence]).
    destruct (byte_eqb c ":"); (split; [discriminate|]); intros [H (c' & a' & -> & X & F)]; cbn in H; injection H as <- _; contradiction.
Qed.
Lemma lower_small s s' : lower s = s' <-> Forall2 small s s'.
Proof.
  revert s'. induction s as [|c s IH]; intros s'; cbn.
  - split; [intros <-; constructor|intros H; inversion H; reflexivity].
  - assert (forall b, small c b <-> (if between 65 90 c then byte_of_Z (Z_of_byte c + 32) else c) = b) as X.
    { intros b. unfold small. destruct (between 65 90 c) eqn:B.
      - apply between_spec in B. assert (Z_of_byte (byte_of_Z (Z_of_byte c + 32)) = Z_of_byte c + 32) as E by (rewrite Z_of_byte_of_Z, Z.mod_small; lia).
        split; [intros [[_ H]|[H _]]; [apply Z_of_byte_inj; lia|tauto]|intros <-; left; auto].
      - assert (~ 65 <= Z_of_byte c <= 90) as NB by (rewrite <- between_spec, B; discriminate). split; [intros [[H _]|[_ H]]; [tauto|auto]|intros <-; right; auto]. }
    split.
    + intros <-. constructor; [now apply X|now apply IH].
    + intros H. inversion H as [|? b ? t S F]; subst. apply X in S. rewrite S. f_equal. now apply IH.
Qed.

(** * The question mark *)

Lemma split_query_cut r : split_query r = match cut "?" r with Some (a, b) => (a, b) | None => (r, []) end.
Proof.
  unfold split_query. destruct (byte_eqb (last r x00) "?" && (length (filter (byte_eqb "?") r) =? 1)%nat) eqn:K; [|reflexivity].
  apply andb_true_iff in K. destruct K as [K1 K2]. apply Nat.eqb_eq in K2. destruct r as [|x r _] using rev_ind; [discriminate|]. rewrite last_last in K1. rewrite removelast_last.
  destruct (byte_eqb_spec x "?") as [->|]; [|discriminate]. assert (cut "?" (r ++ ["?"%byte]) = Some (r, [])) as ->; [|reflexivity]. apply cut_some. split; [reflexivity|].
  intros I. rewrite filter_app, app_length in K2. cbn in K2. assert (In "?"%byte (filter (byte_eqb "?") r)) as X by (apply filter_In; split; [exact I|apply byte_eqb_refl]).
  destruct (filter (byte_eqb "?") r); [destruct X|cbn in K2; lia].
Qed.
Lemma split_query_spec r hi q : split_query r = (hi, q) <-> exists qs, marked "?" qs q /\ r = hi ++ qs /\ ~ In "?"%byte hi.
Proof.
  rewrite split_query_cut. unfold marked. split.
  - destruct (cut "?" r) as [[a b]|] eqn:C; intros [= <- <-].
    + apply cut_some in C. destruct C as [-> N]. eauto.
    + apply cut_none in C. exists []. rewrite app_nil_r. auto.
  - intros (qs & [[-> ->]| ->] & -> & N).
    + rewrite app_nil_r. apply cut_none in N. now rewrite N.
    + assert (cut "?" (hi ++ "?"%byte :: q) = Some (hi, q)) as -> by (apply cut_some; auto). reflexivity.
Qed.

(** * The whole URI *)

Lemma no_control s : existsb is_control s = false <-> Forall (fun c => ~ control c) s.
Proof.
  rewrite Forall_forall. split.
  - intros H c I K. apply is_control_spec in K. assert (existsb is_control s = true) by (apply existsb_exists; eauto). congruence.
  - intros H. destruct (existsb is_control s) eqn:E; [|reflexivity]. apply existsb_exists in E. destruct E as (c & I & K). apply is_control_spec in K. exfalso. exact (H c I K).
Qed.

Definition absolute (legacy : bool) (r : bytes) (u : url) : Prop :=
  exists sch sch' hi ui h p path qs q pairs, scheme sch sch' /\ hierarchy hi ui h p path /\ marked "?" qs q /\ query legacy q pairs /\
    ~ In "?"%byte hi /\ Forall (fun c => ~ control c) (hi ++ q) /\ r = sch ++ ":"%byte :: hi ++ qs /\ u = URL sch' ui h p path pairs.

Lemma parse_sound legacy r u : parse legacy r = Ok u -> u_scheme u <> [] -> absolute legacy r u.
Proof.
  unfold parse. intros H NS. destruct (existsb is_control r) eqn:C; [discriminate|]. apply no_control in C.
  destruct (bytes_eqb r (str "*")); [injection H as <-; cbn in NS; congruence|].
  destruct (getscheme true r) as [[[sch rest]|]|e|q] eqn:G; try discriminate; cbn [res_bind] in H.
  - apply getscheme_true in G. destruct G as [-> (c & a' & -> & L & F)].
    set (sch := c :: a') in *. assert (scheme sch (lower sch)) as SC by (constructor; [exact L|exact F|now apply lower_small]).
    destruct (split_query rest) as [hi q] eqn:Q. apply split_query_spec in Q. destruct Q as (qs & M & -> & NQ).
    assert (Forall (fun c => ~ control c) (hi ++ q)) as CC.
    { apply Forall_app in C. destruct C as [_ C]. apply Forall_inv_tail in C. apply Forall_app in C. destruct C as [C1 C2]. apply Forall_app. split; [exact C1|].
      destruct M as [[-> ->]| ->]; [constructor|now apply Forall_inv_tail in C2]. }
    assert (forall ui h p path, hierarchy hi ui h p path -> u = URL (lower sch) ui h p path (parseQuery legacy q) -> absolute legacy (sch ++ ":"%byte :: hi ++ qs) u) as K.
    { intros ui h p path HI ->. exists sch, (lower sch), hi, ui, h, p, path, qs, q, (parseQuery legacy q). do 7 (split; [first [assumption|apply query_sound|reflexivity]|]). reflexivity. }
    change (lower sch) with ((if between 65 90 c then byte_of_Z (Z_of_byte c + 32) else c) :: lower a') in H. cbn iota in H.
    change ((if between 65 90 c then byte_of_Z (Z_of_byte c + 32) else c) :: lower a') with (lower sch) in H. cbn [negb] in H. rewrite andb_true_r in H. cbn [orb] in H.
    destruct (has_prefix (str "/") hi) eqn:P; cbn [negb] in H.
    + cbn [andb] in H. apply has_prefix_spec in P. destruct P as (hi1 & ->). change (str "/" ++ hi1) with ("/"%byte :: hi1) in *.
      destruct (has_prefix (str "//") ("/"%byte :: hi1)) eqn:PP.
      * apply has_prefix_spec in PP. destruct PP as (hi2 & E). change (str "//" ++ hi2) with ("/"%byte :: "/"%byte :: hi2) in E. injection E as ->. cbn [skipn] in H.
        assert (exists a s, hi2 = a ++ s /\ ~ In "/"%byte a /\ (s = [] \/ exists s', s = "/"%byte :: s') /\ match cut "/" hi2 with Some (a, b) => (a, "/"%byte :: b) | None => (hi2, []) end = (a, s)) as (a & s & -> & NA & SH & EC).
        { destruct (cut "/" hi2) as [[a b]|] eqn:E; [apply cut_some in E; destruct E as [-> E]; exists a, ("/"%byte :: b)|apply cut_none in E; exists hi2, []; rewrite app_nil_r]; eauto 7. }
        rewrite EC in H. destruct (parseAuthority a) as [[ui hp]| |] eqn:A; try discriminate. cbn [res_bind] in H.
        destruct (unescape encodePath s) as [path| |] eqn:U; try discriminate. cbn [res_bind fst snd] in H. destruct (splitHostPort hp) as [h p] eqn:S. injection H as <-.
        eapply K; [|reflexivity]. apply hi_authority; [exact NA|eapply authority_sound; eassumption|exact SH|]. eapply unescape_text; [left; reflexivity|exact U].
      * destruct (unescape encodePath ("/"%byte :: hi1)) as [path| |] eqn:U; try discriminate. cbn [res_bind] in H. injection H as <-. eapply K; [|reflexivity]. apply hi_path.
        -- intros s' ->. cbn in PP. discriminate.
        -- eapply unescape_text; [left; reflexivity|exact U].
    + injection H as <-. eapply K; [|reflexivity]. apply hi_opaque. intros s' ->. cbn in P. discriminate.
  - exfalso. destruct (split_query r) as [hi q]. cbn [negb andb orb] in H. rewrite andb_false_r in H.
    destruct (_ && _) in H; [discriminate|]. destruct (_ && _) in H.
    + destruct (match cut "/" (skipn 2 hi) with Some (a, b) => (a, "/"%byte :: b) | None => (skipn 2 hi, []) end) as [a s].
      destruct (parseAuthority a) as [[ui hp]| |]; try discriminate. cbn [res_bind] in H. destruct (unescape encodePath s); try discriminate. cbn [res_bind fst snd] in H.
      destruct (splitHostPort hp). injection H as <-. cbn in NS. congruence.
    + destruct (unescape encodePath hi); try discriminate. injection H as <-. cbn in NS. congruence.
Qed.
Lemma scheme_no_control c : scheme_char c -> ~ control c.
Proof. intros [[H|H]|[H|H]] [K|K]; unfold digit in *; try lia; destruct H as [<-|[<-|[<-|[]]]]; vm_compute in K; congruence. Qed.
Lemma parse_complete legacy r u : absolute legacy r u -> parse legacy r = Ok u.
Proof.
  intros (sch & sch' & hi & ui & h & p & path & qs & q & pairs & SC & HI & M & Q & NQ & CC & -> & ->).
  destruct SC as [c a' sch' L F S]. unfold parse.
  assert (scheme_char c) as SCc by (now left).
  assert (existsb is_control ((c :: a') ++ ":"%byte :: hi ++ qs) = false) as ->.
  { apply no_control. apply Forall_app in CC. destruct CC as [C1 C2]. apply Forall_app. split.
    - constructor; [now apply scheme_no_control|]. eapply Forall_impl; [|exact F]. intros x X. now apply scheme_no_control.
    - constructor; [intros [K|K]; vm_compute in K; congruence|]. apply Forall_app. split; [exact C1|]. destruct M as [[-> ->]| ->]; [constructor|].
      constructor; [intros [K|K]; vm_compute in K; congruence|exact C2]. }
  assert (bytes_eqb ((c :: a') ++ ":"%byte :: hi ++ qs) (str "*") = false) as ->.
  { cbn [app]. change (str "*") with ["*"%byte]. cbn [bytes_eqb]. destruct (byte_eqb_spec c "*") as [->|]; [|reflexivity]. apply scheme_char_spec in SCc. discriminate. }
  assert (getscheme true ((c :: a') ++ ":"%byte :: hi ++ qs) = Ok (Some (c :: a', hi ++ qs))) as -> by (apply getscheme_true; split; [reflexivity|exists c, a'; auto]).
  cbn [res_bind]. apply lower_small in S. rewrite S. destruct sch' as [|d sch']; [discriminate|]. set (sch := d :: sch') in *.
  assert (split_query (hi ++ qs) = (hi, q)) as -> by (apply split_query_spec; eauto). apply query_complete in Q. rewrite Q.
  unfold sch at 2. cbn [negb orb]. rewrite andb_true_r. destruct HI as [a ui h p s path NA A SH T|s path NS T|s NS].
  - change (has_prefix (str "/") ("/"%byte :: "/"%byte :: a ++ s)) with true. change (has_prefix (str "//") ("/"%byte :: "/"%byte :: a ++ s)) with true. cbn [negb andb skipn].
    assert (match cut "/" (a ++ s) with Some (a, b) => (a, "/"%byte :: b) | None => (a ++ s, []) end = (a, s)) as ->.
    { destruct SH as [->|(s' & ->)].
      - rewrite app_nil_r. apply cut_none in NA. now rewrite NA.
      - assert (cut "/" (a ++ "/"%byte :: s') = Some (a, s')) as -> by (apply cut_some; auto). reflexivity. }
    apply authority_complete in A. destruct A as (hp & -> & SP). cbn [res_bind].
    apply (unescape_text encodePath) in T; [|auto]. rewrite T. cbn [res_bind fst snd]. rewrite SP. reflexivity.
  - change (has_prefix (str "/") ("/"%byte :: s)) with true. cbn [negb andb].
    assert (has_prefix (str "//") ("/"%byte :: s) = false) as ->.
    { destruct (has_prefix (str "//") ("/"%byte :: s)) eqn:P; [|reflexivity]. apply has_prefix_spec in P. destruct P as (s' & E). injection E as ->. exfalso. eapply NS; reflexivity. }
    apply (unescape_text encodePath) in T; [|auto]. rewrite T. reflexivity.
  - assert (has_prefix (str "/") s = false) as ->; [|reflexivity].
    destruct (has_prefix (str "/") s) eqn:P; [|reflexivity]. apply has_prefix_spec in P. destruct P as (s' & E). exfalso. eapply NS; exact E.
Qed.

Lemma scheme_no_hash c : scheme_char c -> c <> "#"%byte.
Proof. intros H ->. apply scheme_char_spec in H. discriminate. Qed.
Theorem url_Parse_exact legacy s u : (url_Parse legacy s = Ok u /\ u_scheme u <> []) <-> uri legacy s u.
Proof.
  unfold url_Parse. split.
  - intros [H NS]. destruct (cut "#" s) as [[r f]|] eqn:C.
    + apply cut_some in C. destruct C as [-> NH]. destruct (parse legacy r) as [u0| |] eqn:P; try discriminate. cbn [res_bind] in H.
      assert (u0 = u /\ exists f', text f f') as [-> (f' & T)].
      { destruct f as [|x f]; [injection H as <-; split; [reflexivity|exists []; constructor]|].
        destruct (unescape encodeFragment (x :: f)) as [f'| |] eqn:U; try discriminate. injection H as <-. split; [reflexivity|]. exists f'. eapply unescape_text; [right; right; reflexivity|exact U]. }
      apply parse_sound in P; [|exact NS]. destruct P as (sch & sch' & hi & ui & h & p & path & qs & q & pairs & SC & HI & M & Q & NQ & CC & -> & ->).
      rewrite <- app_assoc. cbn [app]. rewrite <- app_assoc. eapply uri_intro; try eassumption; [right; reflexivity|]. intros I. apply NH. apply in_or_app. right. right.
      apply in_app_iff in I. apply in_app_iff. destruct I as [I|I]; [now left|right]. destruct M as [[-> ->]| ->]; [destruct I|now right].
    + apply cut_none in C. apply parse_sound in H; [|exact NS]. destruct H as (sch & sch' & hi & ui & h & p & path & qs & q & pairs & SC & HI & M & Q & NQ & CC & -> & ->).
      replace (hi ++ qs) with (hi ++ qs ++ []) by (now rewrite app_nil_r). eapply uri_intro; try eassumption; [left; split; reflexivity|constructor|]. intros I. apply C. apply in_or_app. right. right.
      apply in_app_iff in I. apply in_app_iff. destruct I as [I|I]; [now left|right]. destruct M as [[-> ->]| ->]; [destruct I|now right].
  - destruct 1 as [sch sch' hi ui h p path qs q pairs fs f f' SC HI M Q MF T NH NQ CC]. split.
    + assert (parse legacy (sch ++ ":"%byte :: hi ++ qs) = Ok (URL sch' ui h p path pairs)) as P.
      { apply parse_complete. exists sch, sch', hi, ui, h, p, path, qs, q, pairs. do 7 (split; [first [assumption|reflexivity]|]). reflexivity. }
      assert (~ In "#"%byte (sch ++ ":"%byte :: hi ++ qs)) as NH'.
      { rewrite in_app_iff. cbn [In]. rewrite in_app_iff. rewrite in_app_iff in NH. intros [I|[I|[I|I]]]; [|discriminate|tauto|].
        - destruct SC as [c a' sch' L F _]. assert (scheme_char "#") as K by (destruct I as [<-|I]; [now left|exact (proj1 (Forall_forall _ _) F _ I)]). now apply scheme_no_hash in K.
        - destruct M as [[-> ->]| ->]; [destruct I|]. destruct I as [I|I]; [discriminate|tauto]. }
      destruct MF as [[-> ->]| ->].
      * rewrite app_nil_r. apply cut_none in NH'. rewrite NH'. exact P.
      * replace (sch ++ ":"%byte :: hi ++ qs ++ "#"%byte :: f) with ((sch ++ ":"%byte :: hi ++ qs) ++ "#"%byte :: f) by (rewrite <- app_assoc; cbn [app]; rewrite <- app_assoc; reflexivity).
        match goal with |- match cut "#" (?a ++ _) with _ => _ end = _ => assert (cut "#" (a ++ "#"%byte :: f) = Some (a, f)) as -> by (apply cut_some; auto) end.
        rewrite P. cbn [res_bind]. destruct f as [|x f]; [reflexivity|]. apply (unescape_text encodeFragment) in T; [|auto]. rewrite T. reflexivity.
    + destruct SC as [c a' sch' L F S]. cbn. intros ->. inversion S.
Qed.

(** * url.Parse never panics *)

Lemma bind_nopanic {A B} (r : res A) (f : A -> res B) p : (forall q, r <> Panic q) -> (forall a, f a <> Panic p) -> res_bind r f <> Panic p.
Proof. intros H K. destruct r; cbn; [apply K|discriminate|exfalso; eapply H; reflexivity]. Qed.
Lemma getscheme_nopanic b s p : getscheme b s <> Panic p.
Proof.
  revert b. induction s as [|c s IH]; intros b; cbn [getscheme]; [discriminate|]. destruct (_ || _).
  - destruct (_ && _); [discriminate|]. specialize (IH false). destruct (getscheme false s); cbn; congruence.
  - destruct (byte_eqb c ":"); [destruct b|]; discriminate.
Qed.
Lemma parseHost_nopanic s p : parseHost s <> Panic p.
Proof.
  unfold parseHost. destruct (has_prefix _ _); [destruct (cut_last _ _) as [[a b]|]; [|discriminate]|destruct (cut_last _ _) as [[a b]|]; [|apply unescape_nopanic]].
  - destruct (negb _); [discriminate|]. destruct (cut_zone a) as [[x y]|]; [|apply unescape_nopanic].
    apply bind_nopanic; [apply unescape_nopanic|]. intros h1. apply bind_nopanic; [apply unescape_nopanic|]. intros h2. apply bind_nopanic; [apply unescape_nopanic|]. discriminate.
  - destruct (negb _); [discriminate|apply unescape_nopanic].
Qed.
Lemma parseAuthority_nopanic s p : parseAuthority s <> Panic p.
Proof.
  unfold parseAuthority. destruct (cut_last _ _) as [[a b]|]; (apply bind_nopanic; [apply parseHost_nopanic|]; intros h); [|discriminate]. destruct (negb _); [discriminate|].
  destruct (cut _ _) as [[n q]|]; (apply bind_nopanic; [apply unescape_nopanic|]; intros x); [|discriminate]. apply bind_nopanic; [apply unescape_nopanic|discriminate].
Qed.
Lemma parse_nopanic legacy r p : parse legacy r <> Panic p.
Proof.
  unfold parse. destruct (existsb _ _); [discriminate|]. destruct (bytes_eqb _ _); [discriminate|]. apply bind_nopanic; [apply getscheme_nopanic|]. intros sr.
  destruct (match sr with Some (a, b) => _ | None => _ end) as [sch rest]. destruct (split_query rest) as [hi q]. destruct (_ && _); [discriminate|]. destruct (_ && _); [discriminate|]. destruct (_ && _).
  - destruct (match cut _ _ with Some _ => _ | None => _ end) as [a s]. apply bind_nopanic; [apply parseAuthority_nopanic|]. intros [ui hp]. apply bind_nopanic; [apply unescape_nopanic|].
    intros path. destruct (splitHostPort _). discriminate.
  - apply bind_nopanic; [apply unescape_nopanic|discriminate].
Qed.
Lemma url_Parse_nopanic legacy r p : url_Parse legacy r <> Panic p.
Proof.
  unfold url_Parse. destruct (cut _ _) as [[a f]|]; [|apply parse_nopanic]. apply bind_nopanic; [apply parse_nopanic|]. intros u. destruct f; [discriminate|].
  apply bind_nopanic; [apply unescape_nopanic|discriminate].
Qed.
