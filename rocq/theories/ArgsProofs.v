(** The command line: parser and grammar agree. *)
From Coq Require Import Strings.Byte.
From Verif Require Import GoBase BufferProofs NetUrl NetUrlProofs Cli SpecCli CliProofs Kingpin SpecArgs.

Lemma eqb_eq a b : bytes_eqb a b = true <-> a = b.
Proof. destruct (bytes_eqb_spec a b); split; congruence. Qed.
Lemma eqb_refl a : bytes_eqb a a = true.
Proof. now apply eqb_eq. Qed.
Lemma long_name_known n f : long_name n = Known f <-> switch n f \/ n = str "config" /\ f = FConfig.
Proof.
  split.
  - unfold long_name. intros H. repeat match type of H with (if bytes_eqb n ?x then _ else _) = _ => destruct (bytes_eqb_spec n x) as [->|_]; [injection H as <-; first [left; constructor|right; split; reflexivity]|] end.
    destruct (_ || _) in H; discriminate.
  - intros [[]|[-> ->]]; reflexivity.
Qed.
Lemma switch_plain n f : switch n f -> ~ In "="%byte n /\ n <> [] /\ f <> FConfig /\ long_name (str "no-" ++ n) = Unknown.
Proof. intros []; (split; [cbn; intuition discriminate|split; [discriminate|split; [discriminate|reflexivity]]]). Qed.
Lemma no_prefix n : has_prefix (str "no-") n = true -> n = str "no-" ++ skipn 3 n.
Proof. intros H. apply has_prefix_spec in H. destruct H as (s & ->). reflexivity. Qed.

(** what the long flags are *)
Inductive long_flag : bytes -> ending -> Prop :=
| lf_dashes : long_flag [] Dashes
| lf_switch n f : switch n f -> long_flag n (Given (Switch f true))
| lf_no n f : switch n f -> long_flag (str "no-" ++ n) (Given (Switch f false))
| lf_is p : long_flag (str "config=" ++ p) (Given (Path p))
| lf_config : long_flag (str "config") Wanting.
Lemma long_complete s e : long_flag s e -> long s = e.
Proof.
  intros [|n f W|n f W|p|]; try reflexivity.
  - destruct (switch_plain n f W) as (E & N & C & _). assert (cut "=" n = None) as Q by now apply cut_none. pose proof (proj2 (long_name_known n f) (or_introl W)) as K.
    unfold long. destruct n as [|c n]; [congruence|]. rewrite Q, K. destruct f; reflexivity || congruence.
  - destruct (switch_plain n f W) as (E & N & C & U). assert (cut "=" (str "no-" ++ n) = None) as Q by (apply cut_none; cbn; intuition discriminate). pose proof (proj2 (long_name_known n f) (or_introl W)) as K.
    change (long (str "no-" ++ n)) with (let (n, v) := match cut "=" (str "no-" ++ n) with Some (n, v) => (n, Some v) | None => (str "no-" ++ n, None) end in
      let (f, invert) := match long_name n with Unknown => if has_prefix (str "no-") n then (long_name (skipn 3 n), true) else (Unknown, false) | f => (f, false) end in
      match f, v with Unknown, _ => Bad | Completion, _ => Beyond | Known FConfig, _ => if invert then Bad else match v with Some p => Given (Path p) | None => Wanting end
      | Known f, None => Given (Switch f (negb invert)) | Known _, Some _ => Bad end). rewrite Q, U.
    assert (has_prefix (str "no-") (str "no-" ++ n) = true) as -> by (apply has_prefix_spec; eauto). change (skipn 3 (str "no-" ++ n)) with n. rewrite K. destruct f; reflexivity || congruence.
Qed.
Lemma long_sound s e : long s = e -> e <> Bad -> e <> Beyond -> long_flag s e.
Proof.
  intros <- NB NX. destruct s as [|c s']; [constructor|]. set (s := c :: s') in *.
  assert (long s = let (n, v) := match cut "=" s with Some (n, v) => (n, Some v) | None => (s, None) end in
      let (f, invert) := match long_name n with Unknown => if has_prefix (str "no-") n then (long_name (skipn 3 n), true) else (Unknown, false) | f => (f, false) end in
      match f, v with Unknown, _ => Bad | Completion, _ => Beyond | Known FConfig, _ => if invert then Bad else match v with Some p => Given (Path p) | None => Wanting end
      | Known f, None => Given (Switch f (negb invert)) | Known _, Some _ => Bad end) as L by reflexivity.
  assert (exists n v, match cut "=" s with Some (n, v) => (n, Some v) | None => (s, None) end = (n, v) /\ s = n ++ match v with Some x => "="%byte :: x | None => [] end) as (n & v & Q & Hs).
  { destruct (cut "=" s) as [[n v]|] eqn:Q; [exists n, (Some v); split; [reflexivity|]; now apply cut_some in Q|exists s, None; split; [reflexivity|now rewrite app_nil_r]]. }
  rewrite Q in L. destruct (long_name n) as [f| |] eqn:K; cbv beta iota in L.
  - apply long_name_known in K. destruct K as [K|[-> ->]].
    + destruct (switch_plain n f K) as (_ & _ & C & _). destruct v as [v|]; [destruct f; cbv beta iota in L; congruence|]. cbv beta iota in L. rewrite L, Hs, app_nil_r. destruct f; try congruence; apply lf_switch; exact K.
    + destruct v as [v|]; rewrite L, Hs; [exact (lf_is v)|constructor].
  - destruct v; congruence.
  - destruct (has_prefix (str "no-") n) eqn:P; cbv beta iota in L; [|destruct v; congruence]. apply no_prefix in P. destruct (long_name (skipn 3 n)) as [f| |] eqn:K2; cbv beta iota in L; [|destruct v; congruence|destruct v; congruence].
    apply long_name_known in K2. destruct K2 as [K2|[_ ->]]; [|destruct v; congruence]. destruct (switch_plain _ f K2) as (_ & _ & C & _).
    destruct v as [v|]; [destruct f; cbv beta iota in L; congruence|]. cbv beta iota in L. rewrite L, Hs, app_nil_r, P. destruct f; try congruence; apply lf_no; exact K2.
Qed.

(** *** Words *)
Lemma as_argument_plain p : plain p <-> as_argument p = ArgIs p.
Proof.
  destruct p as [|c r]; [split; [reflexivity|intros _ r; split; discriminate]|]. cbn [as_argument]. destruct (byte_eqb_spec c "-") as [->|N].
  - split; [intros H; now destruct (proj1 (H r))|]. destruct (bytes_eqb r (str "-")); discriminate.
  - destruct (byte_eqb_spec c "@") as [->|N']; [split; [intros H; now destruct (proj2 (H r))|discriminate]|]. split; [reflexivity|]. intros _ r'. split; intros [= -> _]; congruence.
Qed.
Lemma argument_cases w : match as_argument w with ArgIs p => p = w | ArgDashes => w = str "--" | _ => True end.
Proof.
  destruct w as [|c r]; [reflexivity|]. cbn [as_argument]. destruct (byte_eqb_spec c "-") as [->|]; [|destruct (byte_eqb c "@"); auto]. destruct (bytes_eqb_spec r (str "-")) as [->|]; auto.
Qed.
(** the rest of the command line after a word *)
Definition tail (e : ending) (rest : list bytes) (l : list element) : Prop :=
  match e with
  | Given x => exists l', l = x :: l' /\ command_line rest l'
  | Wanting => (exists p rest' l', rest = p :: rest' /\ plain p /\ l = Path p :: l' /\ command_line rest' l') \/ (exists p, rest = [str "--"; p] /\ l = [Path p])
  | Dashes => rest = [] /\ l = []
  | Bad | Beyond => False
  end.
Lemma long_tail s rest l : tail (long s) rest l -> command_line ((str "--" ++ s) :: rest) l.
Proof.
  intros H. assert (long_flag s (long s)) as F by (apply long_sound; [reflexivity| |]; intros E; rewrite E in H; exact H). destruct F; cbn in H.
  - destruct H as [-> ->]. constructor.
  - destruct H as (l' & -> & H). now constructor.
  - destruct H as (l' & -> & H). now constructor.
  - destruct H as (l' & -> & H). now constructor.
  - destruct H as [(p & rest' & l' & -> & P & -> & H)|(p & -> & ->)]; constructor; auto; now left.
Qed.
Lemma short_tail s : forall rest l, let (l1, e) := short s in forall l2, l = l1 ++ l2 -> tail e rest l2 -> command_line ((str "-" ++ s) :: rest) l.
Proof.
  induction s as [|c r IH]; intros rest l; [intros ? _ []|]. cbn [short]. destruct (byte_eqb_spec c "-") as [->|N]; [intros l2 -> H; exact (long_tail r rest l2 H)|].
  destruct (byte_eqb_spec c "v") as [->|N'].
  - destruct r as [|c' r']; [intros l2 -> (l' & -> & H); exact (cl_v rest l' H)|]. set (r := c' :: r') in *. destruct (short r) as [l1 e] eqn:Q. intros l2 -> H.
    apply (cl_v_more r rest (l1 ++ l2)); [discriminate|]. specialize (IH rest (l1 ++ l2)). apply (IH l2 eq_refl H).
  - destruct (byte_eqb_spec c "c") as [->|N'']; [|intros ? _ []]. destruct r as [|c' r'].
    + intros l2 -> [(p & rest' & l' & -> & P & -> & H)|(p & -> & ->)]; constructor; auto; now right.
    + intros l2 -> (l' & -> & H). apply (cl_c (c' :: r') rest l'); [discriminate|exact H].
Qed.
Lemma word_tail w rest l1 e l2 : word w = (l1, e) -> tail e rest l2 -> command_line (w :: rest) (l1 ++ l2).
Proof.
  destruct w as [|c r]; cbn; [intros [= <- <-] []|]. destruct (byte_eqb_spec c "-") as [->|N].
  - intros H T. pose proof (short_tail r rest (l1 ++ l2)) as X. rewrite H in X. exact (X l2 eq_refl T).
  - intros [= <- <-]. destruct (byte_eqb c "@"); intros [].
Qed.
Lemma parse_sound n : forall acc args l, (length args <= n)%nat -> parse acc args = Some (Ok l) -> exists l', l = acc ++ l' /\ command_line args l'.
Proof.
  induction n as [|n IH]; intros acc [|w rest] l Hn H.
  - injection H as <-. exists []. rewrite app_nil_r. split; [reflexivity|constructor].
  - cbn in Hn. lia.
  - injection H as <-. exists []. rewrite app_nil_r. split; [reflexivity|constructor].
  - cbn in Hn, H. destruct (word w) as [l1 e] eqn:W. destruct e as [x| | | |]; try discriminate.
    + apply IH in H; [|cbn in Hn; lia]. destruct H as (l' & -> & C). exists (l1 ++ x :: l'). split; [now rewrite <- !app_assoc|]. apply (word_tail w rest l1 (Given x)); [exact W|]. exists l'. auto.
    + destruct rest as [|w' rest']; [discriminate|]. pose proof (argument_cases w') as A. destruct (as_argument w') as [p| | |] eqn:Q; try discriminate.
      * subst p. cbn in Hn. apply IH in H; [|cbn in Hn; lia]. destruct H as (l' & -> & C). exists (l1 ++ Path w' :: l'). split; [now rewrite <- !app_assoc|]. apply (word_tail w _ l1 Wanting); [exact W|]. left. exists w', rest', l'. repeat split; auto; apply as_argument_plain; auto.
      * subst w'. destruct rest' as [|p [|? ?]]; try discriminate. injection H as <-. exists (l1 ++ [Path p]). split; [reflexivity|]. apply (word_tail w _ l1 Wanting); [exact W|]. right. eauto.
    + destruct rest; [|discriminate]. injection H as <-. exists l1. split; [reflexivity|]. rewrite <- (app_nil_r l1). apply (word_tail w _ l1 Dashes); [exact W|]. split; reflexivity.
Qed.
Lemma word_long s : word (str "--" ++ s) = ([], long s).
Proof. reflexivity. Qed.
Lemma wanting_word w : config_flag w -> word w = ([], Wanting).
Proof. intros [->| ->]; reflexivity. Qed.
Lemma parse_complete args l : command_line args l -> forall acc, parse acc args = Some (Ok (acc ++ l)).
Proof.
  induction 1 as [| |n f rest l W _ IH|n f rest l W _ IH|p rest l _ IH|w p rest l W P _ IH|w p W|p rest l N _ IH|rest l _ IH|r rest l N _ IH]; intros acc; cbn [parse].
  - now rewrite app_nil_r.
  - cbn. now rewrite !app_nil_r.
  - rewrite word_long, (long_complete n _ (lf_switch n f W)), IH. cbn. now rewrite <- app_assoc.
  - change (str "--no-" ++ n) with (str "--" ++ str "no-" ++ n). rewrite word_long, (long_complete _ _ (lf_no n f W)), IH. cbn. now rewrite <- app_assoc.
  - change (str "--config=" ++ p) with (str "--" ++ str "config=" ++ p). rewrite word_long, (long_complete _ _ (lf_is p)), IH. cbn. now rewrite <- app_assoc.
  - rewrite (wanting_word w W), (proj1 (as_argument_plain p) P), IH. cbn. now rewrite <- app_assoc.
  - rewrite (wanting_word w W). reflexivity.
  - destruct p as [|c p]; [congruence|]. change (word (str "-c" ++ c :: p)) with ([] : list element, Given (Path (c :: p))). cbv iota beta. rewrite IH. cbn. now rewrite <- app_assoc.
  - change (word (str "-v")) with ([] : list element, Given (Switch FVerbose true)). cbv iota beta. rewrite IH. cbn. now rewrite <- app_assoc.
  - destruct r as [|c r]; [congruence|]. cbn [parse] in IH. change (word (str "-" ++ c :: r)) with (short (c :: r)) in IH.
    assert (word (str "-v" ++ c :: r) = let (l, e) := short (c :: r) in (Switch FVerbose true :: l, e)) as -> by reflexivity. destruct (short (c :: r)) as [l1 e].
    specialize (IH (acc ++ [Switch FVerbose true])). destruct e; try discriminate.
    + rewrite <- !app_assoc in IH. exact IH.
    + destruct rest as [|w' rest']; [discriminate|]. destruct (as_argument w'); try discriminate; [|destruct rest' as [|? [|? ?]]; try discriminate]; rewrite <- !app_assoc in IH; exact IH.
    + destruct rest; [|discriminate]. rewrite <- !app_assoc in IH. exact IH.
Qed.
Lemma parse_spec args l : parse [] args = Some (Ok l) <-> command_line args l.
Proof. split; [intros H; destruct (parse_sound _ [] args l (le_n _) H) as (l' & -> & C); exact C|intros H; exact (parse_complete _ _ H [])]. Qed.
Lemma parse_error n : forall acc args, (length args <= n)%nat -> match parse acc args with Some (Err e) => e = ErrExternal 3 | Some (Panic _) => False | _ => True end.
Proof.
  induction n as [|n IH]; intros acc [|w rest] Hn; cbn in *; auto; [lia|]. destruct (word w) as [l1 e]. destruct e; auto.
  - apply IH. lia.
  - destruct rest as [|w' rest']; [reflexivity|]. cbn in Hn. destruct (as_argument w'); auto; [apply IH; lia|]. destruct rest' as [|? [|? ?]]; auto.
  - destruct rest; auto.
Qed.
Lemma flag_number_inj f g : flag_number f = flag_number g -> f = g.
Proof. destruct f, g; cbn; congruence. Qed.
Lemma no_config_switch args l : command_line args l -> forall b, ~ In (Switch FConfig b) l.
Proof.
  induction 1 as [| |n f rest l W _ IH|n f rest l W _ IH|p rest l _ IH|w p rest l W P _ IH|w p W|p rest l N _ IH|rest l _ IH|r rest l N _ IH]; intros v; cbn [In]; try tauto;
    try (specialize (IH v)); try (intros [X|X]; [|tauto]; try discriminate; inversion W; subst; discriminate); intuition discriminate.
Qed.
Lemma repeated_spec l : (forall b, ~ In (Switch FConfig b) l) -> (repeated l = false <-> once l).
Proof.
  unfold once. induction l as [|x l IH]; intros NC; [split; [constructor|reflexivity]|]. cbn [repeated]. rewrite orb_false_iff, IH by (intros b I; apply (NC b); now right).
  enough (existsb (fun y => flag_number (flag_of x) =? flag_number (flag_of y)) l = false <-> Forall (fun y => ~ same_flag x y) l) as ->.
  { split; [intros [A B]; now constructor|intros H; inversion H; auto]. }
  rewrite <- not_true_iff_false, existsb_exists, Forall_forall.
  assert (forall y, In y l -> ((flag_number (flag_of x) =? flag_number (flag_of y)) = true <-> same_flag x y)) as E.
  { intros y I. rewrite Z.eqb_eq. split; [intros H; apply flag_number_inj in H|].
    - destruct x as [f b|p], y as [g b'|q]; cbn in *; auto; subst; [destruct (NC b)|destruct (NC b')]; auto.
    - destruct x as [f b|p], y as [g b'|q]; cbn; try tauto. now intros ->. }
  split; [intros H y I F; apply H; exists y; split; [exact I|now apply E]|intros H (y & I & F); apply (H y I); now apply E].
Qed.
Lemma Parse_accepts args ss : Parse args = Some (Ok ss) <-> exists l, command_line args l /\ once l /\ ss = flat_map setting_of l.
Proof.
  unfold Parse. split.
  - destruct (parse [] args) as [[l|e|p]|] eqn:P; try discriminate. destruct (repeated l) eqn:R; [discriminate|]. intros [= <-]. apply parse_spec in P. exists l. split; [exact P|]. split; [apply repeated_spec; [exact (no_config_switch _ _ P)|exact R]|reflexivity].
  - intros (l & C & O & ->). apply repeated_spec in O; [|exact (no_config_switch _ _ C)]. apply parse_spec in C. rewrite C. now rewrite O.
Qed.
Lemma Parse_refuses args : Parse args <> None -> (exists l, command_line args l /\ once l) \/ Parse args = Some (Err (ErrExternal 3)).
Proof.
  intros H. pose proof (parse_error _ [] args (le_n _)) as E. unfold Parse in *. destruct (parse [] args) as [[l|e|p]|] eqn:P; try congruence; [|right; now rewrite E|destruct E].
  destruct (repeated l) eqn:R; [now right|left]. apply parse_spec in P. exists l. split; [exact P|apply repeated_spec; [exact (no_config_switch _ _ P)|exact R]].
Qed.

(** *** Settings *)
Lemma config_settings l : flat_map of_config (flat_map setting_of l) = flat_map (fun x => match x with Path p => [p] | _ => [] end) l.
Proof. induction l as [|[[] b|p] l IH]; cbn; congruence. Qed.
Lemma path_asked l d : once l -> asked_for l d (path_of d (flat_map setting_of l)).
Proof.
  intros O. unfold path_of. rewrite config_settings. destruct (flat_map _ l) as [|p ps] eqn:E using rev_ind.
  - right. split; [reflexivity|]. intros q I. assert (In q (flat_map (fun x => match x with Path p => [p] | _ => [] end) l)) as X by (apply in_flat_map; exists (Path q); split; [exact I|now left]). rewrite E in X. destruct X.
  - left. rewrite last_last. assert (In p (flat_map (fun x => match x with Path p => [p] | _ => [] end) l)) as X by (rewrite E; apply in_or_app; right; now left). apply in_flat_map in X. destruct X as ([f b|q] & I & J); [destruct J|]. destruct J as [->|[]]. exact I.
Qed.
Lemma asked_unique l d p q : once l -> asked_for l d p -> asked_for l d q -> p = q.
Proof.
  intros O [A|[-> A]] [B|[-> B]]; try reflexivity; try (now destruct (A _ B)); try (now destruct (B _ A)).
  unfold once in O. induction l as [|x l IH]; [destruct A|]. inversion O as [|? ? N O']; subst. rewrite Forall_forall in N. destruct A as [->|A], B as [B|B].
  - congruence.
  - now destruct (N _ B).
  - subst x. now destruct (N _ A).
  - auto.
Qed.
Lemma info_wanted l : asks_info (flat_map setting_of l) = true <-> wants_info l.
Proof.
  unfold asks_info, wants_info. induction l as [|x l IH] using rev_ind.
  - cbn. split; [discriminate|]. intros (a & f & b & H & _). now destruct a.
  - rewrite !flat_map_app. cbn [flat_map]. rewrite !app_nil_r. assert ((exists f v, x = Switch f v /\ (f = FHelp \/ f = FVersion)) \/ flat_map of_info (setting_of x) = [] /\ forall f v, x = Switch f v -> f <> FHelp /\ f <> FVersion) as [(f & v & -> & F)|[E N]].
    { destruct x as [[] v|p]; first [solve [left; do 2 eexists; split; [reflexivity|auto]]|right; split; [reflexivity|]; intros f w E; inversion E; subst; split; discriminate]. }
    + assert (flat_map of_info (setting_of (Switch f v)) = [v]) as -> by (destruct F as [->| ->]; reflexivity). rewrite last_last. split.
      * intros ->. exists l, f, []. split; [reflexivity|]. split; [exact F|]. intros ? ? [].
      * intros (a & f' & b & H & F' & B). destruct b as [|y b _] using rev_ind; [apply app_inj_tail in H; destruct H as [_ H]; congruence|]. rewrite app_comm_cons, app_assoc in H. apply app_inj_tail in H. destruct H as [_ <-].
        destruct (B f v) as [B1 B2]; [apply in_or_app; right; now left|]. destruct F; congruence.
    + rewrite E, app_nil_r, IH. split.
      * intros (a & f & b & -> & F & B). exists a, f, (b ++ [x]). split; [now rewrite <- app_assoc|]. split; [exact F|]. intros f' v I. apply in_app_or in I. destruct I as [I|[->|[]]]; [eauto|]. exact (N _ _ eq_refl).
      * intros (a & f & b & H & F & B). destruct b as [|y b _] using rev_ind; [apply app_inj_tail in H; destruct H as [_ ->]; destruct (N _ _ eq_refl); destruct F; congruence|].
        rewrite app_comm_cons, app_assoc in H. apply app_inj_tail in H. destruct H as [-> <-]. exists a, f, b. split; [reflexivity|]. split; [exact F|]. intros f' v I. apply (B f' v). apply in_or_app. auto.
Qed.

(** *** The default path *)
Lemma split_none c : ~ In "/"%byte c -> split c = [c].
Proof. induction c as [|x c IH]; cbn; [reflexivity|]. intros N. destruct (byte_eqb_spec x "/"); [tauto|]. rewrite IH by tauto. reflexivity. Qed.
Lemma split_some c p : ~ In "/"%byte c -> split (c ++ "/"%byte :: p) = c :: split p.
Proof. induction c as [|x c IH]; cbn [split app]; [reflexivity|]. intros N. cbn in N. destruct (byte_eqb_spec x "/"); [tauto|]. rewrite IH by tauto. reflexivity. Qed.
Lemma join_split p : join (split p) = p.
Proof.
  induction p as [|x p IH]; [reflexivity|]. cbn [split]. destruct (byte_eqb_spec x "/") as [->|N].
  - destruct (split p) as [|a l] eqn:E; [destruct p as [|y p]; cbn in E; [discriminate|destruct (byte_eqb y "/"); [discriminate|destruct (split p); discriminate]]|]. cbn [join]. cbn [join] in IH. rewrite IH. reflexivity.
  - destruct (split p) as [|a [|b l]]; cbn in *; congruence.
Qed.
Lemma split_slash p : tidy p -> split (p ++ str "/") = split p ++ [[]].
Proof.
  change (str "/") with ["/"%byte]. induction 1 as [c (_ & N & _)|c p (_ & N & _) _ IH].
  - rewrite (split_some c []), (split_none c) by exact N. reflexivity.
  - rewrite <- app_assoc, <- app_comm_cons, (split_some c (p ++ _)), (split_some c p), IH by exact N. reflexivity.
Qed.
Lemma component_kept rooted c out r : component c -> clean_loop rooted out (c :: r) = clean_loop rooted (c :: out) r.
Proof.
  intros (A & _ & B & C). cbn [clean_loop]. destruct (bytes_eqb_spec c []); [congruence|]. destruct (bytes_eqb_spec c (str ".")); [congruence|]. destruct (bytes_eqb_spec c (str "..")); [congruence|]. reflexivity.
Qed.
Lemma tidy_kept rooted p : tidy p -> forall out more, clean_loop rooted out (split p ++ more) = clean_loop rooted (rev (split p) ++ out) more.
Proof.
  induction 1 as [c C|c p C _ IH]; intros out more.
  - rewrite split_none by apply C. exact (component_kept rooted c out more C).
  - rewrite split_some by apply C. cbn [app rev]. rewrite component_kept, IH by exact C. now rewrite <- app_assoc.
Qed.
Lemma tidy_relative p : tidy p -> has_prefix (str "/") p = false /\ split p <> [].
Proof.
  intros T. assert (p <> [] /\ (forall r, p <> "/"%byte :: r) /\ split p <> []) as (A & B & C).
  { destruct T as [c (N & S0 & _)|c p (N & S0 & _) T].
    - split; [exact N|]. split; [intros r ->; apply S0; now left|]. rewrite split_none; [discriminate|exact S0].
    - destruct c as [|x c]; [congruence|]. split; [discriminate|]. split; [intros r [= -> _]; apply S0; now left|]. rewrite split_some; [discriminate|exact S0]. }
  split; [|exact C]. destruct (has_prefix (str "/") p) eqn:E; [|reflexivity]. apply has_prefix_spec in E. destruct E as (r & E). destruct (B r E).
Qed.
Lemma tidy_nonempty p : tidy p -> p <> [].
Proof. intros [c (N & _)|c q (N & _) _]; [exact N|]. destruct c; [congruence|discriminate]. Qed.
Lemma prefix_app p q : tidy p -> has_prefix (str "/") (p ++ q) = false.
Proof.
  intros T. destruct (tidy_relative p T) as [H _]. pose proof (tidy_nonempty p T) as N. destruct p as [|x p]; [congruence|]. destruct (has_prefix (str "/") ((x :: p) ++ q)) eqn:E; [|reflexivity]. apply has_prefix_spec in E. destruct E as (r & E).
  change (x :: p ++ q = "/"%byte :: r) in E. injection E as -> _. cbn in H. discriminate.
Qed.
Definition clean_of (rooted : bool) (l : list bytes) : bytes := match l with [] => if rooted then str "/" else str "." | l => (if rooted then str "/" else []) ++ join l end.
Lemma Clean_unfold s : Clean s = clean_of (has_prefix (str "/") s) (clean_loop (has_prefix (str "/") s) [] (split s)).
Proof. unfold Clean, clean_of. destruct (clean_loop _ _ _); reflexivity. Qed.
Lemma clean_of_tidy rooted p : tidy p -> clean_of rooted (split p) = (if rooted then str "/" else []) ++ p.
Proof. intros T. destruct (tidy_relative p T) as [_ N]. unfold clean_of. destruct (split p) as [|a l] eqn:E; [congruence|]. rewrite <- E, join_split. reflexivity. Qed.
Lemma Clean_tidy p : tidy p -> Clean p = p.
Proof.
  intros T. rewrite Clean_unfold. rewrite (proj1 (tidy_relative p T)). pose proof (tidy_kept false p T [] []) as K. rewrite !app_nil_r in K. rewrite K. cbn [clean_loop]. rewrite rev_involutive. exact (clean_of_tidy false p T).
Qed.
Lemma Clean_tidy_slash p : tidy p -> Clean (p ++ str "/") = p.
Proof.
  intros T. rewrite Clean_unfold, prefix_app by exact T. rewrite split_slash by exact T. rewrite (tidy_kept false p T [] [[]]), app_nil_r. cbn [clean_loop]. change (bytes_eqb [] [] || bytes_eqb [] (str ".")) with true. cbv iota. rewrite rev_involutive. exact (clean_of_tidy false p T).
Qed.
Lemma Clean_rooted p : tidy p -> Clean ("/"%byte :: p) = "/"%byte :: p.
Proof.
  intros T. rewrite Clean_unfold. change (has_prefix (str "/") ("/"%byte :: p)) with true. change (split ("/"%byte :: p)) with ([] :: split p). change (clean_loop true [] ([] :: split p)) with (clean_loop true [] (split p)).
  pose proof (tidy_kept true p T [] []) as K. rewrite !app_nil_r in K. rewrite K. cbn [clean_loop]. rewrite rev_involutive. exact (clean_of_tidy true p T).
Qed.
Lemma Clean_rooted_slash p : tidy p -> Clean ("/"%byte :: p ++ str "/") = "/"%byte :: p.
Proof.
  intros T. rewrite Clean_unfold. change (has_prefix (str "/") ("/"%byte :: p ++ str "/")) with true. change (split ("/"%byte :: p ++ str "/")) with ([] :: split (p ++ str "/")). change (clean_loop true [] ([] :: split (p ++ str "/"))) with (clean_loop true [] (split (p ++ str "/"))).
  rewrite split_slash by exact T. rewrite (tidy_kept true p T [] [[]]), app_nil_r. cbn [clean_loop]. change (bytes_eqb [] [] || bytes_eqb [] (str ".")) with true. cbv iota. rewrite rev_involutive. exact (clean_of_tidy true p T).
Qed.
Lemma tidy_join p q : tidy p -> tidy q -> tidy (p ++ "/"%byte :: q).
Proof. intros T Q. induction T as [c C|c p C _ IH]; [now constructor|]. rewrite <- app_assoc, <- app_comm_cons. now constructor. Qed.
Lemma tidy_file : tidy (str "gevulot.toml").
Proof. constructor. split; [discriminate|]. split; [cbn; intuition discriminate|]. split; discriminate. Qed.
Lemma default_beside argv0 p : beside argv0 p -> default_path argv0 = p.
Proof.
  intros [[N ->]|(d & b & -> & N & D & ->)]; unfold default_path, Dir.
  - rewrite (proj2 (cut_last_none "/" argv0) N). reflexivity.
  - rewrite (proj2 (cut_last_some "/" (d ++ "/"%byte :: b) d b) (conj eq_refl N)). destruct D as [->|[T|(q & -> & T)]]; [reflexivity| |].
    + rewrite Clean_tidy_slash by exact T. apply Clean_tidy. exact (tidy_join d _ T tidy_file).
    + change (("/"%byte :: q) ++ str "/") with ("/"%byte :: q ++ str "/"). rewrite Clean_rooted_slash by exact T. exact (Clean_rooted _ (tidy_join q _ T tidy_file)).
Qed.

(** *** What is not covered *)
Lemma completion_name n : long_name n = Completion -> exists b, n = str "completion-" ++ b.
Proof.
  unfold long_name. intros H. repeat match type of H with (if bytes_eqb n ?x then _ else _) = _ => destruct (bytes_eqb n x); [discriminate|] end.
  match type of H with (if ?x then _ else _) = _ => destruct x eqn:E; [|discriminate] end. rewrite !orb_true_iff, !eqb_eq in E.
  destruct E as [[E|E]|E]; rewrite E; [exists (str "bash")|exists (str "script-bash")|exists (str "script-zsh")]; reflexivity.
Qed.
Lemma long_beyond s : long s = Beyond -> exists a b, s = a ++ str "completion-" ++ b.
Proof.
  destruct s as [|c s']; [discriminate|]. set (s := c :: s') in *. unfold long. fold s. assert (match s with [] => Dashes | _ => Bad end = Bad) as _ by reflexivity.
  assert (exists n v, match cut "=" s with Some (n, v) => (n, Some v) | None => (s, None) end = (n, v) /\ s = n ++ match v with Some x => "="%byte :: x | None => [] end) as (n & v & Q & Hs).
  { destruct (cut "=" s) as [[n v]|] eqn:Q; [exists n, (Some v); split; [reflexivity|]; now apply cut_some in Q|exists s, None; split; [reflexivity|now rewrite app_nil_r]]. }
  change (match cut "=" (c :: s') with Some (n, v) => (n, Some v) | None => (c :: s', None) end) with (match cut "=" s with Some (n, v) => (n, Some v) | None => (s, None) end). unfold s at 1. cbv iota. rewrite Q. rewrite Hs. destruct (long_name n) as [f| |] eqn:K.
  - cbv beta iota. destruct f, v; discriminate.
  - intros _. apply completion_name in K. destruct K as (b & ->). exists [], (b ++ match v with Some x => "="%byte :: x | None => [] end). now rewrite <- app_assoc.
  - destruct (has_prefix (str "no-") n) eqn:P; cbv beta iota; [|destruct v; discriminate]. apply no_prefix in P. destruct (long_name (skipn 3 n)) as [f| |] eqn:K2; cbv beta iota; [destruct f, v; discriminate| |destruct v; discriminate].
    intros _. apply completion_name in K2. destruct K2 as (b & E). rewrite E in P. rewrite P. exists (str "no-"), (b ++ match v with Some x => "="%byte :: x | None => [] end). now rewrite <- !app_assoc.
Qed.
Lemma short_beyond s : snd (short s) = Beyond -> exists a b, s = a ++ str "completion-" ++ b.
Proof.
  induction s as [|c r IH]; [discriminate|]. cbn [short]. destruct (byte_eqb c "-"); [cbn; intros H; apply long_beyond in H; destruct H as (a & b & ->); exists (c :: a), b; reflexivity|].
  destruct (byte_eqb c "v"); [destruct r as [|c' r']; [discriminate|]|destruct (byte_eqb c "c"); [destruct r|]; discriminate].
  destruct (short (c' :: r')) as [l e]. cbn. intros ->. destruct (IH eq_refl) as (a & b & E). exists (c :: a), b. now rewrite E.
Qed.
Lemma word_beyond w : snd (word w) = Beyond -> uncovered w.
Proof.
  destruct w as [|c r]; [discriminate|]. cbn [word]. destruct (byte_eqb c "-"); [intros H; apply short_beyond in H; destruct H as (a & b & ->); right; exists (c :: a), b; reflexivity|].
  destruct (byte_eqb_spec c "@") as [->|]; [left; eauto|discriminate].
Qed.
Lemma parse_none n : forall acc args, (length args <= n)%nat -> parse acc args = None -> exists w, In w args /\ uncovered w.
Proof.
  induction n as [|n IH]; intros acc [|w rest] Hn H; try discriminate; cbn in Hn; [lia|]. cbn [parse] in H. destruct (word w) as [l1 e] eqn:W. destruct e; try discriminate.
  - apply IH in H; [|lia]. destruct H as (w' & I & U). exists w'. split; [now right|exact U].
  - destruct rest as [|w' rest']; [discriminate|]. cbn in Hn. destruct (as_argument w') as [p| | |] eqn:A; try discriminate.
    + apply IH in H; [|lia]. destruct H as (x & I & U). exists x. split; [right; now right|exact U].
    + destruct rest' as [|? [|? ?]]; discriminate.
    + exists w'. split; [right; now left|]. destruct w' as [|c r]; [discriminate|]. cbn [as_argument] in A. destruct (byte_eqb c "-"); [destruct (bytes_eqb r (str "-")); discriminate|]. destruct (byte_eqb_spec c "@") as [->|]; [left; eauto|discriminate].
  - destruct rest; discriminate.
  - exists w. split; [now left|]. apply word_beyond. now rewrite W.
Qed.
Lemma Parse_none args : Parse args = None -> exists w, In w args /\ uncovered w.
Proof. unfold Parse. destruct (parse [] args) as [[l|e|p]|] eqn:P; try discriminate. intros _. exact (parse_none _ [] args (le_n _) P). Qed.

(** *** Debug output *)
Lemma verbose_values l : flat_map of_verbose (flat_map setting_of l) = flat_map (fun x => match x with Switch FVerbose b => [b] | _ => [] end) l.
Proof. induction l as [|[[] b|p] l IH]; cbn; congruence. Qed.
Lemma verbose_wanted l : once l -> (verbose (flat_map setting_of l) = true <-> In (Switch FVerbose true) l).
Proof.
  unfold verbose. rewrite verbose_values. intros O. assert (forall b, In b (flat_map (fun x => match x with Switch FVerbose b => [b] | _ => [] end) l) <-> In (Switch FVerbose b) l) as I.
  { intros b. rewrite in_flat_map. split; [|intros H; exists (Switch FVerbose b); split; [exact H|now left]]. intros ([[] b'|p] & H & J); cbn in J; try contradiction. destruct J as [->|[]]. exact H. }
  rewrite <- I. assert ((length (flat_map (fun x => match x with Switch FVerbose b => [b] | _ => [] end) l) <= 1)%nat) as L.
  { clear I. unfold once in O. induction l as [|x l IH]; [cbn; lia|]. inversion O as [|? ? N O']; subst. rewrite Forall_forall in N. specialize (IH O'). destruct x as [f b|p]; cbn [flat_map]; [|exact IH]. destruct f; try exact IH.
    cbn [app length]. destruct (flat_map _ l) as [|b' t] eqn:E; [cbn; lia|]. assert (In b' (flat_map (fun x => match x with Switch FVerbose b => [b] | _ => [] end) l)) as X by (rewrite E; now left).
    apply in_flat_map in X. destruct X as ([[] b''|p] & H & J); cbn in J; try contradiction. now destruct (N _ H). }
  destruct (flat_map _ l) as [|b [|b' t]]; cbn in *; [intuition discriminate|intuition congruence|lia].
Qed.
