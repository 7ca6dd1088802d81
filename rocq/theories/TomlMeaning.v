(** Proofs about the model of the configuration file: what documents mean, and half-written files. *)
From Coq Require Import Permutation.
From Verif Require Import GoBase Config BufferProofs NetUrl SpecUri NetUrlProofs Toml SpecToml TomlProofs.
Local Notation between := NetUrl.between.

(** * Names *)

Lemma fold_case_cons c d r : fold_case (c :: d :: r) =
  if byte_eqb c xc5 && byte_eqb d xbf then "s"%byte :: fold_case r
  else (if between 65 90 c then byte_of_Z (Z_of_byte c + 32) else c) :: fold_case (d :: r).
Proof. reflexivity. Qed.
Definition plain_name (n : bytes) : Prop := Forall (fun c => Z_of_byte c < 128 /\ ~ 65 <= Z_of_byte c <= 90) n.
Lemma listen_plain : plain_name listen.
Proof. unfold plain_name. let l := eval compute in listen in change listen with l. repeat (apply Forall_cons; [cbv [Z_of_byte Byte.to_N Z.of_N]; lia|]). apply Forall_nil. Qed.
Lemma url_plain : plain_name database_url.
Proof. unfold plain_name. let l := eval compute in database_url in change database_url with l. repeat (apply Forall_cons; [cbv [Z_of_byte Byte.to_N Z.of_N]; lia|]). apply Forall_nil. Qed.
Lemma small_byte z : 0 <= z < 256 -> Z_of_byte (byte_of_Z z) = z.
Proof. intros R. rewrite Z_of_byte_of_Z. now apply Z.mod_small. Qed.
Lemma fold_case_step c k n : plain_name n -> fold_case (c :: k) = n <->
  (exists k', c = xc5 /\ k = xbf :: k' /\ exists n', n = "s"%byte :: n' /\ fold_case k' = n') \/
  (exists c' n', n = c' :: n' /\ fold_case k = n' /\ (c' = c \/ 65 <= Z_of_byte c <= 90 /\ Z_of_byte c' = Z_of_byte c + 32)).
Proof.
  intros P.
  assert (forall x n', (if between 65 90 c then byte_of_Z (Z_of_byte c + 32) else c) :: x = n' -> plain_name n' ->
    exists c' n0, n' = c' :: n0 /\ x = n0 /\ (c' = c \/ 65 <= Z_of_byte c <= 90 /\ Z_of_byte c' = Z_of_byte c + 32)) as G.
  { intros x n' <- _. eexists. eexists. split; [reflexivity|]. split; [reflexivity|]. destruct (between 65 90 c) eqn:B; [|now left]. apply between_spec in B. right. split; [exact B|]. apply small_byte. lia. }
  assert (forall c' n0, n = c' :: n0 -> (c' = c \/ 65 <= Z_of_byte c <= 90 /\ Z_of_byte c' = Z_of_byte c + 32) -> (if between 65 90 c then byte_of_Z (Z_of_byte c + 32) else c) = c' /\ c <> xc5) as G'.
  { intros c' n0 -> E. inversion P as [|? ? [P1 P2] _]; subst. destruct E as [->|[E1 E2]].
    - split; [|intros ->; cbv [Z_of_byte Byte.to_N Z.of_N] in P1; lia]. destruct (between 65 90 c) eqn:B; [|reflexivity]. apply between_spec in B. contradiction.
    - split; [|intros ->; cbv [Z_of_byte Byte.to_N Z.of_N] in E1; lia]. rewrite (proj2 (between_spec _ _ _) E1). apply Z_of_byte_inj. rewrite small_byte; lia. }
  destruct k as [|d r].
  - cbn [fold_case]. split.
    + intros E. right. destruct (G [] n E P) as (c' & n0 & A & <- & B). eauto.
    + intros [(k' & _ & E & _)|(c' & n' & E & <- & B)]; [discriminate|]. destruct (G' _ _ E B) as [-> _]. now rewrite E.
  - rewrite fold_case_cons. destruct (byte_eqb_spec c xc5) as [->|NC]; cbn [andb]; [destruct (byte_eqb_spec d xbf) as [->|ND]|].
    + split.
      * intros <-. left. exists r. eauto.
      * intros [(k' & _ & E & n' & -> & <-)|(c' & n' & E & _ & B)]; [now injection E as <-|]. destruct (G' _ _ E B) as [_ X]. congruence.
    + split.
      * intros E. right. destruct (G _ n E P) as (c' & n0 & A & B & C). eauto.
      * intros [(k' & _ & E & _)|(c' & n' & E & <- & B)]; [congruence|]. destruct (G' _ _ E B) as [_ X]. congruence.
    + split.
      * intros E. right. destruct (G _ n E P) as (c' & n0 & A & B & C). eauto.
      * intros [(k' & E & _)|(c' & n' & E & <- & B)]; [congruence|]. destruct (G' _ _ E B) as [-> _]. now rewrite E.
Qed.
Lemma fold_case_spec m : forall k n, (length k <= m)%nat -> plain_name n -> fold_case k = n <-> same_name k n.
Proof.
  induction m as [|m IH]; intros k n L P.
  - destruct k; [|cbn in L; lia]. split; [intros <-; constructor|]. intros E. now inversion E.
  - destruct k as [|c k]; [split; [intros <-; constructor|]; intros E; now inversion E|]. cbn in L. rewrite (fold_case_step c k n P). split.
    + intros [(k' & -> & -> & n' & -> & E)|(c' & n' & -> & E & B)].
      * apply sn_long_s. apply IH; [cbn in L; lia|now inversion P|exact E].
      * assert (same_name k n') as S by (apply IH; [lia|now inversion P|exact E]). destruct B as [->|[B1 B2]]; [now constructor|]. eapply sn_capital; eauto.
    + intros S. inversion S as [|c0 k0 n0 S' E1 E2|c0 c' k0 n0 R1 R2 S' E1 E2|k0 n0 S' E1 E2]; subst.
      * right. eexists. eexists. split; [reflexivity|]. split; [apply IH; [lia|now inversion P|exact S']|now left].
      * right. eexists. eexists. split; [reflexivity|]. split; [apply IH; [lia|now inversion P|exact S']|now right].
      * left. eexists. split; [reflexivity|]. split; [reflexivity|]. eexists. split; [reflexivity|]. apply IH; [cbn in L; lia|now inversion P|exact S'].
Qed.
Lemma name_spec k n : plain_name n -> bytes_eqb (fold_case k) n = true <-> same_name k n.
Proof. intros P. rewrite bytes_eqb_eq. now apply (fold_case_spec (length k)). Qed.
Definition field_name (f : field) : bytes := match f with FListen => listen | FDatabaseURL => database_url end.
Lemma field_spec k f : field_of k = Some f <-> same_name k (field_name f).
Proof.
  unfold field_of. pose proof (name_spec k _ listen_plain) as A. pose proof (name_spec k _ url_plain) as B. unfold listen, database_url in A, B.
  destruct (bytes_eqb_spec (fold_case k) (str "listen")) as [E|_]; [|destruct (bytes_eqb_spec (fold_case k) (str "database-url")) as [E|_]].
  - split; [intros [= <-]; now apply A|]. intros S. destruct f; [reflexivity|]. apply B in S. rewrite E in S. discriminate.
  - split; [intros [= <-]; now apply B|]. intros S. destruct f; [|reflexivity]. apply A in S. discriminate.
  - split; [discriminate|]. intros S. destruct f; [apply A in S|apply B in S]; discriminate.
Qed.

(** * Fields *)

Definition get_field (f : field) (cfg : config) : bytes := match f with FListen => Listen cfg | FDatabaseURL => DatabaseURL cfg end.
Lemma field_ext cfg cfg' : (forall f, get_field f cfg = get_field f cfg') -> cfg = cfg'.
Proof. intros H. destruct cfg, cfg'. pose proof (H FListen). pose proof (H FDatabaseURL). cbn in *. congruence. Qed.
Lemma set_field_cases cfg p : match field_of (fst p), snd p with
  | None, _ => set_field (Ok cfg) p = Ok cfg
  | Some f, VString s => exists cfg', set_field (Ok cfg) p = Ok cfg' /\ get_field f cfg' = s /\ forall f', f' <> f -> get_field f' cfg' = get_field f' cfg
  | Some _, _ => set_field (Ok cfg) p = Err (ErrExternal 2)
  end.
Proof.
  unfold set_field. destruct (field_of (fst p)) as [[|]|], (snd p); try reflexivity; (eexists; split; [reflexivity|split; [reflexivity|]]); intros [|] N; try reflexivity; now destruct N.
Qed.
Lemma fold_error l e : fold_left set_field l (Err e) = Err e.
Proof. induction l as [|p l IH]; [reflexivity|]. exact IH. Qed.
(** the loop of unifyStruct, whatever the order *)
Lemma unify_sound l : forall cfg0 cfg, fold_left set_field l (Ok cfg0) = Ok cfg ->
  (forall k f v, In (k, v) l -> field_of k = Some f -> exists s, v = VString s) /\
  forall f, (exists k, In (k, VString (get_field f cfg)) l /\ field_of k = Some f) \/ get_field f cfg = get_field f cfg0 /\ forall k v, In (k, v) l -> field_of k <> Some f.
Proof.
  induction l as [|[k v] l IH]; intros cfg0 cfg H.
  - injection H as <-. split; [intros ? ? ? []|]. intros f. right. split; [reflexivity|]. intros ? ? [].
  - cbn [fold_left] in H. pose proof (set_field_cases cfg0 (k, v)) as C. cbn [fst snd] in C. destruct (field_of k) as [f0|] eqn:K.
    + destruct v as [s| |]; try (rewrite C in H; rewrite fold_error in H; discriminate). destruct C as (cfg1 & E & G1 & G2). rewrite E in H. destruct (IH _ _ H) as [A B]. split.
      * intros k' f v [[= <- <-]|I] F; [eauto|]. eapply A; eauto.
      * intros f. destruct (B f) as [(k' & I & F)|[G N]]; [left; exists k'; split; [now right|exact F]|]. rewrite G.
        assert (f = f0 \/ f <> f0) as [->|NF] by (destruct f, f0; (now left) || (right; discriminate)).
        -- left. exists k. split; [left; now rewrite G1|exact K].
        -- right. split; [now apply G2|]. intros k' v' [[= <- <-]|I]; [congruence|eauto].
    + rewrite C in H. destruct (IH _ _ H) as [A B]. split.
      * intros k' f v' [[= <- <-]|I] F; [congruence|]. eapply A; eauto.
      * intros f. destruct (B f) as [(k' & I & F)|[G N]]; [left; exists k'; split; [now right|exact F]|]. right. split; [exact G|]. intros k' v' [[= <- <-]|I]; [congruence|eauto].
Qed.
Lemma unify_complete l : forall cfg0, (forall k f v, In (k, v) l -> field_of k = Some f -> exists s, v = VString s) -> exists cfg, fold_left set_field l (Ok cfg0) = Ok cfg.
Proof.
  induction l as [|[k v] l IH]; intros cfg0 W; [exists cfg0; reflexivity|]. cbn [fold_left]. pose proof (set_field_cases cfg0 (k, v)) as C. cbn [fst snd] in C.
  assert (forall k f v, In (k, v) l -> field_of k = Some f -> exists s, v = VString s) as W' by (intros; eapply W; [right|]; eauto).
  destruct (field_of k) as [f0|] eqn:K; [|rewrite C; now apply IH].
  destruct (W k f0 v (or_introl eq_refl) K) as (s & ->). destruct C as (cfg1 & E & _). rewrite E. now apply IH.
Qed.
Lemma unify_fails l cfg0 : (exists cfg, fold_left set_field l (Ok cfg0) = Ok cfg) \/ fold_left set_field l (Ok cfg0) = Err (ErrExternal 2).
Proof.
  revert cfg0. induction l as [|[k v] l IH]; intros cfg0; [left; exists cfg0; reflexivity|]. cbn [fold_left]. pose proof (set_field_cases cfg0 (k, v)) as C. cbn [fst snd] in C.
  destruct (field_of k); [|rewrite C; apply IH]. destruct v; [|rewrite C, fold_error; now right..]. destruct C as (cfg1 & -> & _). apply IH.
Qed.
Lemma typed_fields l : well_typed l <-> forall k f v, In (k, v) l -> field_of k = Some f -> exists s, v = VString s.
Proof.
  unfold well_typed, sets. split.
  - intros W k f v I F. apply field_spec in F. apply (W (field_name f) v); [destruct f; auto|eauto].
  - intros W n v N (k & I & S). destruct N as [->| ->]; [apply (W k FListen v I)|apply (W k FDatabaseURL v I)]; now apply field_spec.
Qed.
Lemma says_fields l cfg : says l cfg <-> forall f, field_value l (field_name f) (get_field f cfg).
Proof. unfold says. split; [intros [A B] [|]; assumption|intros H; split; [apply (H FListen)|apply (H FDatabaseURL)]]. Qed.
Lemma decode_says order l cfg : map_order order -> fold_left set_field (order l) (Ok (Config [] [])) = Ok cfg -> well_typed l /\ says l cfg.
Proof.
  intros O H. destruct (unify_sound _ _ _ H) as [A B]. assert (forall p, In p (order l) <-> In p l) as P. { intros p. split; apply Permutation_in; [apply O|apply Permutation_sym, O]. }
  split; [apply typed_fields; intros k f v I; apply A; now apply P|]. apply says_fields. intros f. destruct (B f) as [(k & I & F)|[G N]].
  - left. exists k. split; [now apply P|]. now apply field_spec.
  - right. split; [rewrite G; now destruct f|]. intros v (k & I & S). apply P in I. apply (N k v I). now apply field_spec.
Qed.

(** * Reading *)

Lemma decode_accepts order s cfg : map_order order -> Decode order s = Some (Ok cfg) ->
  exists l, document s l /\ NoDup (map fst l) /\ well_typed l /\ says l cfg.
Proof.
  intros O. unfold Decode. destruct (parse s) as [| l| |] eqn:P; try discriminate. intros [= H]. apply parse_spec in P. destruct P as [D N]. destruct (decode_says _ _ _ O H). eauto.
Qed.
Lemma decode_document order s l : map_order order -> document s l -> NoDup (map fst l) -> well_typed l -> exists cfg, Decode order s = Some (Ok cfg) /\ says l cfg.
Proof.
  intros O D N W. unfold Decode. rewrite (proj2 (parse_spec s l)) by auto. destruct (unify_complete (order l) (Config [] [])) as (cfg & E).
  - intros k f v I. apply (proj1 (typed_fields l) W). eapply Permutation_in; [apply O|exact I].
  - exists cfg. rewrite E. split; [reflexivity|]. now apply (decode_says order l cfg O E).
Qed.
Lemma decode_refuses order s : map_order order -> Decode order s <> None ->
  (forall l, document s l -> ~ (NoDup (map fst l) /\ well_typed l)) -> Decode order s = Some (Err (ErrExternal 2)).
Proof.
  intros O S H. unfold Decode in *. destruct (parse s) as [| l| |] eqn:P; try congruence. f_equal. destruct (unify_fails (order l) (Config [] [])) as [(cfg & E)|E]; [|exact E].
  exfalso. apply parse_spec in P. destruct P as [D N]. apply (H l D). split; [exact N|]. now apply (decode_says _ _ _ O E).
Qed.
(** a document has one meaning, unless a field is set under two names *)
Lemma says_unique l cfg cfg' : NoDup (map fst l) -> unambiguous l -> says l cfg -> says l cfg' -> cfg = cfg'.
Proof.
  rewrite !says_fields. intros N U A B. apply field_ext. intros f. assert (field_name f = listen \/ field_name f = database_url) as FN by (destruct f; auto).
  destruct (A f) as [(k & I & K)|[E X]], (B f) as [(k' & I' & K')|[E' X']].
  - pose proof (U _ _ _ _ _ FN I I' K K') as <-. assert (forall (l : table) v v', NoDup (map fst l) -> In (k, v) l -> In (k, v') l -> v = v') as F.
    { clear. induction l as [|[k0 v0] l IH]; [intros ? ? ? []|]. intros v v' N [E|I] [E'|I']; inversion N; subst; try congruence.
      - injection E as -> ->. apply (in_map fst) in I'. contradiction.
      - injection E' as -> ->. apply (in_map fst) in I. contradiction.
      - eauto. }
    specialize (F l _ _ N I I'). congruence.
  - destruct (X' (VString (get_field f cfg))). exists k. auto.
  - destruct (X (VString (get_field f cfg'))). exists k'. auto.
  - congruence.
Qed.

(** * Half-written files *)

(** the state after some of the text, compared with the table in the end *)
Lemma feed_grows x c : match x, feed x c with
  | Going _ l, Going _ l' => exists e, l' = l ++ e
  | Going _ l, Ended l' => exists e, l' = l ++ e
  | Going _ _, _ => True
  | _, y => y = x
  end.
Proof.
  assert (forall l : table, exists e, l = l ++ e) as Z by (intros l; exists []; now rewrite app_nil_r).
  assert (forall l k v, match define l k v with Going _ l' | Ended l' => exists e, l' = l ++ e | _ => True end) as D.
  { intros l k v. destruct (define_cases l k v) as [E|[E _]]; rewrite E; [exact I|eauto]. }
  destruct x as [m l|l| |]; cbn [feed]; try reflexivity.
  assert (forall k v, match close_item (define l k v) c with Going _ l' | Ended l' => exists e, l' = l ++ e | _ => True end) as C.
  { intros k v. destruct (define_cases l k v) as [E|[E _]]; rewrite E; [exact I|]. cbn [close_item]. unfold top_end. destruct (byte_eqb c "#"), (isWhitespace c), (isNL c), (byte_eqb c x00); eauto. }
  destruct m; unfold top, bare_key, key_end, on_value, basic, literal, bare_key, key_end, top_end, string_done, bool_done, int_done;
    repeat (match goal with |- context [if ?b then _ else _] => destruct b | |- context [match ?g with TKey => _ | TValue _ => _ end] => destruct g | |- context [match replaceEscapes ?n ?s with Some _ => _ | None => _ end] => destruct (replaceEscapes n s) end);
    first [exact I|apply Z|apply C|apply D].
Qed.
Lemma lex_grows t : forall m l L, at_end (fold_left feed t (Going m l)) = Ended L -> exists e, L = l ++ e.
Proof.
  induction t as [|c t IH]; intros m l L H.
  - cbn [fold_left] in H. assert (forall k v l', match define l k v with Going _ l1 => Ended l1 | y => y end = Ended l' -> exists e, l' = l ++ e) as D.
    { intros k v l'. destruct (define_cases l k v) as [E|[E _]]; rewrite E; [discriminate|]. intros [= <-]. eauto. }
    destruct m; cbn [at_end] in H; try discriminate; try (injection H as <-; exists []; now rewrite app_nil_r).
    + destruct g; [discriminate|]. eapply D; eauto.
    + unfold bool_done in H. destruct (bytes_eqb w (str "true")); [eapply D; eauto|]. destruct (bytes_eqb w (str "false")); [eapply D; eauto|discriminate].
    + unfold int_done in H. destruct (decimal w <? 2 ^ 63); [eapply D; eauto|discriminate].
  - cbn [fold_left] in H. pose proof (feed_grows (Going m l) c) as G. cbv iota beta in G. destruct (feed (Going m l) c) as [m' l'|l'| |].
    + destruct G as (e & ->). destruct (IH _ _ _ H) as (e' & ->). exists (e ++ e'). now rewrite app_assoc.
    + rewrite lex_ended in H. now injection H as <-.
    + rewrite lex_failed in H. discriminate.
    + rewrite lex_outside in H. discriminate.
Qed.
(** an item that is complete when the text is cut short is in the whole text too, or is an integer that goes on *)
Lemma cut_items t : forall m l l' L, at_end (Going m l) = Ended l' -> at_end (fold_left feed t (Going m l)) = Ended L ->
  l' = l \/ exists k v v' e, l' = l ++ [(k, v)] /\ L = l ++ (k, v') :: e /\ (v' = v \/ exists n n', v = VInt n /\ v' = VInt n').
Proof.
  intros m l l' L H G. assert (forall k v, match define l k v with Going _ l1 => Ended l1 | y => y end = Ended l' -> l' = l ++ [(k, v)] /\ define l k v = Going TopEnd (l ++ [(k, v)])) as D.
  { intros k v. destruct (define_cases l k v) as [E|[E _]]; rewrite E; [discriminate|]. intros [= <-]. auto. }
  assert (forall c t k v, at_end (fold_left feed t (close_item (define l k v) c)) = Ended L -> exists e, L = l ++ (k, v) :: e) as C.
  { intros c t0 k v. destruct (define_cases l k v) as [E|[E _]]; rewrite E; [cbn [close_item]; rewrite lex_failed; discriminate|]. cbn [close_item]. intros X.
    change (top_end (l ++ [(k, v)]) c) with (feed (Going TopEnd (l ++ [(k, v)])) c) in X. destruct (lex_grows (c :: t0) _ _ _ X) as (e & ->). exists e. now rewrite <- app_assoc. }
  destruct m; cbn [at_end] in H; try discriminate; try (left; now injection H as <-); right.
  - destruct g as [|k]; [discriminate|]. destruct (D _ _ H) as [-> E]. destruct t as [|c t].
    + cbn in G. rewrite E in G. injection G as <-. exists k, (VString []), (VString []), []. auto.
    + cbn [fold_left feed] in G. destruct (byte_eqb c q); [rewrite lex_outside in G; discriminate|]. destruct (C _ _ _ _ G) as (e & ->). exists k, (VString []), (VString []), e. auto.
  - assert (exists b, w = (if b : bool then str "true" else str "false") /\ l' = l ++ [(k, VBool b)]) as (b & W & ->).
    { unfold bool_done in H. destruct (bytes_eqb_spec w (str "true")) as [->|_]; [|destruct (bytes_eqb_spec w (str "false")) as [->|_]; [|discriminate]]; [exists true|exists false]; now destruct (D _ _ H). }
    destruct (lex_sound _ _ _ _ G I) as (e & -> & w' & s & v & l'' & _ & Ev & -> & _). exists k, (VBool b), (VBool v), l''. split; [reflexivity|]. split; [reflexivity|]. left. f_equal.
    rewrite W in Ev. destruct b, v; try reflexivity; discriminate.
  - assert (exists n, l' = l ++ [(k, VInt n)]) as (n & ->).
    { unfold int_done in H. destruct (decimal w <? 2 ^ 63); [|discriminate]. destruct (D _ _ H) as [-> _]. eauto. }
    destruct (lex_sound _ _ _ _ G I) as (e & -> & w' & s & l'' & _ & _ & _ & -> & _). exists k, (VInt n), (VInt (decimal (w ++ w'))), l''. split; [reflexivity|]. split; [reflexivity|]. right. eauto.
Qed.
Lemma cut_parse p q L l : parse (p ++ q) = Ended L -> parse p = Ended l -> forall k s, In (k, VString s) l -> In (k, VString s) L.
Proof.
  unfold parse. rewrite fold_left_app. intros G H k s I0. destruct (fold_left feed p (Going Top [])) as [m l0|l0| |]; try discriminate.
  - destruct (lex_grows _ _ _ _ G) as (e0 & E0). destruct (cut_items _ _ _ _ _ H G) as [->|(k0 & v & v' & e & -> & -> & V)]; [rewrite E0; apply in_or_app; now left|].
    apply in_app_or in I0. destruct I0 as [I0|[[= -> ->]|[]]]; apply in_or_app; [now left|right]. destruct V as [->|(n & n' & ? & _)]; [now left|discriminate].
  - rewrite lex_ended in G. injection G as <-. now injection H as <-.
Qed.
Lemma cut_inside p q L : parse (p ++ q) = Ended L -> parse p <> Outside /\ forall m l, parse p <> Going m l.
Proof.
  unfold parse. rewrite fold_left_app. intros G. assert (forall x m l, at_end x <> Going m l) as NG.
  { intros [m0 l0|l0| |] m l; cbn [at_end]; try discriminate. destruct m0; try discriminate.
    - destruct g as [|k]; [discriminate|]. destruct (define l0 k (VString [])); discriminate.
    - destruct (bool_done l0 k w); discriminate.
    - destruct (int_done l0 k w); discriminate. }
  split; [|intros; apply NG]. destruct (fold_left feed p (Going Top [])) as [m l0|l0| |]; try discriminate; [|rewrite lex_outside in G; discriminate].
  assert (forall k v, define l0 k v <> Outside) as ND by (intros k v; destruct (define_cases l0 k v) as [E|[E _]]; rewrite E; discriminate).
  destruct m; cbn [at_end]; try discriminate.
  - destruct g as [|k]; [discriminate|]. specialize (ND k (VString [])). destruct (define l0 k (VString [])); congruence.
  - unfold bool_done. pose proof (ND k (VBool true)). pose proof (ND k (VBool false)). destruct (bytes_eqb w (str "true")); [|destruct (bytes_eqb w (str "false"))]; [destruct (define l0 k (VBool true))|destruct (define l0 k (VBool false))|]; congruence.
  - unfold int_done. specialize (ND k (VInt (decimal w))). destruct (decimal w <? 2 ^ 63); [|discriminate]. destruct (define l0 k (VInt (decimal w))); congruence.
Qed.
Definition bytes_dec (a b : bytes) : {a = b} + {a <> b} := Bool.reflect_dec _ _ (bytes_eqb_spec a b).
Definition value_dec (v v' : value) : {v = v'} + {v <> v'}.
Proof. destruct v as [s|b|n], v' as [s'|b'|n']; try (right; discriminate); [destruct (bytes_dec s s')|destruct (Bool.bool_dec b b')|destruct (Z.eq_dec n n')]; try (left; congruence); right; congruence. Qed.
Definition pair_dec (p p' : bytes * value) : {p = p'} + {p <> p'}.
Proof. destruct p as [k v], p' as [k' v']. destruct (bytes_dec k k'), (value_dec v v'); try (left; congruence); right; congruence. Qed.
(** of a file that is being written nothing is read but what the finished file says *)
Lemma half_written p q cfg : (forall order, map_order order -> Decode order (p ++ q) = Some (Ok cfg)) -> forall order, map_order order ->
  Decode order p = Some (Err (ErrExternal 2)) \/
  exists cfg', Decode order p = Some (Ok cfg') /\ (Listen cfg' = Listen cfg \/ Listen cfg' = []) /\ (DatabaseURL cfg' = DatabaseURL cfg \/ DatabaseURL cfg' = []).
Proof.
  intros A order O. destruct (parse (p ++ q)) as [|L| |] eqn:G; try (specialize (A order O); unfold Decode in A; rewrite G in A; discriminate).
  destruct (cut_inside _ _ _ G) as [NO NG]. destruct (parse p) as [m l|l| |] eqn:H; [now destruct (NG m l)|..|congruence]; [|left; unfold Decode; now rewrite H].
  pose proof (cut_parse _ _ _ _ G H) as SUB.
  assert (forall f k s, In (k, VString s) L -> field_of k = Some f -> s = get_field f cfg) as ONE.
  { intros f k s I0 F. destruct (in_split _ _ I0) as (a & b & E). set (o := fun l0 : table => if list_eq_dec pair_dec l0 L then (a ++ b) ++ [(k, VString s)] else l0).
    assert (map_order o) as MO. { intros l0. unfold o. destruct (list_eq_dec pair_dec l0 L) as [->|_]; [|reflexivity]. rewrite E. rewrite <- app_assoc. apply Permutation_app_head. symmetry. apply Permutation_cons_append. }
    specialize (A o MO). unfold Decode in A. rewrite G in A. injection A as A. unfold o in A. destruct (list_eq_dec pair_dec L L) as [_|X]; [|congruence]. rewrite fold_left_app in A. cbn [fold_left] in A.
    destruct (fold_left set_field (a ++ b) (Ok (Config [] []))) as [c1|e|pp] eqn:E1; [|discriminate|discriminate]. pose proof (set_field_cases c1 (k, VString s)) as C. cbn [fst snd] in C. rewrite F in C.
    destruct C as (c2 & C1 & C2 & _). rewrite C1 in A. injection A as <-. now symmetry. }
  unfold Decode. rewrite H. destruct (unify_fails (order l) (Config [] [])) as [(cfg' & E)|E]; [|left; now rewrite E]. right. exists cfg'. rewrite E. split; [reflexivity|].
  destruct (unify_sound _ _ _ E) as [_ B]. assert (forall f, get_field f cfg' = get_field f cfg \/ get_field f cfg' = []) as X.
  { intros f. destruct (B f) as [(k & I0 & F)|[Y _]]; [left|right; rewrite Y; now destruct f]. apply (ONE f k); [|exact F]. apply SUB. eapply Permutation_in; [apply O|exact I0]. }
  split; [apply (X FListen)|apply (X FDatabaseURL)].
Qed.
