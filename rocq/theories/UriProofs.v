(** Proofs about database URIs as text: what can be written, and what is read otherwise than one would think. *)
From Verif Require Import GoBase BufferProofs NetUrl NetUrlProofs SpecUri SpecDsn DsnProofs.
Require Import Lia.

(** * ParseDatabaseURI on text *)

Lemma accepts legacy os order conn : iteration_order order ->
  ((exists m, ParseDatabaseURI (url_Parse legacy) os order conn = Ok m) <->
   exists u, uri legacy conn u /\ (u_scheme u = str "postgres" \/ u_scheme u = str "postgresql")).
Proof.
  intros O. destruct (accepts_exactly (url_Parse legacy) os order conn O) as [A _]. rewrite A. split; intros (u & P & S); exists u; (split; [|exact S]).
  - apply url_Parse_exact. split; [exact P|]. destruct S as [->| ->]; discriminate.
  - now apply url_Parse_exact in P.
Qed.
Lemma settings legacy os order conn u m : iteration_order order -> uri legacy conn u -> ParseDatabaseURI (url_Parse legacy) os order conn = Ok m ->
  (u_scheme u = str "postgres" \/ u_scheme u = str "postgresql") /\ forall k v, m k = Some v <-> setting os u k v.
Proof.
  intros O U P. apply url_Parse_exact in U. destruct U as [U _]. destruct (proj1 (proj1 (accepts_exactly _ os order conn O)) (ex_intro _ m P)) as (u' & U' & S).
  rewrite U in U'. injection U' as <-. split; [exact S|]. destruct (settings_exact _ os order conn u O U S) as (m' & P' & E). rewrite P in P'. injection P' as <-. exact E.
Qed.
Lemma no_panic legacy os order conn p : iteration_order order -> ParseDatabaseURI (url_Parse legacy) os order conn <> Panic p.
Proof. intros O H. destruct (accepts_exactly (url_Parse legacy) os order conn O) as [_ A]. apply A in H. exact (url_Parse_nopanic _ _ _ H). Qed.
Lemma uri_det legacy s u u' : uri legacy s u -> uri legacy s u' -> u' = u.
Proof. intros A B. apply url_Parse_exact in A, B. destruct A, B. congruence. Qed.

(** * Everything can be written *)

Lemma hex_char_digit b : hex_digit (hex_char (Z_of_byte b / 16)) (Z_of_byte b / 16) /\ hex_digit (hex_char (Z_of_byte b mod 16)) (Z_of_byte b mod 16).
Proof. rewrite <- !unhex_spec. destruct b; split; reflexivity. Qed.
Lemma escaped_spells raw t : spelled raw (fun _ => True) (escaped t) t.
Proof.
  induction t as [|b t IH]; [constructor|]. destruct (hex_char_digit b) as [A B]. cbn. eapply spelled_esc; [exact A|exact B| |exact I|exact IH].
  apply Z.div_mod. discriminate.
Qed.
Definition plain_char (c : byte) : Prop := c = "%"%byte \/ letter c \/ digit c.
Lemma escaped_plain t : Forall plain_char (escaped t).
Proof.
  induction t as [|b t IH]; [constructor|]. cbn. constructor; [now left|].
  assert (forall c v, hex_digit c v -> plain_char c) as X by (intros c v [H|[H|H]]; [right; right|right; left; right|right; left; left]; unfold digit; lia).
  destruct (hex_char_digit b) as [A B]. constructor; [eapply X, A|constructor; [eapply X, B|exact IH]].
Qed.
Lemma plain_not (c : byte) s : Forall plain_char s -> (is_letter c || is_digit c || byte_eqb c "%") = false -> ~ In c s.
Proof.
  intros F N I. apply (proj1 (Forall_forall _ _) F) in I. apply orb_false_iff in N. destruct N as [N N3]. apply orb_false_iff in N. destruct N as [N1 N2].
  destruct I as [->|[I|I]]; [discriminate| |]; [apply is_letter_spec in I|apply is_digit_spec in I]; congruence.
Qed.
Lemma plain_user c : plain_char c -> user_char c.
Proof. intros [->|[H|H]]; [right; right; cbn; tauto|now left|right; now left]. Qed.
Lemma plain_control c : plain_char c -> ~ control c.
Proof. intros [->|[[H|H]|H]] [K|K]; unfold digit in *; try lia; vm_compute in K; congruence. Qed.

Definition host_ok (c : byte) : Prop := c <> "@"%byte /\ c <> "/"%byte /\ c <> "?"%byte /\ c <> "#"%byte /\ ~ control c.
Lemma host_char_ok c : host_char c -> host_ok c.
Proof.
  intros H. apply shouldEscape_spec in H. unfold host_ok. rewrite <- is_control_spec. repeat split; try (intros ->; vm_compute in H; discriminate).
  destruct (is_control c) eqn:K; [exfalso|discriminate]. destruct c; try discriminate K; discriminate H.
Qed.
Lemma host_chars_text h : Forall host_char h -> host_text h h.
Proof. induction 1; [constructor|now apply host_text_cons]. Qed.
Lemma host_written_parts t h p : host_written t h -> Forall digit p -> host_port (t ++ ":"%byte :: p) h p /\ Forall host_ok t /\ h <> [].
Proof.
  intros [h' N F|h' N F] D.
  - split; [|split; [eapply Forall_impl; [|exact F]; intros c (H & _); now apply host_char_ok|exact N]]. apply hp_name; [|now constructor| |discriminate].
    + apply host_chars_text. eapply Forall_impl; [|exact F]. intros c (X & _); exact X.
    + intros n' ->. inversion F as [|? ? (_ & _ & X) _]; subst. congruence.
  - assert (Forall host_char h') as HC. { eapply Forall_impl; [|exact F]. intros c [H|[H|[->| ->]]]; [right; now left|now left|right; right; cbn; tauto|right; right; cbn; tauto]. }
    split; [|split; [|exact N]].
    + cbn [app]. rewrite <- app_assoc. cbn [app]. apply hp_address; [now apply host_chars_text|now constructor|]. intros a b ->. apply Forall_app in HC. destruct HC as [_ HC].
      apply Forall_app in HC. destruct HC as [HC _]. inversion HC as [|? ? X _]; subst. now apply percent_host in X.
    + constructor; [apply host_char_ok, hc_special; cbn; tauto|]. apply Forall_app. split; [eapply Forall_impl; [|exact HC]; intros c; apply host_char_ok|].
      constructor; [apply host_char_ok, hc_special; cbn; tauto|constructor].
Qed.

Lemma escaped_not t c : (is_letter c || is_digit c || byte_eqb c "%") = false -> ~ In c (escaped t).
Proof. apply plain_not, escaped_plain. Qed.
Lemma pair_piece legacy k v : piece legacy (escaped k ++ "="%byte :: escaped v) [(k, v)].
Proof.
  apply piece_pair; [|now apply escaped_not|apply escaped_spells|apply escaped_spells]. intros _ I. apply in_app_iff in I. destruct I as [I|I]; revert I; now apply escaped_not.
Qed.
Lemma pair_nosep legacy k v : Forall (fun c => ~ separator legacy c) (escaped k ++ "="%byte :: escaped v).
Proof.
  assert (forall t, Forall (fun c => ~ separator legacy c) (escaped t)) as X.
  { intros t. apply Forall_forall. intros c I [->|[_ ->]]; revert I; now apply escaped_not. }
  apply Forall_app. split; [apply X|]. constructor; [|apply X]. intros [?|[_ ?]]; discriminate.
Qed.
Lemma pairs_query legacy l : query legacy (pairs_written l) l.
Proof.
  induction l as [|[k v] l IH]; [apply query_last; [constructor|apply piece_empty]|]. destruct l as [|kv l].
  - cbn [pairs_written]. apply query_last; [apply pair_nosep|apply pair_piece].
  - change (pairs_written ((k, v) :: kv :: l)) with (escaped k ++ "="%byte :: escaped v ++ "&"%byte :: pairs_written (kv :: l)).
    rewrite app_comm_cons, app_assoc. apply (query_more legacy _ [(k, v)] _ _ (kv :: l)); [apply pair_nosep|apply pair_piece|now left|exact IH].
Qed.
Lemma pairs_chars l : Forall (fun c => plain_char c \/ c = "="%byte \/ c = "&"%byte) (pairs_written l).
Proof.
  assert (forall t, Forall (fun c => plain_char c \/ c = "="%byte \/ c = "&"%byte) (escaped t)) as X by (intros t; eapply Forall_impl; [|apply escaped_plain]; auto).
  induction l as [|[k v] l IH]; [constructor|]. destruct l as [|kv l].
  - cbn [pairs_written]. apply Forall_app. split; [apply X|constructor; [auto|apply X]].
  - change (pairs_written ((k, v) :: kv :: l)) with (escaped k ++ "="%byte :: escaped v ++ "&"%byte :: pairs_written (kv :: l)).
    apply Forall_app. split; [apply X|]. constructor; [auto|]. apply Forall_app. split; [apply X|]. constructor; [auto|exact IH].
Qed.

Lemma not_special (s : bytes) c : Forall host_ok s -> (c = "@"%byte \/ c = "/"%byte \/ c = "?"%byte \/ c = "#"%byte) -> ~ In c s.
Proof. intros F C I. apply (proj1 (Forall_forall _ _) F) in I. unfold host_ok in I. intuition congruence. Qed.
Lemma digit_ok c : digit c -> host_ok c.
Proof. intros D. apply host_char_ok. right. now left. Qed.
Lemma escaped_user_ok t c : In c (escaped t) -> c <> "@"%byte /\ c <> "/"%byte /\ c <> "?"%byte /\ c <> "#"%byte /\ ~ control c.
Proof.
  intros I. split; [|split; [|split; [|split]]]; try (intros ->; revert I; now apply escaped_not). apply plain_control. exact (proj1 (Forall_forall _ _) (escaped_plain t) _ I).
Qed.
Lemma escaped_ok t : Forall host_ok (escaped t).
Proof. apply Forall_forall. intros c I. exact (escaped_user_ok _ _ I). Qed.

Definition postgresql_scheme : scheme (str "postgresql") (str "postgresql").
Proof.
  apply (scheme_intro "p" (str "ostgresql")); [apply is_letter_spec; reflexivity| |apply lower_small; reflexivity].
  apply Forall_forall. intros c I. left. apply is_letter_spec. repeat destruct I as [<-|I]; try reflexivity. destruct I.
Qed.
Definition postgres_scheme : scheme (str "postgres") (str "postgres").
Proof.
  apply (scheme_intro "p" (str "ostgres")); [apply is_letter_spec; reflexivity| |apply lower_small; reflexivity].
  apply Forall_forall. intros c I. left. apply is_letter_spec. repeat destruct I as [<-|I]; try reflexivity. destruct I.
Qed.

Lemma written_uri legacy user password ht host port database pairs : host_written ht host -> Forall digit port ->
  uri legacy (written user password ht port database pairs) (URL (str "postgresql") (Some (Userinfo user (Some password))) host port ("/"%byte :: database) pairs).
Proof.
  intros H D. destruct (host_written_parts _ _ port H D) as (HP & HO & _).
  set (au := (escaped user ++ ":"%byte :: escaped password) ++ "@"%byte :: ht ++ ":"%byte :: port).
  assert (written user password ht port database pairs = str "postgresql" ++ ":"%byte :: ("/"%byte :: "/"%byte :: au ++ "/"%byte :: escaped database) ++ ("?"%byte :: pairs_written pairs) ++ []) as ->.
  { unfold written, au. change (str "postgresql://") with (str "postgresql" ++ [":"; "/"; "/"]%byte). rewrite app_nil_r. repeat (rewrite <- !app_assoc; cbn [app]). reflexivity. }
  assert (Forall host_ok (ht ++ ":"%byte :: port)) as HPO.
  { apply Forall_app. split; [exact HO|]. constructor; [apply host_char_ok, hc_special; cbn; tauto|]. eapply Forall_impl; [|exact D]. intros c; apply digit_ok. }
  assert (forall c, In c au -> c <> "/"%byte /\ c <> "?"%byte /\ c <> "#"%byte /\ ~ control c) as AU.
  { intros c I. unfold au in I. apply in_app_iff in I. destruct I as [I|[<-|I]].
    - apply in_app_iff in I. destruct I as [I|[<-|I]]; [apply escaped_user_ok in I; tauto| |apply escaped_user_ok in I; tauto]. repeat split; try discriminate. intros [K|K]; vm_compute in K; congruence.
    - repeat split; try discriminate. intros [K|K]; vm_compute in K; congruence.
    - apply (proj1 (Forall_forall _ _) HPO) in I. unfold host_ok in I. tauto. }
  assert (forall c, In c ("/"%byte :: "/"%byte :: au ++ "/"%byte :: escaped database) -> c = "/"%byte \/ c <> "?"%byte /\ c <> "#"%byte /\ ~ control c) as HI.
  { intros c [<-|[<-|I]]; [now left|now left|]. apply in_app_iff in I. destruct I as [I|[<-|I]]; [right; apply AU in I; tauto|now left|right; apply escaped_user_ok in I; tauto]. }
  assert (forall c, In c (pairs_written pairs) -> c <> "#"%byte /\ ~ control c) as PA.
  { intros c I. apply (proj1 (Forall_forall _ _) (pairs_chars pairs)) in I. destruct I as [I|[->| ->]].
    - split; [|now apply plain_control]. intros ->. destruct I as [E|[I|I]]; [discriminate| |]; [apply is_letter_spec in I|apply is_digit_spec in I]; discriminate.
    - split; [discriminate|]. intros [K|K]; vm_compute in K; congruence.
    - split; [discriminate|]. intros [K|K]; vm_compute in K; congruence. }
  eapply uri_intro.
  - exact postgresql_scheme.
  - apply hi_authority; [intros I; apply AU in I; tauto| |right; eauto|].
    + apply au_user; [|now apply (not_special _ _ HPO); auto|exact HP]. apply up_password; [|now apply escaped_not|apply escaped_spells|apply escaped_spells].
      apply Forall_app. split; (eapply Forall_impl; [|apply escaped_plain]); intros c; apply plain_user.
    + apply spelled_raw; [split; [reflexivity|discriminate]|apply escaped_spells].
  - right. reflexivity.
  - apply pairs_query.
  - left. split; reflexivity.
  - constructor.
  - intros I. apply in_app_iff in I. destruct I as [I|I]; [apply HI in I; destruct I as [I|I]; [discriminate|tauto]|apply PA in I; tauto].
  - intros I. apply HI in I. destruct I as [I|I]; [discriminate|tauto].
  - apply Forall_forall. intros c I. apply in_app_iff in I. destruct I as [I|I]; [apply HI in I; destruct I as [->|I]; [intros [K|K]; vm_compute in K; congruence|tauto]|apply PA in I; tauto].
Qed.
Lemma path_slash db : (forall d, db <> "/"%byte :: d) -> path_database ("/"%byte :: db) db.
Proof. intros H. exists 1%nat. split; [reflexivity|exact H]. Qed.
Lemma path_unique path db db' : path_database path db -> path_database path db' -> db' = db.
Proof.
  intros (n & -> & H) (m & E & H'). revert m E. induction n as [|n IH]; intros [|m] E; cbn in E.
  - auto.
  - exfalso. eapply H; exact E.
  - exfalso. eapply H'; symmetry; exact E.
  - injection E as E. eapply IH; exact E.
Qed.
Lemma writable legacy os order user password ht host port database pairs : iteration_order order -> host_written ht host -> port <> [] -> Forall digit port -> database <> [] ->
  (forall d, database <> "/"%byte :: d) -> exists m, ParseDatabaseURI (url_Parse legacy) os order (written user password ht port database pairs) = Ok m /\
  forall k v, m k = Some v <-> first_value pairs k v \/ ~ in_query pairs k /\ says user password host port database k v.
Proof.
  intros O H PN D DN DS. assert (U := written_uri legacy user password ht host port database pairs H D). destruct (host_written_parts _ _ port H D) as (_ & _ & HN).
  destruct (proj2 (accepts legacy os order _ O) (ex_intro _ _ (conj U (or_intror eq_refl)))) as (m & P). exists m. split; [exact P|].
  destruct (settings _ _ _ _ _ _ O U P) as [_ S]. intros k v. rewrite S. unfold says. split.
  - intros X. destruct X as [k v X|Q N|Q N|Q N|Q N|v Q B|ui v Q B C|db Q B C|Q B]; cbn in *; try (now left); right; try (split; [assumption|]); try congruence.
    + tauto. + tauto. + injection B as <-. tauto. + injection B as <-. injection C as <-. tauto.
    + rewrite (path_unique _ _ _ (path_slash _ DS) B). tauto.
    + exfalso. apply DN. symmetry. exact (path_unique _ _ _ (path_slash _ DS) B).
  - intros [X|[Q [[-> ->]|[[-> ->]|[[-> ->]|[[-> ->]|[-> ->]]]]]]].
    + apply s_query. exact X.
    + apply s_user; [exact Q|reflexivity].
    + eapply s_password; [exact Q|reflexivity|reflexivity].
    + apply s_host; assumption.
    + apply s_port; assumption.
    + apply s_database; [exact Q|now apply path_slash|exact DN].
Qed.

(** * What is read otherwise *)

Lemma host_text_slash s t : host_text s t -> ~ In "/"%byte t.
Proof.
  assert (~ host_char "/") as N by (intros H; apply shouldEscape_spec in H; discriminate).
  induction 1 as [|c b s t [-> R] S IH|h l vh vl b s t Hh Hl E M S IH]; [intros []|..]; intros [->|I]; try tauto.
  - destruct R as [R|R]; [tauto|vm_compute in R; congruence].
  - destruct M as [M|M]; [vm_compute in M; congruence|discriminate].
Qed.
Lemma zone_text_slash s t : zone_text s t -> ~ In "/"%byte t.
Proof.
  assert (~ host_char "/") as N by (intros H; apply shouldEscape_spec in H; discriminate).
  induction 1 as [|c b s t [-> R] S IH|h l vh vl b s t Hh Hl E M S IH]; [intros []|..]; intros [->|I]; try tauto.
  - destruct R as [R|R]; [tauto|vm_compute in R; congruence].
  - destruct M as [M|[M|M]]; [tauto|discriminate|discriminate].
Qed.
Lemma host_no_slash legacy s u : uri legacy s u -> ~ In "/"%byte (u_hostname u).
Proof.
  destruct 1 as [sch sch' hi ui h p path qs q pairs fs f f' SC HI M Q MF T NH NQ CC]. cbn. assert (forall s h p, host_port s h p -> ~ In "/"%byte h) as X.
  { destruct 1 as [n pp h0 p0 T0|a pp h0 p0 T0|a z pp h0 h' p0 T0 T'].
    - eapply host_text_slash; exact T0.
    - eapply host_text_slash; exact T0.
    - intros I. apply in_app_iff in I. destruct I as [I|[I|I]]; [|discriminate|]; revert I; [eapply host_text_slash; exact T0|eapply zone_text_slash; exact T']. }
  destruct HI as [a ui h p s path NA A SH TP|s path NS TP|s NS]; [|intros []|intros []]. destruct A as [s0 h p N H|s0 ui s' h p U N H]; eapply X; exact H.
Qed.

Lemma prefix_unique (D : byte -> Prop) a t a' x rest : a ++ t = a' ++ x :: rest -> Forall (fun c => ~ D c) a -> Forall (fun c => ~ D c) a' -> D x ->
  (t = [] \/ exists y t', t = y :: t' /\ D y) -> a = a' /\ t = x :: rest.
Proof.
  revert a'. induction a as [|c a IH]; intros a' E F F' X T; cbn in E.
  - destruct a' as [|c' a']; [auto|]. cbn in E. destruct T as [->|(y & t' & -> & Y)]; [discriminate|]. injection E as -> _. inversion F'; subst. contradiction.
  - destruct a' as [|c' a']; cbn in E.
    + injection E as -> _. inversion F; subst. contradiction.
    + injection E as -> E. inversion F; subst. inversion F'; subst. destruct (IH a' E) as [-> ->]; auto.
Qed.
Lemma tail_delimited qs q fs f (t : bytes) : marked "?" qs q -> marked "#" fs f -> t = [] \/ (exists t', t = "/"%byte :: t') ->
  t ++ qs ++ fs = [] \/ exists y t', t ++ qs ++ fs = y :: t' /\ delimiter y.
Proof.
  intros M MF [->|(t' & ->)]; [|right; exists "/"%byte, (t' ++ qs ++ fs); split; [reflexivity|now left]]. cbn. destruct M as [[-> _]| ->].
  - cbn. destruct MF as [[-> _]| ->]; [now left|right; exists "#"%byte, f; split; [reflexivity|right; now right]].
  - right. exists "?"%byte, (q ++ fs). split; [reflexivity|right; now left].
Qed.
(** the authority part ends at the first delimiter *)
Lemma authority_part legacy sch A x rest u : ~ In ":"%byte sch -> Forall (fun c => ~ delimiter c) A -> delimiter x ->
  uri legacy (sch ++ ":"%byte :: "/"%byte :: "/"%byte :: A ++ x :: rest) u -> authority A (u_user u) (u_hostname u) (u_port u).
Proof.
  intros NS FA X U. remember (sch ++ ":"%byte :: "/"%byte :: "/"%byte :: A ++ x :: rest) as s eqn:E.
  destruct U as [sch1 sch' hi ui h p path qs q pairs fs f f' SC HI M Q MF T NH NQ CC]. cbn.
  apply cut_unique in E; [|intros I|exact NS].
  - destruct E as [-> E]. destruct HI as [a ui h p s path NA AU SH TP|s path NP TP|s NP].
    + cbn [app] in E. injection E as E. rewrite <- app_assoc in E. apply (prefix_unique delimiter) in E; [| |exact FA|exact X|].
      * destruct E as [-> _]. exact AU.
      * apply Forall_forall. intros c I [->|[->| ->]]; [tauto| |].
        -- apply NQ. right. right. apply in_or_app. now left.
        -- apply NH. apply in_or_app. left. right. right. apply in_or_app. now left.
      * exact (tail_delimited _ _ _ _ _ M MF SH).
    + exfalso. cbn [app] in E. injection E as E. destruct s as [|c s]; [|injection E as -> _; eapply NP; reflexivity]. cbn [app] in E.
      destruct M as [[-> _]| ->]; [|discriminate]. destruct MF as [[-> _]| ->]; discriminate.
    + exfalso. destruct s as [|c s]; [|injection E as -> _; eapply NP; reflexivity]. cbn [app] in E.
      destruct M as [[-> _]| ->]; [|discriminate]. destruct MF as [[-> _]| ->]; discriminate.
  - destruct SC as [c a' sch' L F _]. assert (scheme_char ":") as K by (destruct I as [<-|I]; [now left|exact (proj1 (Forall_forall _ _) F _ I)]). now apply scheme_char_colon in K.
Qed.

Lemma password_cut legacy sch n p1 x rest u : ~ In ":"%byte sch -> Forall clean n -> Forall clean p1 -> delimiter x ->
  uri legacy (sch ++ ":"%byte :: "/"%byte :: "/"%byte :: (n ++ ":"%byte :: p1) ++ x :: rest) u ->
  u_user u = None /\ host_text n (u_hostname u) /\ u_port u = p1 /\ Forall digit p1.
Proof.
  intros NS Fn Fp X U. apply authority_part in U; [|exact NS| |exact X].
  2: { apply Forall_app. split; [eapply Forall_impl; [|exact Fn]; intros c (K & _); exact K|]. constructor; [intros [|[|]]; discriminate|]. eapply Forall_impl; [|exact Fp]. intros c (K & _); exact K. }
  assert (forall c, In c n \/ In c p1 -> c <> ":"%byte /\ c <> "@"%byte /\ c <> "["%byte) as K.
  { intros c [I|I]; [apply (proj1 (Forall_forall _ _) Fn) in I|apply (proj1 (Forall_forall _ _) Fp) in I]; unfold clean in I; tauto. }
  destruct u as [us uu uh upt upa uq]. cbn in *. inversion U as [s h p NA H E1 E2 E3 E4|s ui s' h p UP NA H E1 E2 E3 E4]; subst.
  - split; [reflexivity|]. remember (n ++ ":"%byte :: p1) as hp eqn:E. destruct H as [n' pp h p T P NB NC|a pp h p T P NZ|a z pp h h' p T T' P NZ].
    + destruct P as [|p D].
      * exfalso. rewrite app_nil_r in E. subst n'. apply NC; [reflexivity|]. apply in_or_app. right. now left.
      * assert (cut_last ":" (n' ++ ":"%byte :: p) = Some (n', p)) as C1 by (apply cut_last_some; split; [reflexivity|now apply digits_free]).
        assert (cut_last ":" (n ++ ":"%byte :: p1) = Some (n, p1)) as C2 by (apply cut_last_some; split; [reflexivity|]; intros I; destruct (K _ (or_intror I)); congruence).
        rewrite E, C2 in C1. injection C1 as <- <-. auto.
    + exfalso. destruct n as [|c n]; [discriminate|]. injection E as <- _. destruct (K "["%byte) as (_ & _ & KK); [left; now left|congruence].
    + exfalso. destruct n as [|c n]; [discriminate|]. injection E as <- _. destruct (K "["%byte) as (_ & _ & KK); [left; now left|congruence].
  - exfalso. assert (In "@"%byte (n ++ ":"%byte :: p1)) as I by (rewrite <- E1; apply in_or_app; right; now left).
    apply in_app_iff in I. destruct I as [I|[I|I]]; [|discriminate|]; (destruct (K "@"%byte) as (_ & KK & _); [auto|congruence]).
Qed.

Lemma spelled_self raw esc s : Forall (fun c => raw c c) s -> spelled raw esc s s.
Proof. induction 1; [constructor|now apply spelled_raw]. Qed.
Lemma empty_query legacy : query legacy [] [].
Proof. apply query_last; [constructor|apply piece_empty]. Qed.
(** a password that starts with digits and a slash makes the user name the host *)
Lemma misread legacy os order n d rest : iteration_order order -> n <> [] -> Forall (fun c => host_char c /\ c <> ":"%byte /\ c <> "["%byte) n -> d <> [] -> Forall digit d ->
  rest <> [] -> (forall r, rest <> "/"%byte :: r) -> Forall (fun c => c <> "%"%byte /\ c <> "?"%byte /\ c <> "#"%byte /\ ~ control c) rest ->
  exists m, ParseDatabaseURI (url_Parse legacy) os order (str "postgres://" ++ n ++ ":"%byte :: d ++ "/"%byte :: rest) = Ok m /\
    m (str "host") = Some n /\ m (str "port") = Some d /\ m (str "database") = Some rest /\ m (str "user") = os /\ m (str "password") = None.
Proof.
  intros O Nn Fn Nd Fd Nr Sr Fr. destruct (host_written_parts n n d (hw_name _ Nn Fn) Fd) as (HP & HO & _).
  assert (Forall host_ok (n ++ ":"%byte :: d)) as HPO.
  { apply Forall_app. split; [exact HO|]. constructor; [apply host_char_ok, hc_special; cbn; tauto|]. eapply Forall_impl; [|exact Fd]. intros c; apply digit_ok. }
  assert (uri legacy (str "postgres://" ++ n ++ ":"%byte :: d ++ "/"%byte :: rest) (URL (str "postgres") None n d ("/"%byte :: rest) [])) as U.
  { replace (str "postgres://" ++ n ++ ":"%byte :: d ++ "/"%byte :: rest) with (str "postgres" ++ ":"%byte :: ("/"%byte :: "/"%byte :: (n ++ ":"%byte :: d) ++ "/"%byte :: rest) ++ [] ++ []).
    2: { change (str "postgres://") with (str "postgres" ++ [":"; "/"; "/"]%byte). rewrite !app_nil_r. repeat (rewrite <- !app_assoc; cbn [app]). reflexivity. }
    assert (forall c, In c ("/"%byte :: "/"%byte :: (n ++ ":"%byte :: d) ++ "/"%byte :: rest) -> c = "/"%byte \/ c <> "?"%byte /\ c <> "#"%byte /\ ~ control c) as HI.
    { intros c [<-|[<-|I]]; [now left|now left|]. apply in_app_iff in I. destruct I as [I|[<-|I]]; [right|now left|right].
      - apply (proj1 (Forall_forall _ _) HPO) in I. unfold host_ok in I. tauto.
      - apply (proj1 (Forall_forall _ _) Fr) in I. tauto. }
    eapply uri_intro with (q := []) (f := []).
    - exact postgres_scheme.
    - apply hi_authority; [now apply (not_special _ _ HPO); auto| |right; eauto|].
      + apply au_host; [now apply (not_special _ _ HPO); auto|exact HP].
      + apply spelled_raw; [split; [reflexivity|discriminate]|]. apply spelled_self. eapply Forall_impl; [|exact Fr]. intros c (X & _). auto.
    - left. split; reflexivity.
    - apply empty_query.
    - left. split; reflexivity.
    - constructor.
    - rewrite app_nil_r. intros I. apply HI in I. destruct I as [I|I]; [discriminate|tauto].
    - intros I. apply HI in I. destruct I as [I|I]; [discriminate|tauto].
    - rewrite app_nil_r. apply Forall_forall. intros c I. apply HI in I. destruct I as [->|I]; [intros [K|K]; vm_compute in K; congruence|tauto]. }
  destruct (proj2 (accepts legacy os order _ O) (ex_intro _ _ (conj U (or_introl eq_refl)))) as (m & P). exists m. split; [exact P|].
  destruct (settings _ _ _ _ _ _ O U P) as [_ S].
  assert (forall k, ~ in_query [] k) as NQ by (intros k (v & [])).
  split; [apply S, s_host; [apply NQ|exact Nn]|]. split; [apply S, s_port; [apply NQ|exact Nd]|]. split; [apply S, s_database; [apply NQ|now apply path_slash|exact Nr]|]. split.
  - destruct os as [o|]; [apply S, s_user; [apply NQ|reflexivity]|]. destruct (m (str "user")) as [v|] eqn:E; [|reflexivity]. apply S in E.
    inversion E as [k0 v0 X|? X Y|? X Y|? X Y|? X Y|v0 ? X Y|ui v0 ? X Y Z|db ? X Y Z|? X Y]; subst; try discriminate. inversion X.
  - destruct (m (str "password")) as [v|] eqn:E; [|reflexivity]. apply S in E.
    inversion E as [k0 v0 X|? X Y|? X Y|? X Y|? X Y|v0 ? X Y|ui v0 ? X Y Z|db ? X Y Z|? X Y]; subst; try discriminate. inversion X.
Qed.
(** without the two slashes everything is ignored *)
Lemma opaque legacy os order s : iteration_order order -> (forall s', s <> "/"%byte :: s') -> Forall (fun c => c <> "?"%byte /\ c <> "#"%byte /\ ~ control c) s ->
  exists m, ParseDatabaseURI (url_Parse legacy) os order (str "postgres:" ++ s) = Ok m /\
    m (str "host") = Some (str "localhost") /\ m (str "port") = Some (str "5432") /\ m (str "user") = os /\
    m (str "database") = Some (match os with Some o => o | None => [] end) /\ m (str "password") = None.
Proof.
  intros O NS F. assert (uri legacy (str "postgres:" ++ s) (URL (str "postgres") None [] [] [] [])) as U.
  { replace (str "postgres:" ++ s) with (str "postgres" ++ ":"%byte :: s ++ [] ++ []) by (rewrite !app_nil_r; reflexivity). eapply uri_intro with (q := []) (f := []).
    - exact postgres_scheme.
    - apply hi_opaque. exact NS.
    - left. split; reflexivity.
    - apply empty_query.
    - left. split; reflexivity.
    - constructor.
    - rewrite app_nil_r. intros I. apply (proj1 (Forall_forall _ _) F) in I. tauto.
    - intros I. apply (proj1 (Forall_forall _ _) F) in I. tauto.
    - rewrite app_nil_r. eapply Forall_impl; [|exact F]. intros c (_ & _ & K). exact K. }
  destruct (proj2 (accepts legacy os order _ O) (ex_intro _ _ (conj U (or_introl eq_refl)))) as (m & P). exists m. split; [exact P|].
  destruct (settings _ _ _ _ _ _ O U P) as [_ S].
  assert (forall k, ~ in_query [] k) as NQ by (intros k (v & [])).
  split; [apply S, s_host_default; [apply NQ|reflexivity]|]. split; [apply S, s_port_default; [apply NQ|reflexivity]|]. split; [|split].
  - destruct os as [o|]; [apply S, s_user; [apply NQ|reflexivity]|]. destruct (m (str "user")) as [v|] eqn:E; [|reflexivity]. apply S in E.
    inversion E as [k0 v0 X|? X Y|? X Y|? X Y|? X Y|v0 ? X Y|ui v0 ? X Y Z|db ? X Y Z|? X Y]; subst; try discriminate. inversion X.
  - apply S. apply (s_database_default os (URL (str "postgres") None [] [] [] [])); [apply NQ|]. exists 0%nat. split; [reflexivity|discriminate].
  - destruct (m (str "password")) as [v|] eqn:E; [|reflexivity]. apply S in E.
    inversion E as [k0 v0 X|? X Y|? X Y|? X Y|? X Y|v0 ? X Y|ui v0 ? X Y Z|db ? X Y Z|? X Y]; subst; try discriminate. inversion X.
Qed.

(** * The address that is dialled *)
From Verif Require Import Session SpecSession.
Lemma go_env_sane legacy os order : iteration_order order -> sane_env (DsnEnv (url_Parse legacy) os order).
Proof. intros O. split; [exact O|]. intros u q. apply url_Parse_nopanic. Qed.
Lemma address_written legacy os order user password ht host port database pairs m : iteration_order order -> host_written ht host -> port <> [] -> Forall digit port -> database <> [] ->
  (forall d, database <> "/"%byte :: d) -> ~ in_query pairs (str "host") -> ~ in_query pairs (str "port") -> (ht = host \/ In ":"%byte host) ->
  parse_uri (DsnEnv (url_Parse legacy) os order) (written user password ht port database pairs) = Ok m -> address m = ht ++ ":"%byte :: port.
Proof.
  intros O H PN D DN DS Qh Qp B E. destruct (writable legacy os order user password ht host port database pairs O H PN D DN DS) as (m' & P & S).
  unfold parse_uri in E. cbn [env_parse env_user env_order] in E. rewrite P in E. injection E as <-.
  assert (get m' (str "host") = host) as Gh by (unfold get; rewrite (proj2 (S (str "host") host)); [reflexivity|]; right; split; [exact Qh|]; unfold says; tauto).
  assert (get m' (str "port") = port) as Gp by (unfold get; rewrite (proj2 (S (str "port") port)); [reflexivity|]; right; split; [exact Qp|]; unfold says; tauto).
  unfold address. rewrite Gh, Gp. destruct H as [h N F|h N F].
  - destruct (in_dec Byte.byte_eq_dec ":"%byte h) as [I|]; [|reflexivity]. apply (proj1 (Forall_forall _ _) F) in I. tauto.
  - destruct (in_dec Byte.byte_eq_dec ":"%byte h) as [I|NI].
    + cbn [app]. rewrite <- app_assoc. reflexivity.
    + destruct B as [B|B]; [|contradiction]. exfalso. apply (f_equal (@length byte)) in B. cbn in B. rewrite app_length in B. cbn in B. lia.
Qed.
