(** Proofs about Dsn.v *)
From Verif Require Import GoBase Dsn SpecDsn BufferProofs.
From Coq Require Import Permutation.

Definition vals (k : bytes) (ps : list (bytes * bytes)) : list bytes :=
  map snd (filter (fun p => bytes_eqb k (fst p)) ps).

(** [m] is the multimap of [ps] *)
Definition multimap (m : list (bytes * list bytes)) (ps : list (bytes * bytes)) : Prop :=
  NoDup (map fst m) /\ (forall k vs, In (k, vs) m <-> vs = vals k ps /\ vs <> []).

Lemma bytes_eqb_refl k : bytes_eqb k k = true.
Proof. destruct (bytes_eqb_spec k k); congruence. Qed.

Lemma vals_app k ps qs : vals k (ps ++ qs) = vals k ps ++ vals k qs.
Proof. unfold vals. rewrite filter_app, map_app. reflexivity. Qed.

Lemma values_add_keys m k v x : In x (map fst (values_add m k v)) <-> x = k \/ In x (map fst m).
Proof.
  induction m as [|[k' vs] m IH]; cbn; [intuition|].
  destruct (bytes_eqb_spec k k') as [<-|]; cbn; [intuition|]. rewrite IH. intuition.
Qed.
Lemma values_add_nodup m k v : NoDup (map fst m) -> NoDup (map fst (values_add m k v)).
Proof.
  induction m as [|[k' vs] m IH]; cbn; intros H; [constructor; [intros []|constructor]|].
  inversion H; subst. destruct (bytes_eqb_spec k k') as [<-|Hne]; cbn; [constructor; assumption|].
  constructor; [|auto]. rewrite values_add_keys. intros [->|]; auto.
Qed.
Lemma in_fst {A B} (k : A) (v : B) m : In (k, v) m -> In k (map fst m).
Proof. intros H. apply in_map_iff. exists (k, v). auto. Qed.

Lemma values_add_other m k v k' vs : k' <> k -> (In (k', vs) (values_add m k v) <-> In (k', vs) m).
Proof.
  intros Hne. induction m as [|[x xs] m IH]; cbn.
  - split; [|tauto]. intros [H|[]]. congruence.
  - destruct (bytes_eqb_spec k x) as [<-|]; cbn.
    + split; (intros [H|H]; [congruence|auto]).
    + rewrite IH. tauto.
Qed.
Lemma values_add_same m k v vs : NoDup (map fst m) ->
  (In (k, vs) (values_add m k v) <->
   (exists old, In (k, old) m /\ vs = old ++ [v]) \/ (~ In k (map fst m) /\ vs = [v])).
Proof.
  induction m as [|[x xs] m IH]; cbn; intros Hn.
  - split.
    + intros [H|[]]. right. split; [tauto|congruence].
    + intros [(old & [] & _)|[_ ->]]. auto.
  - inversion Hn; subst. destruct (bytes_eqb_spec k x) as [<-|Hne]; cbn.
    + split.
      * intros [H|H]; [left; exists xs; split; [auto|congruence]|]. exfalso. eauto using in_fst.
      * intros [(old & [H|H] & ->)|[H _]]; [|exfalso; eauto using in_fst|exfalso; tauto]. left. congruence.
    + rewrite IH by assumption. split.
      * intros [H|[(old & H & ->)|[H ->]]]; [congruence|left; eauto|right]. split; [|reflexivity]. intros [E|E]; [congruence|tauto].
      * intros [(old & [H|H] & ->)|[H ->]]; [congruence|eauto|]. right. right. tauto.
Qed.

Lemma multimap_add m ps k v : multimap m ps -> multimap (values_add m k v) (ps ++ [(k, v)]).
Proof.
  intros [Hn Hm]. split; [apply values_add_nodup; exact Hn|]. intros k' vs. rewrite vals_app.
  unfold vals at 2. cbn. destruct (bytes_eqb_spec k' k) as [->|Hne]; cbn.
  - rewrite values_add_same by exact Hn. split.
    + intros [(old & Ho & ->)|[Hk ->]].
      * apply Hm in Ho. destruct Ho as [-> _]. split; [reflexivity|]. destruct (vals k ps); discriminate.
      * assert (vals k ps = []) as ->; [|split; [reflexivity|discriminate]].
        destruct (vals k ps) as [|a l] eqn:E; [reflexivity|]. exfalso. apply Hk.
        apply (in_fst k (a :: l)). apply Hm. rewrite E. split; [reflexivity|discriminate].
    + intros [-> _]. destruct (vals k ps) as [|a l] eqn:E.
      * right. split; [|reflexivity]. intros Hk. apply in_map_iff in Hk. destruct Hk as ([x xs] & <- & Hi).
        apply Hm in Hi. cbn in E. destruct Hi as [-> Hne]. congruence.
      * left. exists (a :: l). split; [|reflexivity]. apply Hm. rewrite E. split; [reflexivity|discriminate].
  - rewrite values_add_other, app_nil_r by exact Hne. apply Hm.
Qed.

Lemma url_Query_multimap ps : multimap (url_Query ps) ps.
Proof.
  unfold url_Query. assert (forall ps m done, multimap m done ->
    multimap (fold_left (fun m p => values_add m (fst p) (snd p)) ps m) (done ++ ps)) as G.
  { clear. induction ps as [|[k v] ps IH]; intros m done H; cbn; [rewrite app_nil_r; exact H|].
    replace (done ++ (k, v) :: ps) with ((done ++ [(k, v)]) ++ ps) by (rewrite <- app_assoc; reflexivity).
    apply IH, multimap_add, H. }
  apply (G ps [] []). split; [constructor|]. intros k vs. cbn. intuition.
Qed.

Lemma multimap_permutation m m' ps : Permutation m m' -> multimap m ps -> multimap m' ps.
Proof.
  intros P [Hn Hm]. split.
  - eapply Permutation_NoDup; [|exact Hn]. apply Permutation_map, P.
  - intros k vs. rewrite <- Hm. split; apply Permutation_in; [apply Permutation_sym, P|apply P].
Qed.

Lemma apply_query_spec es : NoDup (map fst es) -> (forall k, ~ In (k, []) es) -> forall m,
  exists m', apply_query m es = Ok m' /\
    forall k, (exists v tl, In (k, v :: tl) es /\ m' k = Some v) \/ ((forall vs, ~ In (k, vs) es) /\ m' k = m k).
Proof.
  induction es as [|[k0 vs0] es IH]; cbn; intros Hn Hne m.
  - exists m. split; [reflexivity|]. intros k. right. auto.
  - inversion Hn; subst. destruct vs0 as [|v0 tl0]; [exfalso; exact (Hne k0 (or_introl eq_refl))|].
    destruct (IH H2 (fun k H => Hne k (or_intror H)) (set m k0 v0)) as (m' & E & Hm').
    exists m'. split; [exact E|]. intros k. destruct (Hm' k) as [(v & tl & Hi & Hv)|[Hno Hv]].
    + left. eauto.
    + unfold set in Hv. destruct (bytes_eqb_spec k0 k) as [<-|Hd].
      * left. eauto.
      * right. split; [|exact Hv]. intros vs [Hi|Hi]; [congruence|]. eapply Hno; eauto.
Qed.

Lemma first_value_vals ps k v : first_value ps k v <-> exists tl, vals k ps = v :: tl.
Proof.
  split.
  - induction 1 as [k v rest|k v k' v' rest Hne H (tl & E)]; unfold vals; cbn.
    + rewrite bytes_eqb_refl. eexists. reflexivity.
    + destruct (bytes_eqb_spec k k'); [congruence|]. eauto.
  - intros (tl & E). revert tl E. induction ps as [|[k' v'] ps IH]; unfold vals; cbn; [discriminate|].
    intros tl. destruct (bytes_eqb_spec k k') as [<-|Hne]; cbn.
    + intros [= -> _]. constructor.
    + intros E. constructor; [exact Hne|eauto].
Qed.
Lemma in_query_vals ps k : in_query ps k <-> vals k ps <> [].
Proof.
  unfold in_query. split.
  - intros (v & Hi) E. assert (In v (vals k ps)) as Hv; [|rewrite E in Hv; exact Hv].
    unfold vals. apply in_map_iff. exists (k, v). split; [reflexivity|]. apply filter_In. split; [exact Hi|apply bytes_eqb_refl].
  - intros H. destruct (vals k ps) as [|v tl] eqn:E; [congruence|]. exists v.
    assert (In v (vals k ps)) as Hv by (rewrite E; left; reflexivity).
    unfold vals in Hv. apply in_map_iff in Hv. destruct Hv as ([k' v'] & <- & Hi). apply filter_In in Hi.
    destruct Hi as [Hi Hk]. cbn in Hk. destruct (bytes_eqb_spec k k'); [subst; exact Hi|discriminate].
Qed.

(** settings after the query parameters *)
Lemma apply_url_query m ps order : iteration_order order ->
  exists m', apply_query m (order (url_Query ps)) = Ok m' /\
    forall k, (exists v, first_value ps k v /\ m' k = Some v) \/ (~ in_query ps k /\ m' k = m k).
Proof.
  intros Ho. pose proof (multimap_permutation _ _ _ (Ho (url_Query ps)) (url_Query_multimap ps)) as [Hn Hm].
  destruct (apply_query_spec _ Hn) with (m := m) as (m' & E & Hk).
  { intros k Hi. apply Hm in Hi. tauto. }
  exists m'. split; [exact E|]. intros k. destruct (Hk k) as [(v & tl & Hi & Hv)|[Hno Hv]].
  - left. exists v. split; [|exact Hv]. apply first_value_vals. exists tl. apply Hm in Hi. symmetry. tauto.
  - right. split; [|exact Hv]. rewrite in_query_vals. intros Hne. apply (Hno (vals k ps)). apply Hm. auto.
Qed.

Lemma trim_slashes_spec s : path_database s (trim_slashes s).
Proof.
  induction s as [|c s IH]; cbn; [exists 0%nat; split; [reflexivity|discriminate]|].
  destruct (byte_eqb_spec c "/") as [->|Hne].
  - destruct IH as (n & E & H). exists (S n). split; [cbn; congruence|exact H].
  - exists 0%nat. split; [reflexivity|congruence].
Qed.
Lemma path_database_fun s d1 d2 : path_database s d1 -> path_database s d2 -> d1 = d2.
Proof.
  intros (n1 & E1 & H1) (n2 & E2 & H2). revert n2 s E1 E2. induction n1 as [|n1 IH]; intros [|n2] s E1 E2; subst s; cbn in *.
  - exact E2.
  - exfalso. eapply H1, E2.
  - exfalso. eapply H2. symmetry. exact E2.
  - injection E2 as E2. eapply IH; [reflexivity|exact E2].
Qed.

Ltac keys k := repeat match goal with
  | |- context [bytes_eqb (str ?a) (str ?b)] =>
      let x := eval vm_compute in (bytes_eqb (str a) (str b)) in change (bytes_eqb (str a) (str b)) with x; cbn iota
  end.

Lemma authority_host os u : authority_settings os u (str "host") =
  Some (match u_hostname u with [] => str "localhost" | h => h end).
Proof.
  unfold authority_settings, defaultConnectionSettings, set, get, empty_params.
  destruct os, (u_user u) as [[un [pw|]]|], (u_hostname u), (u_port u), (trim_slashes (u_path u)); reflexivity.
Qed.
Lemma authority_port os u : authority_settings os u (str "port") =
  Some (match u_port u with [] => str "5432" | h => h end).
Proof.
  unfold authority_settings, defaultConnectionSettings, set, get, empty_params.
  destruct os, (u_user u) as [[un [pw|]]|], (u_hostname u), (u_port u), (trim_slashes (u_path u)); reflexivity.
Qed.
Lemma authority_user os u : authority_settings os u (str "user") = base_user os u.
Proof.
  unfold authority_settings, defaultConnectionSettings, set, get, empty_params, base_user.
  destruct os, (u_user u) as [[un [pw|]]|], (u_hostname u), (u_port u), (trim_slashes (u_path u)); reflexivity.
Qed.
Lemma authority_password os u : authority_settings os u (str "password") =
  match u_user u with Some ui => ui_password ui | None => None end.
Proof.
  unfold authority_settings, defaultConnectionSettings, set, get, empty_params.
  destruct os, (u_user u) as [[un [pw|]]|], (u_hostname u), (u_port u), (trim_slashes (u_path u)); reflexivity.
Qed.
Lemma authority_database os u : authority_settings os u (str "database") =
  Some (match trim_slashes (u_path u) with
        | [] => match base_user os u with Some v => v | None => [] end
        | db => db
        end).
Proof.
  unfold authority_settings, defaultConnectionSettings, set, get, empty_params, base_user.
  destruct os, (u_user u) as [[un [pw|]]|], (u_hostname u), (u_port u), (trim_slashes (u_path u)); reflexivity.
Qed.
Lemma authority_other os u k : k <> str "host" -> k <> str "port" -> k <> str "user" -> k <> str "password" ->
  k <> str "database" -> authority_settings os u k = None.
Proof.
  intros H1 H2 H3 H4 H5. unfold authority_settings, defaultConnectionSettings, set, get, empty_params.
  destruct os, (u_user u) as [[un [pw|]]|], (u_hostname u), (u_port u), (trim_slashes (u_path u)); cbn [ui_password];
  repeat match goal with |- context [bytes_eqb ?a k] => destruct (bytes_eqb_spec a k); [congruence|] end; reflexivity.
Qed.

Definition pg_scheme (u : url) : Prop := u_scheme u = str "postgres" \/ u_scheme u = str "postgresql".

Lemma scheme_check u : negb (bytes_eqb (u_scheme u) (str "postgres")) && negb (bytes_eqb (u_scheme u) (str "postgresql")) = false
  <-> pg_scheme u.
Proof.
  unfold pg_scheme. destruct (bytes_eqb_spec (u_scheme u) (str "postgres")), (bytes_eqb_spec (u_scheme u) (str "postgresql"));
  cbn; intuition congruence.
Qed.

Lemma first_value_in_query ps k v : first_value ps k v -> in_query ps k.
Proof. induction 1 as [|k v k' v' rest Hne H (w & Hi)]; [eexists; left; reflexivity|exists w; right; exact Hi]. Qed.

Lemma settings_exact : forall parse os order conn u,
  iteration_order order -> parse conn = Ok u -> u_scheme u = str "postgres" \/ u_scheme u = str "postgresql" ->
  exists m, ParseDatabaseURI parse os order conn = Ok m /\
    forall k v, m k = Some v <-> setting os u k v.
Proof.
  intros parse os order conn u Ho Hp Hs. unfold ParseDatabaseURI. rewrite Hp. cbn [res_bind].
  rewrite (proj2 (scheme_check u) Hs).
  destruct (apply_url_query (authority_settings os u) (u_pairs u) order Ho) as (m & E & Hm). rewrite E.
  exists m. split; [reflexivity|]. intros k v. pose proof (trim_slashes_spec (u_path u)) as Hpath.
  assert (forall k v v', first_value (u_pairs u) k v -> first_value (u_pairs u) k v' -> v = v') as Hfun.
  { intros k0 v0 v1 H0 H1. apply first_value_vals in H0, H1. destruct H0, H1. congruence. }
  destruct (Hm k) as [(w & Hw & Hk)|[Hno Hk]]; rewrite Hk.
  - pose proof (first_value_in_query _ _ _ Hw) as Hin. split.
    + intros [= <-]. apply s_query, Hw.
    + inversion 1; subst; try contradiction. f_equal. eauto.
  - split.
    + destruct (bytes_eqb_spec k (str "host")) as [->|H1];
        [rewrite authority_host; intros [= <-]; destruct (u_hostname u) as [|c h] eqn:Eh;
         [apply s_host_default; assumption|rewrite <- Eh; apply s_host; [assumption|congruence]]|].
      destruct (bytes_eqb_spec k (str "port")) as [->|H2];
        [rewrite authority_port; intros [= <-]; destruct (u_port u) as [|c h] eqn:Eh;
         [apply s_port_default; assumption|rewrite <- Eh; apply s_port; [assumption|congruence]]|].
      destruct (bytes_eqb_spec k (str "user")) as [->|H3];
        [rewrite authority_user; intros Hb; apply s_user; assumption|].
      destruct (bytes_eqb_spec k (str "password")) as [->|H4];
        [rewrite authority_password; destruct (u_user u) as [ui|] eqn:Eu; [|discriminate];
         intros Hb; eapply s_password; eassumption|].
      destruct (bytes_eqb_spec k (str "database")) as [->|H5];
        [rewrite authority_database; intros [= <-]; destruct (trim_slashes (u_path u)) as [|c d] eqn:Ed;
         [apply s_database_default; assumption|apply s_database; [assumption|assumption|discriminate]]|].
      rewrite authority_other by assumption. discriminate.
    + inversion 1; subst.
      * exfalso. eauto using first_value_in_query.
      * rewrite authority_host. destruct (u_hostname u); congruence.
      * rewrite authority_host. destruct (u_hostname u); congruence.
      * rewrite authority_port. destruct (u_port u); congruence.
      * rewrite authority_port. destruct (u_port u); congruence.
      * rewrite authority_user. assumption.
      * rewrite authority_password. match goal with H : u_user u = _ |- _ => rewrite H end. assumption.
      * rewrite authority_database. match goal with H : path_database _ v |- _ => rewrite (path_database_fun _ _ _ Hpath H) end.
        destruct v; congruence.
      * rewrite authority_database. match goal with H : path_database _ [] |- _ => rewrite (path_database_fun _ _ _ Hpath H) end.
        reflexivity.
Qed.

Lemma accepts_exactly : forall parse os order conn, iteration_order order ->
  ((exists m, ParseDatabaseURI parse os order conn = Ok m) <->
   (exists u, parse conn = Ok u /\ (u_scheme u = str "postgres" \/ u_scheme u = str "postgresql"))) /\
  (forall p, ParseDatabaseURI parse os order conn = Panic p -> parse conn = Panic p).
Proof.
  intros parse os order conn Ho. unfold ParseDatabaseURI. destruct (parse conn) as [u|e|p] eqn:Ep; cbn [res_bind].
  - destruct (negb _ && _) eqn:E.
    + split; [|discriminate]. split; [intros (m & H); discriminate|].
      intros (u' & [= <-] & Hs). apply scheme_check in Hs. congruence.
    + apply scheme_check in E.
      destruct (apply_url_query (authority_settings os u) (u_pairs u) order Ho) as (m & Em & _). rewrite Em.
      split; [|discriminate]. split; [intros _; exists u; auto|eauto].
  - split; [|discriminate]. split; [intros (m & H); discriminate|intros (u & H & _); discriminate].
  - split; [|congruence]. split; [intros (m & H); discriminate|intros (u & H & _); discriminate].
Qed.

Lemma order_irrelevant : forall parse os order1 order2 conn m1 m2,
  iteration_order order1 -> iteration_order order2 ->
  ParseDatabaseURI parse os order1 conn = Ok m1 -> ParseDatabaseURI parse os order2 conn = Ok m2 ->
  forall k, m1 k = m2 k.
Proof.
  intros parse os o1 o2 conn m1 m2 H1 H2 E1 E2 k.
  destruct (proj1 (proj1 (accepts_exactly parse os o1 conn H1)) (ex_intro _ _ E1)) as (u & Hp & Hs).
  destruct (settings_exact _ os _ _ _ H1 Hp Hs) as (m1' & E1' & S1).
  destruct (settings_exact _ os _ _ _ H2 Hp Hs) as (m2' & E2' & S2).
  rewrite E1 in E1'. rewrite E2 in E2'. injection E1' as <-. injection E2' as <-.
  destruct (m1 k) as [v|] eqn:Ek1.
  - symmetry. apply S2, S1, Ek1.
  - destruct (m2 k) as [v|] eqn:Ek2; [|reflexivity]. apply S2, S1 in Ek2. congruence.
Qed.

Lemma first_query_value_wins : forall parse os order conn u m k v,
  iteration_order order -> parse conn = Ok u -> ParseDatabaseURI parse os order conn = Ok m ->
  first_value (u_pairs u) k v -> m k = Some v.
Proof.
  intros parse os order conn u m k v Ho Hp E Hf.
  destruct (proj1 (proj1 (accepts_exactly parse os order conn Ho)) (ex_intro _ _ E)) as (u' & Hp' & Hs).
  rewrite Hp in Hp'. injection Hp' as <-. destruct (settings_exact _ os _ _ _ Ho Hp Hs) as (m' & E' & S).
  rewrite E in E'. injection E' as <-. apply S, s_query, Hf.
Qed.

Lemma database_defaults_to_user : forall parse os order conn u m,
  iteration_order order -> parse conn = Ok u -> ParseDatabaseURI parse os order conn = Ok m ->
  path_database (u_path u) [] -> ~ in_query (u_pairs u) (str "database") ->
  (~ in_query (u_pairs u) (str "user") ->
     m (str "database") = Some (match m (str "user") with Some v => v | None => [] end)) /\
  (forall qu, first_value (u_pairs u) (str "user") qu ->
     m (str "user") = Some qu /\
     m (str "database") = Some (match base_user os u with Some v => v | None => [] end)).
Proof.
  intros parse os order conn u m Ho Hp E Hd Hnd.
  destruct (proj1 (proj1 (accepts_exactly parse os order conn Ho)) (ex_intro _ _ E)) as (u' & Hp' & Hs).
  rewrite Hp in Hp'. injection Hp' as <-. destruct (settings_exact _ os _ _ _ Ho Hp Hs) as (m' & E' & S).
  rewrite E in E'. injection E' as <-.
  pose proof (proj2 (S _ _) (s_database_default os u Hnd Hd)) as Hdb. split.
  - intros Hnu. rewrite Hdb. f_equal. destruct (base_user os u) as [v|] eqn:Eb.
    + rewrite (proj2 (S _ _) (s_user os u v Hnu Eb)). reflexivity.
    + destruct (m (str "user")) as [v|] eqn:Eu; [|reflexivity]. exfalso. apply S in Eu.
      inversion Eu; subst; try congruence. eauto using first_value_in_query.
  - intros qu Hq. split; [apply S, s_query, Hq|exact Hdb].
Qed.

Lemma refusal : forall parse os order conn e, iteration_order order ->
  ParseDatabaseURI parse os order conn = Err e <->
  parse conn = Err e \/
  e = ErrInvalidURI /\ exists u, parse conn = Ok u /\ u_scheme u <> str "postgres" /\ u_scheme u <> str "postgresql".
Proof.
  intros parse os order conn e Ho. unfold ParseDatabaseURI. destruct (parse conn) as [u|x|p] eqn:Ep; cbn [res_bind].
  - destruct (negb _ && _) eqn:E.
    + assert (u_scheme u <> str "postgres" /\ u_scheme u <> str "postgresql") as Hs.
      { split; intros H; pose proof (proj2 (scheme_check _) (ltac:(auto) : u_scheme u = str "postgres" \/ u_scheme u = str "postgresql")); congruence. }
      split; [intros [= <-]; right; split; [reflexivity|exists u; tauto]|intros [?|[-> _]]; [discriminate|reflexivity]].
    + apply scheme_check in E. destruct (apply_url_query (authority_settings os u) (u_pairs u) order Ho) as (m & Em & _). rewrite Em.
      split; [discriminate|]. intros [?|(_ & u' & [= <-] & H1 & H2)]; [discriminate|unfold pg_scheme in E; tauto].
  - split; [intros [= ->]; auto|]. intros [[= ->]|(_ & u & ? & _)]; [reflexivity|discriminate].
  - split; [discriminate|]. intros [?|(_ & u & ? & _)]; discriminate.
Qed.
