(** From the text of the configuration file to the addresses used. *)
From Coq Require Import Permutation.
From Verif Require Import SpecSystem SystemProofs SystemTrace SystemFacts NetUrl SpecDsn Toml SpecToml TomlProofs TomlMeaning SpecFile.
From Verif Require SpecUri UriProofs SessionMore Session SpecSession SpecServer SpecConnect.
Require Import Lia.

(** *** Texts *)
Lemma names_read t cfg : names t cfg -> forall order, map_order order -> readServerConfig order (Ok t) = Some (Ok cfg).
Proof.
  intros (l & D & N & W & U & S) order O. destruct (decode_document order t l O D N W) as (cfg' & H & S'). cbn. rewrite H. do 2 f_equal. exact (says_unique l cfg' cfg N U S' S).
Qed.
Lemma partly_config (T : bytes -> Prop) x : (forall t, T t -> exists cfg, names t cfg) -> partly T x -> forall c, x = Some c ->
  exists t cfg, T t /\ names t cfg /\ (Listen c = Listen cfg \/ Listen c = []) /\ (DatabaseURL c = DatabaseURL cfg \/ DatabaseURL c = []).
Proof.
  intros HT [->|(s & rest & Ht & order & O & R)] c E; [discriminate E|]. destruct (HT _ Ht) as (cfg & N). exists (s ++ rest), cfg. split; [exact Ht|]. split; [exact N|].
  destruct (half_written s rest cfg (fun order' O' => names_read _ _ N order' O') order O) as [X|(c' & X & A & B)]; cbn in R; rewrite X in R; [congruence|]. rewrite R in E. injection E as <-. auto.
Qed.
Lemma wholly_config (T : bytes -> Prop) x : (forall t, T t -> exists cfg, names t cfg) -> wholly T x -> forall c, x = Some c -> exists t, T t /\ names t c.
Proof.
  intros HT [->|(s & Ht & order & O & R)] c E; [discriminate E|]. destruct (HT _ Ht) as (cfg & N). exists s. split; [exact Ht|].
  rewrite (names_read _ _ N order O) in R. rewrite R in E. injection E as <-. exact N.
Qed.

(** *** Labels *)
Lemma changes_step w l w' x : FileWatcher.step w l = Some w' -> In (FileWatcher.WChange x) (FileWatcher.hist w') ->
  In (FileWatcher.WChange x) (FileWatcher.hist w) \/ exists ops, l = FileWatcher.LFile x ops.
Proof.
  intros H I. WatcherProofs.dstep H; cbn in I; repeat (destruct I as [I|I]; [first [discriminate I|injection I as <-; right; eexists; reflexivity]|]); auto.
Qed.
Lemma changes_run f ls s : run step (Run f) ls = Some s -> forall x, In (FileWatcher.WChange x) (FileWatcher.hist (watcher s)) -> exists ops, In (YWatcher (FileWatcher.LFile x ops)) ls.
Proof.
  revert s. induction ls as [|l ls IH] using rev_ind; intros s H x I; [injection H as <-; destruct I|].
  rewrite run_app in H. destruct (run step (Run f) ls) as [s1|] eqn:E; [|discriminate]. apply run_one in H.
  assert (In (FileWatcher.WChange x) (FileWatcher.hist (watcher s1)) \/ exists ops, l = YWatcher (FileWatcher.LFile x ops)) as [X|(ops & ->)].
  { destruct (step_moves _ _ _ H) as (_ & m & P & E1 & _). clear - P E1 I.
    assert (mw m = [] \/ mw m = [FileWatcher.LRecv] \/ exists l1, l = YWatcher l1 /\ mw m = [l1]) as [X|[X|(l1 & -> & X)]] by (dplan P; eauto).
    - rewrite X in E1. apply run_none in E1. rewrite E1 in I. auto.
    - rewrite X in E1. apply run_one in E1. destruct (changes_step _ _ _ _ E1 I) as [Y|(ops & Y)]; [auto|discriminate Y].
    - rewrite X in E1. apply run_one in E1. destruct (changes_step _ _ _ _ E1 I) as [Y|(ops & Y)]; [auto|subst; eauto]. }
  - destruct (IH _ eq_refl _ X) as (ops & Y). exists ops. apply in_or_app. auto.
  - exists ops. apply in_or_app. right. now left.
Qed.
Lemma envs_run f ls s c : run step (Run f) ls = Some s -> forall E r, In (E, r) (SpecSession.configs (Session.hist (sess s c))) -> exists t, In (YGot t E) ls.
Proof.
  revert s. induction ls as [|l ls IH] using rev_ind; intros s H E r I; [injection H as <-; destruct I|].
  rewrite run_app in H. destruct (run step (Run f) ls) as [s1|] eqn:E0; [|discriminate]. apply run_one in H.
  assert (In (E, r) (SpecSession.configs (Session.hist (sess s1 c))) \/ exists t, l = YGot t E) as [X|(t & ->)].
  { destruct (step_moves _ _ _ H) as (_ & m & P & _ & _ & _ & E4 & E5 & _). clear - P E4 E5 I.
    destruct (Nat.eq_dec c (mc m)) as [Ec|Ec]; [|rewrite E5 in I by exact Ec; auto]. rewrite <- Ec in E4.
    assert ((forall E r, ~ In (Session.LConfig E r) (ms m)) \/ exists t E1 r1, l = YGot t E1 /\ ms m = [Session.LConfig E1 r1]) as [X|(t & E1 & r1 & -> & X)].
    { clear - P. destruct l; try (left; dplan P; intros ? ? X; repeat (destruct X as [X|X]; [discriminate X|]); destruct X; fail).
      - left. dplan P. intros E0 r0 X. destruct X as [X|X]; [|destruct X]. rewrite X in Heqb. apply andb_prop in Heqb. destruct Heqb as [_ Y]. discriminate Y.
      - right. dplan P; eauto. }
    - rewrite (configs_run _ _ _ E4 X) in I. auto.
    - rewrite X in E4. apply run_one in E4. destruct (configs_got _ _ _ _ E4) as [Y|Y]; rewrite Y in I; [auto|]. apply in_app_or in I. destruct I as [I|[I|[]]]; [auto|]. injection I as <- _. eauto. }
  - destruct (IH _ eq_refl _ _ X) as (t & Y). exists t. apply in_or_app. auto.
  - exists t. apply in_or_app. right. now left.
Qed.
Lemma had_run P f ls s c : file_is P f ls -> run step (Run f) ls = Some s -> file_had f (FileWatcher.hist (watcher s)) c -> P (Some c).
Proof.
  intros [A B] H [->|X]; [exact A|]. destruct (changes_run _ _ _ H _ X) as (ops & Y). exact (B _ _ Y).
Qed.

(** *** Sessions *)
Lemma run_reach f ls s : run step (Run f) ls = Some s -> reachable step init s.
Proof. intros H. exists (Run f), ls. split; [exists f; reflexivity|exact H]. Qed.
Lemma config_had f ls s c E r : run step (Run f) ls = Some s -> In (E, r) (SpecSession.configs (Session.hist (sess s c))) ->
  exists cfg, r = Ok cfg /\ file_had f (FileWatcher.hist (watcher s)) cfg.
Proof.
  intros H I. pose proof (run_reach _ _ _ H) as R. pose proof (run_late (Run f) c ls s (run_reach f [] _ eq_refl) (Nat.le_0_l _) H) as L.
  destruct (lt_got _ _ _ L _ _ I) as (cfg & h2 & t & h & -> & A & _). exists cfg. split; [reflexivity|]. eapply loaded_had; [exact H|]. apply sourced_in; [exact R|].
  destruct (DistributorGet.ga_rets _ (DistributorGet.reachable_get_all _ (pt_dist _ (reachable_parts _ R))) _ _ _ _ A) as (k & h1 & _ & _ & Hs & _).
  rewrite A. clear - Hs. induction h2 as [|e h2 IH]; cbn; [exact Hs|]. destruct e; auto. right. exact IH.
Qed.
Lemma parsed legacy E conn p : Session.env_parse E = url_Parse legacy -> iteration_order (Session.env_order E) -> Session.parse_uri E conn = Ok p -> conn_settings legacy conn p.
Proof.
  destruct E as [pu us o]. cbn. intros -> O H. unfold Session.parse_uri in H. cbn in H. destruct (proj1 (UriProofs.accepts legacy us o conn O) (ex_intro _ p H)) as (u & U & S).
  exists u, us. split; [exact U|]. split; [exact S|]. exact (proj2 (UriProofs.settings legacy us o conn u p O U H)).
Qed.
Lemma parses legacy E conn u : Session.env_parse E = url_Parse legacy -> iteration_order (Session.env_order E) -> SpecUri.uri legacy conn u ->
  Dsn.u_scheme u = str "postgres" \/ Dsn.u_scheme u = str "postgresql" -> exists p, Session.parse_uri E conn = Ok p /\ forall k v, p k = Some v <-> setting (Session.env_user E) u k v.
Proof.
  destruct E as [pu us o]. cbn. intros -> O U S. destruct (proj2 (UriProofs.accepts legacy us o conn O)) as (p & P); [eauto|].
  exists p. split; [exact P|]. exact (proj2 (UriProofs.settings legacy us o conn u p O U P)).
Qed.
Lemma dialled_named (T : bytes -> Prop) legacy f ls s c : (forall t, T t -> exists cfg, names t cfg) -> file_is (partly T) f ls -> go_urls legacy ls -> run step (Run f) ls = Some s ->
  SpecSession.dials (Session.hist (sess s c)) <> [] ->
  exists t cfg p, T t /\ names t cfg /\ conn_settings legacy (DatabaseURL cfg) p /\ SpecSession.dials (Session.hist (sess s c)) = [SpecSession.address p].
Proof.
  intros HT F G H D. pose proof (run_reach _ _ _ H) as R.
  destruct (SessionMore.dialled _ (pt_sess _ (reachable_parts _ R) c) (or_introl D)) as (p & ps & (_ & (E & cfg & Hc & Hp) & _) & Hd).
  assert (In (E, Ok cfg) (SpecSession.configs (Session.hist (sess s c)))) as I by (rewrite Hc; now left).
  destruct (envs_run _ _ _ _ H _ _ I) as (t0 & G0). destruct (G _ _ G0) as [G1 G2]. destruct (config_had _ _ _ _ _ _ H I) as (cfg' & X & Y). injection X as <-.
  destruct (partly_config T _ HT (had_run _ _ _ _ _ F H Y) _ eq_refl) as (t & cf & Ht & N & _ & [B|B]).
  - exists t, cf, p. repeat split; auto. rewrite <- B. eapply parsed; eassumption.
  - exfalso. rewrite B in Hp. destruct E as [pu us o]. cbn in G1. subst pu. unfold Session.parse_uri in Hp. cbn in Hp. vm_compute in Hp. discriminate Hp.
Qed.
Lemma listens_had f ls s l a : run step (Run f) ls = Some s -> In (l, a) (SpecServer.listened (Server.hist (srv s))) -> exists cfg, file_had f (FileWatcher.hist (watcher s)) cfg /\ a = Listen cfg.
Proof.
  intros H X. pose proof (run_reach _ _ _ H) as R. destruct (run_listens _ _ _ H) as (tried & A & _ & C).
  assert (In a (succeeded (attempts ls) tried)) as Y by (rewrite <- C; apply (in_map snd) in X; exact X).
  assert (exists cfg, In cfg tried /\ a = Listen cfg) as (cfg & Z & ->).
  { clear - Y. revert tried Y. induction (attempts ls) as [|ok rs IH]; intros [|c cs]; cbn; try tauto.
    intros Y. apply in_app_iff in Y. destruct Y as [Y|Y]; [destruct ok; [destruct Y as [<-|[]]; eauto|destruct Y]|]. destruct (IH _ Y) as (cfg & ? & ?). eauto. }
  exists cfg. split; [|reflexivity]. eapply loaded_had; [exact H|]. apply sourced_in, installed_in, received_in; try exact R. rewrite A. apply in_or_app. auto.
Qed.
Lemma listened_named (T : bytes -> Prop) f ls s l a : (forall t, T t -> exists cfg, names t cfg) -> file_is (partly T) f ls -> run step (Run f) ls = Some s ->
  In (l, a) (SpecServer.listened (Server.hist (srv s))) -> exists t cfg, T t /\ names t cfg /\ (a = Listen cfg \/ a = []).
Proof.
  intros HT F H I. destruct (listens_had _ _ _ _ _ H I) as (cfg & Y & ->). destruct (partly_config T _ HT (had_run _ _ _ _ _ F H Y) _ eq_refl) as (t & cf & Ht & N & A & _). eauto.
Qed.
Lemma suited legacy t a conn u db f ls s c : names t (Config a conn) -> SpecUri.uri legacy conn u -> Dsn.u_scheme u = str "postgres" \/ Dsn.u_scheme u = str "postgresql" ->
  (forall os, setting os u (str "database") db) -> file_is (wholly (eq t)) f ls -> go_urls legacy ls -> run step (Run f) ls = Some s -> SpecConnect.suits db (sess s c).
Proof.
  intros N U S DB F G H E cfg I. destruct (envs_run _ _ _ _ H _ _ I) as (t0 & G0). destruct (G _ _ G0) as [G1 G2]. destruct (config_had _ _ _ _ _ _ H I) as (cfg' & X & Y). injection X as <-.
  destruct (wholly_config (eq t) (Some cfg)) with (c := cfg) as (t' & <- & N'); auto; [intros ? <-; eauto|exact (had_run _ _ _ _ _ F H Y)|].
  assert (cfg = Config a conn) as ->. { pose proof (names_read _ _ N (fun l => l) (fun l => Permutation_refl l)) as A. pose proof (names_read _ _ N' (fun l => l) (fun l => Permutation_refl l)) as B. congruence. }
  destruct (parses legacy E conn u G1 G2 U S) as (p & P & Q). exists p. split; [exact P|]. unfold Dsn.get. rewrite (proj2 (Q _ _) (DB _)). reflexivity.
Qed.
