(** What the server listens on and what the sessions are configured with, over a whole execution. *)
From Verif Require Export SystemMore.
Require Import Lia.

(** *** Listening *)
Lemma attempts_app l1 l2 : attempts (l1 ++ l2) = attempts l1 ++ attempts l2.
Proof. induction l1 as [|l l1 IH]; cbn; [reflexivity|]. destruct l; auto. destruct l; auto. cbn. rewrite IH. reflexivity. Qed.
Lemma succeeded_snoc ok c rs cs : length rs = length cs -> succeeded (rs ++ [ok]) (cs ++ [c]) = succeeded rs cs ++ (if ok then [Listen c] else []).
Proof.
  revert cs. induction rs as [|r rs IH]; intros [|c1 cs] E; cbn in *; try discriminate; [rewrite app_nil_r; reflexivity|].
  rewrite IH by lia. rewrite app_assoc. reflexivity.
Qed.
(** the configuration the loop is about to listen for *)
Definition waiting (p : Server.pc) : list config := match p with Server.A5 c => [c] | _ => [] end.
Lemma server_waiting v l v' : calm_srv v -> Server.step v l = Some v' -> calm_server_label l ->
  (forall ok, l <> Server.LListen 0 ok) -> waiting (Server.pcs v' 0%nat) = waiting (Server.pcs v 0%nat) /\ SpecServer.listened (Server.hist v') = SpecServer.listened (Server.hist v).
Proof.
  intros [I1 I2 I3 I4 IS I5 I6] H L NL. 
  assert (T : forall t c, Server.pcs v t = Server.A5 c -> t = 0%nat).
  { intros t c E. destruct (Nat.eq_dec t 0) as [|X]; [assumption|]. specialize (I6 t X). rewrite E in I6. destruct I6. }
  vstep H; cbn in L; try contradiction; try (rewrite I1 in *; discriminate).
  all: try (exfalso; apply T in Heqp; eapply NL; f_equal; exact Heqp).
  all: split; [|cbn; reflexivity].
  all: cbn; unfold upd; repeat (eqs; cbn); auto; subst; try (match goal with E : Server.pcs _ _ = _ |- _ => rewrite E; reflexivity end).
  all: try congruence.
Qed.
Lemma received_step d l d' : (forall t, normal (Distributor.pcs d t)) -> Distributor.step d l = Some d' -> l <> Distributor.LRecv 0 -> (forall t, l <> Distributor.LHandoffExt t) ->
  SpecDistributor.received 0%nat (Distributor.hist d') = SpecDistributor.received 0%nat (Distributor.hist d).
Proof.
  intros N H L1 L2. ddstep H; cbn; try reflexivity.
  1: destruct ch; [congruence|]; cbn; apply app_nil_r.
  all: try (exfalso; eapply L2; reflexivity).
  all: exfalso; match goal with _ : Distributor.pcs _ ?r = Distributor.G5 _ |- _ => pose proof (N r) as X end; match goal with E : Distributor.pcs _ _ = Distributor.G5 _ |- _ => rewrite E in X end; exact X.
Qed.
Definition listens (ls : list label) (s : state) : Prop := exists tried,
  SpecDistributor.received 0%nat (Distributor.hist (dist s)) = tried ++ waiting (Server.pcs (srv s) 0%nat) /\
  length tried = length (attempts ls) /\ map snd (SpecServer.listened (Server.hist (srv s))) = succeeded (attempts ls) tried.
Lemma listens_step ls s l s' : reachable step init s -> listens ls s -> step s l = Some s' -> listens (ls ++ [l]) s'.
Proof.
  intros R (tried & A1 & A2 & A3) E. destruct (step_moves _ _ _ E) as (_ & m & P & _ & E2 & E3 & _).
  pose proof (reachable_calm _ R) as CA. pose proof (ca_srv _ CA) as CV. pose proof (ca_dist _ CA) as CD.
  destruct (calm_plan _ _ _ _ CA P E3) as (C1 & C2 & _).
  assert (N : forall t, normal (Distributor.pcs (dist s) t)) by (intros t; apply duty_normal, (du_duty _ (reachable_duties _ R))).
  assert (K : (exists ok, l = YServer (Server.LListen 0 ok)) \/ l = YUpdate \/
    (attempts [l] = [] /\ (forall t, ~ In (Distributor.LRecv t) (md m)) /\ (mv m = [] \/ exists l1, mv m = [l1] /\ forall ok, l1 <> Server.LListen 0 ok))).
  { destruct l; auto.
    all: try (right; right; clear - P CV; dplan P; (split; [reflexivity|cbn; split; [intros t1 X; repeat (destruct X as [X|X]; [discriminate X|]); destruct X|first [left; reflexivity|right; eexists; split; [reflexivity|discriminate]]]]); fail).
    - right. right. clear - P. dplan P. split; [reflexivity|]. split; [|auto]. intros t X. destruct X as [X|X]; [|destruct X]. rewrite X in Heqb. discriminate Heqb.
    - clear - P CV E3. dplan P. destruct l; try (right; right; split; [reflexivity|split; [intros ? []|right; eexists; split; [reflexivity|discriminate]]]; fail).
      left. exists ok. do 2 f_equal. apply run_one in E3. destruct (Nat.eq_dec t 0) as [|X]; [assumption|]. pose proof (cv_worker _ CV t X) as W. unfold Server.step in E3.
      rewrite (cv_crash _ CV) in E3. destruct (Server.pcs (srv s) t); try discriminate E3. destruct W.
    - exfalso. clear - P CA. destruct (ca_main _ CA) as [[X Y]|[X Y]]; unfold plan in P; rewrite X in P; destruct (Server.pcs (srv s) 0%nat); try discriminate P; destruct Y. }
  destruct K as [[ok ->]|[->|(K1 & K2 & K3)]].
  - dplan P. apply run_none in E2. apply run_one in E3. unfold listens. rewrite E2, A1. rewrite attempts_app. cbn [attempts].
    clear - E3 A2 A3 CV. revert E3. generalize (srv s'). intros v' H. vstep H; cbn; rewrite ?upd_same, ?app_nil_r.
    + exists (tried ++ [cfg]). split; [rewrite app_nil_r; reflexivity|]. split; [rewrite !app_length, A2; reflexivity|]. rewrite map_app, A3, succeeded_snoc by lia. reflexivity.
    + exists (tried ++ [cfg]). split; [rewrite app_nil_r; reflexivity|]. split; [rewrite !app_length, A2; reflexivity|]. rewrite A3, succeeded_snoc by lia. rewrite app_nil_r. reflexivity.
  - dplan P. apply run_one in E2. apply run_two in E3. destruct E3 as (v1 & X & Y). unfold listens. rewrite (calm_update _ _ _ _ CV Heqp X Y). rewrite attempts_app. cbn. rewrite app_nil_r.
    cbn in A1. rewrite app_nil_r in A1. exists tried. split; [|auto].
    revert E2. generalize (dist s'). intros d' H. unfold Distributor.step in H. rewrite (dist_no_crash _ R), Heqo in H. destruct ch_owner; [discriminate|]. injection H as <-. cbn. rewrite A1. reflexivity.
  - exists tried. rewrite attempts_app, K1, app_nil_r. 
    assert (SpecDistributor.received 0%nat (Distributor.hist (dist s')) = SpecDistributor.received 0%nat (Distributor.hist (dist s))) as ->.
    { destruct (one_or_call _ _ _ P) as [X|[(l1 & X & Y)|(Z & X)]]; rewrite X in E2, K2.
      - apply run_none in E2. rewrite E2. reflexivity.
      - apply run_one in E2. eapply received_step; eauto.
        + intros ->. apply (K2 0%nat). left. reflexivity.
        + intros t ->. clear - P X. dplan P; cbn in X; try discriminate X. injection X as ->. discriminate Heqb.
      - apply run_two in E2. destruct E2 as (d1 & X1 & X2). revert X1 X2. clear. generalize (dist s'). intros d' X1 X2. ddstep X1. ddstep X2. reflexivity. }
    destruct K3 as [K3|(l1 & K3 & K4)]; rewrite K3 in E3.
    + apply run_none in E3. rewrite E3. auto.
    + apply run_one in E3. destruct (server_waiting _ _ _ CV E3) as [-> ->]; auto. rewrite K3 in C2. destruct C2 as [C2|[? C2]]; [|discriminate C2]. inversion C2; assumption.
Qed.
Lemma run_listens f ls s : run step (Run f) ls = Some s -> listens ls s.
Proof.
  revert s. induction ls as [|l ls IH] using rev_ind; intros s H.
  - injection H as <-. exists []. auto.
  - rewrite run_app in H. destruct (run step (Run f) ls) as [s1|] eqn:E; [|discriminate]. apply run_one in H. eapply listens_step; [|apply IH, eq_refl|exact H].
    exists (Run f), ls. split; [eexists; reflexivity|exact E].
Qed.

(** *** Configurations of the sessions *)
Lemma configs_step x l x' : Session.step x l = Some x' -> (forall E r, l <> Session.LConfig E r) -> SpecSession.configs (Session.hist x') = SpecSession.configs (Session.hist x).
Proof. intros H N. SessionProofs.dstep H; cbn; try reflexivity. all: exfalso; eapply N; reflexivity. Qed.
Lemma configs_run ls : forall x x', run Session.step x ls = Some x' -> (forall E r, ~ In (Session.LConfig E r) ls) -> SpecSession.configs (Session.hist x') = SpecSession.configs (Session.hist x).
Proof.
  induction ls as [|l ls IH]; cbn; intros x x' H N; [injection H as <-; reflexivity|]. destruct (Session.step x l) as [x1|] eqn:E; [|discriminate].
  rewrite (IH _ _ H) by (intros E' r X; apply (N E' r); auto). apply (configs_step _ _ _ E). intros E' r ->. apply (N E' r). auto.
Qed.
Lemma configs_got x E r x' : Session.step x (Session.LConfig E r) = Some x' ->
  SpecSession.configs (Session.hist x') = SpecSession.configs (Session.hist x) \/ SpecSession.configs (Session.hist x') = SpecSession.configs (Session.hist x) ++ [(E, r)].
Proof. intros H. SessionProofs.dstep H; cbn; auto. Qed.
Lemma grows_step d l d' : Distributor.step d l = Some d' -> exists k, Distributor.hist d' = k ++ Distributor.hist d.
Proof.
  intros H. ddstep H; cbn; first [exists []; reflexivity|eexists [_]; reflexivity|eexists [_; _]; reflexivity].
Qed.
Lemma grows_run ls : forall d d', run Distributor.step d ls = Some d' -> exists k, Distributor.hist d' = k ++ Distributor.hist d.
Proof.
  induction ls as [|l ls IH]; cbn; intros d d' H; [injection H as <-; exists []; reflexivity|]. destruct (Distributor.step d l) as [d1|] eqn:E; [|discriminate].
  destruct (grows_step _ _ _ E) as [k1 X]. destruct (IH _ _ H) as [k2 Y]. exists (k2 ++ k1). rewrite Y, X, app_assoc. reflexivity.
Qed.
Lemma open_step d l d' t : Distributor.step d l = Some d' -> Distributor.pcs d t <> Distributor.Idle -> Distributor.pcs d' t <> Distributor.Idle ->
  SpecDistributor.open_call t (Distributor.hist d') = SpecDistributor.open_call t (Distributor.hist d).
Proof.
  intros H A. ddstep H; cbn; unfold upd; intros B; repeat (eqs; cbn in B |- *); try reflexivity; try congruence.
Qed.
Lemma awake_step d l d' t : Distributor.step d l = Some d' -> Distributor.pcs d' t <> Distributor.Idle ->
  Distributor.pcs d t <> Distributor.Idle \/ (exists k, l = Distributor.LCall t k) \/ exists t1 ch cs k, l = Distributor.LFresh t1 t /\ Distributor.pcs d t1 = Distributor.S4 ch cs k.
Proof.
  intros H B. ddstep H; cbn in B; unfold upd in B; repeat (eqs; cbn in B); subst; eauto; try congruence; try (left; congruence).
  right. right. eauto 8.
Qed.
Lemma c6_step v l v' t c : Server.step v l = Some v' -> Server.pcs v' t = Server.C6 c -> Server.pcs v t = Server.C6 c \/ Server.pcs v t = Server.C5 c /\ l = Server.LGo t.
Proof.
  intros H B. vstep H; cbn in B; unfold upd in B; repeat (eqs; cbn in B); subst; eauto; try congruence; try discriminate B.
  injection B as <-. auto.
Qed.
Lemma mv_shape s l m : calm s -> plan s l = Some m -> mv m = [] \/ (exists l1, mv m = [l1]) \/ exists c1, mv m = [Server.LConfig c1; Server.LRecv 0].
Proof.
  intros CA P. dplan P; eauto. exfalso. destruct (ca_main _ CA) as [[X Y]|[X Y]]; [congruence|]. rewrite Heqp in Y. exact Y.
Qed.
(** [c]'s session has been configured only by Get calls made after the history [h0] *)
Definition called_after (h0 : list Distributor.event) (t : tid) (h : list Distributor.event) : Prop :=
  exists k, SpecDistributor.open_call t h = Some (Distributor.CGet, k ++ h0).
Record late (h0 : list Distributor.event) (c : nat) (s : state) : Prop := {
  lt_got : forall E r, In (E, r) (SpecSession.configs (Session.hist (sess s c))) -> exists cfg h2 t h,
    r = Ok cfg /\ Distributor.hist (dist s) = h2 ++ Distributor.HRet t (Distributor.RConfig cfg) :: h /\ called_after h0 t h;
  lt_open : forall t, Server.pcs (srv s) t = Server.C6 c -> Distributor.pcs (dist s) t <> Distributor.Idle -> called_after h0 t (Distributor.hist (dist s));
  lt_grows : exists k, Distributor.hist (dist s) = k ++ h0
}.
Lemma late_step h0 c s l s' : reachable step init s -> late h0 c s -> step s l = Some s' -> late h0 c s'.
Proof.
  intros R [L1 L2 [k0 L3]] E. pose proof (reachable_calm _ R) as CA. pose proof (ca_srv _ CA) as CV. pose proof (ca_dist _ CA) as CD. pose proof (du_duty _ (reachable_duties _ R)) as D.
  destruct (step_moves _ _ _ E) as (_ & m & P & _ & E2 & E3 & E4 & E5 & _). destruct (grows_run _ _ _ E2) as [kd G].
  assert (T0 : forall c1, Server.pcs (srv s) 0%nat <> Server.C6 c1) by (intros c1 X; pose proof (cv_main _ CV) as M; rewrite X in M; destruct M as [M|[]]; discriminate M).
  constructor.
  - assert (Old : SpecSession.configs (Session.hist (sess s' c)) = SpecSession.configs (Session.hist (sess s c)) ->
      forall E r, In (E, r) (SpecSession.configs (Session.hist (sess s' c))) -> exists cfg h2 t h,
      r = Ok cfg /\ Distributor.hist (dist s') = h2 ++ Distributor.HRet t (Distributor.RConfig cfg) :: h /\ called_after h0 t h).
    { intros -> E0 r X. destruct (L1 _ _ X) as (cfg & h2 & t & h & A & B & C). exists cfg, (kd ++ h2), t, h. split; [exact A|]. split; [|exact C]. rewrite G, B, app_assoc. reflexivity. }
    destruct (Nat.eq_dec c (mc m)) as [Ec|Ec]; [|apply Old; rewrite E5 by exact Ec; reflexivity].
    destruct l; try (apply Old; rewrite Ec; apply (configs_run _ _ _ E4); clear - P; dplan P; intros ? ? X; repeat (destruct X as [X|X]; [discriminate X|]); destruct X; fail).
    + apply Old; rewrite Ec; apply (configs_run _ _ _ E4). clear - P. dplan P. intros E0 r0 X. destruct X as [X|X]; [|destruct X]. rewrite X in Heqb. apply andb_prop in Heqb. destruct Heqb as [_ Y]. discriminate Y.
    + assert (Q : exists cfg, Server.pcs (srv s) t = Server.C6 (mc m) /\ Distributor.pcs (dist s) t = Distributor.G3 (Some cfg) /\ ms m = [Session.LConfig E0 (Ok cfg)] /\ md m = [Distributor.LGo t]).
      { clear - P CD D R. dplan P; match goal with H : returning _ _ = Some _ |- _ => apply (returning_calm _ _ _ CD) in H; destruct H as [(? & ? & ?)|[(? & ? & ? & ?)|(? & ? & ?)]] end; try congruence.
        - match goal with H : Distributor.RConfig _ = Distributor.RConfig _ |- _ => injection H as -> end. eauto.
        - exfalso. pose proof (duty_normal _ _ (D t)) as N. match goal with H : Distributor.pcs _ _ = Distributor.G8 _ _ |- _ => rewrite H in N end. exact N.
        - exfalso. pose proof (duty_normal _ _ (D t)) as N. match goal with H : Distributor.pcs _ _ = Distributor.G8 _ _ |- _ => rewrite H in N end. exact N. }
      destruct Q as (cfg & Q1 & Q2 & Q3 & Q4). rewrite Q3 in E4. apply run_one in E4. destruct (configs_got _ _ _ _ E4) as [X|X]; [apply Old; rewrite Ec; exact X|].
      intros E1 r X1. rewrite Ec, X in X1. apply in_app_or in X1. destruct X1 as [X1|[X1|[]]].
      * rewrite <- Ec in X1. destruct (L1 _ _ X1) as (cfg1 & h2 & t1 & h & A & B & C). exists cfg1, (kd ++ h2), t1, h. split; [exact A|]. split; [|exact C]. rewrite G, B, app_assoc. reflexivity.
      * injection X1 as <- <-. exists cfg, [], t, (Distributor.hist (dist s)). split; [reflexivity|]. split; [|apply L2; [rewrite Ec; exact Q1|congruence]].
        rewrite Q4 in E2. apply run_one in E2. unfold Distributor.step, Distributor.go in E2. rewrite (dist_no_crash _ R), Q2 in E2. injection E2 as <-. reflexivity.
  - intros t A B.
    assert (V : (exists t0, l = YServe t0) \/ Server.pcs (srv s) t = Server.C6 c).
    { assert (V : (exists t0, l = YServe t0) \/ (In (Server.LGo t) (mv m) -> Server.pcs (srv s) t <> Server.C5 c)).
      { destruct l; eauto; right; intros X Y; clear - P X Y; dplan P; repeat (destruct X as [X|X]; [first [discriminate X|injection X as X; subst; congruence|rewrite X in Heqb; cbn in Heqb; rewrite Y in Heqb; discriminate Heqb]|]); try destruct X. }
      destruct V as [V|V]; [auto|]. right. destruct (mv_shape _ _ _ CA P) as [X|[(l1 & X)|(c1 & X)]]; rewrite X in E3, V.
      - apply run_none in E3. rewrite E3 in A. exact A.
      - apply run_one in E3. destruct (c6_step _ _ _ _ _ E3 A) as [Y|[Y ->]]; [exact Y|]. exfalso. apply V; cbn; auto.
      - apply run_two in E3. destruct E3 as (v1 & X1 & X2). destruct (c6_step _ _ _ _ _ X2 A) as [Y|[_ Y]]; [|discriminate Y]. destruct (c6_step _ _ _ _ _ X1 Y) as [Z|[_ Z]]; [exact Z|discriminate Z]. }
    destruct V as [[t0 ->]|A'].
    { assert (Q : mv m = [Server.LGo t0] /\ md m = []) by (clear - P; dplan P; auto). destruct Q as [Q1 Q2]. rewrite Q2 in E2. apply run_none in E2. rewrite E2 in *.
      rewrite Q1 in E3. apply run_one in E3. destruct (c6_step _ _ _ _ _ E3 A) as [Y|[Y _]]; [apply L2; assumption|]. destruct B. apply (duty_idle s t (D t)). rewrite Y. exact I. }
    assert (Keep : forall t1 l1, Distributor.step (dist s) l1 = Some (dist s') -> t1 = t -> Distributor.pcs (dist s) t <> Distributor.Idle -> called_after h0 t (Distributor.hist (dist s'))).
    { intros t1 l1 X -> Y. destruct (L2 _ A' Y) as [k K]. exists k. rewrite (open_step _ _ _ _ X Y B). exact K. }
    destruct (one_or_call _ _ _ P) as [X|[(l1 & X & _)|(-> & X)]]; rewrite X in E2.
    + apply run_none in E2. rewrite E2 in *. apply L2; assumption.
    + apply run_one in E2. destruct (awake_step _ _ _ _ E2 B) as [Y|[[k Y]|(t1 & ch & cs & k & Y & Z)]].
      * eapply Keep; eauto.
      * subst l1. assert (Q : k = Distributor.CGet).
        { destruct (calm_plan _ _ _ _ CA P E3) as (C1 & _). rewrite X in C1. inversion C1 as [|? ? C _]; subst. destruct C as [[C _]|[_ C]]; [|exact C]. subst t. destruct (T0 _ A'). }
        subst k. exists k0. revert E2. clear - L3. generalize (dist s'). intros d' H. ddstep H. cbn. rewrite Nat.eqb_refl, L3. reflexivity.
      * subst l1. exfalso. clear - P X Z A'. dplan P; cbn in X; try discriminate X. injection X as ->. cbn in Heqb. rewrite Z in Heqb. apply unused_spec in Heqb. destruct Heqb as (_ & _ & Q). congruence.
    + assert (t <> 0%nat) as Ht by (intros ->; destruct (T0 _ A')). apply run_two in E2. destruct E2 as (d1 & X1 & X2).
      assert (Q : Distributor.pcs (dist s') t = Distributor.pcs (dist s) t /\ SpecDistributor.open_call t (Distributor.hist (dist s')) = SpecDistributor.open_call t (Distributor.hist (dist s))).
      { revert X1 X2 Ht. clear. generalize (dist s'). intros d' X1 X2 Ht. ddstep X1. ddstep X2. cbn. rewrite upd_other by exact Ht. destruct (Nat.eqb_spec t 0); [congruence|auto]. }
      destruct Q as [Q1 Q2]. rewrite Q1 in B. destruct (L2 _ A' B) as [k K]. exists k. rewrite Q2. exact K.
  - exists (kd ++ k0). rewrite G, L3, app_assoc. reflexivity.
Qed.
Lemma run_late s1 c ls s2 : reachable step init s1 -> (Server.next_conn (srv s1) <= c)%nat -> run step s1 ls = Some s2 -> late (Distributor.hist (dist s1)) c s2.
Proof.
  intros R N. pose proof (reachable_linked _ R) as K.
  assert (L : late (Distributor.hist (dist s1)) c s1).
  { constructor; [|intros t X; exfalso|exists []; reflexivity].
    - rewrite (lk_fresh _ K c N). intros E r [].
    - assert (ServerProofs.own_conn (Server.pcs (srv s1) t) = Some c) as Y by (rewrite X; reflexivity). apply (lk_agree _ K) in Y. rewrite X, (lk_fresh _ K c N) in Y. destruct Y as [[] _]. }
  revert L R. clear K N. generalize (Distributor.hist (dist s1)). intros h0. revert s1. induction ls as [|l ls IH]; cbn; intros s1 L R H; [injection H as <-; exact L|].
  destruct (step s1 l) as [s|] eqn:E; [|discriminate]. eapply IH; [eapply late_step; eauto| |exact H]. eapply reachable_step; eassumption.
Qed.
Lemma installed_app a b : SpecDistributor.installed (a ++ b) = SpecDistributor.installed a ++ SpecDistributor.installed b.
Proof. induction a as [|e a IH]; cbn; [reflexivity|]. destruct e; auto. cbn. rewrite IH. reflexivity. Qed.
Lemma late_newer h0 c s E r : reachable step init s -> late h0 c s -> In (E, r) (SpecSession.configs (Session.hist (sess s c))) ->
  exists cfg, r = Ok cfg /\ SpecDistributor.at_least_as_new cfg (SpecDistributor.installed h0) (SpecDistributor.installed (Distributor.hist (dist s))).
Proof.
  intros R L X. destruct (lt_got _ _ _ L _ _ X) as (cfg & h2 & t & h & -> & A & [k B]). exists cfg. split; [reflexivity|].
  destruct (DistributorGet.ga_rets _ (DistributorGet.reachable_get_all _ (pt_dist _ (reachable_parts _ R))) _ _ _ _ A) as (k1 & h1 & Ho & Hk & Hs & newer & Hn & Hc).
  rewrite B in Ho. injection Ho as <- <-. rewrite A. unfold SpecDistributor.at_least_as_new. rewrite installed_app. cbn. rewrite Hn, installed_app. rewrite installed_app in Hc.
  exists (SpecDistributor.installed h2 ++ newer ++ SpecDistributor.installed k). split; [rewrite <- !app_assoc; reflexivity|]. destruct Hc as [Hc|Hc].
  - left. apply in_or_app. right. apply in_or_app. auto.
  - destruct (SpecDistributor.installed k) as [|c1 l]; [auto|]. cbn in Hc. injection Hc as ->. left. apply in_or_app. right. apply in_or_app. right. left. reflexivity.
Qed.
