(** Why Start and the goroutines of a session end. *)
From Verif Require Import SpecWire BufferProofs FrameProofs FrameFacts ConnProofs ConnFacts DsnProofs.
From Verif Require Export SessionMore.
Require Import Lia.

(** *** The results of the goroutines *)
Definition exit_reason (s : state) : Prop := forall g r, In (g, r) (exits (hist s)) ->
  match g with
  | GIn _ => r <> None
  | GOut _ => r = None -> fires (hist s) <> []
  | GProc => r = None /\ fires (hist s) <> []
  end.
Lemma fires_mono s l s' : step s l = Some s' -> fires (hist s) <> [] -> fires (hist s') <> [].
Proof.
  intros H N. dstep H; cbn; try exact N. destruct (fires (hist s)); [congruence|discriminate].
Qed.
Lemma closed_fires s : reachable step init s -> closed s = EvFired -> fires (hist s) <> [].
Proof.
  intros R E N. pose proof (pp_close _ (al_pipes _ (reachable_all _ R))) as K. destruct (ki_once _ K) as [_ X]. rewrite N in X. cbn in X.
  assert (0%nat = 1%nat) by (apply X; congruence). lia.
Qed.
Lemma exit_reason_step s l s' : reachable step init s -> exit_reason s -> step s l = Some s' -> exit_reason s'.
Proof.
  intros R HI H g r Hin. pose proof (closed_of_chan s (pp_close _ (al_pipes _ (reachable_all _ R)))) as HC.
  pose proof (closed_fires s R) as HF. pose proof (fires_mono _ _ _ H) as M.
  assert (In (g, r) (exits (hist s)) \/ exists d, 
    (g = GIn d /\ r <> None) \/ (g = GOut d /\ (r = None -> chan_closed (chan_out s d) = true)) \/ (g = GProc /\ r = None /\ chan_closed (chan_in s d) = true)) as X.
  { clear HI HC HF M. revert Hin. dstep H; cbn; auto; rewrite in_app_iff; cbn; intros [X|[X|[]]]; auto; injection X as <- <-; right; exists d; intuition congruence. }
  destruct X as [X|(d & X)].
  - specialize (HI _ _ X). destruct g; intuition.
  - destruct X as [(-> & N)|[(-> & N)|(-> & -> & N)]]; [exact N| |].
    + intros E. apply M, HF, HC. exists d. right. exact (N E).
    + split; [reflexivity|]. apply M, HF, HC. exists d. left. exact N.
Qed.
Lemma reachable_exit_reason s : reachable step init s -> exit_reason s.
Proof.
  intros R. destruct R as (s0 & ls & -> & H). revert H. 
  assert (reachable step init NewSession /\ exit_reason NewSession) as X by (split; [apply reachable_init; reflexivity|intros ? ? []]).
  revert X. generalize NewSession as s1. induction ls as [|l ls IH]; cbn; intros s1 [X Y] H; [injection H as <-; exact Y|].
  destruct (step s1 l) as [s2|] eqn:E; [|discriminate]. apply (IH s2); [|exact H]. split; [eapply reachable_step; eassumption|].
  eapply exit_reason_step; eassumption.
Qed.

(** *** Start never returns nil *)
Definition nonnil (s : state) : Prop := match start_pc s with SDefer r | SDone r => r <> None | _ => True end.
Lemma exits_all s g : reachable step init s -> exited s -> In g (map fst (exits (hist s))).
Proof.
  intros R (A & B & C & D & E). apply (li_gone _ (al_life _ (reachable_all _ R))). destruct g as [[]|[]|]; cbn; assumption.
Qed.
Lemma first_error_some {A} (l : list (A * option error)) g e : In (g, Some e) l -> first_error l <> None.
Proof.
  induction l as [|[a [x|]] l IH]; cbn; [contradiction|discriminate|]. intros [X|X]; [discriminate|auto].
Qed.
Lemma exited_error s : reachable step init s -> exited s -> gerr s <> None.
Proof.
  intros R X. pose proof (exits_all s (GIn Client) R X) as I. apply in_map_iff in I. destruct I as ([g r] & E & I). cbn in E. subst g.
  pose proof (reachable_exit_reason s R _ _ I) as Y. cbn in Y. rewrite (li_gerr _ (al_life _ (reachable_all _ R))).
  destruct r as [e|]; [|congruence]. eapply first_error_some, I.
Qed.
Lemma nonnil_step s l s' : reachable step init s -> nonnil s -> step s l = Some s' -> nonnil s'.
Proof.
  intros R HI H. pose proof (exited_error s R) as HE. dstep H; unfold nonnil in *; cbn; try exact HI; try discriminate; try exact I.
  all: exitd; auto. all: repeat match goal with E : start_pc _ = _ |- _ => rewrite E in * end; auto.
Qed.
Lemma reachable_nonnil s : reachable step init s -> nonnil s.
Proof.
  intros R. destruct R as (s0 & ls & -> & H). revert H. 
  assert (reachable step init NewSession /\ nonnil NewSession) as X by (split; [apply reachable_init; reflexivity|exact I]).
  revert X. generalize NewSession as s1. induction ls as [|l ls IH]; cbn; intros s1 [X Y] H; [injection H as <-; exact Y|].
  destruct (step s1 l) as [s2|] eqn:E; [|discriminate]. apply (IH s2); [|exact H]. split; [eapply reachable_step; eassumption|].
  eapply nonnil_step; eassumption.
Qed.
Lemma never_nil s r : reachable step init s -> In r (start_results (hist s)) -> r <> None.
Proof.
  intros R Hr. pose proof (reachable_nonnil s R) as N. pose proof (li_result _ (al_life _ (reachable_all _ R))) as L. unfold nonnil in N.
  destruct (start_pc s); rewrite L in Hr; cbn in Hr; try tauto. destruct Hr as [<-|[]]. exact N.
Qed.

(** *** Which error a rejected client leads to *)
Definition rejected (s : state) : Prop :=
  (forall v ps, In (StartupMessage v ps) (startups (hist s)) -> v = 80877103 \/ v = 196608 \/ ends_with s (ErrUnsupportedVersion v)) /\
  (forall p ps, configured (hist s) p -> In (StartupMessage 196608 ps) (startups (hist s)) ->
     GetParameter ps (str "database") = get p (str "database") \/
     ends_with s (ErrDatabaseMismatch (GetParameter ps (str "database")) (get p (str "database")))).
Lemma startup_inv m v ps (reqs : list message) : Forall ssl_request reqs -> In (StartupMessage v ps) (reqs ++ [m]) -> v <> 80877103 -> m = StartupMessage v ps.
Proof.
  intros F I N. apply in_app_iff in I. destruct I as [I|[I|[]]]; [|exact I]. rewrite Forall_forall in F. destruct (F _ I) as (q & E). congruence.
Qed.
Lemma rejected_step s l s' : nego_ok s -> rejected s -> step s l = Some s' -> rejected s'.
Proof.
  intros HN [H1 H2] H. split.
  - intros v ps Hin.
    assert (In (StartupMessage v ps) (startups (hist s)) \/ v = 80877103 \/ v = 196608 \/ ends_with s' (ErrUnsupportedVersion v)) as [X|X].
    { clear H1 H2 HN. revert Hin. unfold ends_with. dstep H; cbn; auto; rewrite in_app_iff; cbn; intros [X|[X|[]]]; auto; injection X as -> ->; right.
      - left. apply Z.eqb_eq. assumption.
      - right. right. auto.
      - right. left. apply Z.eqb_eq. match goal with E : negb _ = false |- _ => apply negb_false_iff in E; exact E end. }
    + destruct (H1 _ _ X) as [Y|[Y|Y]]; auto. right. right. eapply ends_step; eassumption.
    + exact X.
  - intros p ps Hc Hin.
    assert (configured (hist s) p /\ In (StartupMessage 196608 ps) (startups (hist s)) \/
      GetParameter ps (str "database") = get p (str "database") \/
      ends_with s' (ErrDatabaseMismatch (GetParameter ps (str "database")) (get p (str "database")))) as [[X Y]|X].
    { clear H1 H2. assert (startups (hist s') = startups (hist s) \/ configs (hist s') = []) as [Es|Ec].
      { unfold nego_ok in HN. dstep H; cbn; auto. all: repeat match goal with E : start_pc _ = _ |- _ => rewrite E in HN end; right; apply HN. }
      2:{ destruct Hc as (E & cfg & Hc & _). rewrite Ec in Hc. discriminate. }
      rewrite Es in Hin.
      assert (configs (hist s') = configs (hist s) \/ exists E r, l = LConfig E r) as [El|(E & r & ->)].
      { dstep H; cbn; eauto. }
      - left. split; [|exact Hin]. unfold configured in *. rewrite <- El. exact Hc.
      - right. unfold step in H. destruct (crashed s); [discriminate|]. unfold nego_ok in HN.
        destruct (start_pc s) as [| | | |w| | | | |]; try discriminate H. destruct (cached s) eqn:Ecc; [discriminate|].
        destruct w as [v ps0|m|m host]; [|destruct HN as (? & ? & _ & _ & X & _); congruence|destruct HN as (? & ? & _ & _ & X & _); congruence].
        destruct HN as (-> & (reqs & F & Hs) & Hcf & _ & _). rewrite Hs in Hin. apply (startup_inv _ _ _ _ F) in Hin; [|discriminate]. injection Hin as ->.
        destruct Hc as (E0 & cfg0 & Hc & Hp). destruct r as [cfg|e|q]; [| |discriminate].
        + destruct (parse_uri E (DatabaseURL cfg)) as [p0|e|q] eqn:Ep; [| |]; injection H as <-.
          * assert ([(E, Ok cfg)] = [(E0, Ok cfg0)]) as Hk.
            { rewrite <- Hc. unfold got. cbn [want_name]. destruct (bytes_eqb _ _); cbn; rewrite Hcf; reflexivity. }
            injection Hk as <- <-. rewrite Hp in Ep. injection Ep as <-. unfold got, ends_with. cbn [want_name].
            destruct (bytes_eqb_spec (GetParameter ps (str "database")) (get p (str "database"))) as [->|Ne]; auto.
          * cbn in Hc. rewrite Hcf in Hc. injection Hc as <- <-. congruence.
          * cbn in Hc. rewrite Hcf in Hc. discriminate.
        + injection H as <-. cbn in Hc. rewrite Hcf in Hc. discriminate. }
    + destruct (H2 _ _ X Y) as [Z|Z]; auto. right. eapply ends_step; eassumption.
    + exact X.
Qed.
Lemma reachable_rejected s : reachable step init s -> rejected s.
Proof.
  intros R. destruct R as (s0 & ls & -> & H). revert H.
  assert (reachable step init NewSession /\ rejected NewSession) as X by (split; [apply reachable_init; reflexivity|split; [intros ? ? []|intros ? ? ? []]]).
  revert X. generalize NewSession as s1. induction ls as [|l ls IH]; cbn; intros s1 [X Y] H; [injection H as <-; exact Y|].
  destruct (step s1 l) as [s2|] eqn:E; [|discriminate]. apply (IH s2); [|exact H]. split; [eapply reachable_step; eassumption|].
  eapply rejected_step; [exact (pp_nego _ (al_pipes _ (reachable_all _ X)))|exact Y|exact E].
Qed.

Lemma ends_result s e : reachable step init s -> ends_with s e -> start_results (hist s) = [] \/ start_results (hist s) = [Some e].
Proof. intros R [X|X]; pose proof (li_result _ (al_life _ (reachable_all _ R))) as Z; rewrite X in Z; auto. Qed.
Lemma ends_later s ls s' e : run step s ls = Some s' -> ends_with s e -> ends_with s' e.
Proof.
  revert s. induction ls as [|l ls IH]; cbn; intros s H X; [injection H as <-; exact X|]. destruct (step s l) eqn:E; [|discriminate].
  eapply IH; [exact H|eapply ends_step; eassumption].
Qed.

