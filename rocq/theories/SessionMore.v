(** The statements about the session, derived from the invariants. *)
From Verif Require Import SpecWire BufferProofs FrameProofs FrameFacts ConnProofs ConnFacts DsnProofs.
From Verif Require Export SessionTraffic.
Require Import Lia.

(** *** Configuration failures, and when there is a database connection *)
Definition ends_with (s : state) (e : error) : Prop := start_pc s = SDefer (Some e) \/ start_pc s = SDone (Some e).
Definition cfg_ok (s : state) : Prop := forall E r, In (E, r) (configs (hist s)) ->
  match r with
  | Err e => ends_with s e
  | Ok cfg => forall e, parse_uri E (DatabaseURL cfg) = Err e -> ends_with s e
  | Panic _ => False
  end.
Lemma ends_step s l s' e : step s l = Some s' -> ends_with s e -> ends_with s' e.
Proof. intros H [X|X]; dstep H; unfold ends_with in *; cbn; try congruence; auto; right; congruence. Qed.
Lemma cfg_step s l s' : cfg_ok s -> step s l = Some s' -> cfg_ok s'.
Proof.
  intros HI H E r Hin.
  assert (In (E, r) (configs (hist s)) \/ l = LConfig E r) as [Hin'| ->].
  { revert Hin. dstep H; cbn; auto; rewrite in_app_iff; cbn; intros [X|[X|[]]]; auto; injection X as <- <-; auto. }
  - specialize (HI _ _ Hin'). destruct r; eauto using ends_step.
  - unfold step in H. destruct (crashed s); [discriminate|]. destruct (start_pc s); try discriminate H. destruct (cached s); [discriminate|].
    destruct r as [cfg|e|]; [|injection H as <-; cbn; left; reflexivity|discriminate].
    intros e Hp. rewrite Hp in H. injection H as <-. left. reflexivity.
Qed.
Lemma cfg_init : cfg_ok NewSession.
Proof. intros E r []. Qed.
Definition conn_hist (s : state) : Prop := connected (hist s) = true <-> conns s DB <> None.
Lemma conn_hist_step s l s' : conn_hist s -> step s l = Some s' -> conn_hist s'.
Proof.
  intros HI H. dstep H. all: unfold conn_hist in *; sides; cbn; unfold supd; cbn; try exact HI.
  all: try (rewrite HI; intuition congruence). all: intuition congruence.
Qed.
Lemma conn_hist_init : conn_hist NewSession.
Proof. unfold conn_hist. cbn. intuition congruence. Qed.

Record full (s : state) : Prop := {
  fu_all : all_inv s;
  fu_log : log_ok s;
  fu_cap : cap_ok s;
  fu_lag : forall d, lag_ok s d;
  fu_cfg : cfg_ok s;
  fu_conn : conn_hist s }.
Lemma full_step s l s' : full s -> step s l = Some s' -> full s'.
Proof.
  intros [H1 H2 H3 H4 H5 H6] H. destruct (al_pipes _ H1) as [P1 P2 P3 P4 P5].
  constructor; eauto using all_step, log_step, cap_step, cfg_step, conn_hist_step. eapply lag_step; eassumption.
Qed.
Lemma reachable_full s : reachable step init s -> full s.
Proof.
  apply reachable_invariant; [|apply full_step]. intros ? ->.
  constructor; auto using all_init, log_init, cap_init, cfg_init, conn_hist_init. intros. apply lag_init.
Qed.

(** *** Negotiation *)
Lemma prefix_repeat (n : nat) (l : bytes) : prefix_of l (repeat "N"%byte n) -> exists k, (k <= n)%nat /\ l = repeat "N"%byte k.
Proof.
  revert l. induction n as [|n IH]; intros l [c E]; cbn in E.
  - symmetry in E. apply app_eq_nil in E. exists 0%nat. destruct E as [-> _]. auto.
  - destruct l as [|b l]; [exists 0%nat; split; [lia|reflexivity]|]. injection E as <- E. destruct (IH l) as (k & Hk & ->); [exists c; exact E|]. exists (S k). split; [lia|reflexivity].
Qed.
Lemma not_connected_off s : full s -> connected (hist s) = false -> off s.
Proof.
  intros HF Hc. pose proof (fu_conn _ HF) as HX. unfold conn_hist in HX. rewrite Hc in HX.
  pose proof (ph_phase _ (pp_phase _ (al_pipes _ (fu_all _ HF)))) as HP.
  assert (conns s DB = None) as E by (destruct (conns s DB); [destruct HX as [_ X]; discriminate X; discriminate|reflexivity]).
  destruct (start_pc s); intuition congruence.
Qed.
Lemma refusals_only s : reachable step init s -> connected (hist s) = false ->
  exists n, (n <= ssl_count (startups (hist s)))%nat /\ sent Client (hist s) = repeat "N"%byte n.
Proof.
  intros R Hc. apply reachable_full in R. destruct (not_connected_off _ R Hc) as (_ & _ & Ho & _).
  pose proof (pp_out _ (al_pipes _ (fu_all _ R)) Client) as HO. apply prefix_repeat. pose proof (sent_prefix _ _ HO) as X.
  unfold out_ok in HO. rewrite Ho in HO. destruct HO as [Ht _]. unfold total, base in X. rewrite Ht in X. cbn in X. rewrite app_nil_r in X. exact X.
Qed.
Lemma ssl_all ms : Forall ssl_request ms -> ssl_count ms = length ms.
Proof. induction 1 as [|m ms (ps & ->) _ IH]; [reflexivity|]. unfold ssl_count in *. cbn. rewrite Z.eqb_refl. cbn. f_equal. exact IH. Qed.
Lemma waiting_answered s : reachable step init s -> start_pc s = SRecv ->
  Forall ssl_request (startups (hist s)) /\ sent Client (hist s) = repeat "N"%byte (length (startups (hist s))) /\ sent DB (hist s) = [] /\
  exists rest, decodes_startup (arrived Client (hist s)) (startups (hist s)) rest.
Proof.
  intros R Hs. apply reachable_full in R. destruct (al_pipes _ (fu_all _ R)) as [P1 P2 P3 P4 P5].
  unfold nego_ok in P4. rewrite Hs in P4. destruct P4 as (F & _ & _ & _ & Hc). destruct (not_connected_off _ R Hc) as (_ & _ & Ho & Ho' & _).
  split; [exact F|]. pose proof (P5 Client) as X. pose proof (P5 DB) as Y. unfold out_ok in X, Y. rewrite Ho, Hs in X. rewrite Ho', Hs in Y. destruct X as [Ht X], Y as [Ht' Y].
  rewrite X, Y. unfold total, base. rewrite Ht, Ht', Hc. cbn. rewrite app_nil_r, ssl_all by exact F. split; [reflexivity|]. split; [reflexivity|].
  destruct (al_dec _ (fu_all _ R) Client) as [_ (mid & rest & D & _)]. eauto.
Qed.

Lemma asks_for_get ps v : GetParameter ps (str "database") = v -> asks_for ps v.
Proof.
  intros <-. destruct (get_parameter_first ps (str "database")) as [(pre & v & post & E & H & ->)|[H ->]].
  - left. exists pre, post. split; [exact E|]. apply Forall_forall. exact H.
  - right. split; [reflexivity|]. apply Forall_forall. exact H.
Qed.
Lemma dialled s : reachable step init s -> dials (hist s) <> [] \/ connected (hist s) = true \/ sent DB (hist s) <> [] ->
  exists p ps, accepted (hist s) p ps /\ dials (hist s) = [address p].
Proof.
  intros R Hx. pose proof (reachable_full _ R) as HF. destruct (al_pipes _ (fu_all _ HF)) as [P1 P2 P3 P4 P5].
  assert (dials (hist s) <> [] \/ connected (hist s) = true) as Hy.
  { destruct Hx as [X|[X|X]]; auto. right. destruct (connected (hist s)) eqn:E; [reflexivity|]. destruct (not_connected_off _ HF E) as (_ & _ & _ & Ho & _).
    exfalso. apply X. pose proof (sent_prefix _ _ (P5 DB)) as Y. pose proof (P5 DB) as Z. unfold out_ok in Z. rewrite Ho in Z. destruct Z as [Ht _].
    unfold total, base in Y. rewrite Ht, E in Y. destruct Y as [c Y]. cbn in Y. symmetry in Y. apply app_eq_nil in Y. tauto. }
  clear Hx. unfold nego_ok, nothing_dialled in P4. destruct (start_pc s) as [| | | |[]| | | | |].
  all: try solve [exfalso; decompose [and ex] P4; destruct Hy; congruence].
  - decompose [and ex] P4. subst. eauto.
  - decompose [and ex] P4. eauto.
  - decompose [and ex] P4. eauto.
  - destruct P4 as [((X & Y) & _)|X]; [exfalso; destruct Hy; congruence|exact X].
  - destruct P4 as [((X & Y) & _)|X]; [exfalso; destruct Hy; congruence|exact X].
Qed.
Lemma one_config s : reachable step init s -> (length (configs (hist s)) <= 1)%nat.
Proof.
  intros R. pose proof (reachable_full _ R) as HF. destruct (al_pipes _ (fu_all _ HF)) as [P1 P2 P3 P4 P5].
  unfold nego_ok, ended, accepted, configured in P4. destruct (start_pc s) as [| | | |[]| | | | |].
  all: try (decompose [and ex or] P4; repeat match goal with E : configs _ = _ |- _ => rewrite E end; cbn; lia).
Qed.
Lemma config_failure s E r : reachable step init s -> configs (hist s) = [(E, r)] ->
  match r with Ok cfg => forall e, parse_uri E (DatabaseURL cfg) = Err e -> ends_with s e | Err e => ends_with s e | Panic _ => False end.
Proof. intros R H. apply (fu_cfg _ (reachable_full _ R)). rewrite H. left. reflexivity. Qed.

(** *** The two directions *)
Lemma order_db s : reachable step init s ->
  exists mid rest, decodes_startup (arrived Client (hist s)) (startups (hist s)) mid /\ decodes_standard mid (msgs Client (hist s)) rest /\
   (sent DB (hist s) = [] \/ exists reqs st, startups (hist s) = reqs ++ [st] /\ Forall ssl_request reqs /\ ~ ssl_request st /\
      prefix_of (sent DB (hist s)) (SendMessage st ++ concat (map SendMessage (msgs Client (hist s))))).
Proof.
  intros R. pose proof (reachable_full _ R) as HF. destruct (al_dec _ (fu_all _ HF) Client) as [_ (mid & rest & D1 & D2 & _)].
  exists mid, rest. split; [exact D1|]. split; [exact D2|].
  destruct (sent DB (hist s)) as [|b l] eqn:Es; [left; reflexivity|right].
  destruct (dialled s R) as (p & ps & ((reqs & Fr & Est) & _) & _); [right; right; rewrite Es; discriminate|].
  exists reqs, (StartupMessage 196608 ps). split; [exact Est|]. split; [exact Fr|]. split; [intros (? & X); discriminate X|].
  destruct (al_pipes _ (fu_all _ HF)) as [P1 P2 P3 P4 P5]. rewrite <- Es.
  eapply prefix_trans; [apply (sent_prefix _ _ (P5 DB))|]. eapply prefix_trans; [apply (total_prefix s Client P3)|].
  cbn [other]. unfold base. destruct (connected (hist s)) eqn:Ec.
  - rewrite Est, last_last. apply prefix_refl.
  - exfalso. destruct (not_connected_off _ HF Ec) as (Hi & _ & _ & Ho & _). pose proof (sent_prefix _ _ (P5 DB)) as Y. pose proof (P5 DB) as Z. unfold out_ok in Z. rewrite Ho in Z. destruct Z as [Ht _].
    unfold total, base in Y. rewrite Ht, Ec, Es in Y. destruct Y as [c Y]. discriminate Y.
Qed.
Lemma order_client s : reachable step init s ->
  exists rest, decodes_standard (arrived DB (hist s)) (msgs DB (hist s)) rest /\
    prefix_of (sent Client (hist s)) (repeat "N"%byte (ssl_count (startups (hist s))) ++ concat (map SendMessage (msgs DB (hist s)))).
Proof.
  intros R. pose proof (reachable_full _ R) as HF. destruct (al_dec _ (fu_all _ HF) DB) as [_ (mid & rest & D1 & D2 & _)].
  inversion D1; subst. exists rest. split; [exact D2|]. destruct (al_pipes _ (fu_all _ HF)) as [P1 P2 P3 P4 P5].
  eapply prefix_trans; [apply (sent_prefix _ _ (P5 Client))|apply (total_prefix s DB P3)].
Qed.
Lemma verbatim_client s ls more : reachable step init s -> arrived DB (hist s) ++ more = concat ls -> Forall backend_packet ls ->
  prefix_of (sent Client (hist s)) (repeat "N"%byte (ssl_count (startups (hist s))) ++ arrived DB (hist s)).
Proof.
  intros R E F. destruct (order_client s R) as (rest & D & P). eapply prefix_trans; [exact P|]. apply prefix_app.
  rewrite (conform_decode backend_packet backend_forwarded _ _ _ D _ _ E F). eexists. reflexivity.
Qed.
Lemma verbatim_db s ss v ps sp ls more : reachable step init s ->
  Forall (startup_wire 80877103 []) ss -> startup_wire v ps sp -> v <> 80877103 -> Forall frontend_packet ls ->
  arrived Client (hist s) ++ more = concat ss ++ sp ++ concat ls ->
  sent DB (hist s) = [] \/ prefix_of (concat ss ++ sent DB (hist s)) (arrived Client (hist s)).
Proof.
  intros R Fs Hp Hv F E. destruct (order_db s R) as (mid & rest & D1 & D2 & [X|(reqs & st & Est & Fr & Hst & P)]); [left; exact X|right].
  rewrite Est in D1. destruct (startup_conform _ _ _ _ Fs Hp Hv _ _ _ _ D1 Fr Hst _ _ E) as (E1 & E2 & E3).
  rewrite E1. apply prefix_app. rewrite E3 in P. eapply prefix_trans; [exact P|]. apply prefix_app.
  rewrite (conform_decode frontend_packet frontend_forwarded _ _ _ D2 _ _ E2 F). eexists. reflexivity.
Qed.

(** *** Buffers *)
Lemma started_pumps s d : full s -> msgs d (hist s) <> [] -> out_pc s (other d) <> OOff.
Proof.
  intros HF Hm Ho. destruct (al_dec _ (fu_all _ HF) d) as [D _]. apply Hm, D.
  pose proof (ph_phase _ (pp_phase _ (al_pipes _ (fu_all _ HF)))) as HP. unfold off, on, exited in HP. destruct (start_pc s), d; cbn in Ho; intuition congruence.
Qed.
Lemma buffered s d : reachable step init s -> msgs d (hist s) <> [] ->
  exists written pending, msgs d (hist s) = written ++ pending /\ (length pending <= 131)%nat /\
    prefix_of (base (other d) (hist s) ++ concat (map SendMessage written)) (sent (other d) (hist s)).
Proof.
  intros R Hm. pose proof (reachable_full _ R) as HF. destruct (al_pipes _ (fu_all _ HF)) as [P1 P2 P3 P4 P5].
  pose proof (lag_bound _ _ (P5 (other d)) (fu_lag _ HF (other d)) (started_pumps _ _ HF Hm)) as HL. unfold before_last in HL.
  pose proof (fu_cap _ HF d) as [C1 _]. pose proof (fu_cap _ HF (other d)) as [_ C2]. unfold capacity in *.
  set (tk := taken (other d) (hist s)) in *. exists (removelast tk), ((match tk with [] => [] | _ => [last tk Terminate] end) ++ in_flight s d).
  split; [|split; [|exact HL]].
  - rewrite (P3 d). fold tk. rewrite app_assoc. f_equal. destruct tk; [reflexivity|]. apply app_removelast_last. discriminate.
  - unfold in_flight. rewrite !app_length.
    assert (length (in_hand (proc_pc s) d) <= 1)%nat by (destruct (proc_pc s); cbn; try lia; destruct (side_eqb d from); cbn; lia).
    assert (length (in_pump (in_pc s d)) <= 1)%nat by (destruct (in_pc s d); cbn; lia).
    assert (length (match tk with [] => [] | _ => [last tk Terminate] end) <= 1)%nat by (destruct tk; cbn; lia). lia.
Qed.

(** *** Quiescence up to a client that does not read *)
Definition client_write (l : label) : bool := match l with LWrite Client _ => true | _ => false end.
Lemma quiescent_unread s : full s -> healthy s -> (forall l, internal l = true -> client_write l = false -> step s l = None) ->
  (taken DB (hist s) = msgs Client (hist s) /\ sent DB (hist s) = total DB (hist s)) \/
  length (queue (chan_out s Client)) = capacity /\ (exists rest, out_pc s Client = OWrite rest) /\ (exists m, proc_pc s = PSend DB m).
Proof.
  intros HF (Hst & Hc & Hcr & Hex) HQ. destruct HF as [HA _ HCap _ _ _].
  destruct HA as [[P1 P2 P3 P4 P5] HD HL HB HO HC H1]. pose proof (ph_phase _ P1) as Hph. rewrite Hst in Hph. destruct Hph as [Hon Hdb].
  assert (forall d, in_pc s d <> IExit /\ out_pc s d <> OExit) as Hng.
  { intros d. split; intros X; [apply (li_gone _ HL (GIn d)) in X|apply (li_gone _ HL (GOut d)) in X]; rewrite Hex in X; destruct X. }
  assert (proc_pc s <> PExit) as Hnp by (intros X; apply (li_gone _ HL GProc) in X; rewrite Hex in X; destruct X).
  destruct (ki_init _ P2 Hc) as [Hsh _]. unfold shut in Hsh. cbn in Hsh. injection Hsh as Ho C1 C2 C3 C4.
  assert (out_pc s DB = OTake /\ queue (chan_out s DB) = []) as [Hout Hq].
  { destruct (out_pc s DB) eqn:E.
    - exfalso. unfold on in Hon. intuition congruence.
    - split; [reflexivity|]. specialize (HQ (LTake DB) eq_refl eq_refl). unfold step in HQ. rewrite Hcr, E in HQ. destruct (queue (chan_out s DB)); [reflexivity|discriminate].
    - exfalso. destruct (conns s DB) as [c|] eqn:Ec; [|congruence]. pose proof (HO c Ec Hc) as Eo. specialize (HQ (LWrite DB (length rest)) eq_refl eq_refl). unfold step in HQ. rewrite Hcr, E, Ec in HQ.
      destruct c as [r o]. cbn in Eo. subst o. assert (write_ok (length rest) rest = true) as Ew.
      { unfold write_ok. rewrite Nat.leb_refl. cbn. destruct rest; reflexivity. }
      rewrite Ew in HQ. discriminate.
    - destruct (Hng DB). congruence. }
  destruct (proc_pc s) as [| |from m|] eqn:Ep; [unfold on in Hon; intuition congruence| | |congruence].
  - left. assert (queue (chan_in s Client) = []) as Hin.
    { specialize (HQ (LSelect Client) eq_refl eq_refl). unfold step in HQ. rewrite Hcr, Ep in HQ. destruct (queue (chan_in s Client)); [reflexivity|discriminate]. }
    assert (in_pc s Client = IRecv) as Hir.
    { destruct (in_pc s Client) eqn:E; try reflexivity; [unfold on in Hon; intuition congruence| |destruct (Hng Client); congruence].
      exfalso. specialize (HQ (LIn Client) eq_refl eq_refl). unfold step in HQ. rewrite Hcr, E, Hin, C1 in HQ. discriminate HQ. }
    pose proof (P3 Client) as X. unfold in_flight in X. cbn [other] in X. rewrite Ep, Hin, Hir, Hq in X. cbn in X. rewrite app_nil_r in X. split; [auto|].
    pose proof (P5 DB) as Y. unfold out_ok in Y. rewrite Hout in Y. exact Y.
  - right. specialize (HQ LProc eq_refl eq_refl) as HQ'. unfold step in HQ'. rewrite Hcr, Ep in HQ'. destruct from; cbn [other] in HQ'.
    + rewrite C4, Hq in HQ'. discriminate HQ'.
    + rewrite C2 in HQ'. destruct (Nat.ltb _ _) eqn:El in HQ'; [discriminate|]. apply Nat.ltb_ge in El. pose proof (HCap Client) as [_ HC2].
      split; [lia|]. split; [|eauto]. destruct (out_pc s Client) eqn:E; [unfold on in Hon; intuition congruence| |eauto|destruct (Hng Client); congruence].
      exfalso. specialize (HQ (LTake Client) eq_refl eq_refl). unfold step in HQ. rewrite Hcr, E in HQ. destruct (queue (chan_out s Client)); [cbn in El; unfold capacity in El; lia|discriminate].
Qed.

(** *** Crashes *)
Lemma sane_parse E u q : sane_env E -> parse_uri E u <> Panic q.
Proof. intros [H1 H2] X. unfold parse_uri in X. destruct (accepts_exactly (env_parse E) (env_user E) (env_order E) u H1) as [_ Y]. apply Y in X. eapply H2, X. Qed.
Lemma config_no_crash s E r s' : sane_env E -> step s (LConfig E r) = Some s' -> crashed s' = None.
Proof.
  intros HE H. dstep H; cbn; try assumption. exfalso. eapply sane_parse; eassumption.
Qed.
Lemma crash_causes ls s q : run step NewSession ls = Some s -> Forall sane_label ls -> crashed s = Some q ->
  q = PanicSendClosed /\ fires (hist s) <> [] \/
  exists d mid t len L body rest, decodes_startup (arrived d (hist s)) (match d with Client => startups (hist s) | DB => [] end) mid /\
    decodes_standard mid (msgs d (hist s)) (t :: len ++ body ++ rest) /\ int32_repr L len /\ Z.of_nat (length body) = announced_body L /\ crashing t body.
Proof.
  intros H F Hq. assert (reachable step init s) as R by (exists NewSession, ls; split; [reflexivity|exact H]).
  pose proof (reachable_full _ R) as HF. pose proof (al_crash _ (fu_all _ HF)) as HC. unfold crash_ok in HC. rewrite Hq in HC.
  destruct HC as [(-> & Hf & _)|[(d & c & r' & Hi & Hc & Ho & Hr)|(w & E & cfg & Hs & Hp)]].
  - left. split; [reflexivity|]. pose proof (ki_once _ (pp_close _ (al_pipes _ (fu_all _ HF)))) as [_ X]. rewrite Hf in X. specialize (X ltac:(discriminate)). destruct (fires (hist s)); [discriminate X|discriminate].
  - right. destruct (al_dec _ (fu_all _ HF) d) as [_ (mid & rest & D1 & D2 & D3)]. exists d, mid.
    assert (exists q r', RecvMessage (rd c) = Done (Panic q) r') as Hx by eauto. apply crash_exactly in Hx. destruct Hx as (t & len & L & body & rest' & E1 & E2 & E3 & E4).
    exists t, len, L, body, rest'. split; [exact D1|]. split; [|auto]. unfold unread in D3. rewrite Hc in D3. destruct D3 as [X|[X _]].
    + split; [congruence|]. pose proof (ph_phase _ (pp_phase _ (al_pipes _ (fu_all _ HF)))) as HP. unfold off, exited in HP.
      destruct (start_pc s); try exact I; destruct d; intuition congruence.
    + rewrite <- E1, X. exact D2.
    + rewrite E1 in X. discriminate X.
  - exfalso. destruct (rev ls) as [|l ls'] eqn:Er; [apply (f_equal (@rev label)) in Er; rewrite rev_involutive in Er; subst ls; injection H as <-; discriminate Hq|].
    apply (f_equal (@rev label)) in Er. rewrite rev_involutive in Er. cbn in Er. subst ls. rewrite run_app in H. destruct (run step NewSession (rev ls')) as [s1|] eqn:E1; [|discriminate H].
    cbn in H. destruct (step s1 l) as [s2|] eqn:E2; [|discriminate H]. injection H as ->. apply Forall_app in F. destruct F as [_ F]. inversion F as [|? ? Fl _]; subst.
    assert (phase_inv s) as HP by apply (pp_phase _ (al_pipes _ (fu_all _ HF))).
    pose proof (ph_phase _ HP) as HX. rewrite Hs in HX. destruct HX as [(O1 & O2 & O3 & O4 & O5) _].
    destruct l; try (dstep E2; sides; cbn in *; congruence).
    + rewrite (config_no_crash _ _ _ _ Fl E2) in Hq. discriminate Hq.
    + dstep E2; cbn in *; try congruence.
      all: assert (reachable step init s1) as R1 by (eexists NewSession, _; split; [reflexivity|exact E1]); pose proof (pp_close _ (al_pipes _ (fu_all _ (reachable_full _ R1)))) as HK;
       match goal with E : close_pc _ ?t = _ |- _ => destruct (ki_body _ HK t) as (Y & _); [rewrite E; exact I|]; rewrite E in Y end; unfold shut in Y; cbn in Y; injection Y as ? ? ? ? ?; congruence.
Qed.

(** *** Close and the results *)
Lemma released s : reachable step init s -> fires (hist s) <> [] -> (forall t, close_pc s t = KIdle) ->
  (exists c, conns s Client = Some c /\ is_open c = false) /\
  (forall d, chan_closed (chan_in s d) = true /\ chan_closed (chan_out s d) = true) /\
  (forall c, conns s DB = Some c -> is_open c = false \/ late_connect (hist s)).
Proof.
  intros R Hf Hk. pose proof (reachable_full _ R) as HF. destruct (fu_all _ HF) as [[P1 P2 P3 P4 P5] HD HL HB HO HC H1].
  assert (closed s = EvFired) as Hc.
  { destruct (closed s) eqn:E; [destruct (ki_init _ P2 E); congruence|pose proof (ki_firing _ P2 _ E) as X; rewrite Hk in X; discriminate X|reflexivity]. }
  destruct (ki_fired _ P2 Hc) as [(t & X)|X]; [rewrite Hk in X; destruct X|]. unfold shut in X. cbn in X. injection X as X0 X1 X2 X3 X4.
  split; [|split].
  - destruct (conns s Client) as [c|]; [|discriminate X0]. injection X0 as X0. eauto.
  - intros []; auto.
  - intros c Ec. destruct (is_open c) eqn:Eo; [|auto]. right. destruct (HB c Ec Eo) as [X|[(t & X)|X]]; [congruence|rewrite Hk in X; destruct X|exact X].
Qed.
Lemma close_once s : reachable step init s ->
  (length (fires (hist s)) <= 1)%nat /\ (forall d, length (conn_closes d (hist s)) <= 1)%nat /\ (chan_closes (hist s) <= 4)%nat /\
  (close_errors (hist s) = [] \/ exists t e, close_errors (hist s) = [(t, e)] /\ fires (hist s) = [t] /\ Some e = last_close (hist s)).
Proof.
  intros R. pose proof (reachable_full _ R) as HF. destruct (fu_all _ HF) as [[P1 P2 P3 P4 P5] HD HL HB HO HC H1].
  split; [apply (ki_once _ P2)|].
  assert ((length (conn_closes Client (hist s)) <= 1)%nat /\ (length (conn_closes DB (hist s)) <= 1)%nat /\ (chan_closes (hist s) <= 4)%nat) as (A & B & C).
  { destruct (closed s) eqn:Ec.
    - destruct (oi_init _ H1 Ec) as [X _]. unfold acts in X. injection X as X1 X2 X3. lia.
    - pose proof (ki_firing _ P2 _ Ec) as X. destruct (oi_body _ H1 winner) as [Y _]; [rewrite X; exact I|]. rewrite X in Y. cbn in Y. unfold acts in Y. injection Y as X1 X2 X3. lia.
    - destruct (oi_fired _ H1 Ec) as [(t & X)|Y].
      + destruct (oi_body _ H1 _ X) as [Y _]. destruct (close_pc s t); try destruct X; cbn in Y; unfold acts in Y;
          try (injection Y as Y1 Y2 Y3; lia); try (destruct Y as (Y1 & Y2 & Y3); lia); repeat match goal with Z : _ \/ _ |- _ => destruct Z | Z : _ /\ _ |- _ => destruct Z end; try match goal with Z : (_, _, _) = _ |- _ => injection Z as Y1 Y2 Y3 end; lia.
      + cbn in Y. repeat match goal with Z : _ /\ _ |- _ => destruct Z end; lia. }
  split; [intros []; assumption|]. split; [exact C|]. destruct (oi_errors _ H1) as [X|(t & e & Y1 & Y2 & Y3 & _)]; [left; exact X|right; eauto].
Qed.
Definition all_goroutines : list goroutine := [GIn Client; GIn DB; GOut Client; GOut DB; GProc].
Lemma start_result s r : reachable step init s -> In r (start_results (hist s)) ->
  start_results (hist s) = [r] /\
  (exits (hist s) = [] \/ (r = first_error (exits (hist s)) /\ Permutation.Permutation (map fst (exits (hist s))) all_goroutines)).
Proof.
  intros R Hr. pose proof (reachable_full _ R) as HF. destruct (fu_all _ HF) as [[P1 P2 P3 P4 P5] HD [L1 L2 L3 L4 L5] HB HO HC H1].
  destruct (start_pc s) eqn:Es; rewrite L4 in Hr; cbn in Hr; try tauto. destruct Hr as [->|[]]. split; [exact L4|].
  pose proof (ph_phase _ P1) as HP. rewrite Es in HP. destruct HP as [(O1 & O2 & O3 & O4 & O5)|[HE _]].
  - left. destruct (exits (hist s)) as [|[g e] l] eqn:E; [reflexivity|]. exfalso. assert (gone s g) as X by (apply L3; left; reflexivity).
    destruct g as [[]|[]|]; cbn in X; congruence.
  - right. split; [rewrite <- L1; auto|]. apply Permutation.NoDup_Permutation; [exact L2| |].
    + unfold all_goroutines. repeat constructor; cbn; intuition discriminate.
    + intros g. rewrite L3. destruct HE as (E1 & E2 & E3 & E4 & E5). unfold all_goroutines. destruct g as [[]|[]|]; cbn; intuition auto.
Qed.
Lemma forwarded_logged s d m : reachable step init s -> In m (taken (other d) (hist s)) -> In (SendMessage m) (logged d (hist s)).
Proof.
  intros R H. rewrite (fu_log _ (reachable_full _ R) d). rewrite map_app. apply in_or_app. left. apply in_map. exact H.
Qed.
