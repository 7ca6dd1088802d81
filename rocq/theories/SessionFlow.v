(** Delivery in a session one of whose peers may have hung up. *)
From Verif Require Import BufferProofs FrameProofs FrameFacts ConnProofs ConnFacts.
From Verif Require Export SessionLive.
Require Import Lia.

(** *** States in which everything flows *)
Definition only_in_exits (s : state) : Prop := forall g r, In (g, r) (exits (hist s)) -> exists d, g = GIn d.
Definition flows (s : state) : Prop := start_pc s = SWait /\ closed s = EvInit /\ crashed s = None /\ only_in_exits s.
(** whatever arrives after [rest], if anything still can, it doesn't begin with a message that can be decoded *)
Definition stuck (rest : bytes) (f : option error) : Prop :=
  forall b, (f <> None -> b = []) -> forall p rest' m, frame_at 5 (rest ++ b) p rest' -> dispatch (StandardFrame p) <> Ok m.
(** nothing that has arrived from [d] is lost *)
Definition intact (d : side) (s : state) : Prop :=
  exists mid rest, decodes_startup (arrived d (hist s)) (lead d (hist s)) mid /\ decodes_standard mid (msgs d (hist s)) rest /\
  match conns s d with None => rest = [] | Some n => (in_pc s d <> IExit -> concat (chunks (rd n)) = rest) /\ (in_pc s d = IExit -> stuck rest (fin (rd n))) end.
Lemma recv_err r e r' : RecvMessage r = Done (Err e) r' -> stuck (concat (chunks r)) (fin r).
Proof.
  intros H b Hb p rest' m F. destruct (frame_total 5 (concat (chunks r)) ltac:(lia)) as [(f & rest & T)|T].
  - pose proof (frame_at_more _ _ _ _ b T) as T'. destruct (frame_at_fun _ _ _ _ _ _ F T') as [-> _]. destruct (ReadStandardFrame_ok _ _ _ T) as (r1 & E & _). unfold RecvMessage in H. rewrite E in H. cbn in H.
    intros X. rewrite X in H. discriminate H.
  - pose proof (ReadStandardFrame_short _ T) as X. unfold RecvMessage in H. destruct (fin r) eqn:FE; [|rewrite X in H; discriminate H]. rewrite Hb, app_nil_r in F by discriminate.
    destruct (frame_at_not_incomplete 5 _ _ _ ltac:(lia) F T).
Qed.
Lemma recv_fin r x r' : RecvMessage r = Done x r' -> fin r' = fin r.
Proof. unfold RecvMessage. destruct (ReadStandardFrame r) as [|y r1] eqn:E; [discriminate|]. intros H. injection H as _ <-. exact (proj1 (ReadStandardFrame_inv _ _ _ E)). Qed.
Lemma stuck_more rest b : stuck rest None -> stuck (rest ++ b) None.
Proof. intros H b' _ p rest' m F. rewrite <- app_assoc in F. exact (H (b ++ b') ltac:(congruence) _ _ _ F). Qed.
Lemma stuck_end rest e : stuck rest None -> stuck rest (Some e).
Proof. intros H b' _ p rest' m F. exact (H b' ltac:(congruence) _ _ _ F). Qed.
Lemma intact_view s s' d : msgs d (hist s') = msgs d (hist s) -> arrived d (hist s') = arrived d (hist s) -> lead d (hist s') = lead d (hist s) -> conns s' d = conns s d -> in_pc s' d = in_pc s d ->
  intact d s -> intact d s'.
Proof. intros E1 E2 E3 E4 E5 (mid & rest & H). exists mid, rest. rewrite E1, E2, E3, E4, E5. exact H. Qed.
Lemma intact_step d s l s' : phase_inv s -> dec_ok s d -> (forall c, conns s d = Some c -> is_open c = true) -> (forall t r, l <> LClose t r) -> crashed s' = None -> intact d s -> step s l = Some s' -> (forall e, l <> LReset d e) ->
  match start_pc s' with SDefer _ | SDone _ => False | _ => True end -> intact d s'.
Proof.
  intros HP HD CL NC CR HI H NR NS. pose proof (ph_phase _ HP) as H2. dstep H; try discriminate CR.
  all: repeat match goal with E : start_pc _ = _ |- _ => rewrite E in H2; revert E end; intros.
  all: try match type of H2 with off _ /\ _ => destruct H2 as [(?Oc & ?Od & ? & ? & ?) ?Hc] end.
  all: sides; cbn in *; try contradiction.
  all: try solve [eapply intact_view; [| | | | |exact HI]; cbn; unfold supd; cbn; rewrite ?app_nil_r; try reflexivity; try congruence].
  all: try solve [exfalso; eapply NR; reflexivity].
  all: try solve [exfalso; eapply NC; reflexivity].
  all: destruct HD as [D0 _]; destruct HI as (mid & bs & D1 & D2 & D3); cbn in D1; repeat match goal with E : conns _ _ = _ |- _ => rewrite E in D3 end; cbn in D3.
  1-2: exists (mid ++ b), (bs ++ b); cbn; split; [apply SessionDecode.decodes_more; exact D1|]; split; [apply SessionDecode.decodes_more; exact D2|]; destruct D3 as [D3 D4];
    split; [intros X; rewrite concat_app; cbn; rewrite app_nil_r, (D3 X); reflexivity|intros X; exact (stuck_more _ _ (D4 X))].
  1-2: exists mid, bs; cbn; split; [exact D1|]; split; [exact D2|]; destruct D3 as [D3 D4]; split; [exact D3|intros X; exact (stuck_end _ _ (D4 X))].
  1-2: rewrite D0 in D2 by assumption; inversion D2; subst bs; destruct D3 as [D3 _]; rewrite Oc in D3; specialize (D3 ltac:(discriminate));
    match goal with E : recv_on _ ?c = Done _ _ |- _ => unfold recv_on in E; destruct (is_open c); [|discriminate E]; apply recv_startup_inv in E; destruct E as (Hf & f & Ef & Em) end; rewrite D3 in Ef;
    exists (concat (chunks rest)), (concat (chunks rest)); cbn; split; [eapply decodes_snoc; eassumption|]; rewrite D0 by assumption; split; [constructor|]; rewrite Oc; split; [reflexivity|discriminate].
  1-2: exists mid, bs; cbn; split; [exact D1|]; split; [exact D2|]; rewrite ?Oc, ?Od in D3; unfold supd; cbn; match goal with E : conns ?y ?x = Some _ |- context [conns ?y ?x] => rewrite E; cbn | |- context [conns ?y ?x] => destruct (conns y x) eqn:?; [|first [exact D3|discriminate]] end; destruct D3 as [D3 _]; split; [intros _; apply D3; discriminate|discriminate].
  1: subst bs; exists mid, []; cbn; split; [exact D1|]; split; [exact D2|]; rewrite Od; split; [reflexivity|discriminate].
  1-2: destruct D3 as [D3 _]; match goal with E : in_pc _ _ = _ |- _ => rewrite E in D3 end; specialize (D3 ltac:(discriminate));
    match goal with E : recv_on _ ?c = Done _ _ |- _ => unfold recv_on in E; destruct (is_open c); [|discriminate E]; apply recv_inv in E; destruct E as (Hf & f & Ef & Em) end; rewrite D3 in Ef;
    exists mid, (concat (chunks rest)); cbn; split; [exact D1|]; split; [eapply decodes_snoc; eassumption|]; split; [reflexivity|discriminate].
  1-2: destruct D3 as [D3 _]; match goal with E : in_pc _ _ = _ |- _ => rewrite E in D3 end; specialize (D3 ltac:(discriminate));
    match goal with E : recv_on _ ?c = Done _ _ |- _ => unfold recv_on in E; rewrite CL in E by assumption; pose proof (recv_fin _ _ _ E) as FI; apply recv_err in E end; rewrite D3 in *;
    exists mid, bs; cbn; split; [exact D1|]; split; [exact D2|]; unfold supd; cbn; split; [congruence|]; intros _; rewrite FI; assumption.
  all: exists mid, bs; cbn; split; [exact D1|]; split; [exact D2|]; unfold supd; cbn; destruct (conns s _); [|exact D3]; destruct D3 as [D3 _]; split; [intros _; apply D3; congruence|discriminate].
Qed.

Definition fine (s : state) : Prop := flows s /\ forall d, intact d s.
Record ffacts (s : state) : Prop := {
  ff_in : forall d, in_pc s d = IRecv \/ (exists m, in_pc s d = ISend m) \/ in_pc s d = IExit;
  ff_out : forall d, out_pc s d = OTake \/ exists b, out_pc s d = OWrite b;
  ff_proc : proc_pc s = PSelect \/ exists d m, proc_pc s = PSend d m;
  ff_cin : forall d, chan_closed (chan_in s d) = false;
  ff_cout : forall d, chan_closed (chan_out s d) = false;
  ff_conn : forall d, exists r, conns s d = Some (NetConn r true) }.
Lemma flows_facts s : all_inv s -> flows s -> ffacts s.
Proof.
  intros A (Hst & Hc & Hcr & Hex).
  destruct A as [[P1 P2 P3 P4 P5] HD HL HB HO HC H1]. pose proof (ph_phase _ P1) as Hph. rewrite Hst in Hph. destruct Hph as [Hon Hdb].
  assert (forall d, out_pc s d <> OExit) as Hng.
  { intros d X. apply (li_gone _ HL (GOut d)) in X. apply in_map_iff in X. destruct X as ([g r] & X & Y). cbn in X. subst g. destruct (Hex _ _ Y) as [? Z]. discriminate Z. }
  assert (proc_pc s <> PExit) as Hnp by (intros X; apply (li_gone _ HL GProc) in X; apply in_map_iff in X; destruct X as ([g r] & X & Y); cbn in X; subst g; destruct (Hex _ _ Y) as [? Z]; discriminate Z).
  destruct (ki_init _ P2 Hc) as [Hsh _]. unfold shut in Hsh. cbn in Hsh. injection Hsh as Ho C1 C2 C3 C4. unfold on in Hon. destruct Hon as (O1 & O2 & O3 & O4 & O5).
  constructor.
  - intros d. assert (in_pc s d <> IOff) as Y by (destruct d; assumption). destruct (in_pc s d); try congruence; eauto.
  - intros d. pose proof (Hng d) as X. assert (out_pc s d <> OOff) as Y by (destruct d; assumption). destruct (out_pc s d); try congruence; eauto.
  - destruct (proc_pc s); try congruence; eauto.
  - intros []; assumption.
  - intros []; assumption.
  - intros []; [destruct (conns s Client) as [[r b]|] eqn:E; [|discriminate Ho]; injection Ho as Ho; cbn in Ho; subst b; eauto|].
    destruct (conns s DB) as [[r b]|] eqn:E; [|congruence]. pose proof (HO _ E Hc) as X. cbn in X. subst b. eauto.
Qed.
Lemma fine_facts s : reachable step init s -> fine s -> ffacts s.
Proof. intros R [F _]. exact (flows_facts _ (reachable_all _ R) F). Qed.
Lemma f_counts_mono d s l s' : fine s -> fine s' -> step s l = Some s' ->
  (n_taken d s <= n_taken d s' /\ n_out d s <= n_out d s' /\ n_sel d s <= n_sel d s' /\ n_in d s <= n_in d s' /\ n_dec d s <= n_dec d s')%nat.
Proof.
  intros [(Hst & Hc & Hcr & Hex) Hwh] [(Hst' & Hc' & Hcr' & Hex') Hwh'] H. unfold n_dec, n_in, n_sel, n_out, n_taken.
  dstep H; try (rewrite Hst in *; discriminate); try discriminate Hst'; try discriminate Hcr'.
  all: sides; cbn in *; unfold supd; cbn; rewrite ?app_length; cbn.
  all: repeat match goal with E : in_pc _ _ = _ |- _ => rewrite E; clear E | E : out_pc _ _ = _ |- _ => rewrite E; clear E | E : proc_pc _ = _ |- _ => rewrite E; clear E
    | E : queue _ = _ |- _ => rewrite E; clear E end; cbn; try (rewrite app_length; cbn); try lia.
Qed.

(** *** What the other goroutines leave alone, and what each one does *)
Lemma f_keep_out e s l s' : fine s -> fine s' -> step s l = Some s' -> ~ acts_as (GOut e) l -> out_pc s' e = out_pc s e.
Proof. intros [(Hst & Hc & Hcr & Hex) Hwh] [(Hst' & Hc' & Hcr' & Hex') Hwh'] H N. live_cases Hst Hst' Hcr' Hex' H; reflexivity. Qed.
Lemma f_keep_proc s l s' : fine s -> fine s' -> step s l = Some s' -> ~ acts_as GProc l -> proc_pc s' = proc_pc s /\ forall d, n_out d s' = n_out d s.
Proof.
  intros [(Hst & Hc & Hcr & Hex) Hwh] [(Hst' & Hc' & Hcr' & Hex') Hwh'] H N. split; [live_cases Hst Hst' Hcr' Hex' H; reflexivity|]. intros d. unfold n_out, n_taken.
  live_cases Hst Hst' Hcr' Hex' H; try reflexivity; live_rw; rewrite ?app_length; cbn; lia.
Qed.
Lemma f_keep_in d s l s' : fine s -> fine s' -> step s l = Some s' -> ~ acts_as (GIn d) l -> in_pc s' d = in_pc s d /\ n_in d s' = n_in d s.
Proof.
  intros [(Hst & Hc & Hcr & Hex) Hwh] [(Hst' & Hc' & Hcr' & Hex') Hwh'] H N. split; [live_cases Hst Hst' Hcr' Hex' H; reflexivity|]. unfold n_in, n_sel, n_out, n_taken.
  live_cases Hst Hst' Hcr' Hex' H; try reflexivity; live_rw; rewrite ?app_length; cbn; rewrite ?app_length; cbn; lia.
Qed.
Lemma f_do_write e b s l s' : fine s -> fine s' -> step s l = Some s' -> acts_as (GOut e) l -> out_pc s e = OWrite b ->
  out_pc s' e = OTake \/ exists b', out_pc s' e = OWrite b' /\ (length b' < length b)%nat.
Proof.
  intros [(Hst & Hc & Hcr & Hex) Hwh] [(Hst' & Hc' & Hcr' & Hex') Hwh'] H A E. destruct l; try contradiction; cbn in A; subst; unfold step in H; rewrite Hcr, E in H; try discriminate.
  - destruct (conns s e) as [[r []]|]; try discriminate. destruct (write_ok n b) eqn:W; [|discriminate]. injection H as <-. cbn. unfold supd. rewrite side_eqb_refl.
    destruct (skipn n b) eqn:K; [left; reflexivity|]. right. eexists. split; [reflexivity|]. rewrite <- K, skipn_length. unfold write_ok in W.
    apply andb_true_iff in W. destruct W as [W1 W2]. apply Nat.leb_le in W1. apply orb_true_iff in W2. destruct W2 as [W2|W2]; [apply Nat.eqb_eq in W2|apply negb_true_iff, Nat.eqb_neq in W2]; [|lia].
    destruct b; [destruct n; discriminate K|discriminate W2].
  - exfalso. injection H as <-. destruct (Hex' (GOut e) (Some e0)) as [? Z]; [cbn; apply in_or_app; right; left; reflexivity|discriminate Z].
Qed.
Lemma f_do_take d s l s' : ffacts s -> fine s -> fine s' -> step s l = Some s' -> acts_as (GOut (other d)) l -> out_pc s (other d) = OTake -> n_taken d s' = S (n_taken d s).
Proof.
  intros HF [(Hst & Hc & Hcr & Hex) Hwh] [(Hst' & Hc' & Hcr' & Hex') Hwh'] H A E. destruct l; try contradiction; cbn in A; subst; unfold step in H; rewrite Hcr, E in H; try discriminate.
  destruct (queue (chan_out s (other d))) as [|m q]; [rewrite (ff_cout _ HF) in H; discriminate H|]. injection H as <-. unfold n_taken. cbn. rewrite side_eqb_refl, app_length. cbn. lia.
Qed.
Lemma f_do_proc d m s l s' : fine s -> fine s' -> step s l = Some s' -> acts_as GProc l -> proc_pc s = PSend d m -> proc_pc s' = PSelect.
Proof.
  intros [(Hst & Hc & Hcr & Hex) Hwh] [(Hst' & Hc' & Hcr' & Hex') Hwh'] H A E. destruct l; try contradiction; unfold step in H; rewrite Hcr, E in H; try discriminate.
  destruct (chan_closed (chan_out s (other d))); [injection H as <-; discriminate Hcr'|]. destruct (_ <? _)%nat; [|discriminate]. injection H as <-. reflexivity.
Qed.
Lemma f_do_select d s s' : ffacts s -> fine s -> fine s' -> step s (LSelect d) = Some s' -> n_sel d s' = S (n_sel d s).
Proof.
  intros HF [(Hst & Hc & Hcr & Hex) Hwh] [(Hst' & Hc' & Hcr' & Hex') Hwh'] H. unfold step in H. rewrite Hcr in H. destruct (proc_pc s) eqn:E; try discriminate.
  destruct (queue (chan_in s d)) as [|m q] eqn:Q; [rewrite (ff_cin _ HF) in H; discriminate H|]. injection H as <-. unfold n_sel, n_out, n_taken. cbn. rewrite E, side_eqb_refl. cbn. lia.
Qed.
Lemma f_do_in d m s l s' : fine s -> fine s' -> step s l = Some s' -> acts_as (GIn d) l -> in_pc s d = ISend m -> n_in d s' = S (n_in d s).
Proof.
  intros [(Hst & Hc & Hcr & Hex) Hwh] [(Hst' & Hc' & Hcr' & Hex') Hwh'] H A E. destruct l; try contradiction; cbn in A; subst; unfold step in H; rewrite Hcr, E in H; try discriminate.
  destruct (chan_closed (chan_in s d)); [injection H as <-; discriminate Hcr'|]. destruct (_ <? _)%nat; [|discriminate]. injection H as <-.
  unfold n_in, n_sel, n_out, n_taken. cbn. unfold supd. rewrite side_eqb_refl. cbn. rewrite app_length. cbn. lia.
Qed.
(** a message that has arrived and that hasn't been decoded can be decoded *)
Lemma next_ok d ms s : reachable step init s -> fine s -> (exists rest, complete d (hist s) ms rest) -> (n_dec d s < length ms)%nat ->
  in_pc s d <> IExit /\ exists r m r', conns s d = Some (NetConn r true) /\ RecvMessage r = Done (Ok m) r'.
Proof.
  intros R HF (rest & mid & D1 & D2) L. destruct (ff_conn _ (fine_facts _ R HF) d) as (r & Ec). destruct HF as [_ HI]. rewrite (n_dec_msgs _ _ R) in L.
  destruct (HI d) as (mid' & rest' & D1' & D2' & U). rewrite Ec in U. cbn in U.
  destruct (decodes_fun 4 _ _ _ _ ltac:(lia) D1 _ _ D1' (le_n _)) as (t & T1 & T2).
  assert (t = []) as -> by (destruct t; [reflexivity|apply f_equal with (f := @length message) in T1; rewrite app_length in T1; unfold lead in T1; cbn in T1; lia]). inversion T2; subst mid'.
  destruct (decodes_fun 5 _ _ _ _ ltac:(lia) D2' _ _ D2 (Nat.lt_le_incl _ _ L)) as (t & T3 & T4). inversion T4 as [|? f s2 ? ? ? Hf Hp]; subst; [rewrite app_length in L; cbn in L; lia|].
  destruct U as [U1 U2]. assert (in_pc s d <> IExit) as X. { intros X. apply (U2 X [] ltac:(reflexivity) f s2 m); [rewrite app_nil_r; exact Hf|exact Hp]. }
  split; [exact X|]. rewrite <- (U1 X) in Hf. destruct (ReadStandardFrame_ok _ _ _ Hf) as (r' & Y & _). exists r, m, r'. split; [exact Ec|]. unfold RecvMessage. rewrite Y. cbn. rewrite Hp. reflexivity.
Qed.
Lemma f_do_recv d ms s l s' : reachable step init s -> fine s -> fine s' -> (exists rest, complete d (hist s) ms rest) -> (n_dec d s < length ms)%nat ->
  step s l = Some s' -> acts_as (GIn d) l -> in_pc s d = IRecv -> n_dec d s' = S (n_dec d s).
Proof.
  intros R F F' C L H A E. destruct (next_ok d ms s R F C L) as (_ & r & m & r' & Ec & Er). destruct F as [(Hst & Hc & Hcr & Hex) Hwh].
  destruct l; try contradiction; cbn in A; subst; unfold step in H; rewrite Hcr, E in H; try discriminate.
  rewrite Ec in H. unfold recv_on in H. cbn [is_open rd] in H. rewrite Er in H. injection H as <-.
  unfold n_dec, n_in, n_sel, n_out, n_taken. cbn. unfold supd. rewrite side_eqb_refl, E. cbn. lia.
Qed.
Lemma f_can_recv d ms s : reachable step init s -> fine s -> (exists rest, complete d (hist s) ms rest) -> in_pc s d = IRecv -> (n_dec d s < length ms)%nat -> step s (LRecv d) <> None.
Proof.
  intros R F C E L. destruct (next_ok d ms s R F C L) as (_ & r & m & r' & Ec & Er). destruct F as [(Hst & Hc & Hcr & Hex) Hwh].
  unfold step. rewrite Hcr, E, Ec. unfold recv_on. cbn [is_open rd]. rewrite Er. discriminate.
Qed.
Lemma f_complete_step d ms s l s' : fine s -> step s l = Some s' -> (exists rest, complete d (hist s) ms rest) -> exists rest, complete d (hist s') ms rest.
Proof.
  intros [(Hst & Hc & Hcr & Hex) Hwh] H (rest & mid & D1 & D2). unfold complete.
  assert ((exists b, arrived d (hist s') = arrived d (hist s) ++ b) /\ startups (hist s') = startups (hist s)) as [(b & A) S].
  { dstep H; try (rewrite Hst in *; discriminate); cbn; try (split; [exists []; rewrite app_nil_r; reflexivity|reflexivity]).
    split; [|reflexivity]. destruct (side_eqb d d0); [eauto|exists []; reflexivity]. }
  rewrite A, S. exists (rest ++ b), (mid ++ b). split; apply decodes_more; assumption.
Qed.
Section Flow.
Variable st : nat -> state.
Variable lb : nat -> option label.
Hypothesis reach : forall i, reachable step init (st i).
Hypothesis OK : forall i, crashed (st i) = None -> fine (st i).
Hypothesis EX : forall i, fine (st i) -> fine (st (S i)) -> match lb i with Some l => step (st i) l = Some (st (S i)) | None => st (S i) = st i end.
Hypothesis FG : fair_goroutines st lb.
Hypothesis FS : fair_select st lb.

Lemma live_dec i : fine (st i) \/ crashed (st i) <> None.
Proof. destruct (crashed (st i)) eqn:E; [right; discriminate|left; exact (OK _ E)]. Qed.
(** from moment [i] on, [Q] holds some time, or a goroutine panics *)
Definition ev (i : nat) (Q : state -> Prop) : Prop := exists j, (i <= j)%nat /\ (crashed (st j) <> None \/ Q (st j)).
Lemma ev_now i (Q : state -> Prop) : Q (st i) -> ev i Q.
Proof. intros H. exists i. split; [lia|auto]. Qed.
Lemma ev_bind i (Q Q' : state -> Prop) : ev i Q -> (forall j, fine (st j) -> Q (st j) -> ev j Q') -> ev i Q'.
Proof.
  intros (j & L & [H|H]) K; [exists j; auto|]. destruct (live_dec j) as [X|X]; [|exists j; auto].
  destruct (K j X H) as (k & L' & Y). exists k. split; [lia|exact Y].
Qed.
(** [A] holds until [Q] does *)
Definition until (A Q : state -> Prop) : Prop := forall s l s', reachable step init s -> fine s -> fine s' -> A s -> step s l = Some s' -> A s' \/ Q s'.
Lemma until_at (A Q : state -> Prop) i : until A Q -> A (st i) -> forall j, (i <= j)%nat -> A (st j) \/ exists k, (i <= k <= j)%nat /\ (crashed (st k) <> None \/ Q (st k)).
Proof.
  intros U H j L. induction L as [|j L IH]; [auto|]. destruct IH as [IH|(k & K & X)]; [|right; exists k; split; [lia|exact X]].
  destruct (live_dec j) as [X|X]; [|right; exists j; split; [lia|auto]]. destruct (live_dec (S j)) as [X'|X']; [|right; exists (S j); split; [lia|auto]].
  pose proof (EX j X X') as E. destruct (lb j) as [l|]; [|rewrite E; auto]. destruct (U _ _ _ (reach j) X X' IH E) as [Y|Y]; [auto|right; exists (S j); split; [lia|auto]].
Qed.
Lemma until_ev (A Q B : state -> Prop) i : until A Q -> A (st i) -> ev i B -> ev i (fun s => Q s \/ A s /\ B s).
Proof.
  intros U H (j & L & X). destruct (until_at A Q i U H j L) as [Y|(k & K & Y)].
  - exists j. split; [exact L|]. destruct X; auto.
  - exists k. split; [lia|]. destruct Y; auto.
Qed.
Definition stable (A : state -> Prop) : Prop := until A (fun _ => False).
Lemma stable_ev (A B : state -> Prop) i : stable A -> A (st i) -> ev i B -> ev i (fun s => A s /\ B s).
Proof. intros U H X. destruct (until_ev _ _ _ _ U H X) as (j & L & [Y|[[]|Y]]); exists j; auto. Qed.
Lemma stable_and (A B : state -> Prop) : stable A -> stable B -> stable (fun s => A s /\ B s).
Proof. intros U V s l s' R H H' [X Y] E. destruct (U _ _ _ R H H' X E) as [X'|[]]. destruct (V _ _ _ R H H' Y E) as [Y'|[]]. auto. Qed.
(** a goroutine that can go on until it has *)
Lemma weak g (P Q : state -> Prop) : (forall s, reachable step init s -> fine s -> P s -> exists l, acts_as g l /\ step s l <> None) ->
  (forall s l s', reachable step init s -> fine s -> fine s' -> P s -> step s l = Some s' -> ~ acts_as g l -> P s' \/ Q s') ->
  (forall s l s', reachable step init s -> fine s -> fine s' -> P s -> step s l = Some s' -> acts_as g l -> Q s') ->
  forall i, P (st i) -> ev i Q.
Proof.
  intros En St Do i H. destruct (FG g i) as (j & L & X).
  assert (until P Q) as U. { intros s l s' R H1 H2 H3 E. destruct (acts_dec g l) as [Y|Y]; [right; eapply Do; eassumption|eapply St; eassumption]. }
  destruct (until_at P Q i U H j L) as [Y|(k & K & Y)]; [|exists k; split; [lia|exact Y]].
  destruct (live_dec j) as [Hj|Hj]; [|exists j; auto]. destruct X as [X|(l & El & A)].
  - destruct (En _ (reach j) Hj Y) as (l & A & N). destruct (N (X l A)).
  - destruct (live_dec (S j)) as [Hj'|Hj']; [|exists (S j); split; [lia|auto]]. pose proof (EX j Hj Hj') as E. rewrite El in E.
    exists (S j). split; [lia|]. right. exact (Do _ _ _ (reach j) Hj Hj' Y E A).
Qed.
Lemma mono n (f : state -> nat) : (forall s l s', fine s -> fine s' -> step s l = Some s' -> (f s <= f s')%nat) -> stable (fun s => n <= f s)%nat.
Proof. intros M s l s' R H H' X E. left. specialize (M _ _ _ H H' E). lia. Qed.
Lemma st_taken d n : stable (fun s => n <= n_taken d s)%nat. Proof. apply mono. intros s l s' H H' E. apply (f_counts_mono d s l s' H H' E). Qed.
Lemma st_out d n : stable (fun s => n <= n_out d s)%nat. Proof. apply mono. intros s l s' H H' E. apply (f_counts_mono d s l s' H H' E). Qed.
Lemma st_sel d n : stable (fun s => n <= n_sel d s)%nat. Proof. apply mono. intros s l s' H H' E. apply (f_counts_mono d s l s' H H' E). Qed.
Lemma st_in d n : stable (fun s => n <= n_in d s)%nat. Proof. apply mono. intros s l s' H H' E. apply (f_counts_mono d s l s' H H' E). Qed.
Lemma st_dec d n : stable (fun s => n <= n_dec d s)%nat. Proof. apply mono. intros s l s' H H' E. apply (f_counts_mono d s l s' H H' E). Qed.

(** an out pump finishes what it writes *)
Lemma ev_written e i : ev i (fun s => out_pc s e = OTake).
Proof.
  destruct (live_dec i) as [H|H]; [|exists i; auto].
  assert (forall n i, fine (st i) -> (exists b, out_pc (st i) e = OWrite b /\ (length b < n)%nat) -> ev i (fun s => out_pc s e = OTake)) as X.
  { clear i H. induction n as [|n IH]; intros i H (b & E & L); [lia|].
    eapply ev_bind; [apply (weak (GOut e) (fun s => out_pc s e = OWrite b) (fun s => out_pc s e = OTake \/ exists b', out_pc s e = OWrite b' /\ (length b' < length b)%nat)); [..|exact E]|].
    - intros s R Hs Es. destruct (ff_conn _ (fine_facts _ R Hs) e) as (r & Ec). exists (LWrite e (length b)). split; [reflexivity|]. unfold step. destruct Hs as [(_ & _ & -> & _) _]. rewrite Es, Ec.
      assert (write_ok (length b) b = true) as -> by (unfold write_ok; rewrite Nat.leb_refl; destruct b; reflexivity). discriminate.
    - intros s l s' R Hs Hs' Es X N. left. rewrite (f_keep_out e s l s'); assumption.
    - intros s l s' R Hs Hs' Es X A. exact (f_do_write e b s l s' Hs Hs' X A Es).
    - cbn. intros j Hj [Y|(b' & Y & Lb)]; [apply ev_now, Y|]. apply IH; [exact Hj|]. exists b'. split; [exact Y|lia]. }
  destruct (ff_out _ (fine_facts _ (reach i) H) e) as [Y|(b & Y)]; [apply ev_now, Y|]. eapply X; [exact H|]. exists b. split; [exact Y|]. apply Nat.lt_succ_diag_r.
Qed.
(** what is in the channel is taken *)
Lemma ev_taken d n : forall i, (n <= n_out d (st i))%nat -> ev i (fun s => n <= n_taken d s)%nat.
Proof.
  induction n as [|n IH]; intros i L; [apply ev_now; lia|].
  eapply ev_bind; [eapply (stable_ev _ _ _ (st_out d (S n)) L); apply IH; lia|]. cbn. intros j Hj [L1 L2].
  eapply ev_bind; [eapply (stable_ev _ _ _ (stable_and _ _ (st_out d (S n)) (st_taken d n)) (conj L1 L2)); apply (ev_written (other d))|]. cbn. clear j Hj L1 L2. intros j Hj [[L1 L2] E].
  destruct (Nat.eq_dec n (n_taken d (st j))) as [En|En]; [|apply ev_now; lia].
  apply (weak (GOut (other d)) (fun s => out_pc s (other d) = OTake /\ (S n <= n_out d s)%nat /\ n_taken d s = n) (fun s => S n <= n_taken d s)%nat); [..|auto].
  - intros s R Hs (Es & Lo & Lt). exists (LTake (other d)). split; [reflexivity|]. unfold step. destruct Hs as [(_ & _ & -> & _) _]. rewrite Es.
    unfold n_out in Lo. rewrite Lt in Lo. destruct (queue (chan_out s (other d))); [cbn in Lo; lia|discriminate].
  - intros s l s' R Hs Hs' (Es & Lo & Lt) X N. pose proof (f_counts_mono d s l s' Hs Hs' X) as (C1 & C2 & _).
    destruct (Nat.eq_dec n (n_taken d s')); [left|right; lia]. split; [rewrite (f_keep_out _ s l s'); assumption|]. lia.
  - intros s l s' R Hs Hs' (Es & Lo & Lt) X A. rewrite (f_do_take d s l s'); auto using fine_facts. lia.
Qed.
(** what the processing goroutine has in its hands is sent on *)
Lemma ev_select i : ev i (fun s => proc_pc s = PSelect).
Proof.
  destruct (live_dec i) as [H|H]; [|exists i; auto]. destruct (ff_proc _ (fine_facts _ (reach i) H)) as [E|(d & m & E)]; [apply ev_now, E|].
  set (N := n_out d (st i)). set (A := fun s => proc_pc s = PSend d m /\ n_out d s = N). set (Q := fun s : state => proc_pc s = PSelect).
  assert (forall s l s', reachable step init s -> fine s -> fine s' -> A s -> step s l = Some s' -> ~ acts_as GProc l -> A s') as KA.
  { intros s l s' R Hs Hs' [A1 A2] X B. destruct (f_keep_proc s l s' Hs Hs' X B) as [K1 K2]. split; [congruence|rewrite K2; exact A2]. }
  assert (until A Q) as U.
  { intros s l s' R Hs Hs' HA X. destruct (acts_dec GProc l) as [B|B]; [right; exact (f_do_proc d m s l s' Hs Hs' X B (proj1 HA))|left; exact (KA s l s' R Hs Hs' HA X B)]. }
  assert (ev i (fun s => N - 63 <= n_taken d s)%nat) as T by (apply ev_taken; unfold N; lia).
  eapply ev_bind; [exact (until_ev A Q _ i U (conj E eq_refl) T)|]. cbn. intros j Hj [Y|[[A1 A2] T']]; [apply ev_now, Y|].
  apply (weak GProc (fun s => A s /\ (N - 63 <= n_taken d s)%nat) Q); [..|split; [split|]; assumption].
  - intros s R Hs [[B1 B2] B3]. exists LProc. split; [exact I|]. pose proof (ff_cout _ (fine_facts _ R Hs)) as HC. unfold step. destruct Hs as [(_ & _ & -> & _) _]. rewrite B1, HC.
    unfold n_out in B2. destruct (Nat.ltb_spec (length (queue (chan_out s (other d)))) capacity) as [C|C]; [discriminate|]. exfalso. unfold capacity in C. lia.
  - intros s l s' R Hs Hs' [B1 B2] X NB. left. split; [exact (KA s l s' R Hs Hs' B1 X NB)|]. pose proof (f_counts_mono d s l s' Hs Hs' X) as (C1 & _). lia.
  - intros s l s' R Hs Hs' [[B1 B2] B3] X B. exact (f_do_proc d m s l s' Hs Hs' X B B1).
Qed.
Lemma ev_out d n i : (n <= n_sel d (st i))%nat -> ev i (fun s => n <= n_out d s)%nat.
Proof.
  intros L. eapply ev_bind; [eapply (stable_ev _ _ _ (st_sel d n) L), ev_select|]. cbn. intros j _ [L' E]. apply ev_now. unfold n_sel in L'. rewrite E in L'. cbn in L'. lia.
Qed.
(** what is in the channel is selected *)
Lemma ev_sel d n : forall i, (n <= n_in d (st i))%nat -> ev i (fun s => n <= n_sel d s)%nat.
Proof.
  induction n as [|n IH]; intros i L; [apply ev_now; lia|].
  eapply ev_bind; [eapply (stable_ev _ _ _ (st_in d (S n)) L); apply IH; lia|]. cbn. clear i L. intros i Hi L.
  destruct (FS d i) as (j & Lj & [T|D]).
  - destruct (until_at _ _ i (stable_and _ _ (st_in d (S n)) (st_sel d n)) L j Lj) as [[L1 L2]|(k & K & [Y|[]])]; [|exists k; split; [lia|auto]].
    destruct (live_dec j) as [Hj|Hj]; [|exists j; auto]. destruct (live_dec (S j)) as [Hj'|Hj']; [|exists (S j); split; [lia|auto]].
    pose proof (EX j Hj Hj') as E. rewrite T in E. exists (S j). split; [lia|]. right. rewrite (f_do_select d _ _ (fine_facts _ (reach j) Hj) Hj Hj' E). lia.
  - destruct (until_at _ _ i (stable_and _ _ (st_in d (S n)) (st_sel d n)) L j Lj) as [L'|(k & K & [Y|[]])]; [|exists k; split; [lia|auto]].
    destruct (stable_ev _ _ j (stable_and _ _ (st_in d (S n)) (st_sel d n)) L' (ev_select j)) as (k & K & [Y|[[L1 L2] E]]); [exists k; split; [lia|auto]|].
    exists k. split; [lia|]. destruct (live_dec k) as [Hk|Hk]; [|auto]. right. destruct (Nat.eq_dec n (n_sel d (st k))) as [En|En]; [|lia]. exfalso.
    specialize (D k K). unfold step in D. destruct Hk as [(_ & _ & Hc & _) _]. rewrite Hc, E in D. unfold n_in in L1. rewrite <- En in L1. destruct (queue (chan_in (st k) d)); [cbn in L1; lia|discriminate D].
Qed.
(** what an in pump has decoded it sends on *)
Lemma ev_in d n : forall i, (n <= n_dec d (st i))%nat -> ev i (fun s => n <= n_in d s)%nat.
Proof.
  induction n as [|n IH]; intros i L; [apply ev_now; lia|].
  eapply ev_bind; [eapply (stable_ev _ _ _ (st_dec d (S n)) L); apply IH; lia|]. cbn. clear i L. intros i Hi [L1 L2].
  destruct (Nat.eq_dec n (n_in d (st i))) as [En|En]; [|apply ev_now; lia].
  destruct (ff_in _ (fine_facts _ (reach i) Hi) d) as [E|[(m & E)|E]]; [unfold n_dec in L1; rewrite E in L1; cbn in L1; lia| |unfold n_dec in L1; rewrite E in L1; cbn in L1; lia].
  set (A := fun s => in_pc s d = ISend m /\ n_in d s = n). set (Q := fun s : state => (S n <= n_in d s)%nat).
  assert (forall s l s', reachable step init s -> fine s -> fine s' -> A s -> step s l = Some s' -> ~ acts_as (GIn d) l -> A s') as KA.
  { intros s l s' R Hs Hs' [A1 A2] X B. destruct (f_keep_in d s l s' Hs Hs' X B) as [K1 K2]. split; [congruence|rewrite K2; exact A2]. }
  assert (forall s l s', reachable step init s -> fine s -> fine s' -> A s -> step s l = Some s' -> acts_as (GIn d) l -> Q s') as DA.
  { intros s l s' R Hs Hs' [A1 A2] X B. unfold Q. rewrite (f_do_in d m s l s' Hs Hs' X B A1). lia. }
  assert (until A Q) as U.
  { intros s l s' R Hs Hs' HA X. destruct (acts_dec (GIn d) l) as [B|B]; [right; exact (DA s l s' R Hs Hs' HA X B)|left; exact (KA s l s' R Hs Hs' HA X B)]. }
  assert (ev i (fun s => n - 63 <= n_sel d s)%nat) as T by (apply ev_sel; lia).
  eapply ev_bind; [exact (until_ev A Q _ i U (conj E (eq_sym En)) T)|]. cbn. intros j Hj [Y|[HA T']]; [apply ev_now, Y|].
  apply (weak (GIn d) (fun s => A s /\ (n - 63 <= n_sel d s)%nat) Q); [..|split; assumption].
  - intros s R Hs [[B1 B2] B3]. exists (LIn d). split; [reflexivity|]. pose proof (ff_cin _ (fine_facts _ R Hs)) as HC. unfold step. destruct Hs as [(_ & _ & -> & _) _]. rewrite B1, HC.
    unfold n_in in B2. destruct (Nat.ltb_spec (length (queue (chan_in s d))) capacity) as [C|C]; [discriminate|]. exfalso. unfold capacity in C. lia.
  - intros s l s' R Hs Hs' [B1 B2] X NB. left. split; [exact (KA s l s' R Hs Hs' B1 X NB)|]. pose proof (f_counts_mono d s l s' Hs Hs' X) as (_ & _ & C1 & _). lia.
  - intros s l s' R Hs Hs' [HB B3] X B. exact (DA s l s' R Hs Hs' HB X B).
Qed.
Lemma st_complete d ms : stable (fun s => exists rest, complete d (hist s) ms rest).
Proof. intros s l s' R Hs Hs' H X. left. exact (f_complete_step d ms s l s' Hs X H). Qed.
(** what has arrived is decoded *)
Lemma ev_dec d ms n : forall i, (exists rest, complete d (hist (st i)) ms rest) -> (n <= length ms)%nat -> ev i (fun s => n <= n_dec d s)%nat.
Proof.
  induction n as [|n IH]; intros i C L; [apply ev_now; lia|].
  eapply ev_bind; [eapply (stable_ev _ _ _ (st_complete d ms) C); apply (IH i C); lia|]. cbn. clear i C. intros i Hi [C Ld].
  eapply ev_bind; [eapply (stable_ev _ _ _ (stable_and _ _ (st_complete d ms) (st_dec d n)) (conj C Ld)); apply (ev_in d n i Ld)|]. cbn. clear i Hi C Ld. intros i Hi [[C Ld] Li].
  destruct (Nat.eq_dec n (n_dec d (st i))) as [En|En]; [|apply ev_now; lia].
  destruct (ff_in _ (fine_facts _ (reach i) Hi) d) as [E|[(m & E)|E]]; [|unfold n_dec in En; rewrite E in En; cbn in En; lia|destruct (next_ok d ms _ (reach i) Hi C ltac:(lia)) as [X _]; contradiction].
  apply (weak (GIn d) (fun s => in_pc s d = IRecv /\ n_dec d s = n /\ exists rest, complete d (hist s) ms rest) (fun s => S n <= n_dec d s)%nat); [..|auto].
  - intros s R Hs (B1 & B2 & B3). exists (LRecv d). split; [reflexivity|]. apply (f_can_recv d ms); auto. lia.
  - intros s l s' R Hs Hs' (B1 & B2 & B3) X B. destruct (f_keep_in d s l s' Hs Hs' X B) as [K1 K2]. left. split; [congruence|]. split; [|exact (f_complete_step d ms s l s' Hs X B3)].
    unfold n_dec in *. rewrite K1, K2. exact B2.
  - intros s l s' R Hs Hs' (B1 & B2 & B3) X B. rewrite (f_do_recv d ms s l s' R Hs Hs' B3 ltac:(lia) X B B1). lia.
Qed.
(** everything together *)
Lemma ev_delivered d ms i rest : complete d (hist (st i)) ms rest -> ev i (fun s => delivered d (hist s) ms).
Proof.
  intros C. assert (exists rest, complete d (hist (st i)) ms rest) as C' by eauto. clear C rest. pose proof (st_complete d ms) as SC.
  eapply ev_bind; [eapply (stable_ev _ _ _ SC C'); apply (ev_dec d ms (length ms) i C' (le_n _))|]. cbn. clear i C'. intros i _ [C L].
  eapply ev_bind; [eapply (stable_ev _ _ _ SC C); apply (ev_in d _ i L)|]. cbn. clear i C L. intros i _ [C L].
  eapply ev_bind; [eapply (stable_ev _ _ _ SC C); apply (ev_sel d _ i L)|]. cbn. clear i C L. intros i _ [C L].
  eapply ev_bind; [eapply (stable_ev _ _ _ SC C); apply (ev_out d _ i L)|]. cbn. clear i C L. intros i _ [C L].
  eapply ev_bind; [eapply (stable_ev _ _ _ SC C); apply (ev_taken d _ i L)|]. cbn. clear i C L. intros i _ [C L].
  eapply ev_bind; [eapply (stable_ev _ _ _ (stable_and _ _ SC (st_taken d _)) (conj C L)); apply (ev_written (other d) i)|]. cbn. clear i C L. intros i _ [[C L] E].
  apply ev_now. destruct C as (rest & mid & D1 & D2). pose proof (reachable_all _ (reach i)) as [[P1 P2 P3 P4 P5] HD _ _ _ _ _].
  pose proof (P5 (other d)) as O. unfold out_ok in O. rewrite E in O. unfold delivered. rewrite O. unfold total.
  destruct (HD d) as [_ (mid' & rest' & D1' & D2' & _)].
  destruct (decodes_fun 4 _ _ _ _ ltac:(lia) D1 _ _ D1' (le_n _)) as (t & T1 & T2).
  assert (t = []) as -> by (destruct t; [reflexivity|apply f_equal with (f := @length message) in T1; rewrite app_length in T1; cbn in T1; lia]). inversion T2; subst mid'.
  unfold n_taken in L. pose proof (P3 d) as X. 
  destruct (decodes_fun 5 _ _ _ _ ltac:(lia) D2 _ _ D2') as (t & T3 & _); [rewrite X, app_length; lia|]. rewrite T3 in X.
  assert (exists u, taken (other d) (hist (st i)) = ms ++ u) as (u & ->).
  { apply f_equal with (f := firstn (length (taken (other d) (hist (st i))))) in X. rewrite (firstn_app _ (taken (other d) (hist (st i)))), Nat.sub_diag, firstn_all, firstn_O, app_nil_r in X.
    exists (firstn (length (taken (other d) (hist (st i))) - length ms) t). etransitivity; [symmetry; exact X|]. rewrite firstn_app. f_equal. apply firstn_all2. exact L. }
  exists (concat (map SendMessage u)). rewrite map_app, concat_app, app_assoc. reflexivity.
Qed.
End Flow.

