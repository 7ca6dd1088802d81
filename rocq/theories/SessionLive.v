(** Under fair scheduling every complete message is delivered, however much traffic there is. *)
From Verif Require Import BufferProofs FrameProofs FrameFacts ConnProofs ConnFacts.
From Verif Require Export SpecLive SessionEnd SessionReason SessionTraffic SessionFacts.
Require Import Lia.

Lemma side_eqb_refl d : side_eqb d d = true.
Proof. destruct d; reflexivity. Qed.

(** *** Healthy states *)
Record hfacts (s : state) : Prop := {
  hf_in : forall d, in_pc s d = IRecv \/ exists m, in_pc s d = ISend m;
  hf_out : forall d, out_pc s d = OTake \/ exists b, out_pc s d = OWrite b;
  hf_proc : proc_pc s = PSelect \/ exists d m, proc_pc s = PSend d m;
  hf_cin : forall d, chan_closed (chan_in s d) = false;
  hf_cout : forall d, chan_closed (chan_out s d) = false;
  hf_conn : forall d, exists r, conns s d = Some (NetConn r true) }.
Lemma healthy_facts s : reachable step init s -> healthy s -> hfacts s.
Proof.
  intros R (Hst & Hc & Hcr & Hex).
  destruct (reachable_all _ R) as [[P1 P2 P3 P4 P5] HD HL HB HO HC H1]. pose proof (ph_phase _ P1) as Hph. rewrite Hst in Hph. destruct Hph as [Hon Hdb].
  assert (forall d, in_pc s d <> IExit /\ out_pc s d <> OExit) as Hng.
  { intros d. split; intros X; [apply (li_gone _ HL (GIn d)) in X|apply (li_gone _ HL (GOut d)) in X]; rewrite Hex in X; destruct X. }
  assert (proc_pc s <> PExit) as Hnp by (intros X; apply (li_gone _ HL GProc) in X; rewrite Hex in X; destruct X).
  destruct (ki_init _ P2 Hc) as [Hsh _]. unfold shut in Hsh. cbn in Hsh. injection Hsh as Ho C1 C2 C3 C4. unfold on in Hon. destruct Hon as (O1 & O2 & O3 & O4 & O5).
  constructor.
  - intros d. destruct (Hng d) as [X _]. assert (in_pc s d <> IOff) as Y by (destruct d; assumption). destruct (in_pc s d); try congruence; eauto.
  - intros d. destruct (Hng d) as [_ X]. assert (out_pc s d <> OOff) as Y by (destruct d; assumption). destruct (out_pc s d); try congruence; eauto.
  - destruct (proc_pc s); try congruence; eauto.
  - intros []; assumption.
  - intros []; assumption.
  - intros []; [destruct (conns s Client) as [[r b]|] eqn:E; [|discriminate Ho]; injection Ho as Ho; cbn in Ho; subst b; eauto|].
    destruct (conns s DB) as [[r b]|] eqn:E; [|congruence]. pose proof (HO _ E Hc) as X. cbn in X. subst b. eauto.
Qed.
Lemma healthy_dec s : healthy s \/ ~ healthy s.
Proof.
  unfold healthy. destruct (start_pc s); try (right; intros (X & _); discriminate X). destruct (closed s); try (right; intros (_ & X & _); discriminate X).
  destruct (crashed s); [right; intros (_ & _ & X & _); discriminate X|]. destruct (exits (hist s)); [left; auto|right; intros (_ & _ & _ & X); discriminate X].
Qed.

(** *** Counting: how far the messages of [d] have come *)
Definition n_taken (d : side) (s : state) : nat := length (taken (other d) (hist s)).
Definition n_out (d : side) (s : state) : nat := (n_taken d s + length (queue (chan_out s (other d))))%nat.
Definition n_sel (d : side) (s : state) : nat := (n_out d s + length (in_hand (proc_pc s) d))%nat.
Definition n_in (d : side) (s : state) : nat := (n_sel d s + length (queue (chan_in s d)))%nat.
Definition n_dec (d : side) (s : state) : nat := (n_in d s + length (in_pump (in_pc s d)))%nat.
Lemma n_dec_msgs d s : reachable step init s -> n_dec d s = length (msgs d (hist s)).
Proof.
  intros R. pose proof (pp_pipe _ (al_pipes _ (reachable_all _ R)) d) as X. rewrite X. unfold n_dec, n_in, n_sel, n_out, n_taken, in_flight. rewrite !app_length. lia.
Qed.
Lemma counts_mono d s l s' : healthy s -> healthy s' -> step s l = Some s' ->
  (n_taken d s <= n_taken d s' /\ n_out d s <= n_out d s' /\ n_sel d s <= n_sel d s' /\ n_in d s <= n_in d s' /\ n_dec d s <= n_dec d s')%nat.
Proof.
  intros (Hst & Hc & Hcr & Hex) (Hst' & Hc' & Hcr' & Hex') H. unfold n_dec, n_in, n_sel, n_out, n_taken.
  dstep H; try (rewrite Hst in *; discriminate); try discriminate Hst'; try discriminate Hcr'.
  all: sides; cbn in *; unfold supd; cbn; rewrite ?app_length; cbn.
  all: repeat match goal with E : in_pc _ _ = _ |- _ => rewrite E; clear E | E : out_pc _ _ = _ |- _ => rewrite E; clear E | E : proc_pc _ = _ |- _ => rewrite E; clear E
    | E : queue _ = _ |- _ => rewrite E; clear E end; cbn; try (rewrite app_length; cbn); try lia.
Qed.

(** *** What the other goroutines leave alone, and what each one does *)
Ltac live_cases Hst Hst' Hcr' Hex' H :=
  dstep H; try (rewrite Hst in *; discriminate); try discriminate Hst'; try discriminate Hcr'; sides; cbn in *; unfold supd; cbn;
  try (exfalso; match goal with N : ~ _ |- _ => apply N; reflexivity | N : ~ True |- _ => apply N; exact I end).
Ltac live_rw := repeat match goal with E : in_pc _ _ = _ |- _ => rewrite E in *; clear E | E : out_pc _ _ = _ |- _ => rewrite E in *; clear E | E : proc_pc _ = _ |- _ => rewrite E in *; clear E
    | E : queue _ = _ |- _ => rewrite E in *; clear E end.
Lemma keep_out e s l s' : healthy s -> healthy s' -> step s l = Some s' -> ~ acts_as (GOut e) l -> out_pc s' e = out_pc s e.
Proof. intros (Hst & Hc & Hcr & Hex) (Hst' & Hc' & Hcr' & Hex') H N. live_cases Hst Hst' Hcr' Hex' H; reflexivity. Qed.
Lemma keep_proc s l s' : healthy s -> healthy s' -> step s l = Some s' -> ~ acts_as GProc l -> proc_pc s' = proc_pc s /\ forall d, n_out d s' = n_out d s.
Proof.
  intros (Hst & Hc & Hcr & Hex) (Hst' & Hc' & Hcr' & Hex') H N. split; [live_cases Hst Hst' Hcr' Hex' H; reflexivity|]. intros d. unfold n_out, n_taken.
  live_cases Hst Hst' Hcr' Hex' H; try reflexivity; live_rw; rewrite ?app_length; cbn; lia.
Qed.
Lemma keep_in d s l s' : healthy s -> healthy s' -> step s l = Some s' -> ~ acts_as (GIn d) l -> in_pc s' d = in_pc s d /\ n_in d s' = n_in d s.
Proof.
  intros (Hst & Hc & Hcr & Hex) (Hst' & Hc' & Hcr' & Hex') H N. split; [live_cases Hst Hst' Hcr' Hex' H; reflexivity|]. unfold n_in, n_sel, n_out, n_taken.
  live_cases Hst Hst' Hcr' Hex' H; try reflexivity; live_rw; rewrite ?app_length; cbn; rewrite ?app_length; cbn; lia.
Qed.
Lemma do_write e b s l s' : healthy s -> healthy s' -> step s l = Some s' -> acts_as (GOut e) l -> out_pc s e = OWrite b ->
  out_pc s' e = OTake \/ exists b', out_pc s' e = OWrite b' /\ (length b' < length b)%nat.
Proof.
  intros (Hst & Hc & Hcr & Hex) (Hst' & Hc' & Hcr' & Hex') H A E. destruct l; try contradiction; cbn in A; subst; unfold step in H; rewrite Hcr, E in H; try discriminate.
  - destruct (conns s e) as [[r []]|]; try discriminate. destruct (write_ok n b) eqn:W; [|discriminate]. injection H as <-. cbn. unfold supd. rewrite side_eqb_refl.
    destruct (skipn n b) eqn:K; [left; reflexivity|]. right. eexists. split; [reflexivity|]. rewrite <- K, skipn_length. unfold write_ok in W.
    apply andb_true_iff in W. destruct W as [W1 W2]. apply Nat.leb_le in W1. apply orb_true_iff in W2. destruct W2 as [W2|W2]; [apply Nat.eqb_eq in W2|apply negb_true_iff, Nat.eqb_neq in W2]; [|lia].
    destruct b; [destruct n; discriminate K|discriminate W2].
  - exfalso. injection H as <-. cbn in Hex'. rewrite Hex in Hex'. discriminate Hex'.
Qed.
Lemma do_take d s l s' : hfacts s -> healthy s -> healthy s' -> step s l = Some s' -> acts_as (GOut (other d)) l -> out_pc s (other d) = OTake -> n_taken d s' = S (n_taken d s).
Proof.
  intros HF (Hst & Hc & Hcr & Hex) (Hst' & Hc' & Hcr' & Hex') H A E. destruct l; try contradiction; cbn in A; subst; unfold step in H; rewrite Hcr, E in H; try discriminate.
  destruct (queue (chan_out s (other d))) as [|m q]; [rewrite (hf_cout _ HF) in H; discriminate H|]. injection H as <-. unfold n_taken. cbn. rewrite side_eqb_refl, app_length. cbn. lia.
Qed.
Lemma do_proc d m s l s' : healthy s -> healthy s' -> step s l = Some s' -> acts_as GProc l -> proc_pc s = PSend d m -> proc_pc s' = PSelect.
Proof.
  intros (Hst & Hc & Hcr & Hex) (Hst' & Hc' & Hcr' & Hex') H A E. destruct l; try contradiction; unfold step in H; rewrite Hcr, E in H; try discriminate.
  destruct (chan_closed (chan_out s (other d))); [injection H as <-; discriminate Hcr'|]. destruct (_ <? _)%nat; [|discriminate]. injection H as <-. reflexivity.
Qed.
Lemma do_select d s s' : hfacts s -> healthy s -> healthy s' -> step s (LSelect d) = Some s' -> n_sel d s' = S (n_sel d s).
Proof.
  intros HF (Hst & Hc & Hcr & Hex) (Hst' & Hc' & Hcr' & Hex') H. unfold step in H. rewrite Hcr in H. destruct (proc_pc s) eqn:E; try discriminate.
  destruct (queue (chan_in s d)) as [|m q] eqn:Q; [rewrite (hf_cin _ HF) in H; discriminate H|]. injection H as <-. unfold n_sel, n_out, n_taken. cbn. rewrite E, side_eqb_refl. cbn. lia.
Qed.
Lemma do_in d m s l s' : healthy s -> healthy s' -> step s l = Some s' -> acts_as (GIn d) l -> in_pc s d = ISend m -> n_in d s' = S (n_in d s).
Proof.
  intros (Hst & Hc & Hcr & Hex) (Hst' & Hc' & Hcr' & Hex') H A E. destruct l; try contradiction; cbn in A; subst; unfold step in H; rewrite Hcr, E in H; try discriminate.
  destruct (chan_closed (chan_in s d)); [injection H as <-; discriminate Hcr'|]. destruct (_ <? _)%nat; [|discriminate]. injection H as <-.
  unfold n_in, n_sel, n_out, n_taken. cbn. unfold supd. rewrite side_eqb_refl. cbn. rewrite app_length. cbn. lia.
Qed.
Lemma do_recv d s l s' : healthy s -> healthy s' -> step s l = Some s' -> acts_as (GIn d) l -> in_pc s d = IRecv -> n_dec d s' = S (n_dec d s).
Proof.
  intros (Hst & Hc & Hcr & Hex) (Hst' & Hc' & Hcr' & Hex') H A E. destruct l; try contradiction; cbn in A; subst; unfold step in H; rewrite Hcr, E in H; try discriminate.
  destruct (conns s d); try discriminate. destruct (recv_on RecvMessage c) as [|[m|e|p] r]; try discriminate; injection H as <-.
  - unfold n_dec, n_in, n_sel, n_out, n_taken. cbn. unfold supd. rewrite side_eqb_refl, E. cbn. lia.
  - cbn in Hex'. rewrite Hex in Hex'. discriminate Hex'.
  - discriminate Hcr'.
Qed.

(** *** Decoding a longer stream *)
Lemma decodes_more hdr parse s ms rest b : decodes hdr parse s ms rest -> decodes hdr parse (s ++ b) ms (rest ++ b).
Proof. induction 1; [constructor|]. econstructor; [apply frame_at_more; eassumption|assumption|assumption]. Qed.
Lemma decodes_fun hdr parse s ms rest : (4 <= hdr)%nat -> decodes hdr parse s ms rest -> forall ms' rest', decodes hdr parse s ms' rest' -> (length ms <= length ms')%nat ->
  exists tail, ms' = ms ++ tail /\ decodes hdr parse rest tail rest'.
Proof.
  intros Hh. induction 1 as [s|s f s' m ms rest Hf Hm Hd IH]; intros ms' rest' D L; [exists ms'; auto|].
  inversion D as [|? f2 s2 m2 ms2 ? Hf2 Hm2 Hd2]; subst; [cbn in L; lia|]. destruct (frame_at_fun _ _ _ _ _ _ Hf Hf2) as [<- <-]. rewrite Hm in Hm2. injection Hm2 as <-.
  destruct (IH _ _ Hd2) as (tail & -> & T); [cbn in L; lia|]. exists tail. auto.
Qed.
Definition lead (d : side) (h : list event) : list message := match d with Client => startups h | DB => [] end.
Lemma complete_step d ms s l s' : healthy s -> step s l = Some s' -> (exists rest, complete d (hist s) ms rest) -> exists rest, complete d (hist s') ms rest.
Proof.
  intros (Hst & Hc & Hcr & Hex) H (rest & mid & D1 & D2). unfold complete.
  assert ((exists b, arrived d (hist s') = arrived d (hist s) ++ b) /\ startups (hist s') = startups (hist s)) as [(b & A) S].
  { dstep H; try (rewrite Hst in *; discriminate); cbn; try (split; [exists []; rewrite app_nil_r; reflexivity|reflexivity]).
    split; [|reflexivity]. destruct (side_eqb d d0); [eauto|exists []; reflexivity]. }
  rewrite A, S. exists (rest ++ b), (mid ++ b). split; apply decodes_more; assumption.
Qed.
(** a healthy session with more complete messages than decoded can decode *)
Lemma can_recv d ms s : reachable step init s -> healthy s -> (exists rest, complete d (hist s) ms rest) -> in_pc s d = IRecv -> (n_dec d s < length ms)%nat -> step s (LRecv d) <> None.
Proof.
  intros R HH (rest & mid & D1 & D2) E L. destruct (hf_conn _ (healthy_facts _ R HH) d) as (r & Ec). destruct HH as (Hst & Hc & Hcr & Hex). rewrite (n_dec_msgs _ _ R) in L.
  unfold step. rewrite Hcr, E, Ec. unfold recv_on. cbn [is_open rd]. destruct (RecvMessage r) as [|x r'] eqn:Er; [|destruct x; discriminate]. exfalso.
  apply recv_blocked in Er. destruct Er as [E1 E2]. destruct (al_dec _ (reachable_all _ R) d) as [_ (mid' & rest' & D1' & D2' & U)].
  unfold reading, unread in U. rewrite E, Hst, Ec in U. specialize (U ltac:(split; [discriminate|exact I])). cbn in U. destruct U as [U|[_ U]]; [|congruence].
  destruct (decodes_fun 4 _ _ _ _ ltac:(lia) D1 _ _ D1' (le_n _)) as (t & T1 & T2).
  assert (t = []) as -> by (destruct t; [reflexivity|apply f_equal with (f := @length message) in T1; rewrite app_length in T1; cbn in T1; lia]). inversion T2; subst mid'.
  destruct (decodes_fun 5 _ _ _ _ ltac:(lia) D2' _ _ D2 (Nat.lt_le_incl _ _ L)) as (t & T3 & T4). inversion T4 as [|? f s2 ? ? ? Hf]; subst; [rewrite app_length in L; cbn in L; lia|].
  exact (frame_at_not_incomplete 5 _ _ _ ltac:(lia) Hf E1).
Qed.

Lemma acts_dec g l : acts_as g l \/ ~ acts_as g l.
Proof. destruct g, l; cbn; auto; destruct d, d0; (left; reflexivity) || (right; discriminate). Qed.

Section Live.
Variable st : nat -> state.
Variable lb : nat -> option label.
Hypothesis reach : forall i, reachable step init (st i).
Hypothesis EX : forall i, healthy (st i) -> healthy (st (S i)) -> match lb i with Some l => step (st i) l = Some (st (S i)) | None => st (S i) = st i end.
Hypothesis FG : fair_goroutines st lb.
Hypothesis FS : fair_select st lb.

(** from moment [i] on, [Q] holds some time, or something fails *)
Definition ev (i : nat) (Q : state -> Prop) : Prop := exists j, (i <= j)%nat /\ (~ healthy (st j) \/ Q (st j)).
Lemma ev_now i (Q : state -> Prop) : Q (st i) -> ev i Q.
Proof. intros H. exists i. split; [lia|auto]. Qed.
Lemma ev_bind i (Q Q' : state -> Prop) : ev i Q -> (forall j, healthy (st j) -> Q (st j) -> ev j Q') -> ev i Q'.
Proof.
  intros (j & L & [H|H]) K; [exists j; auto|]. destruct (healthy_dec (st j)) as [X|X]; [|exists j; auto].
  destruct (K j X H) as (k & L' & Y). exists k. split; [lia|exact Y].
Qed.
(** [A] holds until [Q] does *)
Definition until (A Q : state -> Prop) : Prop := forall s l s', reachable step init s -> healthy s -> healthy s' -> A s -> step s l = Some s' -> A s' \/ Q s'.
Lemma until_at (A Q : state -> Prop) i : until A Q -> A (st i) -> forall j, (i <= j)%nat -> A (st j) \/ exists k, (i <= k <= j)%nat /\ (~ healthy (st k) \/ Q (st k)).
Proof.
  intros U H j L. induction L as [|j L IH]; [auto|]. destruct IH as [IH|(k & K & X)]; [|right; exists k; split; [lia|exact X]].
  destruct (healthy_dec (st j)) as [X|X]; [|right; exists j; split; [lia|auto]]. destruct (healthy_dec (st (S j))) as [X'|X']; [|right; exists (S j); split; [lia|auto]].
  pose proof (EX j X X') as E. destruct (lb j) as [l|]; [|rewrite E; auto]. destruct (U _ _ _ (reach j) X X' IH E) as [Y|Y]; [auto|right; exists (S j); split; [lia|auto]].
Qed.
Lemma until_ev (A Q B : state -> Prop) i : until A Q -> A (st i) -> ev i B -> ev i (fun s => Q s \/ A s /\ B s).
Proof.
  intros U H (j & L & X). destruct (until_at A Q i U H j L) as [Y|(k & K & Y)].
  - exists j. split; [exact L|]. destruct X; auto.
  - exists k. split; [lia|]. destruct Y; auto.
Qed.
Definition stable (A : state -> Prop) : Prop := until A (fun _ => False).
Lemma stable_ev (A B : state -> Prop) i : stable A -> A (st i) -> ev i B -> ev i (fun s => A s /\ B s).
Proof. intros U H X. destruct (until_ev _ _ _ _ U H X) as (j & L & [Y|[[]|Y]]); exists j; auto. Qed.
Lemma stable_and (A B : state -> Prop) : stable A -> stable B -> stable (fun s => A s /\ B s).
Proof. intros U V s l s' R H H' [X Y] E. destruct (U _ _ _ R H H' X E) as [X'|[]]. destruct (V _ _ _ R H H' Y E) as [Y'|[]]. auto. Qed.
(** a goroutine that can go on until it has *)
Lemma weak g (P Q : state -> Prop) : (forall s, reachable step init s -> healthy s -> P s -> exists l, acts_as g l /\ step s l <> None) ->
  (forall s l s', reachable step init s -> healthy s -> healthy s' -> P s -> step s l = Some s' -> ~ acts_as g l -> P s' \/ Q s') ->
  (forall s l s', reachable step init s -> healthy s -> healthy s' -> P s -> step s l = Some s' -> acts_as g l -> Q s') ->
  forall i, P (st i) -> ev i Q.
Proof.
  intros En St Do i H. destruct (FG g i) as (j & L & X).
  assert (until P Q) as U. { intros s l s' R H1 H2 H3 E. destruct (acts_dec g l) as [Y|Y]; [right; eapply Do; eassumption|eapply St; eassumption]. }
  destruct (until_at P Q i U H j L) as [Y|(k & K & Y)]; [|exists k; split; [lia|exact Y]].
  destruct (healthy_dec (st j)) as [Hj|Hj]; [|exists j; auto]. destruct X as [X|(l & El & A)].
  - destruct (En _ (reach j) Hj Y) as (l & A & N). destruct (N (X l A)).
  - destruct (healthy_dec (st (S j))) as [Hj'|Hj']; [|exists (S j); split; [lia|auto]]. pose proof (EX j Hj Hj') as E. rewrite El in E.
    exists (S j). split; [lia|]. right. exact (Do _ _ _ (reach j) Hj Hj' Y E A).
Qed.
Lemma mono n (f : state -> nat) : (forall s l s', healthy s -> healthy s' -> step s l = Some s' -> (f s <= f s')%nat) -> stable (fun s => n <= f s)%nat.
Proof. intros M s l s' R H H' X E. left. specialize (M _ _ _ H H' E). lia. Qed.
Lemma st_taken d n : stable (fun s => n <= n_taken d s)%nat. Proof. apply mono. intros s l s' H H' E. apply (counts_mono d s l s' H H' E). Qed.
Lemma st_out d n : stable (fun s => n <= n_out d s)%nat. Proof. apply mono. intros s l s' H H' E. apply (counts_mono d s l s' H H' E). Qed.
Lemma st_sel d n : stable (fun s => n <= n_sel d s)%nat. Proof. apply mono. intros s l s' H H' E. apply (counts_mono d s l s' H H' E). Qed.
Lemma st_in d n : stable (fun s => n <= n_in d s)%nat. Proof. apply mono. intros s l s' H H' E. apply (counts_mono d s l s' H H' E). Qed.
Lemma st_dec d n : stable (fun s => n <= n_dec d s)%nat. Proof. apply mono. intros s l s' H H' E. apply (counts_mono d s l s' H H' E). Qed.

(** an out pump finishes what it writes *)
Lemma ev_written e i : ev i (fun s => out_pc s e = OTake).
Proof.
  destruct (healthy_dec (st i)) as [H|H]; [|exists i; auto].
  assert (forall n i, healthy (st i) -> (exists b, out_pc (st i) e = OWrite b /\ (length b < n)%nat) -> ev i (fun s => out_pc s e = OTake)) as X.
  { clear i H. induction n as [|n IH]; intros i H (b & E & L); [lia|].
    eapply ev_bind; [apply (weak (GOut e) (fun s => out_pc s e = OWrite b) (fun s => out_pc s e = OTake \/ exists b', out_pc s e = OWrite b' /\ (length b' < length b)%nat)); [..|exact E]|].
    - intros s R Hs Es. destruct (hf_conn _ (healthy_facts _ R Hs) e) as (r & Ec). exists (LWrite e (length b)). split; [reflexivity|]. unfold step. destruct Hs as (_ & _ & -> & _). rewrite Es, Ec.
      assert (write_ok (length b) b = true) as -> by (unfold write_ok; rewrite Nat.leb_refl; destruct b; reflexivity). discriminate.
    - intros s l s' R Hs Hs' Es X N. left. rewrite (keep_out e s l s'); assumption.
    - intros s l s' R Hs Hs' Es X A. exact (do_write e b s l s' Hs Hs' X A Es).
    - cbn. intros j Hj [Y|(b' & Y & Lb)]; [apply ev_now, Y|]. apply IH; [exact Hj|]. exists b'. split; [exact Y|lia]. }
  destruct (hf_out _ (healthy_facts _ (reach i) H) e) as [Y|(b & Y)]; [apply ev_now, Y|]. eapply X; [exact H|]. exists b. split; [exact Y|]. apply Nat.lt_succ_diag_r.
Qed.
(** what is in the channel is taken *)
Lemma ev_taken d n : forall i, (n <= n_out d (st i))%nat -> ev i (fun s => n <= n_taken d s)%nat.
Proof.
  induction n as [|n IH]; intros i L; [apply ev_now; lia|].
  eapply ev_bind; [eapply (stable_ev _ _ _ (st_out d (S n)) L); apply IH; lia|]. cbn. intros j Hj [L1 L2].
  eapply ev_bind; [eapply (stable_ev _ _ _ (stable_and _ _ (st_out d (S n)) (st_taken d n)) (conj L1 L2)); apply (ev_written (other d))|]. cbn. clear j Hj L1 L2. intros j Hj [[L1 L2] E].
  destruct (Nat.eq_dec n (n_taken d (st j))) as [En|En]; [|apply ev_now; lia].
  apply (weak (GOut (other d)) (fun s => out_pc s (other d) = OTake /\ (S n <= n_out d s)%nat /\ n_taken d s = n) (fun s => S n <= n_taken d s)%nat); [..|auto].
  - intros s R Hs (Es & Lo & Lt). exists (LTake (other d)). split; [reflexivity|]. unfold step. destruct Hs as (_ & _ & -> & _). rewrite Es.
    unfold n_out in Lo. rewrite Lt in Lo. destruct (queue (chan_out s (other d))); [cbn in Lo; lia|discriminate].
  - intros s l s' R Hs Hs' (Es & Lo & Lt) X N. pose proof (counts_mono d s l s' Hs Hs' X) as (C1 & C2 & _).
    destruct (Nat.eq_dec n (n_taken d s')); [left|right; lia]. split; [rewrite (keep_out _ s l s'); assumption|]. lia.
  - intros s l s' R Hs Hs' (Es & Lo & Lt) X A. rewrite (do_take d s l s'); auto using healthy_facts. lia.
Qed.
(** what the processing goroutine has in its hands is sent on *)
Lemma ev_select i : ev i (fun s => proc_pc s = PSelect).
Proof.
  destruct (healthy_dec (st i)) as [H|H]; [|exists i; auto]. destruct (hf_proc _ (healthy_facts _ (reach i) H)) as [E|(d & m & E)]; [apply ev_now, E|].
  set (N := n_out d (st i)). set (A := fun s => proc_pc s = PSend d m /\ n_out d s = N). set (Q := fun s : state => proc_pc s = PSelect).
  assert (forall s l s', reachable step init s -> healthy s -> healthy s' -> A s -> step s l = Some s' -> ~ acts_as GProc l -> A s') as KA.
  { intros s l s' R Hs Hs' [A1 A2] X B. destruct (keep_proc s l s' Hs Hs' X B) as [K1 K2]. split; [congruence|rewrite K2; exact A2]. }
  assert (until A Q) as U.
  { intros s l s' R Hs Hs' HA X. destruct (acts_dec GProc l) as [B|B]; [right; exact (do_proc d m s l s' Hs Hs' X B (proj1 HA))|left; exact (KA s l s' R Hs Hs' HA X B)]. }
  assert (ev i (fun s => N - 63 <= n_taken d s)%nat) as T by (apply ev_taken; unfold N; lia).
  eapply ev_bind; [exact (until_ev A Q _ i U (conj E eq_refl) T)|]. cbn. intros j Hj [Y|[[A1 A2] T']]; [apply ev_now, Y|].
  apply (weak GProc (fun s => A s /\ (N - 63 <= n_taken d s)%nat) Q); [..|split; [split|]; assumption].
  - intros s R Hs [[B1 B2] B3]. exists LProc. split; [exact I|]. pose proof (hf_cout _ (healthy_facts _ R Hs)) as HC. unfold step. destruct Hs as (_ & _ & -> & _). rewrite B1, HC.
    unfold n_out in B2. destruct (Nat.ltb_spec (length (queue (chan_out s (other d)))) capacity) as [C|C]; [discriminate|]. exfalso. unfold capacity in C. lia.
  - intros s l s' R Hs Hs' [B1 B2] X NB. left. split; [exact (KA s l s' R Hs Hs' B1 X NB)|]. pose proof (counts_mono d s l s' Hs Hs' X) as (C1 & _). lia.
  - intros s l s' R Hs Hs' [[B1 B2] B3] X B. exact (do_proc d m s l s' Hs Hs' X B B1).
Qed.
Lemma ev_out d n i : (n <= n_sel d (st i))%nat -> ev i (fun s => n <= n_out d s)%nat.
Proof.
  intros L. eapply ev_bind; [eapply (stable_ev _ _ _ (st_sel d n) L), ev_select|]. cbn. intros j _ [L' E]. apply ev_now. unfold n_sel in L'. rewrite E in L'. cbn in L'. lia.
Qed.
(** what is in the channel is selected *)
Lemma ev_sel d n : forall i, (n <= n_in d (st i))%nat -> ev i (fun s => n <= n_sel d s)%nat.
Proof.
  induction n as [|n IH]; intros i L; [apply ev_now; lia|].
  eapply ev_bind; [eapply (stable_ev _ _ _ (st_in d (S n)) L); apply IH; lia|]. cbn. clear i L. intros i Hi L.
  destruct (FS d i) as (j & Lj & [T|D]).
  - destruct (until_at _ _ i (stable_and _ _ (st_in d (S n)) (st_sel d n)) L j Lj) as [[L1 L2]|(k & K & [Y|[]])]; [|exists k; split; [lia|auto]].
    destruct (healthy_dec (st j)) as [Hj|Hj]; [|exists j; auto]. destruct (healthy_dec (st (S j))) as [Hj'|Hj']; [|exists (S j); split; [lia|auto]].
    pose proof (EX j Hj Hj') as E. rewrite T in E. exists (S j). split; [lia|]. right. rewrite (do_select d _ _ (healthy_facts _ (reach j) Hj) Hj Hj' E). lia.
  - destruct (until_at _ _ i (stable_and _ _ (st_in d (S n)) (st_sel d n)) L j Lj) as [L'|(k & K & [Y|[]])]; [|exists k; split; [lia|auto]].
    destruct (stable_ev _ _ j (stable_and _ _ (st_in d (S n)) (st_sel d n)) L' (ev_select j)) as (k & K & [Y|[[L1 L2] E]]); [exists k; split; [lia|auto]|].
    exists k. split; [lia|]. destruct (healthy_dec (st k)) as [Hk|Hk]; [|auto]. right. destruct (Nat.eq_dec n (n_sel d (st k))) as [En|En]; [|lia]. exfalso.
    specialize (D k K). unfold step in D. destruct Hk as (_ & _ & Hc & _). rewrite Hc, E in D. unfold n_in in L1. rewrite <- En in L1. destruct (queue (chan_in (st k) d)); [cbn in L1; lia|discriminate D].
Qed.
(** what an in pump has decoded it sends on *)
Lemma ev_in d n : forall i, (n <= n_dec d (st i))%nat -> ev i (fun s => n <= n_in d s)%nat.
Proof.
  induction n as [|n IH]; intros i L; [apply ev_now; lia|].
  eapply ev_bind; [eapply (stable_ev _ _ _ (st_dec d (S n)) L); apply IH; lia|]. cbn. clear i L. intros i Hi [L1 L2].
  destruct (Nat.eq_dec n (n_in d (st i))) as [En|En]; [|apply ev_now; lia].
  destruct (hf_in _ (healthy_facts _ (reach i) Hi) d) as [E|(m & E)]; [unfold n_dec in L1; rewrite E in L1; cbn in L1; lia|].
  set (A := fun s => in_pc s d = ISend m /\ n_in d s = n). set (Q := fun s : state => (S n <= n_in d s)%nat).
  assert (forall s l s', reachable step init s -> healthy s -> healthy s' -> A s -> step s l = Some s' -> ~ acts_as (GIn d) l -> A s') as KA.
  { intros s l s' R Hs Hs' [A1 A2] X B. destruct (keep_in d s l s' Hs Hs' X B) as [K1 K2]. split; [congruence|rewrite K2; exact A2]. }
  assert (forall s l s', reachable step init s -> healthy s -> healthy s' -> A s -> step s l = Some s' -> acts_as (GIn d) l -> Q s') as DA.
  { intros s l s' R Hs Hs' [A1 A2] X B. unfold Q. rewrite (do_in d m s l s' Hs Hs' X B A1). lia. }
  assert (until A Q) as U.
  { intros s l s' R Hs Hs' HA X. destruct (acts_dec (GIn d) l) as [B|B]; [right; exact (DA s l s' R Hs Hs' HA X B)|left; exact (KA s l s' R Hs Hs' HA X B)]. }
  assert (ev i (fun s => n - 63 <= n_sel d s)%nat) as T by (apply ev_sel; lia).
  eapply ev_bind; [exact (until_ev A Q _ i U (conj E (eq_sym En)) T)|]. cbn. intros j Hj [Y|[HA T']]; [apply ev_now, Y|].
  apply (weak (GIn d) (fun s => A s /\ (n - 63 <= n_sel d s)%nat) Q); [..|split; assumption].
  - intros s R Hs [[B1 B2] B3]. exists (LIn d). split; [reflexivity|]. pose proof (hf_cin _ (healthy_facts _ R Hs)) as HC. unfold step. destruct Hs as (_ & _ & -> & _). rewrite B1, HC.
    unfold n_in in B2. destruct (Nat.ltb_spec (length (queue (chan_in s d))) capacity) as [C|C]; [discriminate|]. exfalso. unfold capacity in C. lia.
  - intros s l s' R Hs Hs' [B1 B2] X NB. left. split; [exact (KA s l s' R Hs Hs' B1 X NB)|]. pose proof (counts_mono d s l s' Hs Hs' X) as (_ & _ & C1 & _). lia.
  - intros s l s' R Hs Hs' [HB B3] X B. exact (DA s l s' R Hs Hs' HB X B).
Qed.
Lemma st_complete d ms : stable (fun s => exists rest, complete d (hist s) ms rest).
Proof. intros s l s' R Hs Hs' H X. left. exact (complete_step d ms s l s' Hs X H). Qed.
(** what has arrived is decoded *)
Lemma ev_dec d ms n : forall i, (exists rest, complete d (hist (st i)) ms rest) -> (n <= length ms)%nat -> ev i (fun s => n <= n_dec d s)%nat.
Proof.
  induction n as [|n IH]; intros i C L; [apply ev_now; lia|].
  eapply ev_bind; [eapply (stable_ev _ _ _ (st_complete d ms) C); apply (IH i C); lia|]. cbn. clear i C. intros i Hi [C Ld].
  eapply ev_bind; [eapply (stable_ev _ _ _ (stable_and _ _ (st_complete d ms) (st_dec d n)) (conj C Ld)); apply (ev_in d n i Ld)|]. cbn. clear i Hi C Ld. intros i Hi [[C Ld] Li].
  destruct (Nat.eq_dec n (n_dec d (st i))) as [En|En]; [|apply ev_now; lia].
  destruct (hf_in _ (healthy_facts _ (reach i) Hi) d) as [E|(m & E)]; [|unfold n_dec in En; rewrite E in En; cbn in En; lia].
  apply (weak (GIn d) (fun s => in_pc s d = IRecv /\ n_dec d s = n /\ exists rest, complete d (hist s) ms rest) (fun s => S n <= n_dec d s)%nat); [..|auto].
  - intros s R Hs (B1 & B2 & B3). exists (LRecv d). split; [reflexivity|]. apply (can_recv d ms); auto. lia.
  - intros s l s' R Hs Hs' (B1 & B2 & B3) X B. destruct (keep_in d s l s' Hs Hs' X B) as [K1 K2]. left. split; [congruence|]. split; [|exact (complete_step d ms s l s' Hs X B3)].
    unfold n_dec in *. rewrite K1, K2. exact B2.
  - intros s l s' R Hs Hs' (B1 & B2 & _) X B. rewrite (do_recv d s l s' Hs Hs' X B B1). lia.
Qed.
(** everything together *)
Lemma ev_delivered d ms i rest : complete d (hist (st i)) ms rest -> ev i (fun s => delivered d (hist s) ms).
Proof.
  intros C. assert (exists rest, complete d (hist (st i)) ms rest) as C' by eauto. clear C rest. pose proof (st_complete d ms) as SC.
  eapply ev_bind; [eapply (stable_ev _ _ _ SC C'); apply (ev_dec d ms (length ms) i C' (le_n _))|]. cbn. clear i C'. intros i _ [C L].
  eapply ev_bind; [eapply (stable_ev _ _ _ SC C); apply (ev_in d _ i L)|]. cbn. clear i C L. intros i _ [C L].
  eapply ev_bind; [eapply (stable_ev _ _ _ SC C); apply (ev_sel d _ i L)|]. cbn. clear i C L. intros i _ [C L].
  eapply ev_bind; [eapply (stable_ev _ _ _ SC C); apply (ev_out d _ i L)|]. cbn. clear i C L. intros i _ [C L].
  eapply ev_bind; [eapply (stable_ev _ _ _ SC C); apply (ev_taken d _ i L)|]. cbn. clear i C L. intros i _ [C L].
  eapply ev_bind; [eapply (stable_ev _ _ _ (stable_and _ _ SC (st_taken d _)) (conj C L)); apply (ev_written (other d) i)|]. cbn. clear i C L. intros i _ [[C L] E].
  apply ev_now. destruct C as (rest & mid & D1 & D2). pose proof (reachable_all _ (reach i)) as [[P1 P2 P3 P4 P5] HD _ _ _ _ _].
  pose proof (P5 (other d)) as O. unfold out_ok in O. rewrite E in O. unfold delivered. rewrite O. unfold total.
  destruct (HD d) as [_ (mid' & rest' & D1' & D2' & _)].
  destruct (decodes_fun 4 _ _ _ _ ltac:(lia) D1 _ _ D1' (le_n _)) as (t & T1 & T2).
  assert (t = []) as -> by (destruct t; [reflexivity|apply f_equal with (f := @length message) in T1; rewrite app_length in T1; cbn in T1; lia]). inversion T2; subst mid'.
  unfold n_taken in L. pose proof (P3 d) as X. 
  destruct (decodes_fun 5 _ _ _ _ ltac:(lia) D2 _ _ D2') as (t & T3 & _); [rewrite X, app_length; lia|]. rewrite T3 in X.
  assert (exists u, taken (other d) (hist (st i)) = ms ++ u) as (u & ->).
  { apply f_equal with (f := firstn (length (taken (other d) (hist (st i))))) in X. rewrite (firstn_app _ (taken (other d) (hist (st i)))), Nat.sub_diag, firstn_all, firstn_O, app_nil_r in X.
    exists (firstn (length (taken (other d) (hist (st i))) - length ms) t). etransitivity; [symmetry; exact X|]. rewrite firstn_app. f_equal. apply firstn_all2. exact L. }
  exists (concat (map SendMessage u)). rewrite map_app, concat_app, app_assoc. reflexivity.
Qed.
End Live.

Lemma execution_reach st lb : execution step st lb -> reachable step init (st 0%nat) -> forall i, reachable step init (st i).
Proof. intros EX R0 i. induction i as [|i IH]; [exact R0|]. pose proof (EX i) as X. destruct (lb i) as [l|]; [exact (reachable_step _ _ _ _ _ IH X)|rewrite X; exact IH]. Qed.

(** *** What ends a healthy session's health *)
Lemma unhealthy s l s' : reachable step init s -> healthy s -> step s l = Some s' -> ~ healthy s' ->
  (exists d c, l = LRecv d /\ conns s d = Some c /\ forall m r, RecvMessage (rd c) <> Done (Ok m) r) \/ (exists d e, l = LWriteErr d e) \/ (exists t r, l = LClose t r).
Proof.
  intros R HH H N. pose proof (healthy_facts _ R HH) as [F1 F2 F3 F4 F5 F6]. destruct HH as (Hst & Hc & Hcr & Hex). unfold healthy in N.
  assert (all_exited s = false) as AE.
  { unfold all_exited. destruct (F1 Client) as [X|(m & X)]; rewrite X; reflexivity. }
  dstep H; try (rewrite Hst in *; discriminate); cbn in N; try (rewrite F4 in *; discriminate); try (rewrite F5 in *; discriminate); try discriminate AE; eauto; try (exfalso; apply N; repeat split; assumption).
  all: left; do 2 eexists; split; [reflexivity|]; split; [eassumption|]; destruct (F6 d) as (r0 & Er); match goal with E : recv_on _ ?c = _, E' : conns _ _ = Some ?c |- _ => rewrite Er in E'; injection E' as <-; unfold recv_on in E; cbn in E; cbn; rewrite E; discriminate end.
Qed.
