(** Consequences of the invariants, progress. *)
From Verif Require Import BufferProofs FrameProofs FrameFacts ConnProofs ConnFacts.
From Verif Require Export SessionLife.
Require Import Lia.

(** *** The log *)
Definition log_ok (s : state) : Prop := forall d,
  logged d (hist s) = map SendMessage (taken (other d) (hist s) ++ queue (chan_out s (other d)) ++ in_hand (proc_pc s) d).
Lemma log_step s l s' : phase_inv s -> log_ok s -> step s l = Some s' -> log_ok s'.
Proof.
  intros HP HI H. dstep H. all: pose proof (ph_phase _ HP) as H2; clear HP; intros d'; pose proof (HI d') as HI'; clear HI.
  all: repeat match goal with E : start_pc _ = SSend _ |- _ => rewrite E in H2; destruct H2 as [(? & ? & ? & ? & ?) _] end.
  all: sides; cbn in *; unfold supd in *; cbn in *.
  all: pipe_rw; cbn in *; rewrite ?app_nil_r in *.
  all: try exact HI'.
  all: rewrite ?HI', <- ?app_assoc; cbn; try reflexivity.
  all: rewrite ?map_app; cbn; unfold SendMessage; rewrite <- ?app_assoc; reflexivity.
Qed.
Lemma log_init : log_ok NewSession.
Proof. intros []; reflexivity. Qed.

(** *** Capacity *)
Definition cap_ok (s : state) : Prop := forall d, (length (queue (chan_in s d)) <= capacity /\ length (queue (chan_out s d)) <= capacity)%nat.
Lemma cap_step s l s' : cap_ok s -> step s l = Some s' -> cap_ok s'.
Proof.
  intros HI H. dstep H. all: intros d'; pose proof (HI d') as HI'; clear HI.
  all: sides; cbn in *; unfold supd in *; cbn in *; try exact HI'.
  all: repeat match goal with E : Nat.ltb _ _ = true |- _ => apply Nat.ltb_lt in E end.
  all: repeat match goal with E : queue _ = _ |- _ => rewrite E in *; cbn in * end.
  all: rewrite ?app_length; cbn; lia.
Qed.
Lemma cap_init : cap_ok NewSession.
Proof. intros d. cbn. unfold capacity. lia. Qed.

(** *** How far the writes lag behind *)
Definition before_last (d : side) (h : list event) : bytes := base d h ++ concat (map SendMessage (removelast (taken d h))).
Definition lag_ok (s : state) (d : side) : Prop :=
  match out_pc s d with
  | OWrite rest => exists ms m a, taken d (hist s) = ms ++ [m] /\ SendMessage m = a ++ rest
  | OExit => prefix_of (before_last d (hist s)) (sent d (hist s))
  | _ => True
  end.
Lemma lag_bound s d : out_ok s d -> lag_ok s d -> out_pc s d <> OOff -> prefix_of (before_last d (hist s)) (sent d (hist s)).
Proof.
  unfold out_ok, lag_ok, before_last, total. destruct (out_pc s d); [congruence| | |].
  - intros -> _ _. destruct (taken d (hist s)) as [|m ms] eqn:E; [exists []; cbn; rewrite !app_nil_r; reflexivity|].
    assert (m :: ms <> []) as Hne by discriminate. rewrite (app_removelast_last Terminate Hne) at 2. rewrite map_app, concat_app.
    eexists. rewrite <- app_assoc. reflexivity.
  - intros H1 (ms & m & a & E & H2) _. rewrite E in *. rewrite removelast_last. rewrite map_app, concat_app in H1. cbn in H1. rewrite app_nil_r, H2, !app_assoc in H1.
    apply app_inv_tail in H1. exists a. rewrite <- app_assoc in H1. rewrite <- app_assoc. exact H1.
  - auto.
Qed.
Lemma base_hist d e h : (d = Client -> forall m, e <> HStartup m) ->
  (d = DB -> e <> HConnected /\ (forall m, e = HStartup m -> connected h = false)) -> base d (e :: h) = base d h.
Proof.
  intros H2 H3. unfold base. destruct d, e; cbn; try reflexivity; try tauto;
    try (exfalso; eapply H2; reflexivity); try (rewrite (proj2 (H3 eq_refl) _ eq_refl); reflexivity).
Qed.
Lemma lag_step s l s' : phase_inv s -> (forall d, out_ok s d) -> (forall d, lag_ok s d) -> step s l = Some s' -> forall d, lag_ok s' d.
Proof.
  intros HP HO HI H. dstep H. all: intros d'; pose proof (HI d') as HI'; pose proof (HO d') as HO'; clear HI HO; pose proof (ph_phase _ HP) as H2; clear HP.
  all: try match type of H2 with off _ /\ _ => destruct H2 as [(? & ? & ?Oc & ?Od & ?) ?Hc] end.
  all: repeat match goal with E : start_pc _ = _ |- _ => rewrite E in H2; destruct H2 as [(? & ? & ?Oc & ?Od & ?) ?Hc] end.
  all: sides; unfold lag_ok in *; cbn in *; unfold supd; cbn.
  all: repeat match goal with E : out_pc _ _ = _ |- _ => rewrite E in HI' | E : out_pc _ _ = _ |- _ => rewrite E end.
  all: rewrite ?app_nil_r; try exact HI'; try exact I.
  all: try (destruct (out_pc s _) eqn:?Eo; [exact I|exact I|exact HI'|]).
  all: try (refine (lag_bound s _ HO' _ _); unfold lag_ok; match goal with E : out_pc _ _ = _ |- _ => rewrite E end; [exact HI'|discriminate]).
  1-2: eexists _, m, []; split; reflexivity.
  all: destruct HI' as (ms & m & a & E1 & E2); exists ms, m; match goal with E : skipn ?k ?r = _ |- _ => exists (a ++ firstn k r); rewrite <- E, <- app_assoc, write_split end; auto.
Qed.
Lemma lag_init d : lag_ok NewSession d.
Proof. exact I. Qed.

(** *** Termination of the internal steps *)
Definition weight (k : nat) (ms : list message) : nat := list_sum (map (fun m => length (SendMessage m) + k)%nat ms).
Definition in_weight (p : ipc) : nat := match p with ISend m => length (SendMessage m) + 8 | IRecv => 1 | _ => 0 end.
Definition out_weight (p : opc) : nat := match p with OWrite rest => length rest + 2 | OTake => 1 | _ => 0 end.
Definition proc_weight (p : ppc) : nat := match p with PSend _ m => length (SendMessage m) + 5 | PSelect => 1 | _ => 0 end.
Definition unread_weight (c : option conn) : nat := match c with Some c => 3 * length (concat (chunks (rd c))) | None => 0 end.
Definition side_weight (s : state) (d : side) : nat :=
  unread_weight (conns s d) + in_weight (in_pc s d) + weight 6 (queue (chan_in s d)) + weight 3 (queue (chan_out s d)) + out_weight (out_pc s d).
Definition work (s : state) : nat :=
  side_weight s Client + side_weight s DB + proc_weight (proc_pc s) + match crashed s with None => 1 | Some _ => 0 end.
Lemma weight_app k a b : weight k (a ++ b) = (weight k a + weight k b)%nat.
Proof. unfold weight. rewrite map_app, list_sum_app. reflexivity. Qed.
Lemma weight_cons k m b : weight k (m :: b) = (length (SendMessage m) + k + weight k b)%nat.
Proof. reflexivity. Qed.
Lemma recv_size r m r' : RecvMessage r = Done (Ok m) r' ->
  (length (SendMessage m) + length (concat (chunks r')) <= length (concat (chunks r)) /\ 5 + length (concat (chunks r')) <= length (concat (chunks r)))%nat.
Proof.
  intros H. destruct (forwarding_prefix _ _ _ H) as (t & len & kept & dropped & E & El & Ef).
  rewrite E. unfold SendMessage. rewrite Ef, bytes_of_frame. cbn [length]. rewrite !app_length, El.
  assert (length (put_uint32 (uwrap32 (wrap32 (Z.of_nat (length kept) + 4)))) = 4%nat) as -> by reflexivity. lia.
Qed.
Lemma recv_size_any r x r' : RecvMessage r = Done x r' -> (length (concat (chunks r')) <= length (concat (chunks r)))%nat.
Proof.
  unfold RecvMessage. destruct (ReadStandardFrame r) as [|y r1] eqn:E; [discriminate|]. intros H. injection H as _ <-.
  destruct (ReadStandardFrame_inv _ _ _ E) as (Hf & [(f & -> & (tag & len & body & L & -> & _))|(e & -> & _ & _ & ->)]); [rewrite app_length; lia|cbn; lia].
Qed.
#[global] Arguments weight : simpl never.
Lemma work_step s l s' : step s l = Some s' -> internal l = true -> (work s' < work s)%nat.
Proof.
  intros H Hl. dstep H. all: try discriminate Hl. all: clear Hl. all: unfold work, side_weight; cbn.
  all: repeat match goal with E : crashed _ = _ |- _ => rewrite E; clear E end.
  all: sides; cbn in *; unfold supd; cbn.
  all: repeat match goal with E : in_pc _ _ = _ |- _ => rewrite E; clear E | E : out_pc _ _ = _ |- _ => rewrite E; clear E | E : proc_pc _ = _ |- _ => rewrite E; clear E
    | E : queue _ = _ |- _ => rewrite E; clear E | E : conns _ _ = _ |- _ => rewrite E; clear E end; cbn [in_weight out_weight proc_weight].
  all: rewrite ?weight_app, ?weight_cons; change (weight 3 []) with 0%nat; change (weight 6 []) with 0%nat.
  all: try lia.
  all: try match goal with E : recv_on RecvMessage ?c = Done (Ok _) _ |- _ => unfold recv_on in E; destruct (is_open c); [|discriminate E]; apply recv_size in E end.
  all: try match goal with E : recv_on RecvMessage ?c = Done (Err _) _ |- _ => unfold recv_on in E; destruct (is_open c); [apply recv_size_any in E|injection E as _ <-] end.
  all: try (cbn [unread_weight]; lia).
  all: match goal with E : skipn ?n ?r = _ |- _ => apply f_equal with (f := @length byte) in E; rewrite skipn_length in E; cbn in E end.
  all: match goal with E : write_ok _ _ = true |- _ => unfold write_ok in E; apply andb_true_iff in E; destruct E as [E1 E2]; apply Nat.leb_le in E1;
    apply orb_true_iff in E2; destruct E2 as [E2|E2]; [apply Nat.eqb_eq in E2|apply negb_true_iff, Nat.eqb_neq in E2] end; lia.
Qed.
Lemma internal_bounded s ls s' : run step s ls = Some s' -> Forall (fun l => internal l = true) ls -> (length ls + work s' <= work s)%nat.
Proof.
  revert s. induction ls as [|l ls IH]; cbn; intros s H F; [injection H as <-; lia|]. destruct (step s l) as [s1|] eqn:E; [|discriminate]. inversion F; subst.
  pose proof (work_step _ _ _ E ltac:(assumption)). specialize (IH _ H ltac:(assumption)). lia.
Qed.

(** *** Quiescence *)
Lemma frame_at_dec hdr s : (4 <= hdr)%nat -> (exists f rest, frame_at hdr s f rest) \/ frame_incomplete hdr s.
Proof. apply frame_total. Qed.
Lemma recv_blocked r : RecvMessage r = Blocked -> frame_incomplete 5 (concat (chunks r)) /\ fin r = None.
Proof.
  unfold RecvMessage. intros H. destruct (frame_total 5 (concat (chunks r)) ltac:(lia)) as [(f & rest & Hf)|Hi].
  - destruct (ReadStandardFrame_ok _ _ _ Hf) as (r' & E & _). rewrite E in H. discriminate.
  - split; [exact Hi|]. pose proof (ReadStandardFrame_short _ Hi) as X. destruct (fin r); [|reflexivity]. destruct X as (r' & E & _). rewrite E in H. discriminate.
Qed.
Lemma quiescent_done s : all_inv s -> healthy s -> quiescent s -> forall d,
  taken (other d) (hist s) = msgs d (hist s) /\ sent (other d) (hist s) = total (other d) (hist s) /\
  exists mid rest, decodes_startup (arrived d (hist s)) (match d with Client => startups (hist s) | DB => [] end) mid /\
    decodes_standard mid (msgs d (hist s)) rest /\ frame_incomplete 5 rest.
Proof.
  intros HA (Hst & Hc & Hcr & Hex) HQ.
  destruct HA as [[P1 P2 P3 P4 P5] HD HL HB HO HC H1]. pose proof (ph_phase _ P1) as Hph. rewrite Hst in Hph. destruct Hph as [Hon Hdb].
  assert (forall d, in_pc s d <> IExit /\ out_pc s d <> OExit) as Hng.
  { intros d. split; intros X; [apply (li_gone _ HL (GIn d)) in X|apply (li_gone _ HL (GOut d)) in X]; rewrite Hex in X; destruct X. }
  assert (proc_pc s <> PExit) as Hnp by (intros X; apply (li_gone _ HL GProc) in X; rewrite Hex in X; destruct X).
  destruct (ki_init _ P2 Hc) as [Hsh _]. unfold shut in Hsh. cbn in Hsh. injection Hsh as Ho C1 C2 C3 C4.
  assert (forall d, exists c, conns s d = Some c /\ is_open c = true) as Hcn.
  { intros []; [destruct (conns s Client) as [c|] eqn:E; [|discriminate Ho]; injection Ho as Ho; eauto|].
    destruct (conns s DB) as [c|] eqn:E; [|congruence]. exists c. split; [reflexivity|]. apply (HO c E Hc). }
  assert (forall d, out_pc s d = OTake /\ queue (chan_out s d) = []) as Hout.
  { intros d. destruct (out_pc s d) eqn:E.
    - exfalso. unfold on in Hon. destruct d; intuition congruence.
    - split; [reflexivity|]. specialize (HQ (LTake d) eq_refl). unfold step in HQ. rewrite Hcr, E in HQ. destruct (queue (chan_out s d)); [reflexivity|discriminate].
    - exfalso. destruct (Hcn d) as (c & Ec & Eo). specialize (HQ (LWrite d (length rest)) eq_refl). unfold step in HQ. rewrite Hcr, E, Ec in HQ.
      destruct c as [r o]. cbn in Eo. subst o. assert (write_ok (length rest) rest = true) as Ew.
      { unfold write_ok. rewrite Nat.leb_refl. cbn. destruct rest; reflexivity. }
      rewrite Ew in HQ. discriminate.
    - destruct (Hng d). congruence. }
  assert (proc_pc s = PSelect) as Hproc.
  { destruct (proc_pc s) eqn:E; try reflexivity; [unfold on in Hon; intuition congruence| |congruence].
    exfalso. specialize (HQ LProc eq_refl). unfold step in HQ. rewrite Hcr, E in HQ. destruct (Hout (other from)) as [_ X]. rewrite X in HQ.
    destruct from; cbn [other] in HQ; rewrite ?C2, ?C4 in HQ; discriminate HQ. }
  assert (forall d, queue (chan_in s d) = []) as Hin.
  { intros d. specialize (HQ (LSelect d) eq_refl). unfold step in HQ. rewrite Hcr, Hproc in HQ. destruct (queue (chan_in s d)); [reflexivity|discriminate]. }
  assert (forall d, in_pc s d = IRecv) as Hir.
  { intros d. destruct (in_pc s d) eqn:E; try reflexivity; [unfold on in Hon; destruct d; intuition congruence| |destruct (Hng d); congruence].
    exfalso. specialize (HQ (LIn d) eq_refl). unfold step in HQ. rewrite Hcr, E, Hin in HQ. destruct d; rewrite ?C1, ?C3 in HQ; discriminate HQ. }
  intros d. split; [|split].
  - pose proof (P3 d) as X. unfold in_flight in X. rewrite Hproc, Hin, Hir in X. destruct (Hout (other d)) as [_ Y]. rewrite Y in X. cbn in X. rewrite app_nil_r in X. auto.
  - pose proof (P5 (other d)) as X. unfold out_ok in X. destruct (Hout (other d)) as [Y _]. rewrite Y in X. exact X.
  - destruct (HD d) as [_ (mid & rest & D1 & D2 & D3)]. exists mid, rest. split; [exact D1|]. split; [exact D2|].
    destruct (Hcn d) as (c & Ec & Eo). unfold reading, unread in D3. rewrite Hir, Hst, Ec in D3. specialize (D3 ltac:(split; [discriminate|exact I])).
    specialize (HQ (LRecv d) eq_refl). unfold step in HQ. rewrite Hcr, Hir, Ec in HQ. unfold recv_on in HQ. rewrite Eo in HQ.
    destruct (RecvMessage (rd c)) as [|x r'] eqn:Er; [|destruct x; discriminate HQ]. apply recv_blocked in Er. destruct Er as [Er1 Er2].
    destruct D3 as [<-|[_ X]]; [exact Er1|congruence].
Qed.
