(** Order and integrity of the two message pipelines. *)
From Verif Require Import BufferProofs FrameProofs FrameFacts ConnProofs ConnFacts.
From Verif Require Export SessionProofs.
Require Import Lia.

Definition in_hand (p : ppc) (d : side) : list message :=
  match p with PSend d' m => if side_eqb d d' then [m] else [] | _ => [] end.
Definition in_pump (p : ipc) : list message := match p with ISend m => [m] | _ => [] end.
(** the messages received from [d] and not yet taken by the out pump of the other side *)
Definition in_flight (s : state) (d : side) : list message :=
  queue (chan_out s (other d)) ++ in_hand (proc_pc s) d ++ queue (chan_in s d) ++ in_pump (in_pc s d).
Definition pipe_inv (s : state) : Prop := forall d, msgs d (hist s) = taken (other d) (hist s) ++ in_flight s d.

Ltac pipe_rw := repeat match goal with
  | E : in_pc _ _ = _ |- _ => rewrite E in *; clear E
  | E : proc_pc _ = _ |- _ => rewrite E in *; clear E
  | E : queue _ = _ |- _ => rewrite E in *; clear E end.
Lemma pipe_step s l s' : phase_inv s -> pipe_inv s -> step s l = Some s' -> pipe_inv s'.
Proof.
  intros HP HI H. dstep H. all: pose proof (ph_phase _ HP) as H2; clear HP; intros d'; pose proof (HI d') as HI'; clear HI.
  all: repeat match goal with E : start_pc _ = SSend _ |- _ => rewrite E in H2; destruct H2 as [(? & ? & ? & ? & ?) _] end.
  all: sides; cbn in *; unfold in_flight, supd in *; cbn in *.
  all: pipe_rw; cbn in *; rewrite ?app_nil_r in *.
  all: try exact HI'.
  all: rewrite ?HI', <- ?app_assoc; cbn; try reflexivity.
Qed.
Lemma pipe_init : pipe_inv NewSession.
Proof. intros []; reflexivity. Qed.

(** *** Negotiation *)
Definition nothing_dialled (h : list event) : Prop := dials h = [] /\ connected h = false.
Definition ended (h : list event) : Prop :=
  nothing_dialled h /\ (length (configs h) <= 1)%nat /\
    (exists reqs rest, startups h = reqs ++ rest /\ Forall ssl_request reqs /\ (length rest <= 1)%nat /\ Forall (fun m => is_ssl m = false) rest) \/
  exists p ps, accepted h p ps /\ dials h = [address p].
Definition nego_ok (s : state) : Prop :=
  let h := hist s in
  match start_pc s with
  | SIdle | SEntry => startups h = [] /\ configs h = [] /\ cached s = None /\ nothing_dialled h
  | SRecv | SDeny _ => Forall ssl_request (startups h) /\ configs h = [] /\ cached s = None /\ nothing_dialled h
  | SGet (WDatabase v ps) => v = 196608 /\ (exists reqs, Forall ssl_request reqs /\ startups h = reqs ++ [StartupMessage v ps]) /\
      configs h = [] /\ cached s = None /\ nothing_dialled h
  | SGet (WHost m) => exists p ps, m = StartupMessage 196608 ps /\ accepted h p ps /\ cached s = Some p /\ nothing_dialled h
  | SGet (WPort m host) => exists p ps, m = StartupMessage 196608 ps /\ accepted h p ps /\ cached s = Some p /\ nothing_dialled h /\ host = get p (str "host")
  | SDial m addr => exists p ps, m = StartupMessage 196608 ps /\ accepted h p ps /\ dials h = [addr] /\ addr = address p /\ connected h = false
  | SSend _ | SWait => exists p ps, accepted h p ps /\ dials h = [address p] /\ connected h = true
  | SDefer _ | SDone _ =>
      ended h
  end.
Lemma ended_pre h : Forall ssl_request (startups h) -> (length (configs h) <= 1)%nat -> nothing_dialled h -> ended h.
Proof. intros H1 H2 H3. left. split; [exact H3|]. split; [exact H2|]. exists (startups h), []. rewrite app_nil_r. cbn. auto. Qed.
Lemma ended_last h reqs m : startups h = reqs ++ [m] -> Forall ssl_request reqs -> is_ssl m = false -> (length (configs h) <= 1)%nat -> nothing_dialled h -> ended h.
Proof. intros H1 H2 H3 H4 H5. left. split; [exact H5|]. split; [exact H4|]. exists reqs, [m]. rewrite H1. cbn. auto. Qed.
Lemma ended_acc h p ps : accepted h p ps -> nothing_dialled h \/ dials h = [address p] -> ended h.
Proof.
  intros Ha [Hn|Hd]; [|right; eauto]. destruct Ha as ((reqs & H1 & H2) & (E & cfg & Hc & _) & _).
  eapply ended_last; [exact H2|exact H1|reflexivity|rewrite Hc; cbn; lia|exact Hn].
Qed.
Lemma join_address p : JoinHostPort (get p (str "host")) (get p (str "port")) = address p.
Proof.
  unfold JoinHostPort, address, has_colon. destruct (in_dec Byte.byte_eq_dec ":"%byte (get p (str "host"))) as [Hi|Hi].
  - replace (existsb _ _) with true; [reflexivity|]. symmetry. apply existsb_exists. exists ":"%byte. split; [exact Hi|reflexivity].
  - replace (existsb _ _) with false; [reflexivity|]. symmetry. apply not_true_iff_false. intros E. apply existsb_exists in E.
    destruct E as (c & Hc & E). destruct (byte_eqb_spec c ":"%byte) as [->|]; [contradiction|discriminate].
Qed.
Lemma nego_step s l s' : nego_ok s -> step s l = Some s' -> nego_ok s'.
Proof.
  intros HI H. dstep H. all: unfold nego_ok in *; cbn in *.
  all: repeat match goal with E : start_pc _ = _ |- _ => rewrite E in * end; cbn in *.
  all: try exact HI.
  all: try solve [destruct (start_pc s) as [| | | |[]| | | | |]; cbn in *; try exact HI; unfold ended, accepted, configured, nothing_dialled in *; cbn; exact HI].
  all: repeat match goal with E : (_ =? _) = true |- _ => apply Z.eqb_eq in E end.
  all: try match goal with E : bytes_eqb ?a ?b = true |- _ => destruct (bytes_eqb_spec a b) as [?Eb|_]; [clear E|discriminate E] end.
  all: try match type of HI with _ /\ _ /\ _ /\ _ => destruct HI as (H1 & H2 & H3 & H4) end.
  all: try solve [apply ended_pre; cbn; rewrite ?H1, ?H2; cbn; auto; lia].
  all: try solve [rewrite ?H1; auto].
  - split; [|auto]. apply Forall_app. split; [exact H1|]. constructor; [|constructor]. eexists. f_equal. assumption.
  - apply (ended_last _ (startups (hist s)) (StartupMessage version params)); cbn; [reflexivity|exact H1| |rewrite H2; cbn; lia|exact H4].
    match goal with E : (_ =? SSLRequestMagic) = false |- _ => exact E end.
  - split; [match goal with E : negb _ = false |- _ => apply negb_false_iff, Z.eqb_eq in E; exact E end|]. split; [exists (startups (hist s)); auto|auto].
  - destruct H4 as [X _]. congruence.
  - destruct H4 as [X _]. congruence.
  - destruct HI as (p' & ps & Hm & Ha & Hc & Hd). exists p', ps. assert (p' = p) as -> by congruence. auto.
  - destruct HI as (p' & ps & Hm & Ha & Hc & Hd & Hh). exists p', ps. assert (p' = p) as -> by congruence. destruct Hd as [Hd Hd']. rewrite Hd.
    subst host. split; [exact Hm|]. split; [exact Ha|]. split; [reflexivity|]. split; [apply join_address|exact Hd'].
  - destruct HI as (p & ps & Ha & Hd & _). eapply ended_acc; eauto.
  - destruct HI as (p & ps & Ha & Hd & _). eapply ended_acc; eauto.
  - destruct H2 as (reqs & Hr & Hs). destruct H4 as [_ Hd]. exists a0, ps. subst v. split; [reflexivity|]. split; [|auto].
    split; [exists reqs; auto|]. split; [|assumption]. exists E, a. cbn. rewrite H3. auto.
  - destruct H2 as (reqs & Hr & Hs). destruct H4 as [_ Hd]. subst v.
    eapply ended_last; cbn; [exact Hs|exact Hr|reflexivity|rewrite H3; cbn; lia|exact Hd].
  - destruct HI as (p & ps & _ & _ & X & _). congruence.
  - destruct HI as (p & ps & _ & _ & X & _). congruence.
  - destruct w.
    + destruct HI as (-> & (reqs & Hr & Hs) & Hc & _ & Hd). eapply ended_last; cbn; [exact Hs|exact Hr|reflexivity|rewrite Hc; cbn; lia|exact Hd].
    + destruct HI as (p & ps & _ & _ & X & _). congruence.
    + destruct HI as (p & ps & _ & _ & X & _). congruence.
  - destruct w.
    + destruct HI as (-> & (reqs & Hr & Hs) & Hc & _ & Hd). eapply ended_last; cbn; [exact Hs|exact Hr|reflexivity|rewrite Hc; cbn; lia|exact Hd].
    + destruct HI as (p & ps & _ & _ & X & _). congruence.
    + destruct HI as (p & ps & _ & _ & X & _). congruence.
  - destruct HI as (p & ps & Hm & Ha & Hd & -> & Hc). eapply ended_acc; eauto.
  - destruct HI as (p & ps & Hm & Ha & Hd & -> & Hc). exists p, ps. auto.
Qed.

(** *** What has been handed to the peers *)
Definition total (d : side) (h : list event) : bytes := base d h ++ concat (map SendMessage (taken d h)).
Definition out_ok (s : state) (d : side) : Prop :=
  let h := hist s in
  match out_pc s d with
  | OTake => sent d h = total d h
  | OWrite rest => sent d h ++ rest = total d h
  | OExit => prefix_of (sent d h) (total d h)
  | OOff => taken d h = [] /\
      match start_pc s, d with
      | SDeny rest, Client => sent d h ++ rest = total d h
      | SSend rest, DB => sent d h ++ rest = total d h
      | SDefer _, _ | SDone _, _ => prefix_of (sent d h) (total d h)
      | _, _ => sent d h = total d h
      end
  end.
Lemma prefix_refl a : prefix_of a a.
Proof. exists []. rewrite app_nil_r. reflexivity. Qed.
Lemma prefix_intro a b c : a ++ b = c -> prefix_of a c.
Proof. intros <-. eexists. reflexivity. Qed.
Lemma ssl_count_app a b : ssl_count (a ++ b) = (ssl_count a + ssl_count b)%nat.
Proof. unfold ssl_count. rewrite filter_app, app_length. reflexivity. Qed.
Lemma write_split n (rest : bytes) : firstn n rest ++ skipn n rest = rest.
Proof. apply firstn_skipn. Qed.
Lemma total_take d h m : total d (HTake d m :: h) = total d h ++ SendMessage m.
Proof. unfold total. destruct d; cbn; rewrite map_app, concat_app; cbn; rewrite app_nil_r, app_assoc; reflexivity. Qed.

Lemma total_hist d e h : (forall m, e <> HTake d m) -> (d = Client -> forall m, e <> HStartup m) ->
  (d = DB -> e <> HConnected /\ (forall m, e = HStartup m -> connected h = false)) -> total d (e :: h) = total d h.
Proof.
  intros H1 H2 H3. unfold total, base. destruct d, e; cbn; try reflexivity; try tauto;
    try (exfalso; eapply H2; reflexivity); try (rewrite (proj2 (H3 eq_refl) _ eq_refl); reflexivity).
  - destruct d; [exfalso; eapply H1; reflexivity|]. cbn. rewrite app_nil_r. reflexivity.
  - destruct d; [|exfalso; eapply H1; reflexivity]. cbn. rewrite app_nil_r. reflexivity.
Qed.
#[global] Arguments total : simpl never.
Lemma total_startup h v ps : taken Client h = [] ->
  total Client (HStartup (StartupMessage v ps) :: h) = total Client h ++ if Z.eqb v 80877103 then ["N"%byte] else [].
Proof.
  intros E. unfold total, base. cbn [startups taken]. rewrite E, ssl_count_app. cbn [map concat]. rewrite !app_nil_r.
  unfold ssl_count at 2. cbn [filter is_ssl]. destruct (Z.eqb v 80877103); cbn [length]; [|rewrite Nat.add_0_r, app_nil_r; reflexivity].
  rewrite repeat_app. reflexivity.
Qed.

Lemma out_step s l s' : phase_inv s -> nego_ok s -> (forall d, out_ok s d) -> step s l = Some s' -> forall d, out_ok s' d.
Proof.
  intros HP HN HO H. dstep H. all: intros d'; pose proof (HO d') as HO'; clear HO; pose proof (ph_phase _ HP) as H2.
  all: repeat match goal with E : start_pc _ = _ |- _ => rewrite E in H2; revert E end; intros.
  all: sides; unfold out_ok in *; cbn in *; unfold supd; cbn.
  all: try match type of H2 with off _ /\ _ => destruct H2 as [(? & ? & ?Oc & ?Od & ?) ?Hc] end.
  all: repeat match goal with E : start_pc _ = _ |- _ => rewrite E in HO' | E : out_pc _ _ = _ |- _ => rewrite E in HO' end.
  all: repeat match goal with E : start_pc _ = _ |- _ => rewrite E | E : out_pc _ _ = _ |- _ => rewrite E end.
  all: try exact HO'.
  all: rewrite ?(total_hist _ (HExit _ _)), ?(total_hist _ (HStartRet _)), ?(total_hist _ (HSent _ _)), ?(total_hist _ (HConfig _ _)), ?(total_hist _ (HDial _)) by (intros; try discriminate; split; intros; discriminate).
  all: try exact HO'.
  all: try match type of HO' with _ /\ _ => destruct HO' as [Htk HO']; try (split; [exact Htk|]) end.
  all: try exact HO'.
  all: try solve [rewrite <- HO'; apply prefix_refl].
  all: try solve [eapply prefix_intro; exact HO'].
  all: try rewrite <- app_assoc; rewrite ?app_nil_r.
  all: try solve [repeat match goal with E : skipn ?n ?r = _ |- _ => rewrite <- E; clear E end; rewrite write_split; exact HO'].
  all: try solve [rewrite (total_startup _ _ _ Htk); match goal with E : (_ =? _) = _ |- _ => rewrite <- ?HO'; unfold SSLRequestMagic in E; rewrite E; rewrite ?app_nil_r; try reflexivity end; apply prefix_refl].
  all: try exact HO'; try apply prefix_refl.
  all: rewrite ?(total_hist Client (HTake DB _)), ?(total_hist DB (HTake Client _)) by (intros; try discriminate; split; intros; discriminate).
  all: try exact HO'.
  all: try match goal with E : skipn ?n ?r = [] |- _ => pose proof (write_split n r) as X; rewrite E, app_nil_r in X; rewrite X; exact HO' end.
  all: try solve [unfold nego_ok in HN; match goal with E : start_pc _ = SRecv |- _ => rewrite E in HN end; destruct HN as (_ & _ & _ & _ & Hcf);
     rewrite total_hist by (intros; try discriminate; split; intros; [discriminate|exact Hcf]); rewrite <- ?HO'; try apply prefix_refl; reflexivity].
  all: try solve [exitd; match goal with E : exited _ |- _ => destruct E as (_ & _ & Ec & Ed & _); rewrite ?Ec, ?Ed in *; exact HO' end].
  all: try solve [rewrite total_take, <- HO'; reflexivity].
  - unfold nego_ok in HN. rewrite Heqs0 in HN. destruct HN as (_ & _ & _ & _ & Hcf).
    rewrite total_hist; [exact HO'|discriminate|discriminate|]. intros _. split; [discriminate|intros; exact Hcf].
  - unfold nego_ok in HN. rewrite Heqs0 in HN. destruct HN as (_ & _ & _ & _ & Hcf).
    rewrite total_hist; [rewrite <- HO'; apply prefix_refl|discriminate|discriminate|]. intros _. split; [discriminate|intros; exact Hcf].
  - unfold nego_ok in HN. rewrite Heqs0 in HN. destruct HN as (_ & _ & _ & _ & Hcf).
    rewrite total_hist; [exact HO'|discriminate|discriminate|]. intros _. split; [discriminate|intros; exact Hcf].
  - unfold nego_ok in HN. rewrite Heqs0 in HN. destruct HN as (p & ps & -> & ((reqs & _ & Hs) & _) & _ & _ & Hcf).
    rewrite HO'. unfold total, base. cbn [connected taken startups]. rewrite Hcf, Htk, Hs, last_last. cbn [map concat]. rewrite !app_nil_r. reflexivity.
Qed.
Lemma nego_init : nego_ok NewSession.
Proof. unfold nego_ok, nothing_dialled. cbn. auto. Qed.
Lemma out_init d : out_ok NewSession d.
Proof. destruct d; cbn; auto. Qed.
Record pipes (s : state) : Prop := {
  pp_phase : phase_inv s;
  pp_close : close_inv s;
  pp_pipe : pipe_inv s;
  pp_nego : nego_ok s;
  pp_out : forall d, out_ok s d }.
Lemma pipes_step s l s' : pipes s -> step s l = Some s' -> pipes s'.
Proof.
  intros [H1 H2 H3 H4 H5] H. constructor; eauto using phase_step, close_step, pipe_step, nego_step. eapply out_step; eassumption.
Qed.
Lemma reachable_pipes s : reachable step init s -> pipes s.
Proof.
  apply reachable_invariant; [|apply pipes_step]. intros ? ->. constructor; auto using phase_init, close_init, pipe_init, nego_init, out_init.
Qed.
