(** Conforming traffic, and what happens without Close or without a reading client. *)
From Verif Require Import BufferProofs FrameProofs FrameFacts ConnProofs ConnFacts.
From Verif Require Export SessionFacts.
Require Import Lia.

Lemma conform_decode (P : bytes -> Prop) (HP : forall l rest r, P l -> stream r (l ++ rest) ->
    exists m r', RecvMessage r = Done (Ok m) r' /\ stream r' rest /\ fin r' = fin r /\ SendMessage m = l) :
  forall s ms rest, decodes_standard s ms rest -> forall more ls, s ++ more = concat ls -> Forall P ls -> s = concat (map SendMessage ms) ++ rest.
Proof.
  induction 1 as [s|s f s' m ms rest Hf Hm Hd IH]; intros more ls E F; [reflexivity|].
  apply frame_at_more with (b := more) in Hf as Hf'. rewrite E in Hf'.
  inversion F as [|l ls' Hl Hls]; subst; [apply frame_at_nil in Hf'; [destruct Hf'|lia]|]. cbn [concat] in *.
  destruct (HP l (concat ls') (Reader [l ++ concat ls'] None) Hl) as (m' & r' & Er & Es & _ & Em).
  { unfold stream. cbn. apply app_nil_r. }
  apply recv_inv in Er. destruct Er as (_ & f' & Ef & Ed). cbn in Ef. rewrite app_nil_r in Ef. unfold stream in Es. rewrite Es in Ef.
  destruct (frame_at_fun _ _ _ _ _ _ Hf' Ef) as [<- E']. cbn in Hm. rewrite Ed in Hm. injection Hm as ->.
  specialize (IH _ _ E' Hls). destruct Hf as (tag & len & body & L & Hs & _). subst s. cbn. rewrite <- app_assoc, <- IH. f_equal.
  rewrite <- app_assoc, E' in E. apply app_inv_tail in E. congruence.
Qed.
Lemma recv_startup_wire v ps l rest r : startup_wire v ps l -> stream r (l ++ rest) ->
  exists r', RecvStartupMessage r = Done (Ok (StartupMessage v ps)) r' /\ stream r' rest /\ fin r' = fin r /\ SendMessage (StartupMessage v ps) = l.
Proof.
  intros (body & He & len & Hlen & ->) H.
  assert (Z.of_nat (length body) + 4 < 2 ^ 31) as Hb by (destruct Hlen as (_ & [_ X] & _); exact X).
  assert (len ++ body = Bytes (NewStartupFrame body)) as El.
  { rewrite NewStartupFrame_bytes. f_equal. eapply int_repr_inj; [exact Hlen|apply len_repr; exact Hb]. }
  rewrite El in H. destruct (startup_frame_survives _ _ _ Hb H) as (r' & E & H1 & H2 & _). exists r'.
  unfold RecvStartupMessage. rewrite E. cbn [res_bind]. rewrite <- (app_nil_r body) at 1. rewrite (parse_startup_complete _ _ _ [] He) by auto.
  repeat split; auto. unfold SendMessage. rewrite (startup_encodes_Frame _ _ _ He), El. reflexivity.
Qed.

Lemma startup_conform ss sp v ps : Forall (startup_wire 80877103 []) ss -> startup_wire v ps sp -> v <> 80877103 ->
  forall s reqs m mid, decodes_startup s (reqs ++ [m]) mid -> Forall ssl_request reqs -> ~ ssl_request m ->
  forall more rest, s ++ more = concat ss ++ sp ++ rest -> s = concat ss ++ sp ++ mid /\ mid ++ more = rest /\ SendMessage m = sp.
Proof.
  intros Fs Hsp Hv. induction Fs as [|l ss Hl Fs IH]; intros s reqs m mid Hd Fr Hm more rest E; cbn [concat app] in *.
  - destruct reqs as [|q reqs]; cbn [app] in Hd; inversion Hd as [|? f s' ? ? ? Hf Hp Hd']; subst.
    + apply frame_at_more with (b := more) in Hf as Hf'. rewrite E in Hf'.
      destruct (recv_startup_wire _ _ _ rest (Reader [sp ++ rest] None) Hsp) as (r' & Er & Es & _ & Em); [unfold stream; cbn; apply app_nil_r|].
      apply recv_startup_inv in Er. destruct Er as (_ & f' & Ef & Ed). cbn in Ef. rewrite app_nil_r in Ef. unfold stream in Es. rewrite Es in Ef.
      destruct (frame_at_fun _ _ _ _ _ _ Hf' Ef) as [<- E']. cbn in Hp. rewrite Ed in Hp. injection Hp as <-. inversion Hd'; subst.
      destruct Hf as (tag & len & body & L & Hs & _). subst s. rewrite <- app_assoc, E' in E. apply app_inv_tail in E. subst f. auto.
    + exfalso. apply frame_at_more with (b := more) in Hf as Hf'. rewrite E in Hf'.
      destruct (recv_startup_wire _ _ _ rest (Reader [sp ++ rest] None) Hsp) as (r' & Er & Es & _ & Em); [unfold stream; cbn; apply app_nil_r|].
      apply recv_startup_inv in Er. destruct Er as (_ & f' & Ef & Ed). cbn in Ef. rewrite app_nil_r in Ef. unfold stream in Es. rewrite Es in Ef.
      destruct (frame_at_fun _ _ _ _ _ _ Hf' Ef) as [<- E']. cbn in Hp. rewrite Ed in Hp. injection Hp as <-. inversion Fr as [|? ? (ps' & X)]; congruence.
  - rewrite <- app_assoc in E.
    assert (forall f s' q, frame_at 4 s f s' -> ParseStartupMessage (StartupFrame f) = Ok q ->
      s = l ++ s' /\ s' ++ more = concat ss ++ sp ++ rest /\ q = StartupMessage 80877103 []) as Hx.
    { intros f s' q Hf Hp. apply frame_at_more with (b := more) in Hf as Hf'. rewrite E in Hf'.
      destruct (recv_startup_wire _ _ _ (concat ss ++ sp ++ rest) (Reader [l ++ concat ss ++ sp ++ rest] None) Hl) as (r' & Er & Es & _ & Em); [unfold stream; cbn; apply app_nil_r|].
      apply recv_startup_inv in Er. destruct Er as (_ & f' & Ef & Ed). cbn in Ef. rewrite app_nil_r in Ef. unfold stream in Es. rewrite Es in Ef.
      destruct (frame_at_fun _ _ _ _ _ _ Hf' Ef) as [<- E']. rewrite Ed in Hp. injection Hp as <-.
      destruct Hf as (tag & len & body & L & Hs & _). subst s. rewrite <- app_assoc, E' in E. apply app_inv_tail in E. subst f. auto. }
    destruct reqs as [|q reqs]; cbn [app] in Hd; inversion Hd as [|? f s' ? ? ? Hf Hp Hd']; subst.
    + exfalso. destruct (Hx _ _ _ Hf Hp) as (_ & _ & ->). apply Hm. exists []. reflexivity.
    + destruct (Hx _ _ _ Hf Hp) as (-> & E' & _). inversion Fr; subst. destruct (IH _ _ _ _ Hd' ltac:(assumption) Hm _ _ E') as (-> & Y & Z).
      rewrite <- app_assoc. auto.
Qed.

Lemma prefix_trans a b c : prefix_of a b -> prefix_of b c -> prefix_of a c.
Proof. intros [x ->] [y ->]. exists (x ++ y). rewrite app_assoc. reflexivity. Qed.
Lemma prefix_app a b c : prefix_of b c -> prefix_of (a ++ b) (a ++ c).
Proof. intros [x ->]. exists x. rewrite app_assoc. reflexivity. Qed.
Lemma sent_prefix s d : out_ok s d -> prefix_of (sent d (hist s)) (total d (hist s)).
Proof.
  unfold out_ok. destruct (out_pc s d); [intros [_ H]| | |]; intros; eauto using prefix_intro.
  - destruct (start_pc s), d; try rewrite H; eauto using prefix_intro, prefix_refl.
  - rewrite H. apply prefix_refl.
Qed.
(** everything the proxy handed over is what it decoded, re-serialised, in order *)
Lemma total_prefix s d : pipe_inv s -> prefix_of (total (other d) (hist s)) (base (other d) (hist s) ++ concat (map SendMessage (msgs d (hist s)))).
Proof. intros HI. unfold total. apply prefix_app. rewrite (HI d), map_app, concat_app. eexists. reflexivity. Qed.

(** *** Without an external Close *)
Definition alone (s : state) : Prop :=
  (forall t, close_pc s (S t) = KIdle) /\
  match start_pc s with SDefer _ | SDone _ => True | _ => closed s = EvInit end.
Definition pexit_ok (s : state) : Prop := proc_pc s = PExit -> closed s <> EvInit.
Lemma pexit_step s l s' : close_inv s -> pexit_ok s -> step s l = Some s' -> pexit_ok s'.
Proof.
  intros HK HI H. dstep H. all: unfold pexit_ok in *; cbn; try exact HI; try discriminate; try (intros; discriminate).
  - intros _. rewrite (closed_of_chan _ HK); [discriminate|]. eauto.
Qed.
Lemma pexit_init : pexit_ok NewSession.
Proof. intros X. discriminate X. Qed.
Lemma alone_step s l s' : phase_inv s -> alone s -> step s l = Some s' -> ~ calls_close l -> alone s'.
Proof.
  intros HP [H1 H2] H Hl. pose proof (ph_close _ HP) as H3. dstep H. all: cbn in Hl; try tauto; clear Hl.
  all: unfold alone; cbn; repeat match goal with E : start_pc _ = _ |- _ => rewrite E in * end; (split; [try exact H1|]); try exact H2; try exact I.
  all: try solve [intros t1; unfold upd; cbn; apply H1].
  all: try solve [intros t1; unfold upd; destruct (Nat.eqb _ _); [reflexivity|apply H1]].
  all: try (destruct t as [|t]; [|rewrite H1 in *; discriminate]).
  all: try solve [intros t1; unfold upd; cbn; apply H1].
  all: try match goal with E : close_pc ?s 0%nat = _ |- _ => rewrite E in H3; destruct (start_pc s); try discriminate H3; try exact I end.
  all: try match goal with E : close_pc ?s (S _) = _ |- _ => rewrite H1 in E; discriminate E end.
Qed.
Lemma stays_running s ls s' : all_inv s -> pexit_ok s -> alone s -> start_pc s = SWait -> run step s ls = Some s' -> Forall (fun l => ~ calls_close l) ls ->
  start_pc s' = SWait /\ closed s' = EvInit /\ start_results (hist s') = [].
Proof.
  intros HA HX HL Hs. revert s HA HX HL Hs. induction ls as [|l ls IH]; cbn; intros s HA HX HL Hs H F.
  - injection H as <-. destruct HL as [_ X]. rewrite Hs in X. pose proof (li_result _ (al_life _ HA)) as Y. rewrite Hs in Y. auto.
  - destruct (step s l) as [s1|] eqn:E; [|discriminate]. inversion F; subst.
    destruct (al_pipes _ HA) as [P1 P2 _ _ _].
    apply (IH s1); auto.
    + eapply all_step; eassumption.
    + eapply pexit_step; eassumption.
    + eapply alone_step; eassumption.
    + pose proof HL as [_ Hc]. rewrite Hs in Hc. pose proof (ph_close _ P1) as H0. rewrite Hs in H0. clear IH H F. dstep E. all: cbn; try assumption; try congruence.
      exfalso. exitd. match goal with E : exited _ |- _ => destruct E as (_ & _ & _ & _ & X) end. apply HX in X. congruence.
Qed.
Lemma alone_run ls s : run step NewSession ls = Some s -> Forall (fun l => ~ calls_close l) ls -> all_inv s /\ pexit_ok s /\ alone s.
Proof.
  assert (forall s0, all_inv s0 /\ pexit_ok s0 /\ alone s0 -> run step s0 ls = Some s -> Forall (fun l => ~ calls_close l) ls -> all_inv s /\ pexit_ok s /\ alone s) as X.
  { induction ls as [|l ls IH]; cbn; intros s0 HI H F; [injection H as <-; exact HI|]. destruct (step s0 l) as [s1|] eqn:E; [|discriminate]. inversion F; subst.
    apply (IH s1); auto. destruct HI as (Q1 & Q2 & Q3). destruct (al_pipes _ Q1) as [P1 P2 _ _ _].
    split; [eapply all_step; eassumption|]. split; [eapply pexit_step; eassumption|eapply alone_step; eassumption]. }
  intros H F. apply (X NewSession); auto. split; [apply all_init|]. split; [apply pexit_init|]. split; [reflexivity|reflexivity].
Qed.

(** *** A client that does not read *)
(** the processing goroutine waits for room in the full client channel, the client pump for the client *)
Definition wedged (s : state) : Prop :=
  (exists m, proc_pc s = PSend DB m) /\ length (queue (chan_out s Client)) = capacity /\ chan_closed (chan_out s Client) = false /\
  (exists rest, out_pc s Client = OWrite rest) /\ queue (chan_out s DB) = [] /\ chan_closed (chan_out s DB) = false /\ out_pc s DB = OTake /\ start_pc s = SWait.
Lemma wedged_step s l s' : wedged s -> step s l = Some s' -> ~ client_reads_or_close l -> wedged s' /\ sent DB (hist s') = sent DB (hist s).
Proof.
  intros ((m & W1) & W2 & W3 & (rest & W4) & W5 & W6 & W7 & W8) H Hl. unfold wedged. dstep H. all: sides; cbn in *; try tauto; try congruence; clear Hl.
  all: unfold supd; cbn; try rewrite app_nil_r; repeat split; eauto; try congruence.
  all: exfalso; repeat match goal with E : Nat.ltb _ _ = true |- _ => apply Nat.ltb_lt in E end; exitd; unfold exited in *; try (intuition congruence).
  all: lia.
Qed.
Lemma wedged_forever s ls s' : wedged s -> run step s ls = Some s' -> Forall (fun l => ~ client_reads_or_close l) ls ->
  wedged s' /\ sent DB (hist s') = sent DB (hist s).
Proof.
  revert s. induction ls as [|l ls IH]; cbn; intros s W H F; [injection H as <-; auto|]. destruct (step s l) as [s1|] eqn:E; [|discriminate]. inversion F; subst.
  destruct (wedged_step _ _ _ W E ltac:(assumption)) as [W1 E1]. destruct (IH _ W1 H ltac:(assumption)) as [W2 E2]. split; [exact W2|congruence].
Qed.
