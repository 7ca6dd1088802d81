(** Exits, results, crashes. *)
From Verif Require Import BufferProofs FrameProofs FrameFacts ConnProofs ConnFacts.
From Verif Require Export SessionDecode.
Require Import Lia.

Definition gone (s : state) (g : goroutine) : Prop :=
  match g with GIn d => in_pc s d = IExit | GOut d => out_pc s d = OExit | GProc => proc_pc s = PExit end.
Record life_inv (s : state) : Prop := {
  li_gerr : gerr s = first_error (exits (hist s));
  li_nodup : NoDup (map fst (exits (hist s)));
  li_gone : forall g, In g (map fst (exits (hist s))) <-> gone s g;
  li_result : match start_pc s with SDone r => start_results (hist s) = [r] | _ => start_results (hist s) = [] end;
  li_value : match start_pc s with SDefer r | SDone r => exited s -> r = gerr s | _ => True end
}.
Lemma first_error_app {A} (l : list (A * option error)) g r : first_error (l ++ [(g, r)]) = match first_error l with Some e => Some e | None => r end.
Proof. induction l as [|[a [e|]] l IH]; cbn; [destruct r; reflexivity|reflexivity|exact IH]. Qed.
Lemma map_fst_app {A B} (l : list (A * B)) a b : map fst (l ++ [(a, b)]) = map fst l ++ [a].
Proof. rewrite map_app. reflexivity. Qed.
Lemma NoDup_snoc {A} (l : list A) a : NoDup l -> ~ In a l -> NoDup (l ++ [a]).
Proof. intros H1 H2. apply NoDup_rev in H1. rewrite <- (rev_involutive (l ++ [a])). apply NoDup_rev. rewrite rev_app_distr. cbn. constructor; [|exact H1]. rewrite <- in_rev. exact H2. Qed.

Lemma life_step s l s' : phase_inv s -> life_inv s -> step s l = Some s' -> life_inv s'.
Proof.
  intros HP HI H. dstep H. all: pose proof (ph_phase _ HP) as HPP; clear HP; destruct HI as [H1 H2 H3 H4 H5].
  all: repeat match goal with E : start_pc _ = _ |- _ => rewrite E in H4, H5, HPP; revert E end; intros.
  all: exitd; constructor; cbn; try assumption.
  all: repeat match goal with E : start_pc _ = _ |- _ => rewrite E end; try assumption; try reflexivity; try exact I.
  all: try (rewrite ?first_error_app, ?H1; destruct (first_error (exits (hist s))); reflexivity).
  all: try (rewrite map_fst_app; apply NoDup_snoc; [assumption|]; rewrite H3; cbn; congruence).
  all: try (intros g; rewrite ?map_fst_app, ?in_app_iff, H3; destruct g as [g|g|]; cbn; unfold supd; try reflexivity; sides; cbn; intuition congruence).
  all: try (rewrite H4; reflexivity).
  all: try (intros (E1 & E2 & E3 & E4 & E5); cbn in *; destruct HPP as [(F1 & _) _]; congruence).
  all: unfold exited, off, on in *; cbn in *; unfold supd in *; cbn in *.
  1: intros g; rewrite H3; destruct HPP as [(F1 & F2 & F3 & F4 & F5) _]; destruct g as [[]|[]|]; cbn; intuition congruence.
  all: destruct (start_pc s); try exact I; sides; cbn in *; intuition congruence.
Qed.
Lemma life_init : life_inv NewSession.
Proof. constructor; cbn; auto; [constructor|]. intros g. destruct g; cbn; intuition discriminate. Qed.

(** *** The database connection *)
Definition before_db (p : kpc) : Prop := match p with K1 | K2 | K3 _ => True | _ => False end.
Definition db_ok (s : state) : Prop := forall c, conns s DB = Some c -> is_open c = true ->
  closed s = EvInit \/ (exists t, before_db (close_pc s t)) \/ late_connect (hist s).
Definition db_open (s : state) : Prop := forall c, conns s DB = Some c -> closed s = EvInit -> is_open c = true.
Lemma late_cons e h : late_connect h -> late_connect (e :: h).
Proof. intros (h1 & h2 & -> & H). exists (e :: h1), h2. auto. Qed.
Lemma hist_step s l s' : step s l = Some s' -> exists h, hist s' = h ++ hist s.
Proof. intros H. dstep H. all: cbn. all: try (exists []; reflexivity). all: try (eexists [_]; reflexivity). all: eexists [_; _]; reflexivity. Qed.
Lemma late_app h1 h : late_connect h -> late_connect (h1 ++ h).
Proof. induction h1; cbn; auto using late_cons. Qed.
Lemma db_step s l s' : phase_inv s -> close_inv s -> db_ok s -> step s l = Some s' -> db_ok s'.
Proof.
  intros HP HK HI H. intros c' Hc Ho.
  assert (late_connect (hist s) -> late_connect (hist s')) as HL by (destruct (hist_step _ _ _ H) as [h ->]; apply late_app).
  assert ((exists t r, l = LClose t r) \/ (forall t r, l <> LClose t r)) as [(t & r & ->)|Hl] by (destruct l; first [left; eexists _, _; reflexivity|right; intros; discriminate]).
  - pose proof (HK) as HK0. clear HK. unfold step in H. destruct (crashed s); [discriminate H|]. unfold go_close in H.
    destruct (close_pc s t) eqn:E; try discriminate H.
    + destruct (closed s) eqn:Ec; try discriminate H; injection H as <-; cbn in *.
      * right. left. exists t. rewrite upd_same. exact I.
      * destruct (HI _ Hc Ho) as [X|[(t' & X)|X]]; [congruence| |auto].
        right. left. exists t'. unfold upd. destruct (Nat.eqb_spec t' t); subst; [rewrite E in X; destruct X|exact X].
    + injection H as <-; cbn in *. right. left. exists t. rewrite upd_same. exact I.
    + destruct (conns s Client); injection H as <-; cbn in *; right; left; exists t; rewrite upd_same; exact I.
    + destruct (conns s DB) eqn:Ed; injection H as <-; cbn in *; unfold supd in Hc; cbn in Hc; [|congruence]. injection Hc as <-. discriminate Ho.
    Ltac dbk s HI Hc Ho HK0 E t := destruct (HI _ Hc Ho) as [X|[(t' & X)|X]];
      [ destruct (ki_body _ HK0 t) as (_ & _ & Y); [rewrite E; exact I|]; rewrite E in Y; congruence
      | assert (t' = t) as -> by (apply (ki_excl _ HK0); [destruct (close_pc s t'); try exact I; destruct X|rewrite E; exact I]); rewrite E in X; destruct X
      | ].
    + destruct (chan_closed (chan_in s Client)); injection H as <-; cbn in *; dbk s HI Hc Ho HK0 E t; auto.
    + destruct (chan_closed (chan_out s Client)); injection H as <-; cbn in *; dbk s HI Hc Ho HK0 E t; auto.
    + destruct (chan_closed (chan_in s DB)); injection H as <-; cbn in *; dbk s HI Hc Ho HK0 E t; auto.
    + destruct (chan_closed (chan_out s DB)); injection H as <-; cbn in *; dbk s HI Hc Ho HK0 E t; auto.
    + assert (closed s' = closed s /\ conns s' DB = conns s DB /\ close_pc s' = upd (close_pc s) t KIdle) as (E1 & E2 & E3).
      { destruct t; [destruct (start_pc s); try discriminate H|]; injection H as <-; cbn; auto. }
      rewrite E2 in Hc. rewrite E1, E3. destruct (HI _ Hc Ho) as [X|[(t' & X)|X]]; auto.
      right. left. exists t'. unfold upd. destruct (Nat.eqb_spec t' t); subst; [rewrite E in X; destruct X|exact X].
  - destruct (other_steps _ _ _ HP H Hl) as (E1 & _ & E3 & E4).
    assert ((exists c, conns s DB = Some c /\ is_open c = true) \/ hist s' = HConnected :: hist s /\ closed s' = closed s) as [(c & Hc0 & Ho0)|[Eh Ec]].
    { clear E3 E4 HL HI. dstep H. all: try solve [exfalso; eapply Hl; reflexivity]. all: sides; cbn in *; unfold supd in *; cbn in *.
      all: try solve [left; eauto]. all: try solve [right; auto]. all: left; eexists; split; [eassumption|]; injection Hc as <-; cbn in Ho; exact Ho. }
    + destruct (HI _ Hc0 Ho0) as [X|[(t' & X)|X]]; [left; congruence| |auto].
      right. left. exists t'. destruct E4 as [->|(t & Ht & ->)]; [exact X|]. unfold upd. destruct (Nat.eqb_spec t' t); subst; [rewrite Ht in X; destruct X|exact X].
    + destruct (closed s) eqn:Ek; [left; congruence| |]; right; right; exists [], (hist s); (split; [exact Eh|]);
        pose proof (ki_once _ HK) as [_ Y]; rewrite Ek in Y; specialize (Y ltac:(discriminate)); destruct (fires (hist s)); discriminate.
Qed.
Lemma db_open_step s l s' : phase_inv s -> close_inv s -> db_open s -> step s l = Some s' -> db_open s'.
Proof.
  intros HP HK HI H c' Hc Hi.
  dstep H. all: sides; cbn in *; unfold supd in *; cbn in *; try discriminate Hi.
  all: try solve [eapply HI; eassumption].
  all: injection Hc as <-; cbn; try reflexivity; try (eapply (HI _ ltac:(eassumption)); assumption).
  exfalso. destruct (ki_body _ HK t) as (_ & _ & Y); [rewrite Heqk; exact I|]. rewrite Heqk in Y. congruence.
Qed.

(** *** Crashes *)
Definition crash_ok (s : state) : Prop := match crashed s with
  | None => True
  | Some q =>
      q = PanicSendClosed /\ closed s = EvFired /\
        ((exists d m, in_pc s d = ISend m /\ chan_closed (chan_in s d) = true) \/
         (exists d m, proc_pc s = PSend d m /\ chan_closed (chan_out s (other d)) = true)) \/
      (exists d c r', in_pc s d = IRecv /\ conns s d = Some c /\ is_open c = true /\ RecvMessage (rd c) = Done (Panic q) r') \/
      (exists w E cfg, start_pc s = SGet w /\ parse_uri E (DatabaseURL cfg) = Panic q)
  end.
Lemma closed_of_chan s : close_inv s -> (exists d, chan_closed (chan_in s d) = true \/ chan_closed (chan_out s d) = true) -> closed s = EvFired.
Proof.
  intros HK (d & Hd). destruct (closed s) eqn:E; [| |reflexivity].
  - destruct (ki_init _ HK E) as [X _]. unfold shut in X. cbn in X. injection X as _ X1 X2 X3 X4. destruct d, Hd; congruence.
  - pose proof (ki_firing _ HK _ E) as X. destruct (ki_body _ HK winner) as (Y & _); [rewrite X; exact I|]. rewrite X in Y. unfold shut in Y. cbn in Y.
    injection Y as _ X1 X2 X3 X4. destruct d, Hd; congruence.
Qed.
Lemma crash_step s l s' : phase_inv s -> close_inv s -> crash_ok s -> step s l = Some s' -> crash_ok s'.
Proof.
  intros HP HK HI H.
  dstep H. all: unfold crash_ok; cbn; try match goal with E : crashed _ = None |- _ => rewrite E end; try exact I.
  all: try solve [match goal with E : close_pc _ ?t = _ |- _ => destruct (ki_body _ HK t) as (Y & _); [rewrite E; exact I|]; rewrite E in Y end;
     unfold shut in Y; cbn in Y; injection Y as ? ? ? ? ?; congruence].
  all: try solve [right; right; eauto].
  - exfalso. match goal with E : recv_on _ ?c = _ |- _ => unfold recv_on in E; destruct (is_open c); [|discriminate E]; destruct (startup_never_crashes (rd c)) as [X _]; eapply X; eassumption end.
  - right; left. match goal with E : recv_on _ ?c = _ |- _ => unfold recv_on in E; destruct (is_open c) eqn:Eo; [|discriminate E] end. eauto 8.
  - left. split; [reflexivity|]. split; [apply (closed_of_chan _ HK); eauto|left; eauto].
  - left. split; [reflexivity|]. split; [apply (closed_of_chan _ HK); eauto|right; eauto].
Qed.

(** *** Which Close call does what *)
Definition acts (h : list event) : nat * nat * nat := (length (conn_closes Client h), length (conn_closes DB h), chan_closes h).
Definition acts_at (p : kpc) (h : list event) : Prop :=
  match p with
  | K0 | K1 | K2 => acts h = (0, 0, 0)%nat
  | K3 e => acts h = (1, 0, 0)%nat /\ e = last_close h
  | K4 e => (length (conn_closes Client h) = 1 /\ length (conn_closes DB h) <= 1 /\ chan_closes h = 0)%nat /\ e = last_close h
  | K5 e => (length (conn_closes Client h) = 1 /\ length (conn_closes DB h) <= 1 /\ chan_closes h = 1)%nat /\ e = last_close h
  | K6 e => (length (conn_closes Client h) = 1 /\ length (conn_closes DB h) <= 1 /\ chan_closes h = 2)%nat /\ e = last_close h
  | K7 e => (length (conn_closes Client h) = 1 /\ length (conn_closes DB h) <= 1 /\ chan_closes h = 3)%nat /\ e = last_close h
  | _ => (length (conn_closes Client h) = 1 /\ length (conn_closes DB h) <= 1 /\ chan_closes h = 4)%nat
  end.
Record once_inv (s : state) : Prop := {
  oi_init : closed s = EvInit -> acts (hist s) = (0, 0, 0)%nat /\ close_errors (hist s) = [];
  oi_body : forall t, in_body (close_pc s t) -> acts_at (close_pc s t) (hist s) /\ close_errors (hist s) = [];
  oi_fired : closed s = EvFired -> (exists t, in_body (close_pc s t)) \/ acts_at (KRet None) (hist s);
  oi_ret : forall t e, close_pc s t = KRet (Some e) -> fires (hist s) = [t] /\ Some e = last_close (hist s) /\ close_errors (hist s) = [] /\
    (forall t', in_body (close_pc s t') -> False);
  oi_errors : close_errors (hist s) = [] \/ exists t e, close_errors (hist s) = [(t, e)] /\ fires (hist s) = [t] /\ Some e = last_close (hist s) /\ closed s = EvFired /\
    (forall t', in_body (close_pc s t') -> False)
}.
Lemma other_once s l s' : phase_inv s -> step s l = Some s' -> (forall t r, l <> LClose t r) ->
  conn_closes Client (hist s') = conn_closes Client (hist s) /\ conn_closes DB (hist s') = conn_closes DB (hist s) /\
  chan_closes (hist s') = chan_closes (hist s) /\ close_results (hist s') = close_results (hist s).
Proof.
  intros HP H Hl. dstep H. all: try solve [exfalso; eapply Hl; reflexivity]. all: cbn; auto.
Qed.
Lemma once_step s l s' : phase_inv s -> close_inv s -> once_inv s -> step s l = Some s' -> once_inv s'.
Proof.
  intros HP HK HI H.
  assert ((exists t r, l = LClose t r) \/ (forall t r, l <> LClose t r)) as [(t & r & ->)|Hl] by (destruct l; first [left; eexists _, _; reflexivity|right; intros; discriminate]).
  - unfold step in H. destruct (crashed s); [discriminate H|]. unfold go_close in H. pose proof (ph_client _ HP) as Hcl.
    destruct (close_pc s t) eqn:E; try discriminate H.
    + destruct (closed s) eqn:Ec; try discriminate H; injection H as <-.
      * destruct (oi_init _ HI Ec) as [Ha He]. destruct (ki_init _ HK Ec) as [_ Hf].
        assert (forall t', ~ in_body (close_pc s t')) as Hn.
        { intros t' Hb. destruct (ki_body _ HK t' Hb) as (_ & _ & X). destruct (close_pc s t'); congruence. }
        constructor; cbn.
        -- discriminate.
        -- intros t1. unfold upd. destruct (Nat.eqb_spec t1 t); subst; cbn; [auto|]. intros X. destruct (Hn _ X).
        -- discriminate.
        -- intros t1 e. unfold upd. destruct (Nat.eqb_spec t1 t); subst; [discriminate|]. intros X. apply (ki_ret _ HK) in X. congruence.
        -- left. exact He.
      * destruct HI as [H1 H2 H3 H4 H5].
        assert (forall t', in_body (upd (close_pc s) t (KRet None) t') -> in_body (close_pc s t')) as Hb.
        { intros t'. unfold upd. destruct (Nat.eqb_spec t' t); subst; [intros []|auto]. }
        constructor; cbn.
        -- congruence.
        -- intros t1 X. specialize (Hb _ X). unfold upd in *. destruct (Nat.eqb_spec t1 t); subst; [destruct X|]. auto.
        -- intros X. destruct (H3 X) as [(t1 & Y)|Y]; [left|right; exact Y]. exists t1. unfold upd. destruct (Nat.eqb_spec t1 t); subst; [rewrite E in Y; destruct Y|exact Y].
        -- intros t1 e. unfold upd at 1. destruct (Nat.eqb_spec t1 t); subst; [discriminate|]. intros X. destruct (H4 _ _ X) as (Y1 & Y2 & Y3 & Y4). eauto 6.
        -- destruct H5 as [X|(t1 & e & Y1 & Y2 & Y3 & Y4 & Y5)]; [left; exact X|right]. exists t1, e. eauto 8.
    Ltac obody s HK HI E t := 
      let Hb := fresh "Hb" in let Ha := fresh "Ha" in let He := fresh "He" in let Hf := fresh "Hf" in let Hc := fresh "Hc" in let Hn := fresh "Hn" in
      assert (in_body (close_pc s t)) as Hb by (rewrite E; exact I);
      destruct (oi_body _ HI t Hb) as [Ha He]; rewrite E in Ha; cbn in Ha;
      destruct (ki_body _ HK t Hb) as (_ & Hf & Hc); rewrite E in Hc;
      assert (forall t', t' <> t -> ~ in_body (close_pc s t')) as Hn by (let t' := fresh "tp" in let Hne := fresh "Hne" in let X := fresh "X" in intros t' Hne X; apply Hne; apply (ki_excl _ HK); assumption);
      constructor; cbn;
      [ congruence
      | let t1 := fresh "t1" in let X := fresh "X" in intros t1; unfold upd; destruct (Nat.eqb_spec t1 t); subst; cbn; [|intros X; exfalso; eapply Hn; eassumption]; intros X; split; [|exact He]
      | intros _; try (left; exists t; rewrite upd_same; exact I)
      | let t1 := fresh "t1" in let e := fresh "e" in let X := fresh "X" in let Y := fresh "Y" in intros t1 e; unfold upd at 1; destruct (Nat.eqb_spec t1 t);
         [subst; try discriminate|intros X; exfalso; destruct (oi_ret _ HI _ _ X) as (_ & _ & _ & Y); eapply Y; exact Hb]
      | left; exact He ].
    + injection H as <-. obody s HK HI E t. exact Ha.
    + destruct (conns s Client) as [c|] eqn:Ec; [|tauto]. injection H as <-. obody s HK HI E t.
      unfold acts, last_close in *. cbn. destruct (conn_closes Client (hist s)), (conn_closes DB (hist s)); try discriminate Ha. injection Ha as ->. auto.
    + destruct (conns s DB) as [c|] eqn:Ec; injection H as <-; obody s HK HI E t.
      * unfold acts, last_close in *. cbn. destruct (conn_closes DB (hist s)); try (destruct Ha as [Ha _]; discriminate Ha). destruct Ha as [Ha _]. injection Ha as E1 E2. rewrite ?app_nil_r. auto.
      * unfold acts in *. destruct Ha as [Ha ->]. injection Ha as -> -> ->. auto.
    Ltac oflags H HK E t := let X := fresh in destruct (ki_body _ HK t) as (X & _); [rewrite E; exact I|]; rewrite E in X; unfold shut in X; cbn in X; 
      let E1 := fresh in let E2 := fresh in let E3 := fresh in let E4 := fresh in injection X as _ E1 E2 E3 E4;
      rewrite ?E1, ?E2, ?E3, ?E4 in H; cbn in H; injection H as <-; clear E1 E2 E3 E4.
    + oflags H HK E t. obody s HK HI E t. destruct Ha as ((-> & ? & ->) & ->). auto.
    + oflags H HK E t. obody s HK HI E t. destruct Ha as ((-> & ? & ->) & ->). auto.
    + oflags H HK E t. obody s HK HI E t. destruct Ha as ((-> & ? & ->) & ->). auto.
    + oflags H HK E t. obody s HK HI E t.
      * destruct X.
      * right. destruct Ha as ((-> & ? & ->) & _). auto.
      * intros [= ->]. destruct Ha as [_ Ha]. split; [exact Hf|]. split; [exact Ha|]. split; [exact He|].
        intros t'. unfold upd. destruct (Nat.eqb_spec t' t); [intros []|]. apply Hn. assumption.
    + pose proof (ki_ret _ HK _ _ E) as Hc.
      assert (close_pc s' = upd (close_pc s) t KIdle /\ closed s' = closed s /\ acts (hist s') = acts (hist s) /\ last_close (hist s') = last_close (hist s) /\
        (forall p, acts_at p (hist s) -> acts_at p (hist s')) /\
        fires (hist s') = fires (hist s) /\ close_results (hist s') = close_results (hist s) ++ [(t, err)]) as (E1 & E2 & E3 & E4 & E5 & E6 & E7).
      { destruct t; [destruct (start_pc s); try discriminate H|]; injection H as <-; cbn; repeat split; auto; intros []; auto. }
      assert (forall t', in_body (close_pc s' t') -> in_body (close_pc s t') /\ t' <> t) as Hb.
      { intros t'. rewrite E1. unfold upd. destruct (Nat.eqb_spec t' t); subst; [intros []|auto]. }
      assert (close_errors (hist s') = close_errors (hist s) ++ match err with Some e => [(t, e)] | None => [] end) as E8.
      { unfold close_errors, errors_of. rewrite E7, flat_map_app. cbn. rewrite app_nil_r. reflexivity. }
      destruct HI as [H1 H2 H3 H4 H5]. constructor.
      * congruence.
      * intros t1 Hx. destruct (Hb _ Hx) as [Hy Hne]. destruct (H2 _ Hy) as [Ha He]. rewrite E1, upd_other in * by assumption.
        split; [auto|]. rewrite E8, He. destruct err; [|reflexivity]. destruct (H4 _ _ E) as (_ & _ & _ & X). destruct (X _ Hy).
      * rewrite E2. intros X. destruct (H3 X) as [(t1 & Y)|Y]; [left|right; auto]. exists t1. rewrite E1. unfold upd. destruct (Nat.eqb_spec t1 t); subst; [rewrite E in Y; destruct Y|exact Y].
      * intros t1 e. rewrite E1. unfold upd at 1. destruct (Nat.eqb_spec t1 t); [discriminate|]. intros X. destruct (H4 _ _ X) as (Y1 & Y2 & Y3 & Y4).
        rewrite E4, E6, E8, Y3. repeat split; auto.
        -- destruct err; [|reflexivity]. destruct (H4 _ _ E) as (Z & _). congruence.
        -- intros t' Z. rewrite <- E1 in Z. destruct (Hb _ Z). eauto.
      * rewrite E2, E4, E6, E8. destruct err as [e|].
        -- destruct (H4 _ _ E) as (Y1 & Y2 & Y3 & Y4). right. exists t, e. rewrite Y3. repeat split; auto. intros t' Z. destruct (Hb _ Z). eauto.
        -- rewrite app_nil_r. destruct H5 as [X|(t1 & e & Y1 & Y2 & Y3 & Y4 & Y5)]; [left; exact X|right]. exists t1, e. repeat split; auto. intros t' Z. destruct (Hb _ Z). eauto.
  - destruct (other_steps _ _ _ HP H Hl) as (E1 & _ & E3 & E4). destruct (other_once _ _ _ HP H Hl) as (F1 & F2 & F3 & F4).
    assert (forall p, acts_at p (hist s) -> acts_at p (hist s')) as E5.
    { intros p. unfold acts_at, acts, last_close. destruct p; rewrite F1, F2, F3; auto. }
    assert (forall t', in_body (close_pc s' t') -> in_body (close_pc s t') /\ close_pc s' t' = close_pc s t') as Hb.
    { intros t'. destruct E4 as [->|(t & Ht & ->)]; [auto|]. unfold upd. destruct (Nat.eqb_spec t' t); [intros []|auto]. }
    assert (forall t', in_body (close_pc s t') -> in_body (close_pc s' t')) as Hb'.
    { intros t'. destruct E4 as [->|(t & Ht & ->)]; [auto|]. unfold upd. destruct (Nat.eqb_spec t' t); [subst; rewrite Ht; intros []|auto]. }
    assert (forall t' e, close_pc s' t' = KRet e -> close_pc s t' = KRet e) as Hr.
    { intros t' e. destruct E4 as [->|(t & Ht & ->)]; [auto|]. unfold upd. destruct (Nat.eqb_spec t' t); [discriminate|auto]. }
    assert (acts (hist s') = acts (hist s)) as E6 by (unfold acts; congruence).
    assert (last_close (hist s') = last_close (hist s)) as E7 by (unfold last_close; rewrite F1, F2; reflexivity).
    assert (close_errors (hist s') = close_errors (hist s)) as E8 by (unfold close_errors; rewrite F4; reflexivity).
    destruct HI as [H1 H2 H3 H4 H5]. constructor; rewrite ?E1, ?E3, ?E6, ?E7, ?E8.
    + exact H1.
    + intros t1 X. destruct (Hb _ X) as [Y ->]. destruct (H2 _ Y). auto.
    + intros X. destruct (H3 X) as [(t1 & Y)|Y]; [left|right; auto]. exists t1. auto.
    + intros t1 e X. destruct (H4 _ _ (Hr _ _ X)) as (Y1 & Y2 & Y3 & Y4). repeat split; auto. intros t' Z. destruct (Hb _ Z). eauto.
    + destruct H5 as [X|(t1 & e & Y1 & Y2 & Y3 & Y4 & Y5)]; [left; exact X|right]. exists t1, e. repeat split; auto. intros t' Z. destruct (Hb _ Z). eauto.
Qed.
Lemma once_init : once_inv NewSession.
Proof. constructor; cbn; auto; try discriminate; try tauto. Qed.

Record all_inv (s : state) : Prop := {
  al_pipes : pipes s;
  al_dec : forall d, dec_ok s d;
  al_life : life_inv s;
  al_db : db_ok s;
  al_db_open : db_open s;
  al_crash : crash_ok s;
  al_once : once_inv s }.
Lemma all_step s l s' : all_inv s -> step s l = Some s' -> all_inv s'.
Proof.
  intros [H1 H2 H3 H4 H5 H6 H7] H. destruct (H1) as [P1 P2 P3 P4 P5].
  constructor; eauto using pipes_step, life_step, db_step, db_open_step, crash_step, once_step. eapply dec_step; eassumption.
Qed.
Lemma all_init : all_inv NewSession.
Proof.
  constructor; auto using dec_init, life_init, once_init; try (intros ? X; discriminate X); [|exact I].
  constructor; auto using phase_init, close_init, pipe_init, nego_init, out_init.
Qed.
Lemma reachable_all s : reachable step init s -> all_inv s.
Proof. apply reachable_invariant; [intros ? ->; apply all_init|apply all_step]. Qed.
