(** Invariants of the session model. *)
From Verif Require Export SpecSession.
Require Import Lia.

#[global] Arguments Nat.ltb : simpl never.
#[global] Arguments Nat.leb : simpl never.
#[global] Arguments RecvMessage : simpl never.
#[global] Arguments RecvStartupMessage : simpl never.
#[global] Arguments str : simpl never.
#[global] Arguments capacity : simpl never.
#[global] Arguments SendMessage : simpl never.
#[global] Arguments Bytes : simpl never.
#[global] Arguments write_ok : simpl never.
#[global] Arguments bytes_eqb : simpl never.
#[global] Arguments Z.eqb : simpl never.

(** all cases of one step *)
Ltac dstep H :=
  unfold step, go_start, start_write, go_close, negotiate, got in H; cbv zeta in H;
  repeat (match type of H with
          | context [match ?x with _ => _ end] => first [is_var x; destruct x | destruct x eqn:?]
          end; try discriminate H);
  injection H as <-.
Ltac sides := repeat match goal with d : side |- _ => destruct d end.
Ltac upds := unfold upd in *; repeat match goal with
  | |- context [Nat.eqb ?a ?b] => destruct (Nat.eqb_spec a b); [subst|]
  end.
Ltac ssimp := cbn in *.

(** *** Phases of Start *)
Definition off (s : state) : Prop :=
  in_pc s Client = IOff /\ in_pc s DB = IOff /\ out_pc s Client = OOff /\ out_pc s DB = OOff /\ proc_pc s = POff.
Definition on (s : state) : Prop :=
  in_pc s Client <> IOff /\ in_pc s DB <> IOff /\ out_pc s Client <> OOff /\ out_pc s DB <> OOff /\ proc_pc s <> POff.
Definition exited (s : state) : Prop :=
  in_pc s Client = IExit /\ in_pc s DB = IExit /\ out_pc s Client = OExit /\ out_pc s DB = OExit /\ proc_pc s = PExit.
Record phase_inv (s : state) : Prop := {
  ph_client : conns s Client <> None;
  ph_phase : match start_pc s with
    | SIdle | SEntry | SRecv | SDeny _ | SGet _ | SDial _ _ => off s /\ conns s DB = None
    | SSend _ => off s /\ conns s DB <> None
    | SWait => on s /\ conns s DB <> None
    | SDefer _ | SDone _ => off s \/ exited s /\ conns s DB <> None
    end;
  ph_close : match start_pc s with SDefer _ => close_pc s 0%nat <> KIdle | _ => close_pc s 0%nat = KIdle end }.

Lemma all_exited_spec s : all_exited s = true -> exited s.
Proof.
  unfold all_exited, exited. destruct (in_pc s Client), (in_pc s DB), (out_pc s Client), (out_pc s DB), (proc_pc s); try discriminate. auto.
Qed.
#[global] Arguments all_exited : simpl never.
Ltac exitd := repeat match goal with E : all_exited _ = true |- _ => apply all_exited_spec in E end.

Lemma phase_step s l s' : phase_inv s -> step s l = Some s' -> phase_inv s'.
Proof.
  intros HI H. dstep H. all: destruct HI as [H1 H2 H3].
  all: exitd; unfold off, on, exited in *; cbn in *; sides; cbn in *.
  all: repeat match goal with E : start_pc _ = _ |- _ => rewrite E in * end.
  all: constructor; unfold off, on, exited; cbn; unfold supd, upd; cbn.
  all: try solve [intuition congruence].
  all: try solve [destruct (start_pc s); cbn; intuition congruence].
  all: destruct t; try solve [destruct (start_pc s); cbn; intuition congruence].
Qed.
Lemma phase_init : phase_inv NewSession.
Proof. constructor; cbn; unfold off; cbn; intuition discriminate. Qed.
Lemma reachable_phase s : reachable step init s -> phase_inv s.
Proof. apply reachable_invariant; [intros ? ->; apply phase_init|apply phase_step]. Qed.

(** *** Close *)
Definition in_body (p : kpc) : Prop := match p with KIdle | K0 | KRet _ => False | _ => True end.
(** what has been closed: the client connection and the four channels *)
Definition shut (s : state) : option bool * bool * bool * bool * bool :=
  (option_map is_open (conns s Client), chan_closed (chan_in s Client), chan_closed (chan_out s Client),
   chan_closed (chan_in s DB), chan_closed (chan_out s DB)).
Definition stage (p : kpc) : option bool * bool * bool * bool * bool :=
  match p with
  | K3 _ | K4 _ => (Some false, false, false, false, false)
  | K5 _ => (Some false, true, false, false, false)
  | K6 _ => (Some false, true, true, false, false)
  | K7 _ => (Some false, true, true, true, false)
  | KRet _ => (Some false, true, true, true, true)
  | _ => (Some true, false, false, false, false)
  end.
Record close_inv (s : state) : Prop := {
  ki_excl : forall t t', in_body (close_pc s t) -> in_body (close_pc s t') -> t = t';
  ki_body : forall t, in_body (close_pc s t) -> shut s = stage (close_pc s t) /\ fires (hist s) = [t] /\
     closed s = match close_pc s t with K1 => EvFiring t | _ => EvFired end;
  ki_init : closed s = EvInit -> shut s = stage K0 /\ fires (hist s) = [];
  ki_firing : forall t, closed s = EvFiring t -> close_pc s t = K1;
  ki_fired : closed s = EvFired -> (exists t, in_body (close_pc s t)) \/ shut s = stage (KRet None);
  ki_once : (length (fires (hist s)) <= 1)%nat /\ (closed s <> EvInit -> length (fires (hist s)) = 1%nat);
  ki_ret : forall t r, close_pc s t = KRet r -> closed s = EvFired
}.
Lemma shut_conn s d c : (d = Client -> option_map is_open (conns s Client) = Some (is_open c)) -> shut (with_conn s d c) = shut s.
Proof. unfold shut, supd. destruct d; cbn; [intros ->; reflexivity|reflexivity]. Qed.
(** everything but [LClose] leaves all that alone; at most a Close call begins *)
Lemma other_steps s l s' : phase_inv s -> step s l = Some s' -> (forall t r, l <> LClose t r) ->
  closed s' = closed s /\ shut s' = shut s /\ fires (hist s') = fires (hist s) /\
  (close_pc s' = close_pc s \/ exists t, close_pc s t = KIdle /\ close_pc s' = upd (close_pc s) t K0).
Proof.
  intros HI H Hl. dstep H. all: try solve [exfalso; eapply Hl; reflexivity]. all: clear Hl; destruct HI as [_ _ H3].
  all: repeat match goal with E : start_pc _ = _ |- _ => rewrite E in * end.
  all: sides; cbn; repeat match goal with |- _ /\ _ => split end; try reflexivity.
  all: try solve [left; reflexivity].
  all: try solve [right; eexists; split; [|reflexivity]; eassumption].
  all: cbn [other] in *; unfold shut, supd; cbn; repeat match goal with E : conns _ _ = _ |- _ => rewrite E | E : chan_closed _ = _ |- _ => rewrite E end; reflexivity.
Qed.
Lemma close_step s l s' : phase_inv s -> close_inv s -> step s l = Some s' -> close_inv s'.
Proof.
  intros HP HI H.
  assert ((exists t r, l = LClose t r) \/ (forall t r, l <> LClose t r)) as [(t & r & ->)|Hl] by (destruct l; first [left; eexists _, _; reflexivity|right; intros; discriminate]).
  - pose proof (ph_client _ HP) as Hcl. clear HP. destruct HI as [H1 H2 H3 H4 H5 H6 H7].
    assert (forall t', in_body (close_pc s t') -> t' = t \/ ~ in_body (close_pc s t)) as Hx.
    { intros t' Hb. destruct (close_pc s t) eqn:E; cbn; try tauto; left; apply H1; rewrite ?E; cbn; auto. }
    specialize (H2 t) as H2t. specialize (H7 t) as H7t. unfold step in H. destruct (crashed s); [discriminate H|]. unfold go_close in H.
    destruct (close_pc s t) eqn:E; try discriminate H.
    + destruct (closed s) eqn:Ec; try discriminate H; injection H as <-.
      * destruct (H3 eq_refl) as [Hs Hf].
        assert (forall t', ~ in_body (close_pc s t')) as Hn.
        { intros t' Hb. destruct (H2 t' Hb) as (_ & _ & X). destruct (close_pc s t'); congruence. }
        constructor; cbn.
        -- intros t1 t2. unfold upd. destruct (Nat.eqb_spec t1 t), (Nat.eqb_spec t2 t); subst; try tauto; intros; exfalso; eapply Hn; eassumption.
        -- intros t1. unfold upd. destruct (Nat.eqb_spec t1 t); subst; cbn; [rewrite Hf; auto|]. intros X. destruct (Hn _ X).
        -- discriminate.
        -- intros t1 [= <-]. apply upd_same.
        -- discriminate.
        -- rewrite Hf. auto.
        -- intros t1 r1. unfold upd. destruct (Nat.eqb t1 t); [discriminate|]. intros X. specialize (H7 _ _ X). congruence.
      * constructor; cbn.
        -- intros t1 t2. unfold upd. destruct (Nat.eqb_spec t1 t), (Nat.eqb_spec t2 t); subst; cbn; try tauto; apply H1.
        -- intros t1. unfold upd. destruct (Nat.eqb_spec t1 t); subst; cbn; [tauto|]. rewrite Ec. apply H2.
        -- congruence.
        -- congruence.
        -- intros _. destruct (H5 eq_refl) as [(t1 & Hb)|Hb]; [left|right; exact Hb]. exists t1. unfold upd. destruct (Nat.eqb_spec t1 t); subst; [|exact Hb]. rewrite E in Hb. exact Hb.
        -- rewrite Ec. exact H6.
        -- auto.
    Ltac kbody s H1 H2t H7 E t :=
      let Hs := fresh "Hs" in let Hf := fresh "Hf" in let Hc := fresh "Hc" in let Hn := fresh "Hn" in
      let Hs0 := fresh "Hs0" in let Hs1 := fresh "Hs1" in let Hs2 := fresh "Hs2" in let Hs3 := fresh "Hs3" in let Hs4 := fresh "Hs4" in
      destruct (H2t I) as (Hs & Hf & Hc);
      assert (forall t', t' <> t -> ~ in_body (close_pc s t')) as Hn by (intros t' Hne Hb; apply Hne; apply H1; [exact Hb|rewrite E; exact I]);
      cbn in Hs; unfold shut in Hs; injection Hs as Hs0 Hs1 Hs2 Hs3 Hs4;
      rewrite ?Hs1, ?Hs2, ?Hs3, ?Hs4 in *;
      constructor; cbn;
      [ let t1 := fresh in let t2 := fresh in intros t1 t2; unfold upd; destruct (Nat.eqb_spec t1 t), (Nat.eqb_spec t2 t); subst; try tauto; intros; exfalso; eapply Hn; eassumption
      | let t1 := fresh in let X := fresh in intros t1; unfold upd; destruct (Nat.eqb_spec t1 t); subst; cbn; [|intros X; exfalso; eapply Hn; eassumption];
        try tauto; intros _; unfold shut, supd; cbn; rewrite ?Hs0, ?Hs1, ?Hs2, ?Hs3, ?Hs4; repeat split; assumption
      | try congruence
      | let t1 := fresh in intros t1; try discriminate; unfold upd; destruct (Nat.eqb_spec t1 t); congruence
      | intros _; try (left; exists t; rewrite upd_same; exact I)
      | rewrite Hf; cbn; auto
      | let t1 := fresh in let r1 := fresh in let X := fresh in intros t1 r1; unfold upd; destruct (Nat.eqb_spec t1 t); try discriminate; try congruence; intros X; exact (eq_trans (eq_sym Hc) (H7 _ _ X)) || (specialize (H7 _ _ X); congruence) ].
    + injection H as <-. kbody s H1 H2t H7 E t.
    + destruct (conns s Client) as [c|] eqn:Ec; [|tauto]. injection H as <-. kbody s H1 H2t H7 E t.
    + destruct (conns s DB) as [c|] eqn:Ec; injection H as <-; kbody s H1 H2t H7 E t.
    Ltac kflags H H2t := let X := fresh in destruct (H2t I) as (X & _); unfold shut in X; cbn in X; 
      let E1 := fresh in let E2 := fresh in let E3 := fresh in let E4 := fresh in injection X as _ E1 E2 E3 E4;
      rewrite ?E1, ?E2, ?E3, ?E4 in H; cbn in H; injection H as <-; clear E1 E2 E3 E4.
    + kflags H H2t. kbody s H1 H2t H7 E t.
    + kflags H H2t. kbody s H1 H2t H7 E t.
    + kflags H H2t. kbody s H1 H2t H7 E t.
    + kflags H H2t. kbody s H1 H2t H7 E t.
      right. unfold shut, supd. cbn. rewrite Hs0, Hs1, Hs2, Hs3. reflexivity.
    + specialize (H7t _ eq_refl).
      assert (close_inv (with_close s t KIdle)) as HK.
      { constructor; cbn.
        - intros t1 t2. unfold upd. destruct (Nat.eqb_spec t1 t), (Nat.eqb_spec t2 t); subst; cbn; try tauto; apply H1.
        - intros t1. unfold upd. destruct (Nat.eqb_spec t1 t); subst; cbn; [tauto|]. apply H2.
        - exact H3.
        - congruence.
        - intros _. destruct (H5 H7t) as [(t1 & Hb)|Hb]; [left|right; exact Hb]. exists t1. unfold upd. destruct (Nat.eqb_spec t1 t); subst; [|exact Hb]. rewrite E in Hb. destruct Hb.
        - exact H6.
        - intros t1 r1. unfold upd. destruct (Nat.eqb_spec t1 t); subst; [discriminate|]. apply H7. }
      destruct HK as [K1' K2' K3' K4' K5' K6' K7'].
      destruct t as [|t0]; [destruct (start_pc s); try discriminate H|]; injection H as <-; constructor; cbn in *; assumption.
  - destruct (other_steps _ _ _ HP H Hl) as (E1 & E2 & E3 & E4). destruct HI as [H1 H2 H3 H4 H5 H6 H7].
    destruct E4 as [E4|(t & Ht & E4)]; constructor; rewrite ?E1, ?E2, ?E3, ?E4; auto.
    + intros t1 t2. unfold upd. destruct (Nat.eqb_spec t1 t), (Nat.eqb_spec t2 t); subst; cbn; try tauto; apply H1.
    + intros t1. unfold upd. destruct (Nat.eqb_spec t1 t); subst; cbn; [tauto|]. apply H2.
    + intros t1 X. unfold upd. destruct (Nat.eqb_spec t1 t); subst; [|auto]. apply H4 in X. congruence.
    + intros X. destruct (H5 X) as [(t1 & Hb)|Hb]; [left|right; exact Hb]. exists t1. unfold upd. destruct (Nat.eqb_spec t1 t); subst; [|exact Hb]. rewrite Ht in Hb. destruct Hb.
    + intros t1 r1. unfold upd. destruct (Nat.eqb_spec t1 t); subst; [discriminate|]. apply H7.
Qed.
Lemma close_init : close_inv NewSession.
Proof. constructor; cbn; try tauto; try discriminate; try congruence; auto. split; [lia|congruence]. Qed.
Lemma reachable_close s : reachable step init s -> close_inv s.
Proof.
  intros R. enough (phase_inv s /\ close_inv s) by tauto. revert s R. apply reachable_invariant.
  - intros ? ->. split; [apply phase_init|apply close_init].
  - intros s l s' [H1 H2] H. split; [eapply phase_step; eassumption|eapply close_step; eassumption].
Qed.
