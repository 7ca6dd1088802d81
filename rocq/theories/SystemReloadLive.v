(** Every configuration that was read is installed, and reaches the server, however busy the program is. *)
From Verif Require Import Fair.
From Verif Require Export SystemReload.
Require Import Lia.

(** *** Start subscribes *)
Lemma keep_dist0 s l s' : reachable step init s -> step s l = Some s' -> ~ acts (Thread 0) l -> in_loop (Server.pcs (srv s) 0%nat) ->
  Distributor.pcs (dist s') 0%nat = Distributor.pcs (dist s) 0%nat.
Proof.
  intros R E N U. destruct (Distributor.pcs (dist s) 0%nat) eqn:D; try (rewrite <- D; apply (keep_pc s l); auto; rewrite D; discriminate).
  destruct (dist_cases _ _ _ R E) as [X|[(l1 & X & C)|[-> X]]]; [rewrite X; exact D| |exfalso; apply N; reflexivity].
  assert (G : forall t, l = YGet t -> t <> 0%nat).
  { intros t -> ->. destruct (step_moves _ _ _ E) as (_ & m & P & _). cbn in P. destruct (Server.pcs (srv s) 0%nat); try discriminate P; destruct U. }
  clear E. pose proof (reachable_normal _ R) as NN. revert X. generalize (dist s'). intros d' H.
  ddstep H; cbn in C; try contradiction; cbn; unfold upd; repeat (eqs; cbn); auto; try congruence.
  all: at_normal NN.
  all: try (destruct C as [_ C]; destruct (G _ C eq_refl)).
  rewrite Heqp in C. destruct C as [_ C]. discriminate C.
Qed.
Definition brank (s : state) : nat :=
  match Server.pcs (srv s) 0%nat with
  | Server.A0 => 13 | Server.A1 => 12 | Server.A2 => 11
  | Server.A3 => match Distributor.pcs (dist s) 0%nat with
                 | Distributor.Idle => 9 | Distributor.S0 _ _ _ => 8 | Distributor.S1 _ _ _ => 7 | Distributor.S2 _ _ _ => 6
                 | Distributor.S3 _ _ _ _ => 5 | Distributor.S4 _ _ _ => 4 | Distributor.S5 _ _ => 3 | _ => 2 end
  | _ => 0
  end.
Lemma able_boot s : reachable step init s -> panicked s = None -> in_loop (Server.pcs (srv s) 0%nat) -> ~ up s -> able s (Thread 0).
Proof.
  intros R P L NU. unfold up in NU. pose proof (reachable_calm _ R) as CA. pose proof (ca_srv _ CA) as CV. pose proof (ca_dist _ CA) as CD. pose proof (cv_crash _ CV) as CC.
  pose proof (cv_start _ CV) as CS. destruct (free_number s R) as [n Hn]. pose proof (unused_spec _ _ Hn) as (Hn1 & Hn2 & Hn3). pose proof (dist_no_crash _ R) as DC.
  assert (GS : forall v', server_alone s (Server.LGo 0) = true -> Server.go (srv s) 0 = Some v' -> able s (Thread 0)).
  { intros v' H1 H2. exists (YServer (Server.LGo 0)). split; [reflexivity|]. apply (server_can s _ v' P H1). unfold Server.step. rewrite CC. exact H2. }
  assert (G : forall d', returning (dist s) 0 = None -> Distributor.go (dist s) 0 = Some d' -> able s (Thread 0)).
  { intros d' H1 H2. exists (YDist (Distributor.LGo 0)). split; [reflexivity|]. apply (dist_can s _ d' P); [cbn; rewrite H1; reflexivity|]. unfold Distributor.step. rewrite DC. exact H2. }
  unfold server_alone, Server.go in GS.
  destruct (Server.pcs (srv s) 0%nat) eqn:V; try contradiction; try (exfalso; apply NU; exact I).
  - eapply GS; reflexivity.
  - rewrite CS in GS. eapply GS; reflexivity.
  - eapply GS; reflexivity.
  - clear GS. pose proof (or_sub _ (reachable_ordered _ R)) as SB. rewrite V in SB. destruct (sb_early _ _ SB eq_refl) as [SB1 SB2].
    pose proof (cd_pcs _ CD 0%nat) as K. pose proof (reachable_normal _ R 0%nat) as N. unfold returning, Distributor.go in G.
    assert (LA : Distributor.last (dist s) = None) by (rewrite (DistributorProofs.mi_last _ (DistributorProofs.reachable_mon _ (pt_dist _ (reachable_parts _ R)))); unfold SpecDistributor.current; rewrite SB1; reflexivity).
    destruct (Distributor.pcs (dist s) 0%nat) eqn:D; cbn in K, N; try contradiction; try congruence; try (destruct k; try contradiction).
    + exists YSubscribe. split; [reflexivity|]. intros Q.
      destruct (stuck s YSubscribe _ P ltac:(cbn; rewrite V, D; reflexivity) Q) as [X|[X|[X|X]]]; try discriminate X.
      pose proof (reachable_chan _ R) as CH. unfold chan_ok, unmade in CH. rewrite D, V in CH. cbn in CH.
      cbn -[Distributor.step] in X. unfold Distributor.step in X at 1. rewrite DC, CH in X. cbn in X. unfold Distributor.step in X. cbn in X. rewrite DC, D in X. cbn in X. rewrite ?upd_same in X. discriminate X.
    + rewrite (cd_closed _ CD) in G. eapply G; reflexivity.
    + assert (Distributor.is_free (dist s) = true) as F; [|rewrite F in G; eapply G; reflexivity].
      pose proof (DistributorProofs.reachable_lock _ (pt_dist _ (reachable_parts _ R))) as LK. unfold Distributor.is_free.
      destruct (Distributor.writer (dist s)) as [w|] eqn:W.
      * exfalso. apply (DistributorProofs.li_writer _ LK) in W. pose proof (reachable_normal _ R w) as NW. pose proof (cd_pcs _ CD w) as KW.
        pose proof (DistributorProofs.mi_started _ (DistributorProofs.reachable_mon _ (pt_dist _ (reachable_parts _ R))) SB2 w) as MW.
        destruct (Distributor.pcs (dist s) w) eqn:DW; cbn in W, NW, KW, MW; try contradiction; try (destruct k; try contradiction); destruct KW as [-> _]; congruence.
      * destruct (Distributor.readers (dist s)) as [|t r] eqn:RE; [reflexivity|exfalso]. assert (Distributor.pcs (dist s) t = Distributor.G2) as G2 by (apply (DistributorProofs.li_readers _ LK); rewrite RE; left; reflexivity).
        pose proof (du_duty _ (reachable_duties _ R) t) as DU. unfold duty in DU. rewrite G2 in DU. destruct DU as (c & w & D1 & _).
        destruct (du_blank _ (reachable_duties _ R) LA) as [B _]. rewrite B in D1; [discriminate D1|]. intros ->. congruence.
    + rewrite LA in G. eapply G; reflexivity.
    + destruct K as (_ & -> & ->). pose proof (reachable_chan _ R) as CH. unfold chan_ok, unmade in CH. rewrite D in CH. destruct CH as [q CH].
      cbn in G. rewrite CH in G. cbn in G. assert (q = []) as -> by exact (nothing_queued _ R LA _ CH). eapply G; reflexivity.
    + exists (YDist (Distributor.LFresh 0 n)). split; [reflexivity|]. eapply dist_can; [exact P|cbn; rewrite D; exact Hn|]. unfold Distributor.step. rewrite DC, D, SB2, Hn2. reflexivity.
    + exists YSubscribed. split; [reflexivity|]. intros Q.
      destruct (stuck s YSubscribed (Moves [] [Distributor.LGo 0] [Server.LSubscribe 0 None] 0 [] (main s)) P ltac:(cbn; unfold returning; rewrite V, D; reflexivity) Q) as [X|[X|[X|X]]]; try discriminate X; apply run1 in X.
      * unfold Distributor.step, Distributor.go in X. rewrite DC, D in X. discriminate X.
      * unfold Server.step in X. rewrite CC, V in X. discriminate X.
Qed.
Lemma do_boot s l s' : reachable step init s -> in_loop (Server.pcs (srv s) 0%nat) -> ~ up s -> acts (Thread 0) l -> step s l = Some s' -> up s' \/ in_loop (Server.pcs (srv s') 0%nat) /\ (brank s' < brank s)%nat.
Proof.
  intros R L NU A E. pose proof (ca_srv _ (reachable_calm _ R)) as CV. pose proof (ca_dist _ (reachable_calm _ R)) as CD. pose proof (reachable_normal _ R 0%nat) as N. pose proof (cd_pcs _ CD 0%nat) as K. unfold up in *. unfold brank.
  destruct (step_moves _ _ _ E) as (_ & m & P & _ & E2 & E3 & _). clear E.
  dplan P; cbn in A; try contradiction; runs.
  - rewrite E3. right. split; [exact L|]. revert E2. generalize (dist s'). intros d' H.
    assert (Server.pcs (srv s) 0%nat = Server.A3) as A3.
    { pose proof (du_duty _ (reachable_duties _ R) 0%nat) as DU. unfold duty in DU.
      destruct (Distributor.pcs (dist s) 0%nat) eqn:D; cbn in N; try contradiction; try (destruct k; try contradiction); try exact DU.
      - exfalso. destruct l; try contradiction; subst; ddstep H; congruence. }
    rewrite A3. destruct l; try contradiction; subst; ddstep H; cbn in *; try contradiction; rewrite ?upd_same; try lia.
    + rewrite (cd_closed _ CD) in Heqb0. discriminate Heqb0.
    + exfalso. destruct k; [|contradiction]. destruct K as (_ & -> & _). pose proof (reachable_chan _ R) as CH. unfold chan_ok, unmade in CH. rewrite Heqp in CH. destruct CH as [q CH]. rewrite CH in Heqo0. injection Heqo0 as <-. discriminate Heqb0.
    + exfalso. unfold returning in Heqb. rewrite Heqp in Heqb. discriminate Heqb.
    + rewrite Heqp in Heqb. apply unused_spec in Heqb. destruct Heqb as (Hn & _). rewrite upd_other by congruence. rewrite upd_same. lia.
  - rewrite E2. revert E3. generalize (srv s'). intros v' H.
    destruct l; try contradiction; subst; vstep H; cbn in *; try contradiction; rewrite ?upd_same; cbn; auto; try lia.
    + rewrite (cv_shut _ CV) in Heqb0. discriminate Heqb0.
    + pose proof (cv_start _ CV) as CS. rewrite Heqp in CS. rewrite CS in *. discriminate.
    + right. split; [exact I|]. destruct (Distributor.pcs (dist s) 0%nat); lia.
  - right. rewrite E3. rewrite Heqp. split; [exact I|]. match goal with Q : Distributor.step ?x _ = Some (dist s') |- _ => revert Q end. generalize (dist s'). intros d' Q. ddstep Q; cbn; lia.
  - exfalso. unfold returning in Heqo. rewrite (cd_closed _ CD) in Heqo. destruct (Distributor.pcs (dist s) 0%nat); try discriminate Heqo; try (destruct k; try discriminate Heqo); try destruct snapshot; try discriminate Heqo; try contradiction.
  - left. unfold Server.step in E3. rewrite (cv_crash _ CV), Heqp in E3. injection E3 as E3. rewrite <- E3. cbn. exact I.
  - exfalso. subst. revert E2. generalize (dist s'). intros d' H. ddstep H. cbn in K. congruence.
  - exfalso. subst. rewrite Heqp in L. exact L.
  - exfalso. subst. rewrite Heqp in L. exact L.
Qed.

Section Reload.
  Variables (st : nat -> state) (lb : nat -> option label).
  Hypothesis EX : execution step st lb.
  Hypothesis R0 : reachable step init (st 0%nat).
  Hypothesis FR : fair_roles st lb.
  Hypothesis WF : writers_first st lb.
  Definition good (s : state) : Prop := panicked s = None.
  Lemma good_dec s : good s \/ ~ good s.
  Proof. unfold good. destruct (panicked s); [right; discriminate|left; reflexivity]. Qed.
  Notation Ev := (Fair.ev st good).
  Lemma reach i : reachable step init (st i).
  Proof. induction i as [|i IH]; [exact R0|]. pose proof (EX i) as E. destruct (lb i) as [l|]; [exact (reachable_step _ _ _ _ _ IH E)|rewrite E; exact IH]. Qed.
  Lemma holds (P : state -> Prop) : (forall s l s', reachable step init s -> P s -> step s l = Some s' -> P s') -> forall i j, (i <= j)%nat -> P (st i) -> P (st j).
  Proof. intros H i j Hij HP. apply (kept step st lb EX P i HP); [|exact Hij]. intros k l _ X _ E. exact (H _ _ _ (reach k) X E). Qed.
  (** a goroutine that stays able acts *)
  Lemma waits (r : role) (P Q : state -> Prop) i : P (st i) ->
    (forall s, reachable step init s -> panicked s = None -> P s -> able s r) ->
    (forall k l, P (st k) -> lb k = Some l -> step (st k) l = Some (st (S k)) -> ~ acts r l -> P (st (S k)) \/ Q (st (S k))) ->
    (forall s l s', reachable step init s -> P s -> step s l = Some s' -> acts r l -> Q s') -> Ev i Q.
  Proof.
    intros HP HE HK HA. apply (wait step st lb good EX good_dec (acts r) P Q i (acts_dec r) (FR r i) HP).
    - intros k _ G X. apply HE; auto using reach.
    - intros k l _ _ X B E N. exact (HK k l X B E N).
    - intros k l _ _ X B E A. exact (HA _ _ _ (reach k) X E A).
  Qed.
  (** Start comes to its loop *)
  Lemma ev_up i : main (st i) = RServe -> Ev i up.
  Proof.
    intros M. apply (ev_measure st good good_dec brank (fun s => in_loop (Server.pcs (srv s) 0%nat))).
    - clear i M. intros i G L. assert (up (st i) \/ ~ up (st i)) as [U|NU] by (unfold up; destruct (Server.pcs (srv (st i)) 0%nat); cbn; auto); [apply ev_now; auto|].
      apply (waits (Thread 0) (fun s => in_loop (Server.pcs (srv s) 0%nat) /\ ~ up s /\ brank s = brank (st i))).
      + auto.
      + intros s R P (X & Y & _). apply able_boot; auto.
      + intros k l (X & Y & Z) B E N. left. pose proof (keep_srv _ _ _ (reach k) E N X) as K1. pose proof (keep_dist0 _ _ _ (reach k) E N X) as K2.
        unfold up, brank in *. rewrite K1, K2. auto.
      + intros s l s' R (X & Y & Z) E A. destruct (do_boot _ _ _ R X Y A E) as [U|[U1 U2]]; [auto|]. right. split; [exact U1|lia].
    - destruct (ca_main _ (reachable_calm _ (reach i))) as [[X _]|[_ X]]; [congruence|exact X].
  Qed.
  Lemma ups i j : (i <= j)%nat -> up (st i) -> up (st j).
  Proof. apply (holds up). intros s l s' R U E. exact (up_step _ _ _ R U E). Qed.
  (** the server empties its channel *)
  Lemma ev_A4 i : up (st i) -> Ev i (fun s => up s /\ Server.pcs (srv s) 0%nat = Server.A4).
  Proof.
    apply (ev_measure st good good_dec (fun s => srank (Server.pcs (srv s) 0%nat)) up). clear i. intros i G U.
    assert (Server.pcs (srv (st i)) 0%nat = Server.A4 \/ Server.pcs (srv (st i)) 0%nat <> Server.A4) as [X|X].
    { destruct (Server.pcs (srv (st i)) 0%nat); auto; right; discriminate. }
    { apply ev_now. auto. }
    apply (waits (Thread 0) (fun s => up s /\ Server.pcs (srv s) 0%nat = Server.pcs (srv (st i)) 0%nat)); [auto| | |].
    - intros s R P (U1 & V). apply able_server; auto. congruence.
    - intros k l (U1 & V) B E N. left. split; [exact (up_step _ _ _ (reach k) U1 E)|]. rewrite (keep_srv _ _ _ (reach k) E N (up_loop _ U1)). exact V.
    - intros s l s' R (U1 & V) E A. destruct (do_server _ _ _ R U1 A E) as [[Y _]|[Y _]]; [congruence|]. right. split; [exact (up_step _ _ _ R U1 E)|]. congruence.
  Qed.
  Lemma ev_empty i : up (st i) -> Ev i (fun s => up s /\ qu s = []).
  Proof.
    intros U. apply (ev_bind st good good_dec _ _ _ (ev_A4 i U)). intros j Hj G (U1 & V).
    destruct (qu (st j)) as [|c q] eqn:Q; [apply ev_now; auto|].
    apply (waits (Thread 0) (fun s => up s /\ Server.pcs (srv s) 0%nat = Server.A4 /\ qu s <> [])); [rewrite Q; repeat split; auto; discriminate| | |].
    - intros s R P (X & Y & Z). apply able_server; auto.
    - intros k l (X & Y & Z) B E N. left. split; [exact (up_step _ _ _ (reach k) X E)|]. split; [rewrite (keep_srv _ _ _ (reach k) E N (up_loop _ X)); exact Y|].
      destruct (keep_queue _ _ _ (reach k) X E N) as [x ->]. destruct (qu (st k)); [congruence|discriminate].
    - intros s l s' R (X & Y & Z) E A. split; [exact (up_step _ _ _ R X E)|]. destruct (do_server _ _ _ R X A E) as [[_ W]|[W _]]; [|rewrite Y in W; cbn in W; lia].
      rewrite W. pose proof (queue_one _ R X) as O. destruct (qu s) as [|a [|b t]]; auto. cbn in O. lia.
  Qed.
  (** the monitor comes back to its select statement *)
  Definition mon (m : tid) (s : state) : Prop := up s /\ SpecDistributor.is_monitor (Distributor.pcs (dist s) m).
  Lemma mon_step m s l s' : reachable step init s -> mon m s -> step s l = Some s' -> mon m s'.
  Proof.
    intros R (U & M) E. split; [exact (up_step _ _ _ R U E)|]. destruct (acts_dec (Thread m) l) as [A|A].
    - destruct (do_mon _ _ _ _ R U M A E) as [[_ ->]|[_ X]]; [|exact X]. destruct (source_mon _ _ _ R E) as [c ->]. exact I.
    - rewrite (keep_pc _ _ _ _ R E A); [exact M|]. intros X. rewrite X in M. exact M.
  Qed.
  Lemma mon_keep m s l s' : reachable step init s -> mon m s -> step s l = Some s' -> ~ acts (Thread m) l -> Distributor.pcs (dist s') m = Distributor.pcs (dist s) m.
  Proof. intros R (U & M) E A. apply (keep_pc _ _ _ _ R E A). intros X. rewrite X in M. exact M. Qed.
  (** the readers leave, and nobody enters *)
  Lemma ev_lock i m c : mon m (st i) -> Distributor.pcs (dist (st i)) m = Distributor.M1 c ->
    Ev i (fun s => mon m s /\ ((rank (Distributor.pcs (dist s) m) < 5)%nat \/ Distributor.pcs (dist s) m = Distributor.M1 c /\ Distributor.readers (dist s) = [])).
  Proof.
    intros HM HP.
    apply (ev_measure st good good_dec (fun s => length (Distributor.readers (dist s))) (fun s => mon m s /\ Distributor.pcs (dist s) m = Distributor.M1 c)); [|auto].
    clear i HM HP. intros i G (HM & HP).
    destruct (Distributor.readers (dist (st i))) as [|t r] eqn:RD; [apply ev_now; left; rewrite RD; auto|].
    apply (waits (Thread t) (fun s => mon m s /\ Distributor.pcs (dist s) m = Distributor.M1 c /\ In t (Distributor.readers (dist s)) /\ (length (Distributor.readers (dist s)) <= length (t :: r))%nat)).
    - rewrite RD. repeat split; try apply HM; auto. left. reflexivity.
    - intros s R P (_ & _ & X & _). apply able_reader; auto. apply (DistributorProofs.li_readers _ (DistributorProofs.reachable_lock _ (pt_dist _ (reachable_parts _ R)))). exact X.
    - intros k l (X & Y & Z & W) B E N. pose proof (mon_step _ _ _ _ (reach k) X E) as X'.
      destruct (acts_dec (Thread m) l) as [A|A].
      { right. left. split; [exact X'|]. left. destruct (do_mon _ _ _ _ (reach k) (proj1 X) (proj2 X) A E) as [[V _]|[V _]]; [congruence|]. rewrite Y in V. exact V. }
      left. split; [exact X'|]. split; [rewrite (mon_keep _ _ _ _ (reach k) X E A); exact Y|].
      pose proof (DistributorProofs.li_readers _ (DistributorProofs.reachable_lock _ (pt_dist _ (reachable_parts _ (reach k))))) as LR.
      split.
      + apply (DistributorProofs.li_readers _ (DistributorProofs.reachable_lock _ (pt_dist _ (reachable_parts _ (reach (S k)))))).
        apply LR in Z. rewrite (keep_pc _ _ _ _ (reach k) E N); [exact Z|]. rewrite Z. discriminate.
      + destruct (keep_readers _ _ _ (reach k) (proj1 X) E) as [V|[t' V]]; [|rewrite V; exact W|rewrite V; pose proof (remove_tid_length t' (Distributor.readers (dist (st k)))); lia].
        intros t' -> V. apply (WF k t' B V m). rewrite Y. exact I.
    - intros s l s' R (X & Y & Z & W) E A.
      pose proof (DistributorProofs.reachable_lock _ (pt_dist _ (reachable_parts _ R))) as LK. pose proof (proj1 (DistributorProofs.li_readers _ LK t) Z) as G2.
      right. split; [split; [exact (mon_step _ _ _ _ R X E)|]|].
      + destruct (acts_dec (Thread m) l) as [A'|A']; [|rewrite (mon_keep _ _ _ _ R X E A'); exact Y].
        exfalso. destruct (Nat.eq_dec t m) as [->|D]; [congruence|]. apply D. clear - A A'. destruct l; cbn in *; try contradiction; try (destruct l; try contradiction); congruence.
      + rewrite (do_reader _ _ _ _ R G2 A E). cbn [length] in W. pose proof (DistributorProofs.li_nodup _ LK) as ND.
        assert (forall l, NoDup l -> In t l -> (length (Distributor.remove_tid t l) < length l)%nat) as RL.
        { clear. induction l as [|a l IH]; cbn; [tauto|]. intros N I. destruct (Nat.eqb_spec t a) as [->|D]; [lia|]. cbn. inversion N; subst. destruct I as [->|I]; [congruence|]. specialize (IH H2 I). lia. }
        specialize (RL _ ND Z). cbn [length]. lia.
  Qed.
  Lemma ev_M0 i m : mon m (st i) -> Ev i (fun s => mon m s /\ Distributor.pcs (dist s) m = Distributor.M0).
  Proof.
    apply (ev_measure st good good_dec (fun s => rank (Distributor.pcs (dist s) m)) (mon m)). clear i. intros i G HM.
    set (p := Distributor.pcs (dist (st i)) m).
    (* once able, it moves on *)
    assert (GO : forall j (C : state -> Prop), mon m (st j) -> Distributor.pcs (dist (st j)) m = p -> C (st j) -> p <> Distributor.M0 ->
      (forall s, reachable step init s -> panicked s = None -> mon m s -> Distributor.pcs (dist s) m = p -> C s -> able s (Thread m)) ->
      (forall k l, mon m (st k) -> Distributor.pcs (dist (st k)) m = p -> C (st k) -> lb k = Some l -> step (st k) l = Some (st (S k)) -> ~ acts (Thread m) l -> C (st (S k))) ->
      Ev j (fun s => mon m s /\ (rank (Distributor.pcs (dist s) m) < rank p)%nat)).
    { intros j C X1 X2 X3 X4 X5 X6. apply (waits (Thread m) (fun s => mon m s /\ Distributor.pcs (dist s) m = p /\ C s)); [auto| | |].
      - intros s R P (A1 & A2 & A3). auto.
      - intros k l (A1 & A2 & A3) B E N. left. split; [exact (mon_step _ _ _ _ (reach k) A1 E)|]. split; [rewrite (mon_keep _ _ _ _ (reach k) A1 E N); exact A2|]. eapply X6; eauto.
      - intros s l s' R (A1 & A2 & A3) E A. split; [exact (mon_step _ _ _ _ R A1 E)|]. destruct (do_mon _ _ _ _ R (proj1 A1) (proj2 A1) A E) as [[B _]|[B _]]; [congruence|]. rewrite <- A2. exact B. }
    assert (FIN : Ev i (fun s => mon m s /\ (Distributor.pcs (dist s) m = Distributor.M0 \/ (rank (Distributor.pcs (dist s) m) < rank p)%nat))).
    2: { apply (ev_mono st good good_dec _ _ _ FIN). intros s (A & [B|B]); [left|right]; auto. }
    destruct (monitor_pc _ _ (reach i) (proj2 HM)) as (MP & _ & _). fold p in MP.
    assert (EZ : forall j, Ev j (fun s => mon m s /\ (rank (Distributor.pcs (dist s) m) < rank p)%nat) -> Ev j (fun s => mon m s /\ (Distributor.pcs (dist s) m = Distributor.M0 \/ (rank (Distributor.pcs (dist s) m) < rank p)%nat))).
    { intros j X. apply (ev_mono st good good_dec _ _ _ X). intros s (A & B). auto. }
    destruct p as [| | | | |? ? ?|? ? ?|? ? ?|? ? ? ?|? ? ?|? ?|?|? ?|? ?|? ?|?|?|?|?|?|?| |c|c|old c pending|old c ch pending|] eqn:Ep; cbn in MP; try contradiction.
    - apply ev_now. auto.
    - apply (ev_bind st good good_dec _ _ _ (ev_lock i m c HM Ep)). intros j Hj Gj (A & [B|[B C]]); [apply EZ, ev_now; auto|].
      apply EZ, (GO j (fun s => Distributor.readers (dist s) = [])); auto; try discriminate.
      + intros s R P X Y Z. apply able_mon; auto; try apply X. rewrite Y. exact Z.
      + intros k l X Y Z BL E N. destruct (keep_readers _ _ _ (reach k) (proj1 X) E) as [V|[t V]]; [|rewrite V; exact Z|rewrite V, Z; reflexivity].
        intros t' -> V. apply (WF k t' BL V m). rewrite Y. exact I.
    - apply EZ, (GO i (fun _ => True)); auto; try discriminate. intros s R P X Y _. apply able_mon; auto; try apply X. rewrite Y. exact I.
    - apply EZ, (GO i (fun _ => True)); auto; try discriminate. intros s R P X Y _. apply able_mon; auto; try apply X. rewrite Y. exact I.
    - destruct ch; [|contradiction]. destruct pending; [|contradiction].
      (* wait until the server has taken what is in the channel *)
      apply (ev_bind st good good_dec _ (fun s => mon m s /\ ((rank (Distributor.pcs (dist s) m) < 2)%nat \/ Distributor.pcs (dist s) m = Distributor.M4 old c 0 [] /\ qu s = []))).
      + destruct (ev_empty i (proj1 HM)) as (j & Hj & X).
        destruct (unless step st lb EX (fun s => mon m s /\ Distributor.pcs (dist s) m = Distributor.M4 old c 0 []) (fun s => mon m s /\ (rank (Distributor.pcs (dist s) m) < 2)%nat) i j) as [(A & B)|(k & Hk & A & B)]; auto.
        * intros k l _ (A & B) _ E. destruct (acts_dec (Thread m) l) as [D|D].
          -- right. split; [exact (mon_step _ _ _ _ (reach k) A E)|]. destruct (do_mon _ _ _ _ (reach k) (proj1 A) (proj2 A) D E) as [[F _]|[F _]]; [congruence|]. rewrite B in F. exact F.
          -- left. split; [exact (mon_step _ _ _ _ (reach k) A E)|]. rewrite (mon_keep _ _ _ _ (reach k) A E D). exact B.
        * exists j. split; [exact Hj|]. destruct X as [X|[X1 X2]]; auto.
        * exists k. split; [exact Hk|]. auto.
      + intros j Hj Gj (A & [B|[B C]]); [apply EZ, ev_now; auto|].
        apply EZ, (GO j (fun s => qu s = [])); auto; try discriminate.
        * intros s R P X Y Z. apply able_mon; auto; try apply X. rewrite Y. exact Z.
        * intros k l X Y Z BL E N. exact (keep_empty _ _ _ _ (reach k) (proj1 X) E (proj2 X) N Z).
  Qed.
  Lemma serves i j : (i <= j)%nat -> main (st i) = RServe -> main (st j) = RServe.
  Proof. apply (holds (fun s => main s = RServe)). intros s l s' R M E. exact (serve_step _ _ _ R M E). Qed.
  Lemma mons m i j : (i <= j)%nat -> mon m (st i) -> mon m (st j).
  Proof. apply (holds (mon m)). intros s l s' R M E. exact (mon_step _ _ _ _ R M E). Qed.
  Lemma sents i j : (i <= j)%nat -> (n_sent (st i) <= n_sent (st j))%nat.
  Proof. intros H. apply (holds (fun s => (n_sent (st i) <= n_sent s)%nat)) with (i := i); auto. intros s l s' R M E. pose proof (sent_step _ _ _ R E). lia. Qed.
  Lemma srcs i j : (i <= j)%nat -> (n_src (st i) <= n_src (st j))%nat.
  Proof. intros H. apply (holds (fun s => (n_src (st i) <= n_src s)%nat)) with (i := i); auto. intros s l s' R M E. pose proof (src_step _ _ _ E). lia. Qed.
  Lemma reads i j : (i <= j)%nat -> main (st i) = RServe -> exists x, read (st j) = read (st i) ++ x.
  Proof.
    intros H M. apply (holds (fun s => main s = RServe /\ exists x, read s = read (st i) ++ x)) with (i := i); auto; [|split; [exact M|exists []; rewrite app_nil_r; reflexivity]].
    intros s l s' R (A & x & B) E. split; [exact (serve_step _ _ _ R A E)|]. destruct (read_step _ _ _ R A E) as [y Y]. exists (x ++ y). rewrite Y, B, app_assoc. reflexivity.
  Qed.
  Definition inst (s : state) : list config := rev (SpecDistributor.installed (Distributor.hist (dist s))).
  Lemma insts i j : (i <= j)%nat -> exists x, inst (st j) = inst (st i) ++ x.
  Proof.
    intros H. apply (holds (fun s => exists x, inst s = inst (st i) ++ x)) with (i := i); auto; [|exists []; rewrite app_nil_r; reflexivity].
    intros s l s' R (x & B) E. destruct (inst_step _ _ _ E) as [y Y]. unfold inst in *. exists (x ++ y). rewrite Y, B, app_assoc. reflexivity.
  Qed.
  (** what is in the channel is received *)
  Lemma ev_src m n i : main (st i) = RServe -> mon m (st i) -> (n <= n_sent (st i))%nat -> Ev i (fun s => (n <= n_src s)%nat).
  Proof.
    intros M HM Hn. apply (ev_bind st good good_dec _ _ _ (ev_M0 i m HM)). intros j Hj G (A & B).
    destruct (le_lt_dec n (n_src (st j))) as [X|X]; [apply ev_now; exact X|].
    apply (waits (Thread m) (fun s => mon m s /\ Distributor.pcs (dist s) m = Distributor.M0 /\ main s = RServe /\ (n <= n_sent s)%nat /\ (n_src s < n)%nat)).
    - repeat split; try apply A; auto; [exact (serves i j Hj M)|]. pose proof (sents i j Hj). lia.
    - intros s R P (Y1 & Y2 & Y3 & Y4 & Y5). apply able_mon; auto; try apply Y1. rewrite Y2. split; [|exact Y3]. intros Z. unfold n_sent in Y4. rewrite Z in Y4. cbn in Y4. lia.
    - intros k l (Y1 & Y2 & Y3 & Y4 & Y5) _ E N. destruct (le_lt_dec n (n_src (st (S k)))) as [Z|Z]; [right; exact Z|left].
      split; [exact (mon_step _ _ _ _ (reach k) Y1 E)|]. split; [rewrite (mon_keep _ _ _ _ (reach k) Y1 E N); exact Y2|]. split; [exact (serve_step _ _ _ (reach k) Y3 E)|].
      split; [|exact Z]. pose proof (sent_step _ _ _ (reach k) E). lia.
    - intros s l s' R (Y1 & Y2 & Y3 & Y4 & Y5) E D. destruct (do_mon _ _ _ _ R (proj1 Y1) (proj2 Y1) D E) as [[_ ->]|[Z _]]; [|rewrite Y2 in Z; cbn in Z; lia].
      rewrite (source_src _ _ _ E). pose proof (chan_one _ R) as C. unfold n_sent in Y4. lia.
  Qed.
  (** what was read is sent *)
  Lemma ev_sent m n i : main (st i) = RServe -> mon m (st i) -> (n <= length (read (st i)))%nat -> Ev i (fun s => (n <= n_sent s)%nat).
  Proof.
    intros M HM Hn. rewrite (n_read _ (reach i)), (pending_handler _ (reach i) M) in Hn.
    destruct (le_lt_dec n (n_sent (st i))) as [X|X]; [apply ev_now; exact X|].
    destruct (FileWatcher.handler (watcher (st i))) as [| | | |c|] eqn:H; cbn in Hn; try lia.
    set (P := fun s => main s = RServe /\ FileWatcher.handler (watcher s) = FileWatcher.H_Send c /\ (n <= S (n_sent s))%nat).
    assert (KP : forall s l s', reachable step init s -> P s -> step s l = Some s' -> ~ acts Handler l -> P s').
    { intros s l s' R (Y1 & Y2 & Y3) E N. split; [exact (serve_step _ _ _ R Y1 E)|]. split; [apply (keep_handler _ _ _ _ R Y1 E N Y2)|]. pose proof (sent_step _ _ _ R E). lia. }
    assert (DP : forall s l s', reachable step init s -> P s -> step s l = Some s' -> acts Handler l -> (n <= n_sent s')%nat).
    { intros s l s' R (Y1 & Y2 & Y3) E A. rewrite (do_handler _ _ _ _ R Y1 A E Y2). exact Y3. }
    assert (P (st i)) as HP by (split; [exact M|split; [exact H|lia]]).
    apply (ev_bind st good good_dec _ (fun s => (n <= n_sent s)%nat \/ P s /\ FileWatcher.chan (watcher s) = [])).
    - destruct (ev_src m (n_sent (st i)) i M HM (le_n _)) as (j & Hj & Y).
      destruct (unless step st lb EX P (fun s => (n <= n_sent s)%nat) i j HP Hj) as [Z|(k & Hk & Z)].
      + intros k l _ Z _ E. destruct (acts_dec Handler l) as [A|A]; [right; exact (DP _ _ _ (reach k) Z E A)|left; exact (KP _ _ _ (reach k) Z E A)].
      + exists j. split; [exact Hj|]. destruct Y as [Y|Y]; [left; exact Y|right]. destruct (le_lt_dec n (n_sent (st j))) as [W|W]; [left; exact W|right]. split; [exact Z|].
        unfold n_sent in W, X, Y, Hn. pose proof (sents i j Hj) as V. unfold n_sent in V. destruct (FileWatcher.chan (watcher (st j))) as [|a q] eqn:C; [reflexivity|exfalso]. cbn in W, V. lia.
      + exists k. split; [exact Hk|]. auto.
    - intros j Hj G [Y|(Y & Z)]; [apply ev_now; exact Y|].
      apply (waits Handler (fun s => P s /\ FileWatcher.chan (watcher s) = [])); [auto| | |].
      + intros s R PN ((Y1 & Y2 & _) & Y4). apply able_handler; auto. rewrite Y2. exact Y4.
      + intros k l (Y1 & Y2) _ E N. left. split; [exact (KP _ _ _ (reach k) Y1 E N)|]. destruct Y1 as (W1 & W2 & _). apply (keep_handler _ _ _ _ (reach k) W1 E N W2). exact Y2.
      + intros s l s' R (Y1 & _) E A. exact (DP _ _ _ R Y1 E A).
  Qed.
  (** what was received is installed *)
  Lemma ev_inst m n i : mon m (st i) -> (n <= n_src (st i))%nat -> Ev i (fun s => (n <= length (inst s))%nat).
  Proof.
    intros HM Hn. destruct (ev_M0 i m HM) as (j & Hj & Y). exists j. split; [exact Hj|]. destruct Y as [Y|(A & B)]; [left; exact Y|right].
    pose proof (DistributorProofs.reachable_mon _ (pt_dist _ (reachable_parts _ (reach j)))) as MO. unfold inst. rewrite rev_length.
    destruct (DistributorProofs.mi_src' _ MO) as [X|(t & c & X)].
    - rewrite <- X. pose proof (srcs i j Hj). unfold n_src in *. lia.
    - exfalso. assert (t = m) as -> by (apply (DistributorProofs.mi_unique _ MO); [destruct X as [X|X]; rewrite X; exact I|apply A]). destruct X; congruence.
  Qed.
  Lemma inst_read j : exists x, read (st j) = inst (st j) ++ x.
  Proof.
    rewrite <- (read_all _ (reach j)). unfold inst. pose proof (DistributorProofs.reachable_mon _ (pt_dist _ (reachable_parts _ (reach j)))) as MO.
    destruct (DistributorProofs.mi_src' _ MO) as [X|(t & c & X)]; [rewrite X; eauto|]. rewrite (DistributorProofs.mi_src _ MO _ _ X). cbn. rewrite <- app_assoc. eauto.
  Qed.
  Lemma prefix_of {A} (a b x y : list A) : a ++ x = b ++ y -> (length a <= length b)%nat -> exists z, b = a ++ z.
  Proof.
    revert b. induction a as [|h a IH]; cbn; intros b E L; [eauto|]. destruct b as [|k b]; cbn in L; [lia|]. injection E as -> E. destruct (IH b E) as [z ->]; [lia|]. exists z. reflexivity.
  Qed.
  (** all of this together *)
  Lemma ev_installed m i : main (st i) = RServe -> mon m (st i) -> Ev i (fun s => exists more, inst s = read (st i) ++ more).
  Proof.
    intros M HM. assert (Ev i (fun s => (length (read (st i)) <= length (inst s))%nat)) as X.
    { apply (ev_bind st good good_dec _ _ _ (ev_sent m _ i M HM (le_n _))). intros j Hj G X.
      apply (ev_bind st good good_dec _ _ _ (ev_src m _ j (serves i j Hj M) (mons m i j Hj HM) X)). intros k Hk Gk Y.
      apply (ev_inst m); [apply (mons m i k); [lia|exact HM]|exact Y]. }
    destruct X as (j & Hj & X). exists j. split; [exact Hj|]. destruct X as [X|X]; [left; exact X|right].
    destruct (reads i j Hj M) as [x Hx]. destruct (inst_read j) as [y Hy]. rewrite Hx in Hy. eapply prefix_of; eauto.
  Qed.
  Lemma changes_app o a b : exists x, address_changes o (a ++ b) = address_changes o a ++ x.
  Proof.
    revert o. induction a as [|c a IH]; cbn; intros o; [eauto|]. destruct (IH o) as [x X]. destruct (IH (Some (Listen c))) as [y Y].
    destruct o as [w|]; [|rewrite Y; exists y; reflexivity]. destruct (list_eq_dec Byte.byte_eq_dec w (Listen c)); [rewrite X; eauto|rewrite Y; exists y; reflexivity].
  Qed.
  Lemma dsent_app ch a b : SpecDistributor.sent ch (a ++ b) = SpecDistributor.sent ch b ++ SpecDistributor.sent ch a.
  Proof. induction a as [|e a IH]; cbn; [rewrite app_nil_r; reflexivity|]. destruct e; cbn; rewrite ?IH, ?app_assoc; reflexivity. Qed.
  Lemma dsents i j : (i <= j)%nat -> exists x, SpecDistributor.sent 0 (Distributor.hist (dist (st j))) = SpecDistributor.sent 0 (Distributor.hist (dist (st i))) ++ x.
  Proof.
    intros H. apply (holds (fun s => exists x, SpecDistributor.sent 0 (Distributor.hist (dist s)) = SpecDistributor.sent 0 (Distributor.hist (dist (st i))) ++ x)) with (i := i); auto; [|exists []; rewrite app_nil_r; reflexivity].
    intros s l s' R (x & B) E. destruct (dist_hist _ _ _ E) as [h Y]. rewrite Y, dsent_app, B, <- app_assoc. eauto.
  Qed.
  Lemma recvs i j : (i <= j)%nat -> exists x, SpecDistributor.received 0 (Distributor.hist (dist (st j))) = SpecDistributor.received 0 (Distributor.hist (dist (st i))) ++ x.
  Proof.
    intros H. apply (holds (fun s => exists x, SpecDistributor.received 0 (Distributor.hist (dist s)) = SpecDistributor.received 0 (Distributor.hist (dist (st i))) ++ x)) with (i := i); auto; [|exists []; rewrite app_nil_r; reflexivity].
    intros s l s' R (x & B) E. destruct (dist_hist _ _ _ E) as [h Y]. rewrite Y, received_app, B, <- app_assoc. eauto.
  Qed.
  (** the server receives the changes *)
  Lemma ev_received m i : mon m (st i) -> Ev i (fun s => exists more, SpecDistributor.received 0 (Distributor.hist (dist s)) = address_changes None (inst (st i)) ++ more).
  Proof.
    intros HM. apply (ev_bind st good good_dec _ _ _ (ev_M0 i m HM)). intros j Hj Gj (A & B).
    destruct (ev_empty j (proj1 A)) as (k & Hk & X). exists k. split; [exact Hk|]. destruct X as [X|(U & Q)]; [left; exact X|right].
    pose proof (pt_dist _ (reachable_parts _ (reach j))) as RJ. pose proof (pt_dist _ (reachable_parts _ (reach k))) as RK.
    assert (SpecDistributor.sent 0 (Distributor.hist (dist (st j))) = address_changes None (inst (st j))) as SJ.
    { unfold inst. rewrite <- (sb_exp _ _ (or_sub _ (reachable_ordered _ (reach j)))), (DistributorSubs.si_sent _ (DistributorSubs.reachable_subs _ RJ)). unfold DistributorSubs.owed.
      destruct (Distributor.writer (dist (st j))) as [w|] eqn:W; [exfalso|rewrite app_nil_r; reflexivity].
      assert (w = m) as -> by (apply (DistributorProofs.mi_unique _ (DistributorProofs.reachable_mon _ RJ)); [apply (writer_mon _ _ (reach j)); [apply A|exact W]|apply A]).
      apply (DistributorProofs.li_writer _ (DistributorProofs.reachable_lock _ RJ)) in W. rewrite B in W. exact W. }
    destruct (DistributorSubs.reachable_fifo _ RK 0%nat) as [F _]. unfold qu in Q. rewrite Q, app_nil_r in F. rewrite <- F.
    destruct (dsents j k Hk) as [x ->]. rewrite SJ. destruct (insts i j Hj) as [y ->]. destruct (changes_app None (inst (st i)) y) as [z ->]. rewrite <- app_assoc. eauto.
  Qed.
  Lemma ev_mon i : main (st i) = RServe -> Ev i (fun s => exists m, mon m s).
  Proof.
    intros M. apply (ev_bind st good good_dec _ _ _ (ev_up i M)). intros j Hj G U. apply ev_now. destruct (has_monitor _ (reach j) U) as [m Hm]. exists m. split; assumption.
  Qed.
  Lemma ev_all i : main (st i) = RServe ->
    Ev i (fun s => (exists more, inst s = read (st i) ++ more) /\ exists more, SpecDistributor.received 0 (Distributor.hist (dist s)) = address_changes None (read (st i)) ++ more).
  Proof.
    intros M. apply (ev_bind st good good_dec _ _ _ (ev_mon i M)). intros j Hj G [m HM].
    apply (ev_bind st good good_dec _ _ _ (ev_installed m j (serves i j Hj M) HM)). intros k Hk Gk [x X].
    destruct (reads i j Hj M) as [y Y]. rewrite Y, <- app_assoc in X.
    destruct (ev_received m k (mons m j k Hk HM)) as (l & Hl & Z). exists l. split; [exact Hl|]. destruct Z as [Z|[z Z]]; [left; exact Z|right]. split.
    - destruct (insts k l Hl) as [w W]. rewrite X, <- app_assoc in W. eauto.
    - rewrite X in Z. destruct (changes_app None (read (st i)) (y ++ x)) as [w W]. rewrite W, <- app_assoc in Z. eauto.
  Qed.
End Reload.

(** *** A change of the file, undisturbed *)
Definition hrank (p : FileWatcher.hpc) : nat := match p with FileWatcher.H_Read => 3 | FileWatcher.H_Send _ | FileWatcher.H_Other _ => 2 | FileWatcher.H_Select => 1 | _ => 0 end.
Definition hwork (s : state) : nat := (3 * length (FileWatcher.events (watcher s)) + hrank (FileWatcher.handler (watcher s)))%nat.
Definition done_reading (s : state) : Prop := FileWatcher.handler (watcher s) = FileWatcher.H_Select /\ FileWatcher.events (watcher s) = [].
Lemma coming_sys c s l s' : reachable step init s -> coming c (watcher s) -> undisturbed l -> step s l = Some s' -> coming c (watcher s').
Proof. intros R C U E. apply (coming_run c [l] s s' R C); [constructor; [exact U|constructor]|]. cbn. rewrite E. reflexivity. Qed.
Lemma coming_keep c s l s' : reachable step init s -> coming c (watcher s) -> undisturbed l -> step s l = Some s' -> ~ acts Handler l ->
  FileWatcher.handler (watcher s') = FileWatcher.handler (watcher s) /\ FileWatcher.events (watcher s') = FileWatcher.events (watcher s) /\ (FileWatcher.chan (watcher s) = [] -> FileWatcher.chan (watcher s') = []).
Proof.
  intros R [F D M A] U E N. pose proof (WatcherProofs.reachable_shape _ (WatcherProofs.reachable_from_cli _ (pt_watcher _ (reachable_parts _ R)))) as SH.
  pose proof (WatcherProofs.sh_hs _ SH) as S1. pose proof (WatcherProofs.sh_wclosed _ SH) as S4. pose proof (WatcherProofs.sh_end _ SH) as S5. pose proof (fw_done _ _ (reachable_fine _ R)) as ND.
  destruct (watch_cases _ _ _ E) as [X|[(l1 & -> & B & X)|(t & -> & X)]]; [rewrite X; auto| |]; clear E; revert X; generalize (watcher s'); intros w' X.
  - cbn in N, U. WatcherProofs.dstep X; try discriminate B; try contradiction; cbn; try (exfalso; apply N; exact I); auto; try congruence.
    all: exfalso; rewrite ?M in *; try discriminate; destruct (FileWatcher.handler (watcher s)); destruct (FileWatcher.starter (watcher s)); cbn in *; try discriminate; congruence.
  - WatcherProofs.dstep X; cbn; auto. repeat split; auto. congruence.
Qed.
Lemma coming_do c s l s' : reachable step init s -> coming c (watcher s) -> step s l = Some s' -> acts Handler l -> (hwork s' < hwork s)%nat.
Proof.
  intros R [F D M A] E N. destruct l; try contradiction. destruct (step_moves _ _ _ E) as (_ & m & P & E1 & _). unfold hwork. destruct l; try contradiction; cbn in P; injection P as <-; cbn [mw] in E1; runs.
  - revert E1. generalize (watcher s'). intros w' X. WatcherProofs.dstep X; cbn; rewrite ?Heqh; cbn; lia.
  - revert E1. generalize (watcher s'). intros w' X. unfold FileWatcher.step in X. destruct (FileWatcher.crashed (watcher s)); [discriminate|]. destruct (FileWatcher.handler (watcher s)) eqn:H; try discriminate. destruct (FileWatcher.events (watcher s)) as [|op es]; [discriminate|].
    destruct (FileWatcher.wclosed (watcher s)); [discriminate|]. injection X as <-. unfold FileWatcher.dispatch; cbn. destruct (FileWatcher.choose _ _) as [[k []]|]; cbn; rewrite ?H; cbn; lia.
Qed.
Lemma keep_sent c s l s' : reachable step init s -> coming c (watcher s) -> undisturbed l -> step s l = Some s' -> ~ acts Handler l -> n_sent s' = n_sent s.
Proof.
  intros R C U E A. rewrite (n_sent_sent _ R), (n_sent_sent _ (reachable_step _ _ _ _ _ R E)). destruct (coming_keep _ _ _ _ R C U E A) as (K1 & K2 & _).
  destruct (watch_cases _ _ _ E) as [Y|[(l1 & -> & B & Y)|(t & -> & Y)]]; [rewrite Y; reflexivity| |]; clear E; revert Y K1 K2; generalize (watcher s'); intros w' Y K1 K2.
  - destruct C as [_ _ M _]. cbn in A, U. WatcherProofs.dstep Y; try discriminate B; try contradiction; cbn in K1, K2 |- *; try reflexivity; try congruence; try (exfalso; apply A; exact I).
  - WatcherProofs.dstep Y; reflexivity.
Qed.
Lemma idle_read c s l s' : reachable step init s -> main s = RServe -> coming c (watcher s) -> done_reading s -> undisturbed l -> step s l = Some s' ->
  done_reading s' /\ read s' = read s.
Proof.
  intros R M C (H & V) U E. destruct (acts_dec Handler l) as [A|A].
  - exfalso. destruct l; try contradiction. destruct (step_moves _ _ _ E) as (_ & m & P & E1 & _). destruct l; try contradiction; cbn in P; injection P as <-; cbn [mw] in E1; runs; unfold FileWatcher.step, FileWatcher.handler_step in E1;
      destruct (FileWatcher.crashed (watcher s)); try discriminate; rewrite H, ?V in E1; discriminate E1.
  - destruct (coming_keep _ _ _ _ R C U E A) as (K1 & K2 & _). split; [split; congruence|]. pose proof (reachable_step _ _ _ _ _ R E) as R'. pose proof (serve_step _ _ _ R M E) as M'.
    destruct (read_step _ _ _ R M E) as [x X]. rewrite X. apply (f_equal (@length config)) in X. rewrite app_length, (n_read _ R), (n_read _ R'), (pending_handler _ R M), (pending_handler _ R' M'), K1, H in X. cbn in X.
    destruct x as [|a x]; [apply app_nil_r|exfalso]. cbn in X. rewrite (keep_sent _ _ _ _ R C U E A) in X. lia.
Qed.

Section Undisturbed.
  Variables (st : nat -> state) (lb : nat -> option label).
  Hypothesis EX : execution step st lb.
  Hypothesis R0 : reachable step init (st 0%nat).
  Hypothesis FR : fair_roles st lb.
  Hypothesis WF : writers_first st lb.
  Hypothesis UD : forall i l, lb i = Some l -> undisturbed l.
  Notation Ev := (Fair.ev st good).
  Let rch := reach st lb EX R0.
  Lemma comings c i j : (i <= j)%nat -> coming c (watcher (st i)) -> coming c (watcher (st j)).
  Proof. intros Hj H. apply (kept step st lb EX (fun s => coming c (watcher s)) i H); [|exact Hj]. intros k l _ X B E. exact (coming_sys _ _ _ _ (rch k) X (UD _ _ B) E). Qed.
  Lemma hworks i j : (i <= j)%nat -> (exists c, coming c (watcher (st i))) -> (hwork (st j) < hwork (st i))%nat \/ hwork (st j) = hwork (st i) /\ n_sent (st j) = n_sent (st i).
  Proof.
    intros Hj [c C]. pose proof (fun j H => comings c i j H C) as CS.
    apply (kept step st lb EX (fun s => (hwork s < hwork (st i))%nat \/ hwork s = hwork (st i) /\ n_sent s = n_sent (st i)) i); [auto| |exact Hj].
    intros k l Hk X B E. destruct (acts_dec Handler l) as [A|A].
    - left. pose proof (coming_do _ _ _ _ (rch k) (CS k Hk) E A). destruct X as [X|[X _]]; lia.
    - destruct (coming_keep _ _ _ _ (rch k) (CS k Hk) (UD _ _ B) E A) as (K1 & K2 & _). rewrite (keep_sent _ _ _ _ (rch k) (CS k Hk) (UD _ _ B) E A). unfold hwork in *. rewrite K1, K2. exact X.
  Qed.
  Lemma ev_done c m i : main (st i) = RServe -> mon m (st i) -> coming c (watcher (st i)) -> Ev i done_reading.
  Proof.
    intros M HM C. apply (ev_measure st good good_dec hwork (fun s => main s = RServe /\ mon m s /\ coming c (watcher s))); [|auto].
    clear i M HM C. intros i G (M & HM & C). pose proof (co_alive _ _ C) as A.
    assert (forall j, (i <= j)%nat -> main (st j) = RServe /\ mon m (st j) /\ coming c (watcher (st j))) as KP.
    { intros j Hj. split; [exact (serves st lb EX R0 i j Hj M)|]. split; [exact (mons st lb EX R0 m i j Hj HM)|exact (comings c i j Hj C)]. }
    assert (match FileWatcher.handler (watcher (st i)) with FileWatcher.H_Other _ | FileWatcher.H_Read => True | FileWatcher.H_Select => FileWatcher.events (watcher (st i)) <> [] | _ => False end ->
            Ev i (fun s => done_reading s \/ (main s = RServe /\ mon m s /\ coming c (watcher s)) /\ (hwork s < hwork (st i))%nat)) as GO.
    { intros X. apply (waits st lb EX R0 FR Handler (fun s => (main s = RServe /\ mon m s /\ coming c (watcher s)) /\ FileWatcher.handler (watcher s) = FileWatcher.handler (watcher (st i)) /\ FileWatcher.events (watcher s) = FileWatcher.events (watcher (st i)))).
      - auto.
      - intros s R P ((Y1 & _ & _) & Y2 & Y3). apply able_handler; auto. rewrite Y2, Y3. destruct (FileWatcher.handler (watcher (st i))); try contradiction; exact X.
      - intros k l ((Y1 & Y2 & Y3) & Y4 & Y5) B E N. left. destruct (coming_keep _ _ _ _ (rch k) Y3 (UD _ _ B) E N) as (K1 & K2 & _). rewrite K1, K2. repeat split; auto.
        + exact (serve_step _ _ _ (rch k) Y1 E).
        + apply (mon_step _ _ _ _ (rch k) Y2 E).
        + apply (mon_step _ _ _ _ (rch k) Y2 E).
        + apply (coming_sys _ _ _ _ (rch k) Y3 (UD _ _ B) E).
        + apply (coming_sys _ _ _ _ (rch k) Y3 (UD _ _ B) E).
        + apply (coming_sys _ _ _ _ (rch k) Y3 (UD _ _ B) E).
        + apply (coming_sys _ _ _ _ (rch k) Y3 (UD _ _ B) E).
      - intros s l s' R ((Y1 & Y2 & Y3) & Y4 & Y5) E D. right. split.
        + split; [exact (serve_step _ _ _ R Y1 E)|]. split; [exact (mon_step _ _ _ _ R Y2 E)|]. apply (coming_sys c s l s' R Y3); [|exact E]. clear E. destruct l; try contradiction D. destruct l; try contradiction D; exact I.
        + pose proof (coming_do _ _ _ _ R Y3 E D) as W. unfold hwork in W |- *. rewrite Y4, Y5 in W. exact W. }
    destruct (FileWatcher.handler (watcher (st i))) as [| | | |c'|] eqn:H; try discriminate A; auto.
    - destruct (FileWatcher.events (watcher (st i))) eqn:V; [apply ev_now; left; split; assumption|]. apply GO. discriminate.
    - destruct (ev_sent st lb EX R0 FR WF m _ i M HM (le_n _)) as (j & Hj & X). exists j. split; [exact Hj|]. destruct X as [X|X]; [left; exact X|right; right]. split; [apply KP, Hj|].
      destruct (hworks i j Hj (ex_intro _ c C)) as [Y|[Y Z]]; [exact Y|exfalso].
      rewrite (n_read _ (rch i)), (pending_handler _ (rch i) M), H in X. cbn in X. lia.
  Qed.
  Lemma done_stays c i j : (i <= j)%nat -> main (st i) = RServe -> coming c (watcher (st i)) -> done_reading (st i) -> done_reading (st j) /\ read (st j) = read (st i).
  Proof.
    intros Hj M C D. apply (kept step st lb EX (fun s => done_reading s /\ read s = read (st i)) i); [auto| |exact Hj]. intros k l Hk (X & Y) B E.
    destruct (idle_read _ _ _ _ (rch k) (serves st lb EX R0 i k Hk M) (comings c i k Hk C) X (UD _ _ B) E) as [Z W]. split; [exact Z|congruence].
  Qed.
  Lemma done_last c i : main (st i) = RServe -> coming c (watcher (st i)) -> done_reading (st i) -> exists l, read (st i) = l ++ [c].
  Proof.
    intros M C (H & V). destruct C as [F D W A]. destruct D as [D|(es & op & D & _)]; [|rewrite V in D; destruct es; discriminate D].
    pose proof (WatcherProofs.reachable_newest _ (pt_watcher _ (reachable_parts _ (rch i))) D) as N. rewrite H, F in N. destruct N as [l N]. exists l.
    destruct (WatcherProofs.reachable_traffic _ (WatcherProofs.reachable_from_cli _ (pt_watcher _ (reachable_parts _ (rch i))))) as [_ T2 _ _].
    unfold read. rewrite <- N, <- T2, (pending_handler _ (rch i) M), H, app_nil_r. reflexivity.
  Qed.
  (** from some moment on the last configuration written is the current one, and the server has received every change of the address *)
  Lemma takes_hold c i : main (st i) = RServe -> coming c (watcher (st i)) ->
    (exists j, (i <= j)%nat /\ panicked (st j) <> None) \/
    exists j l, (i <= j)%nat /\ forall k, (j <= k)%nat -> inst (st k) = l ++ [c] /\ SpecDistributor.received 0 (Distributor.hist (dist (st k))) = address_changes None (l ++ [c]).
  Proof.
    intros M C.
    assert (Ev i (fun s => done_reading s /\ exists i1, (i <= i1)%nat /\ s = st i1)) as (j & Hj & X).
    { apply (ev_bind st good good_dec _ _ _ (ev_mon st lb EX R0 FR i M)). intros j Hj G [m HM].
      destruct (ev_done c m j (serves st lb EX R0 i j Hj M) HM (comings c i j Hj C)) as (k & Hk & X). exists k. split; [exact Hk|]. destruct X as [X|X]; [left; exact X|right].
      split; [exact X|]. exists k. split; [lia|reflexivity]. }
    destruct X as [X|[D _]]; [left; exists j; auto|].
    pose proof (serves st lb EX R0 i j Hj M) as MJ. pose proof (comings c i j Hj C) as CJ. destruct (done_last c j MJ CJ D) as [l L].
    destruct (ev_all st lb EX R0 FR WF j MJ) as (k & Hk & [X|[[x X] [y Y]]]); [left; exists k; split; [lia|exact X]|right]. exists k, l. split; [lia|].
    intros n Hn. destruct (done_stays c j n ltac:(lia) MJ CJ D) as [_ RN].
    destruct (insts st lb EX R0 k n Hn) as [z Z]. destruct (inst_read st lb EX R0 n) as [w W]. rewrite RN, Z, X, <- !app_assoc in W.
    assert (x ++ z ++ w = []) as E0 by (apply (app_inv_head (read (st j))); rewrite app_nil_r; symmetry; exact W).
    destruct x; [|discriminate]. destruct z; [|discriminate]. rewrite X, !app_nil_r in Z. split; [congruence|]. rewrite <- L.
    destruct (recvs st lb EX R0 k n Hn) as [r Rr]. pose proof (pt_dist _ (reachable_parts _ (rch n))) as RN'. destruct (DistributorSubs.reachable_fifo _ RN' 0%nat) as [F _].
    pose proof (DistributorSubs.si_sent _ (DistributorSubs.reachable_subs _ RN') 0%nat) as SI. rewrite (sb_exp _ _ (or_sub _ (reachable_ordered _ (rch n)))) in SI. unfold inst in Z. rewrite Z in SI.
    rewrite F, Rr, Y, <- !app_assoc in SI.
    assert (forall a (b : list config), a = a ++ b -> b = []) as AE by (intros a b H; apply (app_inv_head a); rewrite app_nil_r; symmetry; exact H).
    apply AE in SI. destruct y; [|discriminate SI]. destruct r; [|discriminate SI]. rewrite Rr, Y, !app_nil_r. reflexivity.
  Qed.
End Undisturbed.

(** *** From the beginning *)
Lemma before_run st lb : execution step st lb -> forall j, run step (st 0%nat) (before lb j) = Some (st j).
Proof.
  intros EX. induction j as [|j IH]; [reflexivity|]. unfold before in *. rewrite seq_S, flat_map_app, run_app, IH. cbn. pose proof (EX j) as E. destruct (lb j) as [l|]; cbn; [rewrite E; reflexivity|rewrite E; reflexivity].
Qed.
Lemma before_later lb i j : (i <= j)%nat -> exists x, before lb j = before lb i ++ x.
Proof. intros H. unfold before. replace j with (i + (j - i))%nat by lia. rewrite seq_app, flat_map_app. eauto. Qed.
