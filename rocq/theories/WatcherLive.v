(** What can always still happen: reloads get through, StopWatch takes effect. *)
From Verif Require Export WatcherFacts.
Require Import Lia.

Definition own_reach (s s' : state) : Prop := exists ls, Forall (fun l => own l = true) ls /\ run step s ls = Some s'.
Lemma own_refl s : own_reach s s.
Proof. exists []. split; [constructor|reflexivity]. Qed.
Lemma own_step s l s1 s' : own l = true -> step s l = Some s1 -> own_reach s1 s' -> own_reach s s'.
Proof. intros Hl E (ls & F & R). exists (l :: ls). split; [constructor; assumption|]. cbn. rewrite E. exact R. Qed.

(** *** Draining *)
Definition hrank (p : hpc) : nat := match p with H_Select => 1 | H_Other _ => 2 | H_Send _ => 3 | H_Read => 4 | _ => 0 end%nat.
Definition work (s : state) : nat := (4 * length (events s) + hrank (handler s) + length (chan s))%nat.
Definition due (s : state) : Prop := fresh (hist s) = true \/ exists es op, events s = es ++ [op] /\ reloads op = true.
Record pumping (s : state) : Prop := {
  pu_crash : crashed s = None; pu_main : main s = M_Returned None; pu_alive : alive (handler s) = true; pu_open : wclosed s = false }.

Ltac ex l := exists l; eexists; split; [reflexivity|split; [unfold step, main_step, starter_step, handler_step|]].
Lemma pump s : pumping s -> (handler s <> H_Select \/ events s <> [] \/ chan s <> []) ->
  exists l s', own l = true /\ step s l = Some s' /\ pumping s' /\ (work s' < work s)%nat /\ file s' = file s /\ (due s -> due s').
Proof.
  intros [P1 P2 P3 P4] H. unfold work, due.
  assert (forall A (l : list A), l = [] \/ exists a l', l = a :: l') as D by (intros A [|a l]; eauto).
  destruct (handler s) as [| |k| |c|] eqn:Eh; try discriminate P3.
  - destruct (D _ (events s)) as [E|(op & es & E)].
    + destruct (D _ (chan s)) as [E2|(c & q & E2)]; [rewrite E, E2 in H; intuition congruence|].
      exists LRecv. eexists. split; [reflexivity|]. split; [unfold step; rewrite P1, P2, E2; reflexivity|].
      cbn. rewrite Eh, E, E2. repeat split; cbn; auto; try lia. rewrite Eh. reflexivity.
    + exists LEvent. eexists. split; [reflexivity|]. split; [unfold step; rewrite P1, Eh, E, P4; reflexivity|].
      assert (forall s1, fresh (hist s1) = reloads op || fresh (hist s) -> events s1 = es ->
        (fresh (hist s) = true \/ (exists es0 op0, events s = es0 ++ [op0] /\ reloads op0 = true)) ->
        fresh (hist s1) = true \/ (exists es0 op0, events s1 = es0 ++ [op0] /\ reloads op0 = true)) as DD.
      { intros s1 F1 E1 [X|(es0 & op0 & X & Y)]; [left; rewrite F1, X; apply orb_true_r|].
        rewrite E in X. destruct es0 as [|a es0]; cbn in X; injection X as -> X.
        - left. rewrite F1, Y. reflexivity.
        - right. exists es0, op0. rewrite E1. auto. }
      unfold dispatch. cbn [cbs set_events log].
      destruct (choose (cbs s) op) as [[k cb]|]; [destruct cb|]; (split; [constructor; cbn; auto; rewrite Eh; reflexivity|split; [cbn; rewrite ?Eh, ?E; cbn; lia|split; [reflexivity|]]]).
      all: intros X; apply DD; auto; rewrite E; exact X.
  - exists LHandler. eexists. split; [reflexivity|]. split; [unfold step, handler_step; rewrite P1, Eh; reflexivity|].
    cbn. repeat split; cbn; auto; lia.
  - exists LHandler. eexists. split; [reflexivity|]. split; [unfold step, handler_step; rewrite P1, Eh; reflexivity|].
    cbn. destruct (file s) eqn:Ef; repeat split; cbn; auto; lia.
  - destruct (D _ (chan s)) as [E2|(c2 & q & E2)].
    + exists LHandler. eexists. split; [reflexivity|]. split; [unfold step, handler_step; rewrite P1, Eh, E2; reflexivity|].
      cbn. repeat split; cbn; auto; lia.
    + exists LRecv. eexists. split; [reflexivity|]. split; [unfold step; rewrite P1, P2, E2; reflexivity|].
      cbn. rewrite Eh, E2. repeat split; cbn; auto; try lia. rewrite Eh. reflexivity.
Qed.
Lemma drain n : forall s, (work s <= n)%nat -> pumping s ->
  exists s', own_reach s s' /\ pumping s' /\ events s' = [] /\ chan s' = [] /\ handler s' = H_Select /\ file s' = file s /\ (due s -> due s').
Proof.
  assert (forall s : state, (handler s = H_Select /\ events s = [] /\ chan s = []) \/ (handler s <> H_Select \/ events s <> [] \/ chan s <> [])) as D.
  { intros s. destruct (handler s), (events s), (chan s); auto; right; try (left; discriminate); right; first [left; discriminate|right; discriminate]. }
  induction n as [|n IH]; intros s Hn Hp; (destruct (D s) as [(A & B & C)|Hd]; [exists s; repeat split; auto using own_refl; apply Hp|]).
  all: destruct (pump s Hp Hd) as (l & s1 & O & E & P & W & F & U).
  1: lia.
  all: destruct (IH s1) as (s2 & R & X); [lia|exact P|].
  all: exists s2; split; [eapply own_step; eauto|]; destruct X as (X1 & X2 & X3 & X4 & X5 & X6); repeat (split; [try assumption; congruence|]); auto.
Qed.

(** A reload event gets the file's contents to the server. *)
Lemma reload_reaches s c : reachable step from_cli s -> crashed s = None -> main s = M_Returned None -> alive (handler s) = true ->
  exists ls s' l, Forall (fun l => own l = true) ls /\ run step s (LFile (Some c) [OpWrite] :: ls) = Some s' /\ recvd (hist s') = l ++ [c].
Proof.
  intros HR HC HM HA.
  pose proof (reachable_shape _ (reachable_from_cli _ HR)) as HS.
  pose proof (reachable_err _ (reachable_from_cli _ HR)) as HE.
  assert (listening s = true) as HL.
  { rewrite (sh_listen _ HS). apply existsb_exists. exists (WAdd None). split; [apply (er_ret _ HE _ HM HA)|reflexivity]. }
  assert (wclosed s = false) as HW.
  { rewrite (sh_wclosed _ HS). pose proof (sh_end _ HS) as X. destruct (starter s); auto. destruct (handler s); try discriminate; discriminate X. }
  assert (exists s1, step s (LFile (Some c) [OpWrite]) = Some s1 /\ pumping s1 /\ due s1 /\ file s1 = Some c) as (s1 & E1 & P1 & D1 & F1).
  { eexists. split; [unfold step; rewrite HC, HL; reflexivity|]. split; [constructor; cbn; auto|]. split; [right; exists (events s), OpWrite; split; reflexivity|reflexivity]. }
  destruct (drain _ s1 (le_n _) P1) as (s2 & (ls & Fo & R) & P2 & E2 & C2 & H2 & F2 & U2).
  assert (reachable step from_cli s2) as HR2 by (eapply reachable_run; [eapply reachable_step; [exact HR|exact E1]|exact R]).
  pose proof (reachable_newest _ HR2) as HN. unfold newest_inv in HN. rewrite H2, F2, F1 in HN.
  destruct (U2 D1) as [Fr|(es & op & X & _)]; [|rewrite E2 in X; destruct es; discriminate X].
  destruct (HN Fr) as [l Hl]. exists ls, s2, l. split; [exact Fo|]. split; [cbn [run]; rewrite E1; exact R|].
  pose proof (tr_sent _ (reachable_traffic _ (reachable_from_cli _ HR2))) as T. rewrite C2, app_nil_r in T. congruence.
Qed.

(** *** StopWatch *)
Definition busy_inv (s : state) : Prop :=
  match handler s with H_Other _ | H_Read | H_Send _ => listening s = true | _ => True end.
Lemma busy_step s l s' : shape s -> busy_inv s -> step s l = Some s' -> busy_inv s'.
Proof.
  unfold busy_inv. intros HS HI H. pose proof (sh_events _ HS) as S1. pose proof (spawn_none _ HS) as SN. clear HS. dstep H. all: cbn in *; rw; auto.
  all: try match goal with E : events _ = _ :: _ |- _ => rewrite E in * end.
  all: try solve [destruct (listening _); auto; discriminate (S1 eq_refl)].
  all: destruct (handler _); auto.
Qed.
Lemma reachable_busy s : reachable step init s -> busy_inv s.
Proof.
  intros H. apply (reachable_invariant step init (fun s => shape s /\ busy_inv s)).
  - intros s0 H0. split; [apply shape_init; exact H0|]. destruct H0 as [[f ->]|(cb & f & ->)]; exact I.
  - intros s1 l s2 (A & B) E. split; [eapply shape_step|eapply busy_step]; eauto.
  - exact H.
Qed.
Definition srank (p : spc) : nat := match p with S_Spawn => 6 | S_Add => 5 | S_Init => 4 | S_Wait => 3 | S_Check => 2 | S_Close => 1 | _ => 0 end%nat.
Definition mrank (p : mpc) : nat := match p with M_Wait => 1 | _ => 0 end%nat.
Definition left (s : state) : nat := (2 * srank (starter s) + hrank (handler s) + length (chan s) + mrank (main s))%nat.
Lemma stop_progress s : reachable step init s -> crashed s = None -> stopped (hist s) = true -> starter s <> S_End ->
  exists l s', own l = true /\ step s l = Some s' /\ (left s' < left s)%nat /\ crashed s' = None /\ stopped (hist s') = true.
Proof.
  intros HR HC HT HE. pose proof (reachable_shape _ HR) as HS. pose proof (reachable_busy _ HR) as HB. pose proof (reachable_err _ HR) as HX.
  pose proof (sh_stop _ HS) as S1. pose proof (sh_done _ HS) as S2. pose proof (sh_made _ HS) as S3. pose proof (late _ HS) as HL. pose proof (early _ HS) as HA.
  pose proof (sh_init _ HS) as SI. rewrite HT in S1. assert (done s = ChClosed) as Hd by (destruct (done s); congruence).
  rewrite Hd in S2. rewrite S2 in S3. unfold left.
  destruct (starter s) eqn:Es; try discriminate S3; try congruence.
  - exists (LStarter None). eexists. split; [reflexivity|]. split; [unfold step, starter_step; rewrite HC, Es; reflexivity|]. cbn. rewrite (spawn_none _ HS Es). cbn. repeat split; auto; lia.
  - exists (LStarter None). eexists. split; [reflexivity|]. split; [unfold step, starter_step; rewrite HC, Es; reflexivity|]. cbn. repeat split; auto; lia.
  - exists (LStarter None). eexists. split; [reflexivity|]. split; [unfold step, starter_step; rewrite HC, Es; reflexivity|]. cbn. repeat split; auto; lia.
  - destruct (handler s) as [| |k| |c|] eqn:Eh.
    + pose proof (sh_hs _ HS) as X. rewrite Es, Eh in X. discriminate X.
    + exists LStopped. eexists. split; [reflexivity|]. split; [unfold step; rewrite HC, Eh, Hd; reflexivity|]. cbn. rewrite Es. repeat split; auto; cbn; lia.
    + exists LHandler. eexists. split; [reflexivity|]. split; [unfold step, handler_step; rewrite HC, Eh; reflexivity|]. cbn. rewrite Es. repeat split; auto; cbn; lia.
    + exists LHandler. eexists. split; [reflexivity|]. split; [unfold step, handler_step; rewrite HC, Eh; reflexivity|]. cbn. rewrite Es. destruct (file s); repeat split; auto; cbn; lia.
    + destruct (chan s) as [|c2 q] eqn:Ec.
      * exists LHandler. eexists. split; [reflexivity|]. split; [unfold step, handler_step; rewrite HC, Eh, Ec; reflexivity|]. cbn. rewrite Es. repeat split; auto; cbn; lia.
      * destruct (main s) as [| | | | |r] eqn:Em; try (destruct HL as [HL _]; [congruence|discriminate HL]).
        -- exists LMain. eexists. split; [reflexivity|]. split; [unfold step, main_step; rewrite HC, Em, SI; reflexivity|]. cbn. rewrite Es, Eh, Ec. repeat split; auto; cbn; lia.
        -- destruct r as [e|].
           ++ exfalso. assert (In (WAdd (Some e)) (hist s)) as A1 by (apply (er_ret _ HX _ Em); rewrite Eh; reflexivity).
              unfold busy_inv in HB. rewrite Eh, (sh_listen _ HS) in HB. apply existsb_exists in HB. destruct HB as (x & Hx & Hy).
              destruct x as [| | | | | |[|]| | | | | | | | | |]; try discriminate Hy. discriminate (er_one _ HX _ _ A1 Hx).
           ++ exists LRecv. eexists. split; [reflexivity|]. split; [unfold step; rewrite HC, Em, Ec; reflexivity|]. cbn. rewrite Es, Eh, Em. repeat split; auto; cbn; lia.
    + exists (LStarter None). eexists. split; [reflexivity|]. split; [unfold step, starter_step; rewrite HC, Es, Eh; reflexivity|]. cbn. rewrite Eh. repeat split; auto; cbn; lia.
  - exists (LStarter None). eexists. split; [reflexivity|]. split; [unfold step, starter_step; rewrite HC, Es; reflexivity|]. destruct (werr s); cbn; repeat split; auto; lia.
  - exists (LStarter None). eexists. split; [reflexivity|]. split; [unfold step, starter_step; rewrite HC, Es; reflexivity|]. cbn. repeat split; auto; lia.
Qed.
Lemma stop_ends n : forall s, (left s <= n)%nat -> reachable step init s -> crashed s = None -> stopped (hist s) = true ->
  exists s', own_reach s s' /\ crashed s' = None /\ starter s' = S_End /\ reachable step init s' /\ stopped (hist s') = true.
Proof.
  assert (forall p : spc, p = S_End \/ p <> S_End) as D by (intros []; auto; right; discriminate).
  induction n as [|n IH]; intros s Hn HR HC HT; (destruct (D (starter s)) as [E|E]; [exists s; auto using own_refl|]).
  all: destruct (stop_progress s HR HC HT E) as (l & s1 & O & E1 & W & C1 & T1).
  1: lia.
  destruct (IH s1) as (s2 & R & X); [lia|eapply reachable_step; eauto|assumption..|].
  exists s2. split; [eapply own_step; eauto|exact X].
Qed.
Lemma stop_takes_effect s : reachable step init s -> crashed s = None -> In WStop (hist s) ->
  exists ls s', Forall (fun l => own l = true) ls /\ run step s ls = Some s' /\ handler s' = H_End /\ starter s' = S_End /\ In WClosed (hist s').
Proof.
  intros HR HC HT. apply stopped_in in HT. destruct (stop_ends _ s (le_n _) HR HC HT) as (s' & (ls & F & R) & C1 & E1 & R1 & T1).
  exists ls, s'. split; [exact F|]. split; [exact R|]. pose proof (reachable_shape _ R1) as HS.
  pose proof (sh_stop _ HS) as S1. pose proof (sh_done _ HS) as S2. pose proof (sh_made _ HS) as S3. pose proof (sh_end _ HS) as S4.
  pose proof (sh_closed _ HS) as S5. pose proof (sh_wclosed _ HS) as S6. rewrite T1 in S1. rewrite E1 in *.
  assert (done s' = ChClosed) as Hd by (destruct (done s'); congruence). rewrite Hd in S2. rewrite <- S3, S2 in S4, S6.
  split; [destruct (handler s'); try discriminate S4; reflexivity|]. split; [reflexivity|]. apply closed_in. congruence.
Qed.

(** *** Watch returns *)
(** The caller and the goroutine that Watch starts, fsnotify answering [r]. *)
Definition watching (r : option error) (l : label) : Prop := l = LMain \/ l = LStarter r.
Ltac go1 HC Es := unfold step at 1, starter_step at 1; cbn -[step]; rewrite ?HC, ?Es; cbn -[step].
Lemma watch_returns s r : reachable step init s -> crashed s = None -> main s = M_Wait ->
  exists ls s' r', (length ls <= 7)%nat /\ Forall (watching r) ls /\ run step s ls = Some s' /\ hist s' = WWatchRet r' :: tl (hist s').
Proof.
  intros HR HC HM. pose proof (reachable_shape _ HR) as HS. pose proof (sh_main _ HS) as S1. pose proof (sh_init _ HS) as S2.
  rewrite HM in S1. cbn in S1.
  assert (forall n s' r', (n <= 6)%nat -> run step s (repeat (LStarter r) n ++ [LMain]) = Some s' -> hist s' = WWatchRet r' :: tl (hist s') ->
    exists ls s' r', (length ls <= 7)%nat /\ Forall (watching r) ls /\ run step s ls = Some s' /\ hist s' = WWatchRet r' :: tl (hist s')) as K.
  { intros n s' r' Hn R X. exists (repeat (LStarter r) n ++ [LMain]), s', r'. rewrite app_length, repeat_length. cbn. split; [lia|].
    split; [|auto]. apply Forall_app. split; [apply Forall_forall; intros x Hx; apply repeat_spec in Hx; right; exact Hx|constructor; [left; reflexivity|constructor]]. }
  assert (forall s1 : state, crashed s1 = crashed s -> main s1 = main s -> inited s1 = true ->
    step s1 LMain = Some (log (set_main s1 (M_Returned (werr s1))) (WWatchRet (werr s1)))) as L.
  { intros s1 A B C. unfold step, main_step. rewrite A, B, C, HC, HM. reflexivity. }
  destruct (starter s) eqn:Es; try discriminate S1.
  all: destruct r as [e|].
  all: try solve [eapply (K 0%nat); [lia|cbn [repeat app run]; rewrite L by auto; reflexivity|reflexivity]].
  all: try solve [eapply (K 1%nat); [lia|cbn [repeat app run]; go1 HC Es; rewrite L by auto; reflexivity|reflexivity]].
  all: try solve [eapply (K 2%nat); [lia|cbn [repeat app run]; go1 HC Es; go1 HC Es; rewrite L by auto; reflexivity|reflexivity]].
  all: try solve [eapply (K 3%nat); [lia|cbn [repeat app run]; go1 HC Es; go1 HC Es; go1 HC Es; rewrite L by auto; reflexivity|reflexivity]].
  all: try solve [eapply (K 4%nat); [lia|cbn [repeat app run]; go1 HC Es; go1 HC Es; go1 HC Es; go1 HC Es; rewrite L by auto; reflexivity|reflexivity]].
  all: try solve [eapply (K 5%nat); [lia|cbn [repeat app run]; go1 HC Es; go1 HC Es; go1 HC Es; go1 HC Es; go1 HC Es; rewrite L by auto; reflexivity|reflexivity]].
Qed.
Definition watch_inv (s : state) : Prop :=
  (In WWatch (hist s) -> before_watch (main s) = false) /\ (forall r, main s = M_Returned r -> In (WWatchRet r) (hist s)).
Lemma watch_step s l s' : shape s -> watch_inv s -> step s l = Some s' -> watch_inv s'.
Proof.
  unfold watch_inv. intros HS [I1 I2] H. clear HS. dstep H. all: cbn in *; split; [intros X; repeat (destruct X as [X|X]; [discriminate X|]); auto|intros r0 X; try discriminate X].
  all: try solve [match goal with E : main _ = _ |- _ => rewrite E in * end; cbn in *; auto; try (specialize (I1 X); discriminate I1)].
  all: try solve [match goal with E : main _ = _ |- _ => rewrite E in * end; try discriminate X; injection X as <-; auto].
  all: try solve [auto 6].
  all: try solve [injection X as <-; auto].
Qed.
Lemma reachable_watch s : reachable step init s -> watch_inv s.
Proof.
  intros H. apply (reachable_invariant step init (fun s => shape s /\ watch_inv s)).
  - intros s0 H0. split; [apply shape_init; exact H0|]. destruct H0 as [[f ->]|(cb & f & ->)]; split; cbn; intuition discriminate.
  - intros s1 l s2 (A & B) E. split; [eapply shape_step|eapply watch_step]; eauto.
  - exact H.
Qed.
Lemma watch_open s : reachable step init s -> In WWatch (hist s) -> (forall r, ~ In (WWatchRet r) (hist s)) -> main s = M_Wait.
Proof.
  intros H A B. destruct (reachable_watch _ H) as [I1 I2]. specialize (I1 A).
  destruct (main s) eqn:E; try discriminate I1; [reflexivity|]. destruct (B _ (I2 _ eq_refl)).
Qed.
