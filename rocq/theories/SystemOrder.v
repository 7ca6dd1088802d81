(** The order in which configurations reach the server. *)
From Verif Require Export SystemFlow SpecSystem.
From Verif Require BufferProofs.
Require Import Lia.

Lemma address_changes_snoc c l : forall now, address_changes now (l ++ [c]) = address_changes now l ++
  match fold_left (fun _ x => Some (Listen x)) l now with Some a => if list_eq_dec Byte.byte_eq_dec a (Listen c) then [] else [c] | None => [c] end.
Proof.
  induction l as [|x l IH]; intros now.
  - destruct now as [a|]; [|reflexivity]. cbn [app address_changes fold_left]. destruct (list_eq_dec _ a (Listen c)); reflexivity.
  - destruct now as [a|]; cbn [app address_changes fold_left].
    + destruct (list_eq_dec _ a (Listen x)) as [->|]; rewrite IH; reflexivity.
    + rewrite IH. reflexivity.
Qed.
Lemma address_changes_install c l : address_changes None (rev (c :: l)) = address_changes None (rev l) ++ (if SpecDistributor.relevant [listen_changed] (hd_error l) c then [c] else []).
Proof.
  cbn [rev]. rewrite address_changes_snoc. f_equal. unfold SpecDistributor.relevant, listen_changed. cbn. destruct l as [|x l]; [reflexivity|].
  cbn [rev hd_error]. rewrite fold_left_app. cbn [fold_left]. destruct (list_eq_dec Byte.byte_eq_dec (Listen x) (Listen c)) as [E|E], (BufferProofs.bytes_eqb_spec (Listen x) (Listen c)); cbn; congruence.
Qed.
Definition early (p : Server.pc) : bool := match p with Server.Idle | Server.A0 | Server.A1 | Server.A2 | Server.A3 => true | _ => false end.
Definition before_sub (p : Distributor.pc) : bool := match p with Distributor.Idle | Distributor.S0 _ _ _ | Distributor.S1 _ _ _ | Distributor.S2 _ _ _ => true | _ => false end.
Record subbed (e : bool) (d : Distributor.state) : Prop := {
  sb_early : e = true -> SpecDistributor.installed (Distributor.hist d) = [] /\ match Distributor.pcs d 0%nat with Distributor.S5 _ _ => True | _ => Distributor.started d = false end;
  sb_sub : SpecDistributor.subscribed 0%nat (Distributor.hist d) = if (e && before_sub (Distributor.pcs d 0%nat))%bool then None else Some [listen_changed];
  sb_exp : SpecDistributor.expected 0%nat (Distributor.hist d) = address_changes None (rev (SpecDistributor.installed (Distributor.hist d)))
}.
Definition normal (p : Distributor.pc) : Prop :=
  match p with
  | Distributor.Idle | Distributor.S0 _ _ Distributor.STop | Distributor.S1 _ _ Distributor.STop | Distributor.S2 _ _ Distributor.STop | Distributor.S3 _ _ Distributor.STop _
  | Distributor.S4 _ _ Distributor.STop | Distributor.S5 _ Distributor.STop
  | Distributor.G0 | Distributor.G1 | Distributor.G2 | Distributor.G3 (Some _)
  | Distributor.M0 | Distributor.M1 _ | Distributor.M2 _ | Distributor.M3 _ _ _ | Distributor.M4 _ _ _ _ => True
  | _ => False
  end.
Lemma duty_normal s t : duty s t -> normal (Distributor.pcs (dist s) t).
Proof. unfold duty, normal. destruct (Distributor.pcs (dist s) t); auto; destruct k || destruct snapshot; auto. Qed.
Lemma subbed_step e d l d' : reachable Distributor.step Distributor.init d -> calm_dist d -> (forall t, normal (Distributor.pcs d t)) -> subbed e d -> Distributor.step d l = Some d' ->
  calm_dist_label l -> (forall t n ch cs k, l = Distributor.LFresh t n -> Distributor.pcs d t = Distributor.S4 ch cs k -> n <> 0%nat) ->
  (l = Distributor.LGo 0 -> match Distributor.pcs d 0%nat with Distributor.S5 _ _ => False | _ => True end) ->
  (e = false -> Distributor.pcs d 0%nat = Distributor.Idle /\ forall k, l <> Distributor.LCall 0 k) -> subbed e d'.
Proof.
  intros R [C1 C2 C3] N [S1 S2 S3] H CL FR L EF. pose proof (DistributorProofs.reachable_lock _ R) as LK. pose proof (DistributorProofs.reachable_mon _ R) as MO.
  assert (E0 : Distributor.pcs d 0%nat <> Distributor.Idle -> e = true) by (destruct e; [reflexivity|intros X; destruct X; apply EF; reflexivity]).
  assert (IN : forall t c, Distributor.pcs d t = Distributor.M2 c -> e = false).
  { intros t c X. destruct e; [|reflexivity]. exfalso. destruct (S1 eq_refl) as [_ Y]. pose proof (C3 t) as Z. rewrite X in Z. cbn in Z.
    assert (Distributor.writer d = Some t) as W by (apply (DistributorProofs.li_writer _ LK); rewrite X; exact I).
    assert (Distributor.started d = false -> False) as Q by (intros Q; apply (DistributorProofs.mi_started _ MO Q t); rewrite X; exact I).
    destruct (Distributor.pcs d 0%nat) eqn:P0; try (exact (Q Y)).
    assert (Distributor.writer d = Some 0%nat) as W0 by (apply (DistributorProofs.li_writer _ LK); rewrite P0; exact I). congruence. }
  ddstep H; cbn in CL; try contradiction.
  all: repeat match goal with E : Distributor.pcs ?d ?t = ?p |- _ => lazymatch goal with _ : normal p /\ t = t |- _ => fail | _ => let X := fresh "NO" in let Y := fresh "CR" in pose proof (N t) as X; pose proof (C3 t) as Y; rewrite E in X, Y; assert (normal p /\ t = t) by (split; [exact X|reflexivity]) end end.
  all: cbn in *; try contradiction.
  all: try (rewrite C1 in *; discriminate); try (rewrite C2 in *; discriminate).
  all: try (destruct k; try contradiction).
  all: repeat match goal with H : _ /\ _ |- _ => destruct H | H : _ \/ _ |- _ => destruct H end; subst; try discriminate.
  all: repeat match goal with E : Distributor.pcs ?d 0%nat = _ |- _ => rewrite E in * end; cbn in *.
  all: try (specialize (L eq_refl); contradiction).
  all: try (specialize (E0 ltac:(discriminate)); subst e).
  all: constructor; cbn; auto.
  all: unfold upd; repeat (eqs; cbn); auto; try congruence.
  all: try (unfold SpecDistributor.current; destruct (S1 eq_refl) as [I0 _]; rewrite I0 in *; cbn in *; rewrite ?app_nil_r; assumption).
  all: try (destruct (S1 eq_refl); discriminate).
  all: try (match goal with E : Distributor.pcs _ _ = Distributor.M2 _ |- _ = true -> _ => rewrite (IN _ _ E); discriminate end).
  4: intros; split; [apply S1; reflexivity|exact I].
  3: { rewrite S3, S2, (IN _ _ Heqp). cbn [andb]. symmetry. exact (address_changes_install c (SpecDistributor.installed (Distributor.hist d))). }
  all: rewrite Heqp; auto.
Qed.
Definition sources (s : state) : Prop := SpecWatcher.recvd (FileWatcher.hist (watcher s)) = rev (SpecDistributor.sourced (Distributor.hist (dist s))).
Record ordered (s : state) : Prop := { or_sub : subbed (early (Server.pcs (srv s) 0%nat)) (dist s); or_src : sources s }.
Lemma late_idle s : reachable step init s -> early (Server.pcs (srv s) 0%nat) = false -> Distributor.pcs (dist s) 0%nat = Distributor.Idle.
Proof.
  intros R E. apply duty_idle; [apply (du_duty _ (reachable_duties _ R))|]. pose proof (cv_main _ (ca_srv _ (reachable_calm _ R))) as M.
  destruct (Server.pcs (srv s) 0%nat); try discriminate E; try exact I. destruct M as [M|[]]. discriminate M.
Qed.
(** the loop neither starts nor ends but by the actions shared with the distributor *)
Lemma early_step v l v' : calm_srv v -> Server.step v l = Some v' -> calm_server_label l -> (forall r, l <> Server.LSubscribe 0 r) ->
  early (Server.pcs v' 0%nat) = early (Server.pcs v 0%nat).
Proof.
  intros [I1 I2 I3 I4 IS I5 I6] H L NS. vstep H; cbn in L; try contradiction; try (rewrite I1 in *; discriminate).
  all: try match goal with E : Server.pcs ?v ?t = ?p |- _ => lazymatch p with Server.Idle => fail | _ => destruct (Nat.eq_dec t 0) as [->|X]; [rewrite E in I5|] end end; try contradiction; cbn in *; try (destruct I5; [discriminate|contradiction]).
  all: unfold upd; repeat (eqs; cbn); auto; try congruence; rewrite ?I1; try reflexivity.
  all: try (exfalso; eapply NS; f_equal; congruence).
  all: try (rewrite Heqp; reflexivity).
  all: try (subst; rewrite Heqp; reflexivity).
  all: try (rewrite Heqp in IS; discriminate IS).
  rewrite Heqp0. reflexivity.
Qed.
Lemma subbed_run e ls : forall d d', run Distributor.step d ls = Some d' -> reachable Distributor.step Distributor.init d -> subbed e d ->
  (forall d1 l d2, reachable Distributor.step Distributor.init d1 -> In l ls -> subbed e d1 -> Distributor.step d1 l = Some d2 -> subbed e d2) -> subbed e d'.
Proof.
  induction ls as [|l ls IH]; cbn; intros d d' H R S F; [congruence|]. destruct (Distributor.step d l) as [d1|] eqn:E; [|discriminate].
  apply (IH d1); auto; [eapply reachable_step; eassumption|eapply F; eauto|]. intros. eapply F; eauto.
Qed.
(** the configurations received from the source *)
Lemma sourced_step d l d' : Distributor.step d l = Some d' -> (forall t c, l <> Distributor.LSource t c) -> SpecDistributor.sourced (Distributor.hist d') = SpecDistributor.sourced (Distributor.hist d).
Proof. intros H N. ddstep H; cbn; try reflexivity. exfalso. eapply N. reflexivity. Qed.
Lemma sourced_run ls : forall d d', run Distributor.step d ls = Some d' -> (forall t c, ~ In (Distributor.LSource t c) ls) -> SpecDistributor.sourced (Distributor.hist d') = SpecDistributor.sourced (Distributor.hist d).
Proof.
  induction ls as [|l ls IH]; cbn; intros d d' H N; [congruence|]. destruct (Distributor.step d l) as [d1|] eqn:E; [|discriminate].
  rewrite (IH d1 d'); [|exact H|intros t c X; eapply N; right; exact X]. apply (sourced_step _ l); [exact E|]. intros t c ->. eapply N. left. reflexivity.
Qed.
Lemma recvd_step w l w' : FileWatcher.step w l = Some w' -> watcher_alone l = true -> SpecWatcher.recvd (FileWatcher.hist w') = SpecWatcher.recvd (FileWatcher.hist w).
Proof.
  intros H A. unfold FileWatcher.step in H. destruct (FileWatcher.crashed w); [discriminate|]. destruct l; try discriminate A; unfold FileWatcher.main_step, FileWatcher.starter_step, FileWatcher.handler_step in H.
  all: repeat match type of H with context [match ?x with _ => _ end] => destruct x; try discriminate H end; injection H as <-; try reflexivity.
  all: unfold FileWatcher.dispatch; repeat match goal with |- context [match ?x with _ => _ end] => destruct x end; reflexivity.
Qed.
Lemma sources_step s l s' : sources s -> step s l = Some s' -> sources s'.
Proof.
  unfold sources. intros S E. destruct (step_moves _ _ _ E) as (_ & m & P & E1 & E2 & _).
  assert ((mw m = [] /\ forall t c, ~ In (Distributor.LSource t c) (md m)) \/ (exists w, mw m = [w] /\ watcher_alone w = true /\ md m = []) \/
          (exists t c q, mw m = [FileWatcher.LRecv] /\ md m = [Distributor.LSource t c] /\ FileWatcher.chan (watcher s) = c :: q)) as [[X1 X2]|[(w & X1 & X2 & X3)|(t & c & q & X1 & X2 & X3)]].
  { clear - P. dplan P; try (left; split; [reflexivity|intros t1 c1 X; cbn in X; intuition discriminate]); eauto 10.
    left. split; [reflexivity|]. intros t c [->|[]]. discriminate Heqb. }
  - rewrite X1 in E1. apply run_none in E1. rewrite E1, (sourced_run _ _ _ E2 X2). exact S.
  - rewrite X1 in E1. rewrite X3 in E2. apply run_one in E1. apply run_none in E2. rewrite E2, (recvd_step _ _ _ E1 X2). exact S.
  - rewrite X1 in E1. rewrite X2 in E2. apply run_one in E1. apply run_one in E2.
    assert (SpecDistributor.sourced (Distributor.hist (dist s')) = c :: SpecDistributor.sourced (Distributor.hist (dist s))) as ->.
    { revert E2. clear. generalize (dist s'). intros d' H. ddstep H; reflexivity. }
    cbn [rev]. rewrite <- S. clear - E1 X3. unfold FileWatcher.step in E1. destruct (FileWatcher.crashed (watcher s)); [discriminate|]. rewrite X3 in E1.
    destruct (FileWatcher.main (watcher s)); try discriminate. destruct r; [discriminate|]. injection E1 as <-. reflexivity.
Qed.
Lemma ordered_step s l s' : reachable step init s -> ordered s -> step s l = Some s' -> ordered s'.
Proof.
  intros R [S1 S2] E. constructor; [|eapply sources_step; eassumption]. destruct (step_moves _ _ _ E) as (_ & m & P & _ & E2 & E3 & _).
  pose proof (reachable_calm _ R) as CA. pose proof (ca_srv _ CA) as CV. pose proof (ca_dist _ CA) as CD. pose proof (du_duty _ (reachable_duties _ R)) as D.
  pose proof (pt_dist _ (reachable_parts _ R)) as RD. pose proof (late_idle _ R) as LI. destruct (calm_plan _ _ _ _ CA P E3) as (C1 & C2 & _).
  assert (N : forall t, normal (Distributor.pcs (dist s) t)) by (intros t; apply duty_normal, D).
  (* one action of the distributor, the loop staying on the same side of Subscribe *)
  assert (One : forall l1, md m = [l1] -> (l1 = Distributor.LGo 0 -> match Distributor.pcs (dist s) 0%nat with Distributor.S5 _ _ => False | _ => True end) ->
    (forall k, l1 <> Distributor.LCall 0 k) -> early (Server.pcs (srv s') 0%nat) = early (Server.pcs (srv s) 0%nat) -> subbed (early (Server.pcs (srv s') 0%nat)) (dist s')).
  { intros l1 X Y Z Q. rewrite Q. rewrite X in E2, C1. apply run_one in E2. inversion C1; subst. eapply subbed_step; eauto.
    intros t n ch cs k -> W. clear - P X W. dplan P; try discriminate X. injection X as ->. cbn in Heqb. rewrite W in Heqb. apply unused_spec in Heqb. tauto. }
  assert (None' : md m = [] -> early (Server.pcs (srv s') 0%nat) = early (Server.pcs (srv s) 0%nat) -> subbed (early (Server.pcs (srv s') 0%nat)) (dist s')).
  { intros X Y. rewrite X in E2. apply run_none in E2. rewrite E2, Y. exact S1. }
  assert (Ve : mv m = [] -> early (Server.pcs (srv s') 0%nat) = early (Server.pcs (srv s) 0%nat)) by (intros X; rewrite X in E3; apply run_none in E3; rewrite E3; reflexivity).
  assert (Vo : forall l1, mv m = [l1] -> (forall r, l1 <> Server.LSubscribe 0 r) -> early (Server.pcs (srv s') 0%nat) = early (Server.pcs (srv s) 0%nat)).
  { intros l1 X Y. rewrite X in E3, C2. apply run_one in E3. eapply early_step; eauto. destruct C2 as [C2|[? C2]]; [|discriminate C2]. inversion C2; assumption. }
  destruct l.
  - dplan P. auto.
  - dplan P. apply (One l); auto.
    + intros ->. cbn in Heqb. unfold returning in Heqb. specialize (N 0%nat). destruct (Distributor.pcs (dist s) 0%nat); try exact I. destruct k; [discriminate Heqb|destruct N].
    + intros k ->. discriminate Heqb.
  - dplan P. apply None'; auto. apply (Vo l); auto. intros r ->. discriminate Heqb.
  - dplan P. auto.
  - dplan P. apply None'; auto. apply (Vo (Server.LStart 0)); auto. discriminate.
  - (* Subscribe is called *)
    dplan P. rewrite (Ve eq_refl).  apply run_two in E2. destruct E2 as (d1 & X1 & X2).
    assert (Y : Distributor.pcs (dist s') = upd (Distributor.pcs (dist s)) 0%nat (Distributor.S0 0%nat [listen_changed] Distributor.STop) /\
                Distributor.started (dist s') = Distributor.started (dist s) /\ exists k, Distributor.hist (dist s') = Distributor.HCall 0 k :: Distributor.hist (dist s)).
    { revert X1 X2. clear. generalize (dist s'). intros d' X1 X2. ddstep X1. ddstep X2. split; [reflexivity|]. split; [reflexivity|]. eexists. reflexivity. }
    destruct Y as (Y1 & Y2 & k & Y3). destruct S1 as [Q1 Q2 Q3]. rewrite Heqp0 in *. constructor; rewrite ?Y1, ?Y2, ?Y3, ?upd_same; cbn; auto.
  - (* and returns *)
    assert (X : returning (dist s) 0 = Some Distributor.RNil /\ m = Moves [] [Distributor.LGo 0] [Server.LSubscribe 0 None] 0 [] (main s) /\ Server.pcs (srv s) 0%nat = Server.A3).
    { dplan P; auto. apply (returning_calm _ _ _ CD) in Heqo. destruct Heqo as [(? & ? & ?)|[(? & ? & ? & ?)|(? & ? & ?)]]; congruence. }
    destruct X as (X & -> & H0). cbn in E2, E3. apply run_one in E2. apply run_one in E3.
    apply (returning_calm _ _ _ CD) in X. destruct X as [(_ & X & _)|[(X & _)|(X & _)]]; try (destruct X; reflexivity).
    assert (Y : SpecDistributor.subscribed 0%nat (Distributor.hist (dist s')) = SpecDistributor.subscribed 0%nat (Distributor.hist (dist s)) /\
      SpecDistributor.installed (Distributor.hist (dist s')) = SpecDistributor.installed (Distributor.hist (dist s)) /\ SpecDistributor.expected 0%nat (Distributor.hist (dist s')) = SpecDistributor.expected 0%nat (Distributor.hist (dist s))).
    { revert E2 X. clear. generalize (dist s'). intros d' X1 X. ddstep X1; try congruence. auto. }
    destruct Y as (Y1 & Y2 & Y3). destruct S1 as [Q1 Q2 Q3]. rewrite X in Q2. rewrite H0 in Q2.
    unfold Server.step in E3. rewrite (cv_crash _ CV), H0 in E3. injection E3 as <-. constructor; cbn; rewrite ?Y1, ?Y2, ?Y3; auto. discriminate.
  - dplan P. apply (One (Distributor.LSource t c)); auto; discriminate.
  - (* the server receives *)
    dplan P. apply (One (Distributor.LRecv 0)); auto; try discriminate. apply run_two in E3. destruct E3 as (v1 & X & Y). rewrite (calm_update _ _ _ _ CV Heqp X Y). reflexivity.
  - dplan P. apply (One (Distributor.LCall t Distributor.CGet)); auto; try discriminate. intros k X. injection X as -> _.
    pose proof (cv_main _ CV) as M. rewrite Heqp in M. destruct M as [M|[]]. discriminate M.
  - assert (X : exists c r, Server.pcs (srv s) t = Server.C6 c /\ m = Moves [] [Distributor.LGo t] [] c [Session.LConfig E0 r] (main s)) by (clear - P; dplan P; eauto 6).
    destruct X as (c & r & Hp & ->). apply (One (Distributor.LGo t)); auto; try discriminate. intros X. injection X as ->.
    pose proof (cv_main _ CV) as M. rewrite Hp in M. destruct M as [M|[]]. discriminate M.
  - dplan P. apply None'; auto. apply (Vo (Server.LGo t)); auto. discriminate.
  - dplan P. apply None'; auto. apply (Vo (Server.LEnd t r)); auto. discriminate.
  - assert (X : md m = [] /\ mv m = [Server.LGo t]) by (clear - P; dplan P; auto). apply None'; [tauto|]. apply (Vo (Server.LGo t)); [tauto|discriminate].
  - dplan P. apply None'; auto. apply (Vo (Server.LGo t)); auto. discriminate.
  - exfalso. eapply no_pick; eassumption.
  - dplan P. apply None'; auto. apply (Vo (Server.LGo t)); auto. discriminate.
  - exfalso. dplan P. pose proof (cv_main _ CV) as M. rewrite Heqp in M. destruct M as [M|[]]; discriminate M.
  - exfalso. dplan P. pose proof (cv_main _ CV) as M. rewrite Heqp in M. destruct M as [M|[]]; discriminate M.
  - exfalso. dplan P. pose proof (cv_main _ CV) as M. rewrite Heqp in M. destruct M as [M|[]]; discriminate M.
  - exfalso. destruct (ca_main _ CA) as [[X _]|[X _]]; unfold plan in P; rewrite X in P; discriminate P.
Qed.
Lemma reachable_ordered s : reachable step init s -> ordered s.
Proof.
  revert s. apply sys_induct; [|apply ordered_step]. intros f. constructor; [|reflexivity]. constructor; cbn; auto.
Qed.

