(** Invariants of the file-watcher model. *)
From Verif Require Export SpecWatcher.
Require Import Lia.

Ltac dstep H :=
  unfold step, main_step, starter_step, handler_step, dispatch in H; cbv zeta in H;
  repeat (match type of H with
          | context [match ?x with _ => _ end] => first [is_var x; destruct x | destruct x eqn:?]
          end; try discriminate H);
  injection H as <-.

(** *** Where the three goroutines are *)
Definition before_watch (p : mpc) : bool := match p with M_Read | M_Send _ | M_Watch | M_Failed => true | _ => false end.
Definition hstarted (p : hpc) : bool := match p with H_None => false | _ => true end.
Definition hended (p : hpc) : bool := match p with H_End => true | _ => false end.
Definition made (h : list event) := existsb (fun e => match e with WMade => true | _ => false end) h.
Definition added (h : list event) := existsb (fun e => match e with WAdd _ => true | _ => false end) h.
Definition add_ok (h : list event) := existsb (fun e => match e with WAdd None => true | _ => false end) h.
Definition stopped (h : list event) := existsb (fun e => match e with WStop => true | _ => false end) h.
Definition failed (h : list event) := existsb (fun e => match e with WError _ => true | _ => false end) h.
Definition noticed (h : list event) := existsb (fun e => match e with WStopped => true | _ => false end) h.
Definition closed (h : list event) := existsb (fun e => match e with WClosed => true | _ => false end) h.

Record shape (s : state) : Prop := {
  sh_main : before_watch (main s) = match starter s with S_None => true | _ => false end;
  sh_made : made (hist s) = match starter s with S_None | S_New | S_NewFailed | S_Make => false | S_End => hstarted (handler s) | _ => true end;
  sh_hs : hstarted (handler s) = match starter s with S_None | S_New | S_NewFailed | S_Make | S_Spawn => false | S_End => made (hist s) | _ => true end;
  sh_done : made (hist s) = match done s with ChNil => false | _ => true end;
  sh_stop : stopped (hist s) = match done s with ChClosed => true | _ => false end;
  sh_add : added (hist s) = match starter s with S_None | S_New | S_NewFailed | S_Make | S_Spawn | S_Add => false | S_End => hstarted (handler s) | _ => true end;
  sh_init : inited s = match starter s with S_Wait | S_Check | S_Close | S_End => true | _ => false end;
  sh_ret : match main s with M_Returned _ => inited s | _ => true end = true;
  sh_end : match starter s with S_Check | S_Close => hended (handler s) = true | S_End => hended (handler s) = hstarted (handler s) | _ => True end;
  sh_wclosed : wclosed s = match starter s with S_End => hstarted (handler s) | _ => false end;
  sh_closed : closed (hist s) = wclosed s;
  sh_listen : listening s = add_ok (hist s);
  sh_ended : hended (handler s) = failed (hist s) || noticed (hist s);
  sh_noticed : noticed (hist s) = true -> stopped (hist s) = true;
  sh_events : listening s = false -> events s = []
}.
Lemma shape_init s : init s -> shape s.
Proof. intros [[f ->]|(cb & f & ->)]; constructor; cbn; auto; discriminate. Qed.
Ltac rw := repeat match goal with
  | E : main ?s = _ |- _ => rewrite E in * | E : starter ?s = _ |- _ => rewrite E in *
  | E : handler ?s = _ |- _ => rewrite E in * | E : done ?s = _ |- _ => rewrite E in *
  | E : wclosed ?s = _ |- _ => rewrite E in * | E : listening ?s = _ |- _ => rewrite E in *
  end; cbn in *.
Lemma shape_step s l s' : shape s -> step s l = Some s' -> shape s'.
Proof.
  intros HI H. dstep H. all: destruct HI as [I1 I2 I3 I4 I5 I6 I7 I8 I9 I10 I11 I12 I13 I14 I15].
  all: rw; try congruence.
  all: constructor; cbn in *; auto; try congruence.
  all: rw; auto; try congruence.
  all: unfold made, added, add_ok, stopped, failed, noticed, closed in *; cbn in *.
  all: repeat match goal with
    | I : _ = match starter ?s with _ => _ end |- _ => destruct (starter s); cbn in *; try congruence
    | I : match starter ?s with _ => _ end |- _ => destruct (starter s); cbn in *; try congruence
    | |- context [match main ?s with _ => _ end] => destruct (main s); cbn in *; try congruence
    end; auto; try congruence.
  all: rewrite ?orb_true_r; auto; try congruence; try congruence.
  all: try solve [intros X; match goal with I : _ -> events _ = [], E : events _ = _ :: _ |- _ => rewrite (I X) in E; discriminate E end].
  all: try solve [match goal with |- context [handler ?s] => destruct (handler s); cbn in *; congruence end].
  all: try solve [match goal with I : _ = match done ?s with _ => _ end |- _ => destruct (done s); cbn in *; congruence end].
  all: match goal with I : hended (handler ?s) = _, J : hstarted (handler ?s) = false |- _ => rewrite <- I; destruct (handler s); [reflexivity|discriminate J..] end.
Qed.
Lemma reachable_shape s : reachable step init s -> shape s.
Proof. apply reachable_invariant; [apply shape_init|apply shape_step]. Qed.

(** *** Event masks *)
Lemma land_bit op k : 0 <= k -> negb (Z.land op (2 ^ k) =? 0) = Z.testbit op k.
Proof.
  intros Hk. assert (Z.land op (2 ^ k) = if Z.testbit op k then 2 ^ k else 0) as ->.
  { apply Z.bits_inj'. intros n Hn. rewrite Z.land_spec, Z.pow2_bits_eqb by lia.
    destruct (Z.eqb_spec k n) as [->|].
    - rewrite andb_true_r. destruct (Z.testbit op n) eqn:E; [rewrite Z.pow2_bits_true by lia; auto|rewrite Z.bits_0; auto].
    - rewrite andb_false_r. destruct (Z.testbit op k); [rewrite Z.pow2_bits_false by lia; auto|rewrite Z.bits_0; auto]. }
  destruct (Z.testbit op k); [|reflexivity].
  destruct (Z.eqb_spec (2 ^ k) 0) as [E|]; [|reflexivity]. pose proof (Z.pow_pos_nonneg 2 k). lia.
Qed.
Lemma choose_bits cb op : choose cb op =
  if Z.testbit op 0 then Some (KCreate, OnCreate cb) else if Z.testbit op 1 then Some (KWrite, OnWrite cb)
  else if Z.testbit op 2 then Some (KRemove, OnRemove cb) else None.
Proof.
  unfold choose. change OpCreate with (2 ^ 0). change OpWrite with (2 ^ 1). change OpRemove with (2 ^ 2).
  rewrite !land_bit by lia. reflexivity.
Qed.
Lemma choose_wanted cb op : wanted cb op = match choose cb op with Some (k, c) => if set c then [k] else [] | None => [] end.
Proof. rewrite choose_bits. unfold wanted. destruct (Z.testbit op 0), (Z.testbit op 1), (Z.testbit op 2); reflexivity. Qed.

Lemma choose_cli op : match choose (Callbacks CbNil CbReload CbNil) op with
  | Some (k, CbReload) => reloads op = true | Some (_, CbOther) => False | _ => reloads op = false end.
Proof. rewrite choose_bits. unfold reloads. destruct (Z.testbit op 0), (Z.testbit op 1), (Z.testbit op 2); reflexivity. Qed.
Definition calls_inv (s : state) : Prop := calls (hist s) = flat_map (wanted (cbs s)) (received_ops (hist s)).
Lemma flat_map_snoc {A B} (f : A -> list B) l x : flat_map f (l ++ [x]) = flat_map f l ++ f x.
Proof. rewrite flat_map_app. cbn. rewrite app_nil_r. reflexivity. Qed.
Lemma calls_step s l s' : calls_inv s -> step s l = Some s' -> calls_inv s'.
Proof.
  unfold calls_inv. intros HI H. dstep H. all: cbn; auto.
  all: rewrite flat_map_snoc, choose_wanted, <- HI.
  all: match goal with E : choose _ _ = _ |- _ => cbn in E; rewrite E end; cbn; rewrite ?app_nil_r; reflexivity.
Qed.
Lemma reachable_calls s : reachable step init s -> calls_inv s.
Proof. apply reachable_invariant; [intros ? [[f ->]|(cb & f & ->)]; reflexivity|apply calls_step]. Qed.

(** *** What travels through the channel *)
Record traffic (s : state) : Prop := {
  tr_sent : recvd (hist s) ++ chan s = sent (hist s);
  tr_read : sent (hist s) ++ pending s = loaded (hist s) ++ good_reloads (hist s);
  tr_early : starter s = S_None -> good_reloads (hist s) = [];
  tr_cap : (length (chan s) <= 1)%nat
}.
Lemma traffic_init s : init s -> traffic s.
Proof. intros [[f ->]|(cb & f & ->)]; constructor; cbn; auto. Qed.
Lemma early s : shape s -> before_watch (main s) = true -> starter s = S_None /\ handler s = H_None.
Proof.
  intros HS H. pose proof (sh_main _ HS) as S1. pose proof (sh_hs _ HS) as S2. rewrite H in S1.
  destruct (starter s); try discriminate. split; [reflexivity|]. destruct (handler s); [reflexivity|discriminate..].
Qed.
Lemma late s : shape s -> handler s <> H_None -> before_watch (main s) = false /\ starter s <> S_None.
Proof.
  intros HS H. destruct (before_watch (main s)) eqn:E; [destruct (early s HS E); congruence|].
  split; [reflexivity|]. pose proof (sh_main _ HS) as S1. rewrite E in S1. intros X. rewrite X in S1. discriminate.
Qed.
Lemma spawn_none s : shape s -> starter s = S_Spawn -> handler s = H_None.
Proof. intros HS X. pose proof (sh_hs _ HS) as S2. rewrite X in S2. destruct (handler s); [reflexivity|discriminate..]. Qed.
Lemma traffic_step s l s' : shape s -> traffic s -> step s l = Some s' -> traffic s'.
Proof.
  intros HS HI H. pose proof (early s HS) as HE. pose proof (late s HS) as HL.
  pose proof (spawn_none s HS) as HN.
  clear HS. dstep H. all: destruct HI as [I1 I2 I3 I4].
  all: repeat match goal with E : (_ <? _)%nat = true |- _ => apply Nat.ltb_lt in E; unfold cap in E end.
  all: try match goal with E : chan _ = _ :: _ |- _ => rewrite E in * end.
  all: unfold pending in *; rw; try congruence.
  all: try match goal with E : S_Spawn = S_Spawn -> handler _ = _ |- _ => rewrite (E eq_refl) in *; clear E end.
  all: try (destruct HE as [HE1 HE2]; [reflexivity|]; rewrite HE2 in *).
  all: try (destruct HL as [HL1 HL2]; [discriminate|]).
  all: constructor; unfold pending; cbn in *; auto; rw; auto; try congruence.
  all: rewrite ?app_nil_r in *; rewrite ?app_length; cbn in *; try lia.
  all: repeat match goal with I : S_None = S_None -> _ |- _ => specialize (I eq_refl) end.
  all: try solve [match goal with I : good_reloads _ = [] |- _ => rewrite I, ?app_nil_r in *; congruence end].
  all: try solve [rewrite app_assoc; congruence].
  all: try solve [rewrite <- app_assoc; auto].
  all: try match goal with E : before_watch (main ?s) = true -> S_Spawn = _ /\ _ |- _ => destruct (main s); rewrite ?app_nil_r in *; cbn in E; try (destruct (E eq_refl); discriminate); assumption end.
  all: match goal with E : before_watch (main ?s) = false |- _ => destruct (main s); try discriminate E; rewrite ?app_nil_r in *; rewrite ?app_assoc; congruence end.
Qed.
Lemma reachable_traffic s : reachable step init s -> traffic s.
Proof.
  intros H. apply (reachable_invariant step init (fun s => shape s /\ traffic s)).
  - intros. split; [apply shape_init|apply traffic_init]; assumption.
  - intros s1 l s2 [A B] E. split; [eapply shape_step|eapply traffic_step]; eauto.
  - exact H.
Qed.

(** The command line loads exactly one configuration before anything else. *)
Definition cli_inv (s : state) : Prop :=
  cbs s = Callbacks CbNil CbReload CbNil /\
  match main s with M_Read | M_Failed => loaded (hist s) = [] | _ => exists c, loaded (hist s) = [c] end.
Lemma cli_step s l s' : cli_inv s -> step s l = Some s' -> cli_inv s'.
Proof.
  intros [I1 I2] H. dstep H. all: rw; split; cbn in *; auto; rw; eauto.
  rewrite I2; cbn; eauto.
Qed.
Lemma from_cli_init s : from_cli s -> init s.
Proof. left. assumption. Qed.
Lemma reachable_from_cli s : reachable step from_cli s -> reachable step init s.
Proof. intros (s0 & ls & H0 & H). exists s0, ls. split; [left; exact H0|exact H]. Qed.
Lemma reachable_cli s : reachable step from_cli s -> cli_inv s.
Proof. apply reachable_invariant; [intros ? [f ->]; split; reflexivity|apply cli_step]. Qed.

Lemma cli_sent s : reachable step from_cli s -> match main s with M_Read | M_Send _ | M_Failed => True | _ => sent (hist s) <> [] end.
Proof.
  apply (reachable_invariant step from_cli (fun s => match main s with M_Read | M_Send _ | M_Failed => True | _ => sent (hist s) <> [] end)); [intros ? [f ->]; exact I|].
  intros s1 l s2 I1 H. dstep H. all: rw; cbn in *; auto; rw; auto.
  all: try (destruct (main _); auto).
  all: try (intros X; apply app_eq_nil in X; destruct X; discriminate).
Qed.

(** *** Reloads are as many as write events *)
Definition count_inv (s : state) : Prop :=
  (reload_count (hist s) + (match handler s with H_Read => 1 | _ => 0 end) = length (filter reloads (received_ops (hist s))))%nat.
Lemma count_step s l s' : shape s -> cbs s = Callbacks CbNil CbReload CbNil -> count_inv s -> step s l = Some s' -> count_inv s'.
Proof.
  unfold count_inv. intros HS HC HI H. pose proof (spawn_none s HS) as HN. clear HS. dstep H. all: cbn in *; rw; auto; try lia.
  all: try match goal with E : S_Spawn = S_Spawn -> handler _ = _ |- _ => rewrite (E eq_refl) in *; assumption end.
  all: rewrite filter_app, app_length; cbn.
  all: match goal with E : choose _ ?op = _, C : cbs _ = _ |- _ => rewrite C in E; pose proof (choose_cli op) as X; rewrite E in X end.
  all: match goal with X : reloads _ = _ |- _ => rewrite X; cbn; lia | X : False |- _ => destruct X end.
Qed.
Lemma reachable_count s : reachable step from_cli s -> count_inv s.
Proof.
  intros H. apply (reachable_invariant step from_cli (fun s => shape s /\ cli_inv s /\ count_inv s)).
  - intros ? [f ->]. split; [apply shape_init; left; eexists; reflexivity|repeat split].
  - intros s1 l s2 (A & B & C) E. split; [|split]; [eapply shape_step|eapply cli_step|eapply count_step]; eauto. apply B.
  - exact H.
Qed.

(** *** The file *)
Lemma step_hist s l s' : step s l = Some s' -> exists es, hist s' = es ++ hist s.
Proof.
  intros H. dstep H. all: cbn.
  all: first [exists []; reflexivity | eexists [_]; reflexivity | eexists [_; _]; reflexivity].
Qed.
Definition file_inv (f0 : option config) (s : state) : Prop := file s = contents f0 (hist s).
Lemma file_step f0 s l s' : file_inv f0 s -> step s l = Some s' -> file_inv f0 s'.
Proof. unfold file_inv. intros HI H. dstep H. all: cbn; auto; congruence. Qed.
Fixpoint reads_ok (f0 : option config) (h : list event) : Prop :=
  match h with
  | [] => True
  | (WRead f | WReload f) :: h' => f = contents f0 h' /\ reads_ok f0 h'
  | _ :: h' => reads_ok f0 h'
  end.
Lemma reads_step f0 s l s' : file_inv f0 s -> reads_ok f0 (hist s) -> step s l = Some s' -> reads_ok f0 (hist s').
Proof. unfold file_inv. intros HF HI H. dstep H. all: cbn; auto; split; auto; congruence. Qed.
Lemma reads_run f0 ls s : run step (prepare f0) ls = Some s -> file_inv f0 s /\ reads_ok f0 (hist s).
Proof.
  intros H. apply (run_invariant step (fun s => file_inv f0 s /\ reads_ok f0 (hist s))) in H; auto.
  - intros s1 l s2 [A B] E. split; [eapply file_step|eapply reads_step]; eauto.
  - split; cbn; auto. reflexivity.
Qed.
Lemma reads_ok_split f0 h2 e h1 : reads_ok f0 (h2 ++ e :: h1) -> match e with WRead f | WReload f => f = contents f0 h1 | _ => True end.
Proof. induction h2 as [|a h2 IH]; cbn; intros H; [destruct e; tauto|]. destruct a; try (apply IH; tauto). Qed.

(** A reload event was received since the file last changed. *)
Fixpoint fresh (h : list event) : bool :=
  match h with [] => false | WChange _ :: _ => false | WEvent op :: h' => reloads op || fresh h' | _ :: h' => fresh h' end.
Lemma fresh_split h2 op h1 : reloads op = true -> unchanged h2 -> fresh (h2 ++ WEvent op :: h1) = true.
Proof.
  intros Ho. induction h2 as [|a h2 IH]; cbn; intros Hu; [rewrite Ho; reflexivity|].
  assert (unchanged h2) as Hu2 by (intros f X; apply (Hu f); right; exact X).
  destruct a; auto; [exfalso; eapply Hu; left; reflexivity|rewrite IH by assumption; apply orb_true_r].
Qed.
Definition newest_inv (s : state) : Prop := fresh (hist s) = true ->
  match handler s with
  | H_Read => True
  | H_Send c => file s = Some c
  | _ => match file s with Some c => exists l, sent (hist s) = l ++ [c] | None => True end
  end.
Definition unfresh_inv (s : state) : Prop := starter s = S_None -> fresh (hist s) = false.
Lemma unfresh_step s l s' : shape s -> unfresh_inv s -> step s l = Some s' -> unfresh_inv s'.
Proof.
  unfold unfresh_inv. intros HS HI H. pose proof (late s HS) as HL. clear HS. dstep H. all: cbn in *; rw; auto; try discriminate.
  all: intros X; destruct HL as [_ HL]; [discriminate|]; congruence.
Qed.
Lemma newest_step s l s' : shape s -> unfresh_inv s -> cbs s = Callbacks CbNil CbReload CbNil -> newest_inv s -> step s l = Some s' -> newest_inv s'.
Proof.
  unfold newest_inv, unfresh_inv. intros HS HU HC HI H. pose proof (spawn_none s HS) as HN. pose proof (early s HS) as HE. clear HS. dstep H. all: cbn in *; rw; auto; try discriminate.
  all: try match goal with E : S_Spawn = S_Spawn -> handler _ = _ |- _ => rewrite (E eq_refl) in *; assumption end.
  all: try match goal with E : choose _ ?op = _, C : cbs _ = _ |- _ => rewrite C in E; pose proof (choose_cli op) as X; rewrite E in X end.
  all: try match goal with X : reloads _ = _ |- _ => rewrite X; cbn; auto; fail | X : False |- _ => destruct X end.
  all: try match goal with E : true = true -> _ /\ _ |- _ => destruct (E eq_refl) as [E1 E2]; intros X; rewrite HU in X by assumption; discriminate X end.
  all: intros X; specialize (HI X); try rewrite HI; eauto.
  all: match goal with E : file _ = _ |- _ => rewrite E; eauto end.
Qed.
Lemma reachable_newest s : reachable step from_cli s -> newest_inv s.
Proof.
  intros H. apply (reachable_invariant step from_cli (fun s => shape s /\ cli_inv s /\ unfresh_inv s /\ newest_inv s)).
  - intros ? [f ->]. split; [apply shape_init; left; eexists; reflexivity|repeat split]. intros X. discriminate X.
  - intros s1 l s2 (A & B & C & D) E. split; [|split; [|split]]; [eapply shape_step|eapply cli_step|eapply unfresh_step|eapply newest_step]; eauto. apply B.
  - exact H.
Qed.
