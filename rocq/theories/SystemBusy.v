(** The program's own actions, and that there are only boundedly many of them without the outside. *)
From Verif Require Export SpecServing SystemQuiet.
From Verif Require SessionBusy.
Require Import Lia.

(** *** Sums over goroutines and over connections *)
Fixpoint sum (f : nat -> nat) (k : nat) : nat := match k with O => O | S k' => (f k' + sum f k')%nat end.
Lemma sum_ext f g k : (forall t, (t < k)%nat -> g t = f t) -> sum g k = sum f k.
Proof. induction k as [|k IH]; cbn; intros H; [reflexivity|]. rewrite IH, H by auto. reflexivity. Qed.
Lemma sum_le f g k : (forall t, (t < k)%nat -> (g t <= f t)%nat) -> (sum g k <= sum f k)%nat.
Proof. induction k as [|k IH]; cbn; intros H; [lia|]. pose proof (IH ltac:(auto)). pose proof (H k ltac:(lia)). lia. Qed.
Lemma sum_change f g t k : (t < k)%nat -> (forall t', t' <> t -> (g t' <= f t')%nat) -> (sum g k + f t <= sum f k + g t)%nat.
Proof.
  intros Ht H. induction k as [|k IH]; [lia|]. cbn. destruct (Nat.eq_dec t k) as [->|Hn].
  - pose proof (sum_le f g k) as X. rewrite <- Nat.add_assoc. specialize (X ltac:(intros; apply H; lia)). lia.
  - specialize (IH ltac:(lia)). pose proof (H k ltac:(lia)). lia.
Qed.
Lemma sum_change2 f g t n k : (t < k)%nat -> (n < k)%nat -> t <> n -> (forall t', t' <> t -> t' <> n -> (g t' <= f t')%nat) -> (sum g k + f t + f n <= sum f k + g t + g n)%nat.
Proof.
  intros Ht Hn Hd H. pose proof (sum_change f (fun x => if Nat.eqb x t then g t else f x) t k Ht) as A. cbn in A. rewrite Nat.eqb_refl in A.
  pose proof (sum_change (fun x => if Nat.eqb x t then g t else f x) g n k Hn) as B. cbn in B. destruct (Nat.eqb_spec n t); [congruence|].
  assert (sum (fun x => if Nat.eqb x t then g t else f x) k + f t <= sum f k + g t)%nat by (apply A; intros t' Ht'; destruct (Nat.eqb_spec t' t); [congruence|lia]).
  assert (sum g k + f n <= sum (fun x => if Nat.eqb x t then g t else f x) k + g n)%nat by (apply B; intros t' Ht'; destruct (Nat.eqb_spec t' t) as [->|]; [lia|auto]). lia.
Qed.
(** beyond [k] nobody has anything *)
Definition ends (f : nat -> nat) (k : nat) : Prop := forall t, (k <= t)%nat -> f t = O.
Lemma sum_more f k k' : ends f k -> (k <= k')%nat -> sum f k' = sum f k.
Proof. intros H Hk. induction Hk as [|k' Hk IH]; [reflexivity|]. cbn. rewrite (H k') by lia. exact IH. Qed.
(** what is left becomes [a] less and [b] more *)
Definition moves_sum (f g : nat -> nat) (a b : nat) : Prop := forall k, ends f k -> exists k', ends g k' /\ (sum g k' + a <= sum f k + b)%nat.
Lemma ms_le f g : (forall t, (g t <= f t)%nat) -> moves_sum f g 0 0.
Proof. intros H k Hk. exists k. split; [intros t Ht; specialize (H t); rewrite (Hk t Ht) in H; lia|]. pose proof (sum_le f g k ltac:(auto)). lia. Qed.
Lemma ms_one f g t a b : (forall t', t' <> t -> (g t' <= f t')%nat) -> (g t + a <= f t + b)%nat -> moves_sum f g a b.
Proof.
  intros H E k Hk. exists (Nat.max k (S t)). split; [intros t' Ht; specialize (H t' ltac:(lia)); rewrite (Hk t') in H by lia; lia|].
  rewrite <- (sum_more f k (Nat.max k (S t))) by (auto; lia). pose proof (sum_change f g t (Nat.max k (S t)) ltac:(lia) H). lia.
Qed.
Lemma ms_two f g t n a b : t <> n -> (forall t', t' <> t -> t' <> n -> (g t' <= f t')%nat) -> (g t + g n + a <= f t + f n + b)%nat -> moves_sum f g a b.
Proof.
  intros D H E k Hk. exists (Nat.max k (S (Nat.max t n))). split; [intros t' Ht; specialize (H t' ltac:(lia) ltac:(lia)); rewrite (Hk t') in H by lia; lia|].
  rewrite <- (sum_more f k (Nat.max k (S (Nat.max t n)))) by (auto; lia). pose proof (sum_change2 f g t n (Nat.max k (S (Nat.max t n))) ltac:(lia) ltac:(lia) D H). lia.
Qed.

(** *** What a goroutine of the server has left to do *)
Definition may_ask (s : state) (t : tid) (c : nat) : nat := if (is_idle (Distributor.pcs (dist s) t) && SessionBusy.wants (sess s c))%bool then 30 else 0.
Definition prank (p : Server.pc) : nat :=
  match p with
  | Server.S0 _ => 5 | Server.S1 _ => 4 | Server.S2 _ => 3 | Server.S3 _ => 2 | Server.S4 _ => 1 | Server.S5 _ => 0 | Server.SRet _ _ => 1
  | Server.S6 _ _ => 46 | Server.C0 _ => 45 | Server.C1 _ => 44 | Server.C2 _ => 43 | Server.C3 _ => 42 | Server.C4 _ => 41 | Server.C5 _ => 40
  | Server.C6 _ => 8 | Server.C7 _ _ => 7 | Server.C8 _ _ => 6 | Server.C9 _ _ => 5 | Server.C10 _ _ => 4 | Server.C11 _ _ => 3 | Server.CRet _ _ => 2
  | _ => 0
  end%nat.
Definition trank (s : state) (t : tid) : nat := (prank (Server.pcs (srv s) t) + match Server.pcs (srv s) t with Server.C6 c => may_ask s t c | _ => 0 end)%nat.
Definition crank (s : state) (c : nat) : nat := SessionBusy.srank (sess s c).
Definition effort (s : state) (k j : nat) : nat := (6 * work s k + sum (trank s) j + sum (crank s) (Server.next_conn (srv s)))%nat.

Lemma trank_le s s' t : Server.pcs (srv s') t = Server.pcs (srv s) t ->
  (forall c, Server.pcs (srv s) t = Server.C6 c -> is_idle (Distributor.pcs (dist s') t) = true -> is_idle (Distributor.pcs (dist s) t) = true) ->
  (forall c, Server.pcs (srv s) t = Server.C6 c -> SessionBusy.wants (sess s' c) = true -> SessionBusy.wants (sess s c) = true) -> (trank s' t <= trank s t)%nat.
Proof.
  intros E D W. unfold trank. rewrite E. destruct (Server.pcs (srv s) t); try lia. unfold may_ask.
  specialize (D _ eq_refl). specialize (W _ eq_refl). destruct (is_idle (Distributor.pcs (dist s') t)), (SessionBusy.wants (sess s' c)); cbn; try lia. rewrite D, W by reflexivity. cbn. lia.
Qed.
Lemma trank_zero s : reachable step init s -> trank s 0 = 0%nat.
Proof. intros R. unfold trank. destruct (cv_main _ (ca_srv _ (reachable_calm _ R))) as [E|E]; [rewrite E; reflexivity|]. destruct (Server.pcs (srv s) 0%nat); try contradiction; reflexivity. Qed.
Lemma alone_idle_any s l d' t : (forall t, normal (Distributor.pcs (dist s) t)) -> calm_dist (dist s) -> dist_alone s l = true -> Distributor.step (dist s) l = Some d' ->
  Server.pcs (srv s) t <> Server.Idle -> is_idle (Distributor.pcs d' t) = is_idle (Distributor.pcs (dist s) t).
Proof.
  intros N [C1 C2 C3] A H NI. ddstep H; cbn in A; try discriminate A.
  all: repeat match goal with E : Distributor.pcs ?d ?t = ?p |- _ => lazymatch goal with _ : normal p /\ t = t |- _ => fail | _ => let X := fresh "NO" in pose proof (N t) as X; rewrite E in X; assert (normal p /\ t = t) by (split; [exact X|reflexivity]) end end; cbn in *; try contradiction.
  all: unfold returning in A; repeat match goal with E : Distributor.pcs (dist ?s) ?t = ?p |- _ => rewrite E in A end; cbn in A; try discriminate A.
  all: try (rewrite C1 in *; cbn in *; discriminate); try (rewrite C2 in *; cbn in *; discriminate).
  all: try (destruct k; try contradiction; try discriminate A).
  all: unfold upd; repeat (eqs; cbn); auto.
  all: try match goal with E : Distributor.pcs _ _ = _ |- _ => subst; rewrite E; reflexivity end.
  all: apply unused_spec in A; destruct A as (? & ? & ?); subst; congruence.
Qed.
Lemma same_conns v l v' : Server.step v l = Some v' -> match l with Server.LServeConn _ | Server.LAccept _ _ => False | _ => True end -> Server.next_conn v' = Server.next_conn v.
Proof. intros H L. vstep H; try contradiction; reflexivity. Qed.
Lemma drop_pipeline s l s' k j : reachable step init s -> step s l = Some s' -> pipeline l -> idle_from (dist s) k -> ends (trank s) j ->
  moves_sum (trank s) (trank s') 0 5 -> (forall c, (crank s' c <= crank s c)%nat) -> Server.next_conn (srv s') = Server.next_conn (srv s) ->
  exists k' j', idle_from (dist s') k' /\ ends (trank s') j' /\ (effort s' k' j' < effort s k j)%nat.
Proof.
  intros R E P K J M C N. destruct (pipeline_drop _ _ _ _ R P E K) as (k' & K1 & K2). destruct (M _ J) as (j' & J1 & J2). exists k', j'. split; [exact K1|]. split; [exact J1|].
  unfold effort. rewrite N. pose proof (sum_le (crank s) (crank s') (Server.next_conn (srv s)) ltac:(auto)). lia.
Qed.
Lemma drop_local s s' k j : idle_from (dist s) k -> ends (trank s) j -> watcher s' = watcher s -> dist s' = dist s -> Server.pcs (srv s') 0%nat = Server.pcs (srv s) 0%nat -> main s' = main s ->
  Server.next_conn (srv s') = Server.next_conn (srv s) ->
  moves_sum (trank s) (trank s') 1 0 /\ (forall c, (crank s' c <= crank s c)%nat) \/
  moves_sum (trank s) (trank s') 0 0 /\ (exists c, (c < Server.next_conn (srv s))%nat /\ (crank s' c < crank s c)%nat /\ forall c', c' <> c -> (crank s' c' <= crank s c')%nat) ->
  exists k' j', idle_from (dist s') k' /\ ends (trank s') j' /\ (effort s' k' j' < effort s k j)%nat.
Proof.
  intros K J E1 E2 E3 E4 E5 H. exists k.
  assert (work s' k = work s k) as W by (unfold work; rewrite (unmade_le s s') by (rewrite ?E2, ?E3; reflexivity); rewrite E1, E2, E3, E4; reflexivity).
  destruct H as [[M C]|[M (c & C1 & C2 & C3)]]; destruct (M _ J) as (j' & J1 & J2); exists j'; (split; [rewrite E2; exact K|]); (split; [exact J1|]); unfold effort; rewrite W, E5.
  - pose proof (sum_le (crank s) (crank s') (Server.next_conn (srv s)) ltac:(auto)). lia.
  - pose proof (sum_change (crank s) (crank s') c _ C1 C3). lia.
Qed.

Definition in_session (p : Server.pc) : Prop := match p with Server.C6 _ => True | _ => False end.
Lemma server_moves v l v' : calm_srv v -> Server.step v l = Some v' ->
  match l with
  | Server.LGo t => match Server.pcs v t with Server.C5 _ | Server.C7 _ _ | Server.C8 _ _ => False | _ => True end
  | Server.LSpawn _ n => n <> 0%nat
  | Server.LListen _ _ | Server.LCloseListener _ _ => True
  | _ => False
  end -> ~ main_action l ->
  (exists t, t <> 0%nat /\ (forall t', t' <> t -> Server.pcs v' t' = Server.pcs v t') /\ (prank (Server.pcs v' t) + 1 <= prank (Server.pcs v t))%nat /\ ~ in_session (Server.pcs v' t)) \/
  (exists t n, t <> n /\ t <> 0%nat /\ n <> 0%nat /\ (forall t', t' <> t -> t' <> n -> Server.pcs v' t' = Server.pcs v t') /\
    (prank (Server.pcs v' t) + prank (Server.pcs v' n) + 1 <= prank (Server.pcs v t) + prank (Server.pcs v n))%nat /\ ~ in_session (Server.pcs v' t) /\ ~ in_session (Server.pcs v' n)).
Proof.
  intros [I1 I2 I3 I4 IS I5 I6] H L NM. vstep H; try contradiction.
  all: try (rewrite I1 in *; cbn in *; discriminate).
  all: try match goal with E : Server.pcs ?v ?t = ?p |- _ => lazymatch p with Server.Idle => fail | _ => destruct (Nat.eq_dec t 0) as [->|NZ]; [exfalso; try (apply NM; exact I)|pose proof (I6 _ NZ) as W; rewrite E in W; try rewrite E in L; cbn in W, L; try contradiction] end end.
  all: try (match goal with E : Server.pcs ?v 0%nat = _ |- _ => rewrite E in I5; destruct I5 as [I5|I5]; [discriminate I5|exact I5] end).
  all: try solve [left; exists t; split; [exact NZ|]; cbn; rewrite ?upd_same; split; [intros t' Ht'; apply upd_other, Ht'|]; match goal with E : Server.pcs _ _ = _ |- _ => rewrite E end; cbn; split; [lia|auto]].
  right. exists t, child. assert (t <> child) as D by congruence. repeat (split; [assumption|]). cbn. split; [intros t' H1 H2; rewrite !upd_other by assumption; reflexivity|].
  rewrite upd_same, (upd_other _ child (Server.C0 c) t), upd_same, Heqp, Heqp0 by assumption. cbn. split; [lia|auto].
Qed.
(** the server's other goroutines *)
Lemma server_sum s s' l : reachable step init s -> Server.step (srv s) l = Some (srv s') -> dist s' = dist s -> (forall c, sess s' c = sess s c) -> server_alone s l = true -> own (YServer l) -> ~ main_action l ->
  moves_sum (trank s) (trank s') 1 0.
Proof.
  intros R H ED ES A O NM.
  assert (F : forall t, Server.pcs (srv s') t = Server.pcs (srv s) t -> (trank s' t <= trank s t)%nat) by (intros t E; apply trank_le; [exact E|intros c _; rewrite ED; auto|intros c _; rewrite ES; auto]).
  assert (N : forall t, ~ in_session (Server.pcs (srv s') t) -> trank s' t = prank (Server.pcs (srv s') t)) by (intros t E; unfold trank; destruct (Server.pcs (srv s') t); cbn in *; try lia; tauto).
  assert (G : forall t, (prank (Server.pcs (srv s) t) <= trank s t)%nat) by (intros t; unfold trank; lia).
  destruct (server_moves _ _ _ (ca_srv _ (reachable_calm _ R)) H) as [(t & _ & T1 & T2 & T3)|(t & n & T0 & _ & _ & T1 & T2 & T3 & T4)].
  - destruct l; try contradiction; try exact I; cbn in A; [|apply unused_spec in A; tauto]. destruct (Server.pcs (srv s) t); try discriminate A; exact I.
  - exact NM.
  - apply (ms_one _ _ t); [auto|]. rewrite N by exact T3. specialize (G t). lia.
  - apply (ms_two _ _ t n); [exact T0|auto|]. rewrite !N by assumption. pose proof (G t). pose proof (G n). lia.
Qed.
Lemma server_main s s' l : reachable step init s -> reachable step init s' -> Server.step (srv s) l = Some (srv s') -> dist s' = dist s -> (forall c, sess s' c = sess s c) -> main_action l -> server_alone s l = true ->
  moves_sum (trank s) (trank s') 0 5.
Proof.
  intros R R' H ED ES MA A.
  assert (F : forall t, Server.pcs (srv s') t = Server.pcs (srv s) t -> (trank s' t <= trank s t)%nat) by (intros t E; apply trank_le; [exact E|intros c _; rewrite ED; auto|intros c _; rewrite ES; auto]).
  assert ((forall t, t <> 0%nat -> Server.pcs (srv s') t = Server.pcs (srv s) t) \/ exists n x, n <> 0%nat /\ (forall t, t <> 0%nat -> t <> n -> Server.pcs (srv s') t = Server.pcs (srv s) t) /\ Server.pcs (srv s') n = Server.S0 x) as [X|(n & x & N & X & Y)].
  { assert (forall t n, l = Server.LSpawn t n -> n <> 0%nat) as NF by (intros t n ->; apply unused_spec in A; tauto).
    pose proof (cv_main _ (ca_srv _ (reachable_calm _ R))) as V. clear - H MA V NF. revert H. generalize (srv s'). intros v H. vstep H; cbn in MA; try contradiction; destruct t; try contradiction.
    all: try (left; intros t' Ht'; cbn; apply upd_other; exact Ht').
    all: try (destruct V as [V|V]; rewrite Heqp in V || rewrite Heqp0 in V; [discriminate|destruct V]; fail).
    all: try (right; exists child, l; split; [eapply NF; reflexivity|]; cbn; split; [intros t' H1 H2; rewrite !upd_other by assumption; reflexivity|apply upd_same]).
  }
  - apply (ms_one _ _ 0%nat); [auto|]. rewrite !trank_zero by assumption. lia.
  - apply (ms_two _ _ 0%nat n); [auto|auto|]. rewrite !trank_zero by assumption. unfold trank. rewrite Y. cbn. lia.
Qed.
Lemma same_crank s s' : (forall c, sess s' c = sess s c) -> forall c, (crank s' c <= crank s c)%nat.
Proof. intros H c. unfold crank. rewrite H. lia. Qed.
Lemma other_crank s s' c : (forall c', c' <> c -> sess s' c' = sess s c') -> (SessionBusy.srank (sess s' c) <= SessionBusy.srank (sess s c))%nat -> forall c', (crank s' c' <= crank s c')%nat.
Proof. intros H1 H2 c'. unfold crank. destruct (Nat.eq_dec c' c) as [->|N]; [exact H2|]. rewrite H1 by exact N. lia. Qed.
Lemma dist_go_other d t d' t' : Distributor.step d (Distributor.LGo t) = Some d' -> t' <> t -> Distributor.pcs d' t' = Distributor.pcs d t'.
Proof. intros H N. ddstep H; cbn; rewrite ?upd_other by exact N; reflexivity. Qed.
Lemma own_drop s l s' k j : reachable step init s -> own l -> step s l = Some s' -> idle_from (dist s) k -> ends (trank s) j ->
  exists k' j', idle_from (dist s') k' /\ ends (trank s') j' /\ (effort s' k' j' < effort s k j)%nat.
Proof.
  intros R O E K J. pose proof (reachable_step _ _ _ _ _ R E) as R'. pose proof (reachable_calm _ R) as CA. pose proof (ca_srv _ CA) as CV. pose proof (reachable_normal _ R) as N.
  destruct (step_moves _ _ _ E) as (PN & m & P & E1 & E2 & E3 & E4 & E5 & Em).
  assert (SS : ms m = [] -> forall c, sess s' c = sess s c).
  { intros X c. destruct (Nat.eq_dec c (mc m)) as [->|Hc]; [|auto]. rewrite X in E4. apply run_none in E4. exact E4. }
  assert (KK : forall t p, Server.pcs (srv s) t = p -> worker p \/ in_loop p).
  { intros t p <-. destruct (Nat.eq_dec t 0) as [->|X]; [|left; apply (cv_worker _ CV), X]. destruct (cv_main _ CV) as [M'|M']; [left; rewrite M'; exact I|right; exact M']. }
  assert (Z0 : forall t c, Server.pcs (srv s) t = Server.C6 c -> t <> 0%nat) by (intros t c X ->; destruct (cv_main _ CV) as [Y|Y]; rewrite X in Y; [discriminate Y|destruct Y]).
  pose proof (reachable_linked _ R) as LK. pose proof (ServerProofs.reachable_own _ (pt_srv _ (reachable_parts _ R))) as OW.
  destruct l; cbn in O; try contradiction.
  - assert (pipeline (YWatcher l)) as PL by (destruct l; try contradiction; exact I). dplan P. runs. specialize (SS eq_refl).
    apply (drop_pipeline s (YWatcher l) s'); auto using same_crank; [|congruence]. intros k' Hk. destruct (ms_le (trank s) (trank s')) with (k := k') as (k2 & A & B); [|exact Hk|exists k2; split; [exact A|lia]].
    intros t. apply trank_le; [congruence|intros c _; rewrite E2; auto|intros c _; rewrite SS; auto].
  - dplan P. runs. specialize (SS eq_refl). apply (drop_pipeline s (YDist l) s'); auto using same_crank; [|congruence].
    intros k' Hk. destruct (ms_le (trank s) (trank s')) with (k := k') as (k2 & A & B); [|exact Hk|exists k2; split; [exact A|lia]].
    intros t. apply trank_le; [congruence| |intros c _; rewrite SS; auto]. intros c X. rewrite (alone_idle_any s l (dist s') t N (ca_dist _ CA)); auto. congruence.
  - dplan P. rename Heqb into A. runs. specialize (SS eq_refl).
    assert (Server.next_conn (srv s') = Server.next_conn (srv s)) as NC by (eapply same_conns; [exact E3|destruct l; try contradiction; exact I]).
    assert (main_action l \/ ~ main_action l) as [MA|NM] by (destruct l; cbn; try tauto; destruct t; tauto).
    + apply (drop_pipeline s (YServer l) s'); auto using same_crank; eapply server_main; eassumption.
    + apply (drop_local s s'); auto.
      * destruct (server_moves _ _ _ CV E3) as [(t & T0 & T1 & _)|(t & n & _ & T0 & T2 & T1 & _)]; auto.
        destruct l; try contradiction; try exact I; cbn in A; [|apply unused_spec in A; tauto]. destruct (Server.pcs (srv s) t); try discriminate A; exact I.
      * left. split; [eapply server_sum; eassumption|apply same_crank, SS].
  - dplan P. runs. apply andb_prop in Heqb. destruct Heqb as [B1 B2]. apply Nat.ltb_lt in B1. destruct (session_alone_inv _ c R) as (A1 & _ & A2).
    assert (SessionBusy.self l) as SL by (destruct l; try contradiction; exact I).
    apply (drop_local s s'); auto; try congruence. right. split.
    + apply ms_le. intros t. apply trank_le; [congruence|intros c' _; rewrite E2; auto|]. intros c' _. destruct (Nat.eq_dec c' c) as [->|Hc]; [|rewrite E5 by exact Hc; auto].
      eapply SessionBusy.self_wants; eassumption.
    + exists c. split; [exact B1|]. split; [|intros c' Hc; unfold crank; rewrite E5 by exact Hc; lia]. apply (SessionBusy.self_drop _ l); auto.
  - dplan P. runs. specialize (SS eq_refl). apply (drop_pipeline s YRun s'); auto using same_crank; [|eapply same_conns; [exact E3|exact I]].
    apply (ms_one _ _ 0%nat); [|rewrite !trank_zero by assumption; lia]. intros t Ht. apply trank_le; [|intros c _; rewrite E2; auto|intros c _; rewrite SS; auto].
    clear - E3 Ht. revert E3. generalize (srv s'). intros v E3. vstep E3. cbn. apply upd_other, Ht.
  - assert (ms m = [] /\ srv s' = srv s) as [X Y] by (clear - P E3; dplan P; split; [reflexivity|exact (run_none _ _ _ E3)]).
    apply (drop_pipeline s YSubscribe s'); auto using same_crank; [|rewrite Y; reflexivity].
    apply (ms_one _ _ 0%nat); [|rewrite !trank_zero by assumption; lia]. intros t Ht. apply trank_le; [rewrite Y; reflexivity| |intros c _; rewrite SS; auto].
    intros c _. dplan P. apply run_two in E2. destruct E2 as (d1 & X1 & X2). clear - X1 X2 Ht. revert X2. generalize (dist s'). intros d' X2. ddstep X1. ddstep X2. cbn. rewrite upd_other by exact Ht. auto.
  - (* YSubscribed *)
    assert (ms m = [] /\ md m = [Distributor.LGo 0%nat] /\ exists r, mv m = [Server.LSubscribe 0 r]) as (X & Y & r & Z) by (clear - P; dplan P; eauto). rewrite Y in E2. rewrite Z in E3. runs.
    apply (drop_pipeline s YSubscribed s'); auto using same_crank; [|eapply same_conns; [exact E3|exact I]].
    apply (ms_one _ _ 0%nat); [|rewrite !trank_zero by assumption; lia]. intros t Ht. apply trank_le; [| |intros c _; rewrite SS; auto].
    + clear - E3 Ht. revert E3. generalize (srv s'). intros v E3. vstep E3; cbn; apply upd_other, Ht.
    + intros c _. rewrite (dist_go_other _ _ _ _ E2 Ht). auto.
  - (* YSource *)
    dplan P. runs. specialize (SS eq_refl). apply (drop_pipeline s (YSource t) s'); auto using same_crank; [|rewrite E3; reflexivity].
    apply (ms_one _ _ t); [intros t' Ht; apply trank_le; [rewrite E3; reflexivity| |intros c' _; rewrite SS; auto]|].
    + intros c' _. clear - E2 Ht. revert E2. generalize (dist s'). intros d' E2. ddstep E2. cbn. rewrite upd_other by exact Ht. auto.
    + assert (trank s' t <= trank s t)%nat; [|lia]. apply trank_le; [rewrite E3; reflexivity| |intros c' _; rewrite SS; auto]. intros c' _. clear - E2. revert E2. generalize (dist s'). intros d' E2. ddstep E2. cbn. rewrite upd_same. discriminate.
  - (* YUpdate *)
    assert (ms m = []) as X by (clear - P; dplan P; reflexivity). specialize (SS X). dplan P. apply run_one in E2. apply run_two in E3. destruct E3 as (v1 & V1 & V2).
    assert (srv s' = Server.goto (Server.with_updates (srv s) true [] false) 0 (Server.A5 c)) as V by (eapply calm_update; eassumption).
    apply (drop_pipeline s YUpdate s'); auto using same_crank; [|rewrite V; reflexivity].
    apply (ms_one _ _ 0%nat); [|rewrite !trank_zero by assumption; lia]. intros t Ht. apply trank_le; [rewrite V; cbn; apply upd_other, Ht| |intros c' _; rewrite SS; auto].
    intros c' _. clear - E2. revert E2. generalize (dist s'). intros d' E2. ddstep E2. auto.
  - (* YGet *)
    assert (exists c w, Server.pcs (srv s) t = Server.C6 c /\ Distributor.pcs (dist s) t = Distributor.Idle /\ Session.start_pc (sess s c) = Session.SGet w /\ Session.cached (sess s c) = None /\ m = Moves [] [Distributor.LCall t Distributor.CGet] [] 0 [] (main s)) as (c & w & X1 & X2 & X3 & X4 & ->) by (clear - P; dplan P; eauto 8).
    cbn [mw md mv ms mr mc] in *. runs. specialize (SS eq_refl).
    assert (Session.crashed (sess s c) = None) as CR by (apply (panic_session _ _ PN), (ServerProofs.oi_conn_lt _ OW t); rewrite X1; reflexivity).
    assert (shifts (dist s) (dist s') 0 4 /\ Distributor.pcs (dist s') t = Distributor.G0 /\ forall t', t' <> t -> Distributor.pcs (dist s') t' = Distributor.pcs (dist s) t') as (SF & D1 & D2).
    { clear - E2 X2. revert E2. generalize (dist s'). intros d' E2. ddstep E2. split; [|split; [apply upd_same|intros t' Ht; apply upd_other, Ht]].
      eapply shift_one; [reflexivity|]. match goal with E : Distributor.pcs _ _ = _ |- _ => rewrite E end. unfold qlen. cbn. lia. }
    destruct (SF _ K) as (k' & K1 & K2).
    destruct (ms_one (trank s) (trank s') t 30 0) with (k := j) as (j' & J1 & J2); [| |exact J|].
    + intros t' Ht. apply trank_le; [rewrite E3; reflexivity|intros c' _; rewrite (D2 _ Ht); auto|intros c' _; rewrite SS; auto].
    + unfold trank, may_ask. rewrite E3, X1, X2, D1, SS. cbn. unfold SessionBusy.wants. rewrite X3, X4, CR. lia.
    + exists k', j'. split; [exact K1|]. split; [exact J1|]. unfold effort, work. rewrite E1, E3, Em. rewrite (unmade_le s s') by (rewrite ?E3; try reflexivity; rewrite D2 by (apply not_eq_sym; eapply Z0, X1); reflexivity).
      pose proof (sum_le (crank s) (crank s') (Server.next_conn (srv s)) ltac:(intros; apply same_crank, SS)). lia.
  - (* YGot *)
    assert (exists c r, Server.pcs (srv s) t = Server.C6 c /\ m = Moves [] [Distributor.LGo t] [] c [Session.LConfig E0 r] (main s)) as (c & r & X1 & ->) by (clear - P; dplan P; eauto 6).
    cbn [mw md mv ms mr mc] in *. runs. clear SS.
    apply (drop_pipeline s (YGot t E0) s'); auto; [| |rewrite E3; reflexivity].
    + apply (ms_one _ _ t).
      * intros t' Ht. apply trank_le; [rewrite E3; reflexivity|intros c' _; rewrite (dist_go_other _ _ _ _ E2 Ht); auto|]. intros c' X. destruct (Nat.eq_dec c' c) as [->|Hc]; [|rewrite E5 by exact Hc; auto].
        exfalso. apply Ht. apply (ServerProofs.oi_conn _ OW t' t c); [rewrite X|rewrite X1]; reflexivity.
      * unfold trank, may_ask. rewrite E3, X1, (SessionBusy.config_wants _ _ _ _ E4), andb_false_r. lia.
    + apply (other_crank s s' c); [exact E5|]. pose proof (SessionBusy.config_drop _ _ _ _ E4). lia.
  - (* YServe *)
    dplan P. apply run_two in E4. destruct E4 as (x1 & Y1 & Y2). runs. destruct (session_alone_inv _ c R) as (_ & _ & A2).
    destruct (SessionAlone.begin_step _ _ _ A2 Y1 Y2) as (_ & _ & _ & Z & _). unfold Server.step, Server.go in E3. rewrite (cv_crash _ CV), Heqp, (lk_fired _ LK), Z in E3. cbn in E3. injection E3 as E3.
    assert (t <> 0%nat) as T0 by (intros ->; destruct (KK _ _ Heqp) as [W|W]; [|destruct W]; destruct (cv_main _ CV) as [Q|Q]; rewrite Heqp in Q; [discriminate Q|destruct Q]).
    apply (drop_local s s'); auto; rewrite <- ?E3; cbn; auto; [apply upd_other; auto|]. left. split.
    + apply (ms_one _ _ t).
      * intros t' Ht. apply trank_le; [rewrite <- E3; cbn; apply upd_other, Ht|rewrite E2; auto|]. intros c' X. destruct (Nat.eq_dec c' c) as [->|Hc]; [|rewrite E5 by exact Hc; auto].
        exfalso. apply Ht. apply (ServerProofs.oi_conn _ OW t' t c); [rewrite X|rewrite Heqp]; reflexivity.
      * unfold trank, may_ask. rewrite <- E3, Heqp. cbn. rewrite upd_same. cbn. destruct (_ && _)%bool; lia.
    + apply (other_crank s s' c); [exact E5|]. eapply SessionBusy.begin_drop; eassumption.
  - (* YEnd *)
    assert (exists c r, Server.pcs (srv s) t = Server.C6 c /\ m = Moves [] [] [Server.LEnd t r] 0 [] (main s)) as (c & r & X1 & ->) by (clear - P; dplan P; eauto 6).
    cbn [mw md mv ms mr mc] in *. runs. specialize (SS eq_refl). unfold Server.step in E3. rewrite (cv_crash _ CV), X1 in E3. injection E3 as E3.
    apply (drop_local s s'); auto; rewrite <- ?E3; cbn; auto; [apply upd_other; apply not_eq_sym; eauto|]. left. split; [|apply same_crank, SS].
    apply (ms_one _ _ t); [intros t' Ht; apply trank_le; [rewrite <- E3; cbn; apply upd_other, Ht|rewrite E2; auto|intros c' _; rewrite SS; auto]|].
    unfold trank. rewrite <- E3, X1. cbn. rewrite upd_same. cbn. lia.
  - (* YFire *)
    assert (exists c r, Server.pcs (srv s) t = Server.C7 c r) as (c & r & X1) by (clear - P; dplan P; eauto).
    pose proof (lk_agree _ LK t c) as Z. rewrite X1 in Z. specialize (Z eq_refl). destruct Z as (Z1 & Z2 & Z3).
    unfold plan in P. rewrite X1, Z3 in P. injection P as <-. cbn [mw md mv ms mr mc] in *. runs.
    unfold Server.step, Server.go in E3. rewrite (cv_crash _ CV), X1, (lk_fired _ LK), Z3 in E3. cbn in E3. injection E3 as E3.
    assert (t <> 0%nat) as T0 by (intros ->; destruct (cv_main _ CV) as [Q|Q]; rewrite X1 in Q; [discriminate Q|destruct Q]).
    apply (drop_local s s'); auto; rewrite <- ?E3; cbn; auto; [apply upd_other; auto|]. left. split; [|apply (other_crank s s' c); [exact E5|pose proof (SessionBusy.close_drop _ _ _ E4); lia]].
    apply (ms_one _ _ t).
    + intros t' Ht. apply trank_le; [rewrite <- E3; cbn; apply upd_other, Ht|rewrite E2; auto|]. intros c' X. destruct (Nat.eq_dec c' c) as [->|Hc]; [|rewrite E5 by exact Hc; auto].
      exfalso. apply Ht. apply (ServerProofs.oi_conn _ OW t' t c); [rewrite X|rewrite X1]; reflexivity.
    + unfold trank. rewrite <- E3, X1. cbn. rewrite upd_same. cbn. lia.
  - (* YClosed *)
    dplan P. runs. rename Heqp into X1. unfold Server.step, Server.go in E3. rewrite (cv_crash _ CV), X1 in E3. injection E3 as E3.
    assert (t <> 0%nat) as T0 by (intros ->; destruct (cv_main _ CV) as [Q|Q]; rewrite X1 in Q; [discriminate Q|destruct Q]).
    apply (drop_local s s'); auto; rewrite <- ?E3; cbn; auto; [apply upd_other; auto|]. left. split; [|apply (other_crank s s' c); [exact E5|pose proof (SessionBusy.close_drop _ _ _ E4); lia]].
    apply (ms_one _ _ t).
    + intros t' Ht. apply trank_le; [rewrite <- E3; cbn; apply upd_other, Ht|rewrite E2; auto|]. intros c' X. destruct (Nat.eq_dec c' c) as [->|Hc]; [|rewrite E5 by exact Hc; auto].
      exfalso. apply Ht. apply (ServerProofs.oi_conn _ OW t' t c); [rewrite X|rewrite X1]; reflexivity.
    + unfold trank. rewrite <- E3, X1. cbn. rewrite upd_same. cbn. lia.
  - exfalso. assert (exists ls c, mv m = Server.LPick t c :: ls) as (ls & c0 & X) by (clear - P; dplan P; eauto). rewrite X in E3. cbn in E3. clear - E3 KK.
    destruct (Server.step (srv s) (Server.LPick t c0)) as [v|] eqn:H; [|discriminate]. clear E3. vstep H; match goal with E : Server.pcs _ _ = _ |- _ => apply KK in E; destruct E as [[]|[]] end.
  - exfalso. dplan P. apply KK in Heqp. destruct Heqp as [[]|[]].
  - exfalso. dplan P. apply KK in Heqp. destruct Heqp as [[]|[]].
  - exfalso. dplan P. apply KK in Heqp. destruct Heqp as [[]|[]].
  - exfalso. dplan P. apply KK in Heqp. destruct Heqp as [[]|[]].
  - exfalso. destruct (ca_main _ CA) as [[X _]|[X _]]; unfold plan in P; rewrite X in P; discriminate P.
Qed.
Lemma own_bounded s : reachable step init s -> exists n, forall ls s', run step s ls = Some s' -> Forall own ls -> (length ls <= n)%nat.
Proof.
  intros R. destruct (DistributorDead.fi_bound _ (DistributorDead.reachable_full _ (pt_dist _ (reachable_parts _ R)))) as [k Hk].
  destruct (ServerMore.reachable_fin _ (pt_srv _ (reachable_parts _ R))) as [j Hj]. assert (ends (trank s) j) as J by (intros t Ht; unfold trank; rewrite (Hj t Ht); reflexivity).
  exists (effort s k j). clear Hj. intros ls. revert s R k j Hk J. induction ls as [|l ls IH]; cbn [length run]; intros s R k j Hk J s' H F; [lia|].
  destruct (step s l) as [s1|] eqn:E; [|discriminate]. inversion F; subst. destruct (own_drop _ _ _ _ _ R ltac:(eassumption) E Hk J) as (k' & j' & K1 & J1 & L).
  pose proof (IH s1 (reachable_step _ _ _ _ _ R E) k' j' K1 J1 s' H ltac:(assumption)) as X. lia.
Qed.
