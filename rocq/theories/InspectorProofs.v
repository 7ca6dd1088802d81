From Verif Require Export SpecInspector.
Require Import Lia.

Lemma lookup_insert m k t k' : lookup (insert m k t) k' = if k =? k' then Some t else lookup m k'.
Proof.
  induction m as [|[a u] m IH]; cbn; [reflexivity|].
  destruct (Z.eqb_spec a k) as [->|N]; cbn; [destruct (k =? k'); reflexivity|].
  rewrite IH. destruct (Z.eqb_spec a k') as [->|]; [destruct (Z.eqb_spec k k'); congruence|reflexivity].
Qed.
Lemma keys_insert m k t k' : In k' (map fst (insert m k t)) <-> k' = k \/ In k' (map fst m).
Proof.
  induction m as [|[a u] m IH]; cbn; [intuition congruence|].
  destruct (Z.eqb_spec a k) as [->|N]; cbn; [intuition congruence|]. rewrite IH. intuition congruence.
Qed.
Lemma nodup_insert m k t : NoDup (map fst m) -> NoDup (map fst (insert m k t)).
Proof.
  induction m as [|[a u] m IH]; cbn; intros H; [constructor; [tauto|constructor]|].
  inversion H as [|? ? H1 H2]; subst. destruct (Z.eqb_spec a k) as [->|N]; cbn; constructor; auto.
  rewrite keys_insert. intros [->|X]; [congruence|auto].
Qed.
Lemma last_for_app k l e : last_for k (l ++ [e]) = if fst e =? k then Some (snd e) else last_for k l.
Proof. unfold last_for. rewrite filter_app. cbn. destruct (fst e =? k); [rewrite rev_app_distr; reflexivity|rewrite app_nil_r; reflexivity]. Qed.
Lemma last_for_cons k e l : last_for k (e :: l) = match last_for k l with Some t => Some t | None => if fst e =? k then Some (snd e) else None end.
Proof.
  induction l as [|x l IH] using rev_ind; [unfold last_for; cbn; destruct (fst e =? k); reflexivity|].
  change (e :: l ++ [x]) with ((e :: l) ++ [x]). rewrite !last_for_app, IH. destruct (fst x =? k); reflexivity.
Qed.
Lemma scan_ok rs m m' : snd (scan_rows rs m) = Ok m' ->
  first_bad rs = None /\ (forall k, lookup m' k = match last_for k (good rs) with Some t => Some t | None => lookup m k end) /\
  (NoDup (map fst m) -> NoDup (map fst m')).
Proof.
  revert m. induction rs as [|[[[o n] sc]|e|p] rs IH]; cbn; intros m H; try discriminate H.
  - injection H as <-. repeat split; auto.
  - destruct (scan_rows rs (insert m o (MkTable sc n))) as [fx r] eqn:E. cbn in H. specialize (IH (insert m o (MkTable sc n))). rewrite E in IH.
    destruct (IH H) as (A & B & C). split; [exact A|]. split; [|intros X; apply C, nodup_insert, X].
    intros k. rewrite B, last_for_cons, lookup_insert. cbn. destruct (last_for k (good rs)); [reflexivity|]. destruct (o =? k); reflexivity.
Qed.
Lemma scan_verdict rs m : no_panic rs ->
  (forall e, snd (scan_rows rs m) = Err e <-> first_bad rs = Some e) /\
  ((exists m', snd (scan_rows rs m) = Ok m') <-> first_bad rs = None).
Proof.
  revert m. induction rs as [|[[[o n] sc]|e|p] rs IH]; cbn; intros m HN.
  - split; [split; discriminate|split; eauto].
  - assert (no_panic rs) as HN2 by (intros p X; apply (HN p); right; exact X).
    destruct (IH (insert m o (MkTable sc n)) HN2) as [A B]. destruct (scan_rows rs _) as [fx r]. cbn in *. split; auto.
  - split; [intros e0; split; congruence|split; [intros [m' X]; discriminate X|discriminate]].
  - exfalso. apply (HN p). left. reflexivity.
Qed.
Lemma scan_no_close rs m : count is_close (fst (scan_rows rs m)) = 0%nat.
Proof.
  revert m. induction rs as [|[[[o n] sc]|e|p] rs IH]; cbn; intros m; try reflexivity.
  specialize (IH (insert m o (MkTable sc n))). destruct (scan_rows rs _). cbn in *. exact IH.
Qed.

Lemma scan_trace rs m : fst (scan_rows rs m) =
  concat (repeat [RowsNext; RowsScan] (looked_at rs)) ++ if all_scan rs then [RowsNext] else [].
Proof.
  revert m. induction rs as [|[[[o n] sc]|e|p] rs IH]; intros m; cbn; try reflexivity.
  specialize (IH (insert m o (MkTable sc n))). destruct (scan_rows rs _) as [fx r]. cbn in *. rewrite IH. reflexivity.
Qed.
