(** Reasoning about infinite executions under weak fairness. *)
From Verif Require Export SpecLive.
Require Import Lia.

Section Fair.
  Context {S L : Type} (step : S -> L -> option S) (st : nat -> S) (lb : nat -> option L) (good : S -> Prop).
  Hypothesis EX : execution step st lb.
  Hypothesis GD : forall s, good s \/ ~ good s.
  (** from moment [i] on, [Q] holds at some moment, or the program has gone wrong *)
  Definition ev (i : nat) (Q : S -> Prop) : Prop := exists j, (i <= j)%nat /\ (~ good (st j) \/ Q (st j)).
  Lemma ev_now i (Q : S -> Prop) : Q (st i) -> ev i Q.
  Proof. intros H. exists i. auto. Qed.
  Lemma ev_later i j (Q : S -> Prop) : (i <= j)%nat -> ev j Q -> ev i Q.
  Proof. intros H (k & A & B). exists k. split; [lia|exact B]. Qed.
  Lemma ev_bind i (Q R : S -> Prop) : ev i Q -> (forall j, (i <= j)%nat -> good (st j) -> Q (st j) -> ev j R) -> ev i R.
  Proof.
    intros (j & A & B) H. destruct (GD (st j)) as [G|G].
    - destruct B as [B|B]; [contradiction|]. apply (ev_later i j); [exact A|]. auto.
    - exists j. auto.
  Qed.
  Lemma ev_mono i (Q R : S -> Prop) : ev i Q -> (forall s, Q s -> R s) -> ev i R.
  Proof. intros H I. apply (ev_bind _ _ _ H). intros j _ _ X. apply ev_now. auto. Qed.
  (** what holds at [i] and is kept by every action holds later *)
  Lemma kept (P : S -> Prop) i : P (st i) -> (forall k l, (i <= k)%nat -> P (st k) -> lb k = Some l -> step (st k) l = Some (st (Datatypes.S k)) -> P (st (Datatypes.S k))) ->
    forall j, (i <= j)%nat -> P (st j).
  Proof.
    intros H K j. induction j as [|j IH]; intros A; [replace 0%nat with i by lia; exact H|].
    destruct (Nat.eq_dec i (Datatypes.S j)) as [<-|D]; [exact H|]. specialize (IH ltac:(lia)). pose proof (EX j) as E. destruct (lb j) as [l|] eqn:B; [|rewrite E; exact IH].
    apply (K j l); auto. lia.
  Qed.
  (** what holds at [i] holds until it is replaced *)
  Lemma unless (P Q : S -> Prop) i j : P (st i) -> (i <= j)%nat ->
    (forall k l, (i <= k)%nat -> P (st k) -> lb k = Some l -> step (st k) l = Some (st (Datatypes.S k)) -> P (st (Datatypes.S k)) \/ Q (st (Datatypes.S k))) ->
    P (st j) \/ exists k, (i <= k)%nat /\ Q (st k).
  Proof.
    intros H A K. induction j as [|j IH]; [left; replace 0%nat with i by lia; exact H|].
    destruct (Nat.eq_dec i (Datatypes.S j)) as [<-|D]; [left; exact H|]. destruct (IH ltac:(lia)) as [X|X]; [|right; exact X].
    pose proof (EX j) as E. destruct (lb j) as [l|] eqn:B; [|rewrite E; left; exact X]. destruct (K j l) as [Y|Y]; auto; [lia|]. right. exists (Datatypes.S j). split; [lia|exact Y].
  Qed.
  (** a goroutine that stays able to act acts *)
  Lemma wait (A : L -> Prop) (P Q : S -> Prop) i : (forall l, A l \/ ~ A l) ->
    (exists j, (i <= j)%nat /\ ((forall l, A l -> step (st j) l = None) \/ exists l, lb j = Some l /\ A l)) ->
    P (st i) ->
    (forall k, (i <= k)%nat -> good (st k) -> P (st k) -> exists l, A l /\ step (st k) l <> None) ->
    (forall k l, (i <= k)%nat -> good (st k) -> P (st k) -> lb k = Some l -> step (st k) l = Some (st (Datatypes.S k)) -> ~ A l -> P (st (Datatypes.S k)) \/ Q (st (Datatypes.S k))) ->
    (forall k l, (i <= k)%nat -> good (st k) -> P (st k) -> lb k = Some l -> step (st k) l = Some (st (Datatypes.S k)) -> A l -> Q (st (Datatypes.S k))) ->
    ev i Q.
  Proof.
    intros AD (j & Hj & F) HP HE HK HA.
    assert (forall n, (i + n <= j)%nat -> ev i Q \/ P (st (i + n)%nat)) as W.
    { induction n as [|n IH]; intros Hn; [right; rewrite Nat.add_0_r; exact HP|]. destruct IH as [IH|IH]; [lia|left; exact IH|].
      destruct (GD (st (i + n)%nat)) as [G|G]; [|left; exists (i + n)%nat; split; [lia|left; exact G]].
      rewrite Nat.add_succ_r. pose proof (EX (i + n)%nat) as E. destruct (lb (i + n)%nat) as [l|] eqn:B; [|rewrite E; right; exact IH].
      destruct (AD l) as [Al|Al].
      - left. exists (Datatypes.S (i + n)). split; [lia|right]. apply (HA _ l); auto. lia.
      - destruct (HK (i + n)%nat l) as [X|X]; auto; [lia|]. left. exists (Datatypes.S (i + n)). split; [lia|right; exact X]. }
    destruct (W (j - i)%nat) as [X|X]; [lia|exact X|]. replace (i + (j - i))%nat with j in X by lia.
    destruct (GD (st j)) as [G|G]; [|exists j; auto]. destruct F as [F|(l & B & Al)].
    - exfalso. destruct (HE j Hj G X) as (l & Al & N). apply N, F, Al.
    - exists (Datatypes.S j). split; [lia|right]. pose proof (EX j) as E. rewrite B in E. apply (HA j l); auto.
  Qed.
  (** a goroutine that is again and again able to act acts *)
  Lemma swait (A : S -> L -> Prop) (P Q : S -> Prop) i : (forall s l, A s l \/ ~ A s l) ->
    ((exists j l, (i <= j)%nat /\ lb j = Some l /\ A (st j) l) \/ (exists j, (i <= j)%nat /\ forall k, (j <= k)%nat -> forall l, A (st k) l -> step (st k) l = None)) ->
    P (st i) ->
    (forall j, (i <= j)%nat -> good (st j) -> P (st j) -> ev j (fun s => Q s \/ exists l, A s l /\ step s l <> None)) ->
    (forall k l, (i <= k)%nat -> good (st k) -> P (st k) -> lb k = Some l -> step (st k) l = Some (st (Datatypes.S k)) -> ~ A (st k) l -> P (st (Datatypes.S k)) \/ Q (st (Datatypes.S k))) ->
    (forall k l, (i <= k)%nat -> good (st k) -> P (st k) -> lb k = Some l -> step (st k) l = Some (st (Datatypes.S k)) -> A (st k) l -> Q (st (Datatypes.S k))) ->
    ev i Q.
  Proof.
    intros AD F HP HE HK HA.
    assert (forall n, ev i Q \/ P (st (i + n)%nat)) as W.
    { induction n as [|n IH]; [right; rewrite Nat.add_0_r; exact HP|]. destruct IH as [IH|IH]; [left; exact IH|].
      destruct (GD (st (i + n)%nat)) as [G|G]; [|left; exists (i + n)%nat; split; [lia|left; exact G]].
      rewrite Nat.add_succ_r. pose proof (EX (i + n)%nat) as E. destruct (lb (i + n)%nat) as [l|] eqn:B; [|rewrite E; right; exact IH].
      destruct (AD (st (i + n)%nat) l) as [Al|Al].
      - left. exists (Datatypes.S (i + n)). split; [lia|right]. apply (HA _ l); auto. lia.
      - destruct (HK (i + n)%nat l) as [X|X]; auto; [lia|]. left. exists (Datatypes.S (i + n)). split; [lia|right; exact X]. }
    destruct F as [(j & l & Hj & B & Al)|(j & Hj & F)]; (destruct (W (j - i)%nat) as [X|X]; [exact X|]; replace (i + (j - i))%nat with j in X by lia);
      (destruct (GD (st j)) as [G|G]; [|exists j; auto]).
    - exists (Datatypes.S j). split; [lia|right]. pose proof (EX j) as E. rewrite B in E. apply (HA j l); auto.
    - destruct (HE j Hj G X) as (k & Hk & [Y|[Y|(l & Al & N)]]); [exists k; split; [lia|auto]|exists k; split; [lia|auto]|]. exfalso. apply N, (F k); auto.
  Qed.
  (** by induction on a measure *)
  Lemma ev_measure (m : S -> nat) (P Q : S -> Prop) :
    (forall i, good (st i) -> P (st i) -> ev i (fun s => Q s \/ P s /\ (m s < m (st i))%nat)) -> forall i, P (st i) -> ev i Q.
  Proof.
    intros H. assert (forall n i, (m (st i) < n)%nat -> P (st i) -> ev i Q) as X.
    { induction n as [|n IH]; intros i Hn HP; [lia|]. destruct (GD (st i)) as [G|G]; [|exists i; auto].
      apply (ev_bind _ _ _ (H i G HP)). intros j Hj Gj [Y|[Y Z]]; [apply ev_now; exact Y|]. apply IH; [lia|exact Y]. }
    intros i. apply (X (Datatypes.S (m (st i)))). lia.
  Qed.
End Fair.
