(** What is sent on subscribed channels in the ConfigDistributor model. *)
From Verif Require Export DistributorGet.
Require Import Lia.

Lemma any_check_spec checks old new : any_check checks old new = existsb (fun f => f old new) checks.
Proof. induction checks as [|f l IH]; cbn; [reflexivity|]. rewrite IH. destruct (f old new); reflexivity. Qed.
Lemma should_spec checks old new : shouldSendUpdatedConfig checks old new = relevant checks old new.
Proof. unfold shouldSendUpdatedConfig, relevant. destruct checks; [reflexivity|]. rewrite any_check_spec. reflexivity. Qed.

Lemma lookup_remove {A} ch x (m : list (chan_id * A)) : lookup ch (remove x m) = if Nat.eqb ch x then None else lookup ch m.
Proof.
  induction m as [|[k v] m IH]; cbn; [destruct (Nat.eqb ch x); reflexivity|].
  destruct (Nat.eqb_spec x k) as [->|N]; cbn.
  - rewrite IH. destruct (Nat.eqb_spec ch k); reflexivity.
  - destruct (Nat.eqb_spec ch k) as [->|]; [|exact IH]. destruct (Nat.eqb_spec k x); congruence.
Qed.
Lemma lookup_assign {A} ch x v (m : list (chan_id * A)) : lookup ch (assign x v m) = if Nat.eqb ch x then Some v else lookup ch m.
Proof. unfold assign. cbn. destruct (Nat.eqb_spec ch x); [reflexivity|]. rewrite lookup_remove. apply Nat.eqb_neq in n. rewrite n. reflexivity. Qed.

(** what the holder of the mutex still has to send on [ch] *)
Definition pending_for (p : pc) (ch : chan_id) : list config :=
  match p with
  | S3 ch' _ _ c => if Nat.eqb ch ch' then [c] else []
  | M3 old c pending =>
      match lookup ch pending with Some checks => if relevant checks old c then [c] else [] | None => [] end
  | M4 old c ch' pending =>
      if Nat.eqb ch ch' then [c]
      else match lookup ch pending with Some checks => if relevant checks old c then [c] else [] | None => [] end
  | _ => []
  end.
Definition owed (s : state) (ch : chan_id) : list config :=
  match writer s with Some t => pending_for (pcs s t) ch | None => [] end.

(** the subscription Subscribe is about to register *)
Definition registering (p : pc) : option (chan_id * list check) :=
  match p with S3 ch checks _ _ | S4 ch checks _ => Some (ch, checks) | _ => None end.

Definition sub_ok (s : state) (ch : chan_id) : Prop :=
  subscribed ch (hist s) =
  match writer s with
  | Some t => match registering (pcs s t) with
              | Some (ch', checks) => if Nat.eqb ch ch' then Some checks else lookup ch (subs s)
              | None => lookup ch (subs s)
              end
  | None => lookup ch (subs s)
  end.
Record subs_inv (s : state) : Prop := {
  si_sub : forall ch, sub_ok s ch;
  si_m4 : forall t old c ch pending, pcs s t = M4 old c ch pending -> lookup ch pending = None;
  si_sent : forall ch, expected ch (hist s) = sent ch (hist s) ++ owed s ch }.

Lemma owed_nonwriter s t ch : lock_inv s -> writer s = Some t -> owed s ch = pending_for (pcs s t) ch.
Proof. intros _ E. unfold owed. rewrite E. reflexivity. Qed.

Lemma subs_inv_step s l s' : lock_inv s -> mon_inv s -> subs_inv s -> step s l = Some s' -> subs_inv s'.
Proof.
  intros HL HM HI H. pose proof (mi_last _ HM) as Hlast. dstep H.
  all: destruct HI as [Hs Hm He]; pose proof (li_writer _ HL) as Hw; at_pcs Hw; cbn in *.
  all: repeat match goal with X : writer ?s = Some ?t <-> True |- _ => destruct X as [_ X]; specialize (X I) end.
  all: constructor; cbn in *.
  all: try exact Hs; try exact Hm; try exact He.
  all: try solve [intros t' old' c' ch' pd'; specialize (Hm t' old' c' ch' pd'); upds; intuition congruence].
  all: intros ch'; try specialize (Hs ch'); try specialize (He ch'); unfold sub_ok, owed in *; cbn in *.
  all: repeat match goal with X : writer ?s = Some ?t |- _ => rewrite X in * end; repeat match goal with X : writer ?s = None |- _ => rewrite X in * end; cbn in *; rewrite ?upd_same.
  all: repeat match goal with X : pcs ?s ?t = _ |- _ => rewrite X in * end; cbn in *.
  all: try exact Hs; try exact He; try congruence.
  all: try (destruct (writer s) as [w|] eqn:Ew; [pose proof (Hw w) as Hww|]; try exact Hs; try exact He; upds; cbn in *; try exact Hs; try exact He; try (exfalso; intuition congruence)).
  all: rewrite ?should_spec, ?lookup_remove, ?lookup_assign in *; rewrite ?Nat.eqb_refl in *; try reflexivity; cbn in *.
  all: repeat match goal with X : ?a <> ?b |- context [Nat.eqb ?a ?b] => rewrite (proj2 (Nat.eqb_neq a b) X) end; rewrite ?app_nil_r in *; try assumption.
  all: try match goal with X : current _ = _ |- _ => idtac | X : _ = current _ |- _ => rewrite <- X in *; rewrite ?He; try match goal with Y : relevant _ _ _ = _ |- _ => rewrite Y end; rewrite ?app_nil_r; try reflexivity end.
  all: try match goal with X : pcs _ _ = M4 _ _ _ _ |- _ => rewrite (Hm _ _ _ _ _ X) end; rewrite ?app_nil_r; try assumption.
  - rewrite Hs. reflexivity.
  - intros o1 c1 h1 p1 E. injection E as <- <- <- <-. rewrite lookup_remove, Nat.eqb_refl. reflexivity.
  - intros o1 c1 h1 p1. apply Hm.
  - match goal with X : lookup _ _ = Some _, Y : relevant _ _ _ = _ |- _ => rewrite X, Y in He end. exact He.
  - destruct (Nat.eqb_spec ch' ch) as [->|]; [|exact He].
    match goal with X : lookup _ _ = Some _, Y : relevant _ _ _ = _ |- _ => rewrite X, Y in He end. exact He.
Qed.
Lemma reachable_subs s : reachable step init s -> subs_inv s.
Proof.
  intros H. enough (all_inv s /\ subs_inv s) by tauto. revert s H. apply reachable_invariant.
  - intros s E. split; [apply reachable_all, reachable_init; exact E|]. rewrite E. constructor; cbn; try reflexivity. discriminate.
  - intros s l s' [Ha Hi] H. split; [eapply all_inv_step; eauto|]. destruct Ha as (HL & HC & HM & HX & HG). eapply subs_inv_step; eauto.
Qed.

(** *** Channels are FIFO *)
Definition queue (s : state) (ch : chan_id) : list config :=
  match chans s ch with Some x => ch_queue x | None => [] end.
Definition capacity (s : state) (ch : chan_id) : nat :=
  match chans s ch with Some x => ch_cap x | None => 0 end.
Definition fifo_inv (s : state) : Prop :=
  forall ch, sent ch (hist s) = received ch (hist s) ++ queue s ch /\ (length (queue s ch) <= capacity s ch)%nat.
Lemma fifo_step s l s' : fifo_inv s -> step s l = Some s' -> fifo_inv s'.
Proof.
  intros HI H. dstep H; intros ch'; specialize (HI ch'); unfold queue, capacity in *; cbn in *.
  all: try exact HI.
  all: try rewrite app_length; upds; repeat match goal with X : chans _ _ = _ |- _ => rewrite X in * end; cbn in *.
  all: try exact HI; try (rewrite ?app_nil_r in *; exact HI).
  all: destruct HI as [E L]; try rewrite E.
  all: repeat match goal with X : Nat.ltb _ _ = true |- _ => apply Nat.ltb_lt in X end.
  all: split; [rewrite <- ?app_assoc; try reflexivity; cbn; try reflexivity|rewrite ?app_length; cbn in *; lia].
  all: match goal with Q : list config |- _ => destruct Q; [reflexivity|cbn in *; lia] end.
Qed.
Lemma reachable_fifo s : reachable step init s -> fifo_inv s.
Proof. apply reachable_invariant; [intros ? -> ch; split; [reflexivity|apply Nat.le_0_l]|apply fifo_step]. Qed.
