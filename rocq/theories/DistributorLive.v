(** Channel ownership, crashes and deadlocks in the ConfigDistributor model. *)
From Verif Require Export DistributorSubs.
Require Import Lia.

(** the channel a waiting Get made for itself *)
Definition get_chan (p : pc) : option chan_id :=
  match p with
  | S0 ch _ SGet | S1 ch _ SGet | S2 ch _ SGet | S3 ch _ SGet _ | S4 ch _ SGet | S5 ch SGet
  | G5 ch | G6 ch _ | G7 ch _ | G8 ch _ => Some ch
  | _ => None
  end.
Definition get_registered (p : pc) : option chan_id :=
  match p with S5 ch SGet | G5 ch | G6 ch _ | G7 ch _ => Some ch | _ => None end.
(** the client's channel a goroutine is using *)
Definition client_chan (p : pc) : option chan_id :=
  match p with
  | S0 ch _ STop | S1 ch _ STop | S2 ch _ STop | S3 ch _ STop _ | S4 ch _ STop | S5 ch STop | U0 ch | U1 ch => Some ch
  | _ => None
  end.
Definition no_checks (p : pc) : Prop :=
  match p with
  | S0 _ checks SGet | S1 _ checks SGet | S2 _ checks SGet | S3 _ checks SGet _ | S4 _ checks SGet => checks = []
  | _ => True
  end.
(** what a notification in progress still has to visit is subscribed *)
Definition visiting (p : pc) (m : list (chan_id * list check)) : Prop :=
  match p with
  | M3 _ _ pending => forall ch cks, lookup ch pending = Some cks -> lookup ch m = Some cks
  | M4 _ _ ch pending => (exists cks, lookup ch m = Some cks) /\ forall ch' cks, lookup ch' pending = Some cks -> lookup ch' m = Some cks
  | _ => True
  end.

Record own_inv (s : state) : Prop := {
  oi_get : forall t ch, get_chan (pcs s t) = Some ch -> chans s ch = Some (Chan 0 [] false (Some t));
  oi_nochecks : forall t, no_checks (pcs s t);
  oi_client : forall t ch, client_chan (pcs s t) = Some ch -> owner s ch = Some None;
  oi_alloc : forall ch, lookup ch (subs s) <> None -> owner s ch <> None;
  oi_reg : forall ch r, lookup ch (subs s) <> None -> owner s ch = Some (Some r) ->
           get_registered (pcs s r) = Some ch /\ lookup ch (subs s) = Some [];
  oi_visit : forall t, visiting (pcs s t) (subs s) }.

Lemma visiting_outside p m : ~ in_write_section p -> visiting p m.
Proof. destruct p; cbn; tauto. Qed.
Lemma not_writer s t t' : lock_inv s -> writer s = Some t -> t' <> t -> ~ in_write_section (pcs s t').
Proof. intros HL E N X. apply (li_writer _ HL) in X. congruence. Qed.

Lemma own_inv_step s l s' : lock_inv s -> own_inv s -> step s l = Some s' -> own_inv s'.
Proof.
  intros HL HI H. dstep H.
  all: destruct HI as [Hg Hn Hc Ha Hs Hv]; pose proof (li_writer _ HL) as Hw; at_pcs Hw; at_pcs Hg; at_pcs Hn; at_pcs Hc; at_pcs Hv; dk; cbn in *.
  all: repeat match goal with X : writer ?s = Some ?t <-> True |- _ => destruct X as [_ X]; specialize (X I) end.
  all: repeat match goal with X : forall ch, Some ?c = Some ch -> _ |- _ => specialize (X c eq_refl) end.
  all: repeat match goal with X : forall ch, None = Some ch -> _ |- _ => clear X end.
  all: constructor; unfold owner in *; cbn in *.
  all: try exact Hg; try exact Hn; try exact Hc; try exact Hs; try exact Hv; try exact Ha.
  all: repeat match goal with X : chans _ _ = _ |- _ => rewrite X in * end; cbn in *.
  all: try solve [intros t' ch'; specialize (Hg t' ch'); upds; cbn in *; repeat match goal with X : chans _ _ = _ |- _ => rewrite X in * end; cbn in *; intuition congruence].
  all: try solve [intros t' ch'; specialize (Hc t' ch'); upds; cbn in *; repeat match goal with X : chans _ _ = _ |- _ => rewrite X in * end; cbn in *; intuition congruence].
  all: try solve [intros t'; specialize (Hn t'); upds; cbn in *; intuition congruence].
  all: try solve [intros t'; specialize (Hv t'); upds; cbn in *; intuition congruence].
  all: try solve [intros ch'; specialize (Ha ch'); upds; cbn in *; repeat match goal with X : chans _ _ = _ |- _ => rewrite X in * end; cbn in *; intuition congruence].
  all: try solve [intros ch' r'; specialize (Hs ch' r'); specialize (Ha ch'); upds; cbn in *; repeat match goal with X : chans _ _ = _ |- _ => rewrite X in * end; repeat match goal with X : pcs _ _ = _ |- _ => rewrite X in * end; cbn in *; intuition congruence].
  all: try solve [intros t'; upds; cbn in *; [try exact I; try tauto|]; apply visiting_outside; eapply not_writer; eauto].
  all: try solve [intros ch'; specialize (Ha ch'); try rewrite !lookup_remove; upds; cbn in *; intuition congruence].
  all: try solve [intros ch' r'; specialize (Hs ch' r'); specialize (Ha ch'); try rewrite !lookup_remove; upds; cbn in *; repeat match goal with X : chans _ _ = _ |- _ => rewrite X in * end; repeat match goal with X : pcs _ _ = _ |- _ => rewrite X in * end; cbn in *; intuition congruence].
  all: try solve [intros t' ch'; specialize (Hc t' ch'); upds; cbn in *; try exact Hc; intros E; injection E as <-; rewrite Heqo0; reflexivity].
  all: try solve [exfalso; match goal with X : Some (Chan 0 _ _ _) = Some _ |- _ => injection X as <- end; discriminate].
  all: try solve [intros t' ch'; specialize (Hg t' ch'); destruct (Nat.eq_dec ch' ch) as [->|Nc];
    [intros E; exfalso; assert (get_chan (pcs s t') = Some ch) as E' by (revert E; upds; cbn; intros; congruence);
     specialize (Hg E'); rewrite Heqo0 in Hg; injection Hg as ->; discriminate
    |rewrite (upd_other _ _ _ _ Nc); upds; cbn in *; auto; discriminate]].
  all: try solve [intros ch'; specialize (Ha ch'); try rewrite !lookup_remove; destruct (Nat.eqb_spec ch' ch) as [->|]; [|exact Ha]; intros _; repeat match goal with X : chans _ _ = _ |- _ => rewrite X end; cbn; congruence].
  all: try solve [intros t'; upds; cbn in *; try exact I; apply visiting_outside; eapply not_writer; eauto].
  - intros ch' r'. specialize (Hs ch' r'). intros Hl Ho. assert (option_map ch_owner (chans s ch') = Some (Some r')) as Ho'.
    { revert Ho. injection Heqo0 as <-. upds; [rewrite H0; cbn; auto|auto]. }
    specialize (Hs Hl Ho'). upds; [|exact Hs]. exfalso. rewrite Heqp in Hs. destruct Hs. discriminate.
  - intros t'. specialize (Hv t'). upds; [|exact Hv]. cbn. split; [eauto|]. intros ch' cks'. rewrite lookup_remove. destruct (Nat.eqb_spec ch' ch); [discriminate|auto].
  - intros t'. specialize (Hv t'). upds; [|exact Hv]. cbn. intros ch' cks'. rewrite lookup_remove. destruct (Nat.eqb_spec ch' ch); [discriminate|auto].
Qed.
Lemma reachable_own s : reachable step init s -> own_inv s.
Proof.
  intros H. enough (lock_inv s /\ own_inv s) by tauto. revert s H. apply reachable_invariant.
  - intros s ->. split; [apply lock_inv_init|]. constructor; cbn; intros; try discriminate; try exact I; congruence.
  - intros s l s' [Ha Hi] H. split; [eapply lock_inv_step|eapply own_inv_step]; eauto.
Qed.
