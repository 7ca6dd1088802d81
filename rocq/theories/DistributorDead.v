(** Crashes and deadlocks in the ConfigDistributor model. *)
From Verif Require Export DistributorLive.
Require Import Lia.

(** *** Crashes *)
Definition crash_inv (s : state) : Prop :=
  forall p, crashed s = Some p -> p = PanicSendClosed /\
  exists t ch c n x, sending (pcs s t) = Some (ch, c, n) /\ chans s ch = Some x /\ ch_closed x = true.
Lemma crash_step s l s' : own_inv s -> crash_inv s -> step s l = Some s' -> crash_inv s'.
Proof.
  intros HO HI H. dstep H; intros p' Hp; cbn in *; try congruence.
  all: pose proof (oi_get _ HO) as Hg; at_pcs Hg; cbn in *.
  all: try match goal with X : forall ch, Some ?c = Some ch -> _ |- _ => specialize (X c eq_refl) end.
  all: split; [try congruence|].
  all: try (exists t; rewrite Heqp; cbn; do 4 eexists; split; [reflexivity|]; split; [eassumption|assumption]).
  all: try (rewrite H in *; congruence).
  all: exfalso; rewrite H in Heqo0; injection Heqo0 as <-; discriminate.
Qed.

Definition closed_inv (s : state) : Prop :=
  forall ch x, chans s ch = Some x -> ch_closed x = true -> ch_owner x = None -> In (HCloseChan ch) (hist s).
Lemma closed_step s l s' : own_inv s -> closed_inv s -> step s l = Some s' -> closed_inv s'.
Proof.
  intros HO HI H. dstep H.
  all: pose proof (oi_get _ HO) as Hg; at_pcs Hg; cbn in *.
  all: repeat match goal with X : forall ch, Some ?c = Some ch -> _ |- _ => specialize (X c eq_refl) end.
  all: intros ch' x'; pose proof (HI ch' x') as Hx; cbn in *; try solve [intuition].
  all: unfold upd; match goal with |- context [Nat.eqb ?a ?b] => destruct (Nat.eqb_spec a b); [subst|] end; try solve [intuition].
  all: intros E; injection E as <-; cbn; intros; auto; try discriminate.
  all: try solve [right; eapply HI; eauto].
  exfalso. match goal with X : chans _ _ = Some (Chan 0 _ _ _), Y : chans _ _ = Some _ |- _ => rewrite X in Y; injection Y as <- end. discriminate.
Qed.

(** a goroutine inside Subscribe, before or at the registration, on a client's channel *)
Definition subscribing (p : pc) : option chan_id :=
  match p with
  | S0 ch _ STop | S1 ch _ STop | S2 ch _ STop | S3 ch _ STop _ | S4 ch _ STop => Some ch
  | _ => None
  end.
Definition polite_inv (s : state) : Prop :=
  polite (hist s) -> forall ch, In (HCloseChan ch) (hist s) ->
  lookup ch (subs s) = None /\ forall t, subscribing (pcs s t) <> Some ch.

Lemma polite_tail e h : polite (e :: h) -> polite h.
Proof.
  intros H h2 ch h1 ->. destruct (H (e :: h2) ch h1 eq_refl) as (A & B & C). split; [exact A|]. split; [exact B|].
  intros t checks X. apply (C t checks). right. exact X.
Qed.
Lemma polite_call t ch checks h : polite (HCall t (CSubscribe ch checks) :: h) -> ~ In (HCloseChan ch) h.
Proof.
  intros H X. apply in_split in X. destruct X as (h2 & h1 & ->).
  destruct (H (HCall t (CSubscribe ch checks) :: h2) ch h1 eq_refl) as (_ & _ & C). apply (C t checks). left. reflexivity.
Qed.
Lemma polite_close s ch : call_inv s -> subs_inv s -> polite (HCloseChan ch :: hist s) ->
  lookup ch (subs s) = None /\ forall t, subscribing (pcs s t) <> Some ch.
Proof.
  intros HC HS H. destruct (H [] ch (hist s) eq_refl) as (A & B & _). split.
  - pose proof (si_sub _ HS ch) as Hs. unfold sub_ok in Hs. rewrite A in Hs. destruct (writer s) as [w|]; [|congruence].
    destruct (registering (pcs s w)) as [[ch' checks]|]; [|congruence]. destruct (Nat.eqb ch ch'); congruence.
  - intros t E. specialize (HC t). destruct (pcs s t); try discriminate; cbn in *; dk; try discriminate; injection E as ->;
      destruct HC as (h & HC); exact (B _ _ _ HC).
Qed.

Definition closer_inv (s : state) : Prop := forall ch, In (HCloseChan ch) (hist s) -> owner s ch = Some None.
Lemma closer_step s l s' : closer_inv s -> step s l = Some s' -> closer_inv s'.
Proof.
  intros HI H. dstep H; intros ch'; specialize (HI ch'); unfold owner in *; cbn in *; try exact HI.
  all: try solve [intuition discriminate].
  all: upds; repeat match goal with X : chans _ _ = _ |- _ => rewrite X in * end; cbn in *; try solve [intuition congruence].
Qed.

Lemma polite_step s l s' : call_inv s -> subs_inv s -> own_inv s -> closer_inv s -> polite_inv s -> step s l = Some s' -> polite_inv s'.
Proof.
  intros HC HS HO HX HI H. dstep H.
  all: intros HP ch' Hin; cbn in *.
  all: try solve [exact (HI HP ch' Hin)].
  all: assert (polite (hist s)) as HP' by (first [exact HP | exact (polite_tail _ _ HP) | exact (polite_tail _ _ (polite_tail _ _ HP))]).
  all: specialize (HI HP' ch').
  all: try solve [destruct Hin as [Hin|Hin]; [injection Hin as ->; apply polite_close; assumption|exact (HI Hin)]].
  all: assert (In (HCloseChan ch') (hist s)) as Hin' by (repeat (destruct Hin as [Hin|Hin]; [discriminate Hin|]); exact Hin).
  all: specialize (HX ch' Hin'); destruct (HI Hin') as [HI1 HI2]; clear HI Hin.
  all: pose proof (oi_get _ HO) as Hg; at_pcs Hg; at_pcs HI2; dk; cbn in *.
  all: repeat match goal with X : forall ch, Some ?c = Some ch -> _ |- _ => specialize (X c eq_refl) end.
  all: rewrite ?lookup_remove; split; [|intros t'; pose proof (HI2 t'); upds; cbn in *; try congruence].
  all: try solve [upds; unfold owner in *; repeat match goal with X : chans _ _ = _ |- _ => rewrite X in * end; cbn in *; congruence].
  all: try solve [intros E; injection E as ->; exact (polite_call _ _ _ _ HP Hin')].
Qed.

Record full_inv (s : state) : Prop := {
  fi_all : all_inv s; fi_subs : subs_inv s; fi_own : own_inv s; fi_crash : crash_inv s;
  fi_fifo : fifo_inv s; fi_closed : closed_inv s; fi_closer : closer_inv s; fi_polite : polite_inv s;
  fi_bound : exists n, forall t, (n <= t)%nat -> pcs s t = Idle }.
Lemma bound_step s l s' : (exists n, forall t, (n <= t)%nat -> pcs s t = Idle) -> step s l = Some s' -> exists n, forall t, (n <= t)%nat -> pcs s' t = Idle.
Proof.
  intros (n & Hn) H. dstep H; cbn.
  all: try (exists n; exact Hn).
  all: match goal with
       | |- exists _, forall t', _ -> upd (upd _ ?a _) ?b _ t' = _ => exists (S (Nat.max n (Nat.max a b)))
       | |- exists _, forall t', _ -> upd _ ?a _ t' = _ => exists (S (Nat.max n a))
       end; intros t' Ht'; rewrite !upd_other by lia; apply Hn; lia.
Qed.
Lemma full_inv_step s l s' : full_inv s -> step s l = Some s' -> full_inv s'.
Proof.
  intros [A B C D Q E F G K] H. pose proof A as (HL & HC & HM & HX & HG). constructor.
  - eapply all_inv_step; eauto.
  - eapply subs_inv_step; eauto.
  - eapply own_inv_step; eauto.
  - eapply crash_step; eauto.
  - eapply fifo_step; eauto.
  - eapply closed_step; eauto.
  - eapply closer_step; eauto.
  - eapply polite_step; eauto.
  - eapply bound_step; eauto.
Qed.
Lemma reachable_full s : reachable step init s -> full_inv s.
Proof.
  revert s. apply reachable_invariant; [|apply full_inv_step].
  intros s E. assert (reachable step init s) as R by (apply reachable_init; exact E). constructor.
  - apply reachable_all, R.
  - apply reachable_subs, R.
  - apply reachable_own, R.
  - rewrite E. discriminate.
  - apply reachable_fifo, R.
  - rewrite E. discriminate.
  - rewrite E. intros ch [].
  - rewrite E. intros _ ch [].
  - rewrite E. exists 0%nat. reflexivity.
Qed.

(** a sender never sends on a channel that was closed politely *)
Lemma sending_open s t ch c n x : full_inv s -> polite (hist s) ->
  sending (pcs s t) = Some (ch, c, n) -> chans s ch = Some x -> ch_closed x = false.
Proof.
  intros [A B C D Q E F G K] HP Hs Hx. destruct (ch_closed x) eqn:Ec; [|reflexivity]. exfalso.
  assert (ch_owner x = None -> lookup ch (subs s) = None /\ forall t, subscribing (pcs s t) <> Some ch) as Hp.
  { intros Eo. apply (G HP). eapply E; eauto. }
  destruct (pcs s t) eqn:Ep; try discriminate; cbn in Hs; injection Hs as -> -> <-.
  - destruct k.
    + assert (owner s ch = Some None) as Ho by (apply (oi_client _ C t); rewrite Ep; reflexivity).
      unfold owner in Ho. rewrite Hx in Ho. cbn in Ho. destruct Hp as [_ Hp]; [congruence|]. apply (Hp t). rewrite Ep. reflexivity.
    + assert (chans s ch = Some (Chan 0 [] false (Some t))) as Hg by (apply (oi_get _ C t); rewrite Ep; reflexivity).
      rewrite Hx in Hg. injection Hg as ->. discriminate.
  - pose proof (oi_visit _ C t) as Hv. rewrite Ep in Hv. destruct Hv as [(cks & Hv) _].
    destruct (ch_owner x) as [r|] eqn:Eo; [|destruct Hp as [Hp _]; [reflexivity|congruence]].
    destruct (oi_reg _ C ch r) as [Hr _]; [congruence|unfold owner; rewrite Hx; cbn; congruence|].
    assert (chans s ch = Some (Chan 0 [] false (Some r))) as Hg.
    { apply (oi_get _ C r). destruct (pcs s r); try discriminate; exact Hr || (destruct k; [discriminate|exact Hr]). }
    rewrite Hx in Hg. injection Hg as ->. discriminate.
Qed.
Lemma polite_no_crash s : reachable step init s -> polite (hist s) -> crashed s = None.
Proof.
  intros R HP. apply reachable_full in R. destruct (crashed s) as [p|] eqn:E; [|reflexivity].
  destruct (fi_crash _ R p E) as (_ & t & ch & c & n & x & Hs & Hx & Hc). rewrite (sending_open _ _ _ _ _ _ R HP Hs Hx) in Hc. discriminate.
Qed.

(** *** Deadlocks *)
Lemma doomed_owner s w ch r : full_inv s -> doomed_at s w ch r ->
  (r = w /\ exists checks, pcs s w = S2 ch checks SGet \/ exists c, pcs s w = S3 ch checks SGet c) \/
  (r <> w /\ exists res, pcs s r = G6 ch res).
Proof.
  intros [A B C D Q E F G K] (Hw & Hs & Ho & Hn). destruct A as (HL & _).
  assert (forall ch', lookup ch' (subs s) <> None -> ch' = ch -> is_monitor (pcs s w) -> r <> w /\ exists res, pcs s r = G6 ch res) as Hreg.
  { intros ch' Hl -> Hm. destruct (oi_reg _ C ch r Hl Ho) as [Hr _].
    assert (r <> w) as N.
    { intros ->. destruct (pcs s w); cbn in *; try contradiction; discriminate. }
    split; [exact N|]. assert (~ in_write_section (pcs s r)) as Nw by (eapply not_writer; eauto).
    destruct (pcs s r); cbn in *; try discriminate; try tauto; [injection Hr as ->; congruence|injection Hr as ->; eauto]. }
  destruct (pcs s w) eqn:Ep; cbn in Hs; try contradiction.
  - destruct Hs as [<- _]. left. destruct k.
    + exfalso. assert (owner s ch = Some None) by (apply (oi_client _ C w); rewrite Ep; reflexivity). congruence.
    + assert (chans s ch = Some (Chan 0 [] false (Some w))) as X by (apply (oi_get _ C w); rewrite Ep; reflexivity).
      unfold owner in Ho. rewrite X in Ho. injection Ho as <-. eauto.
  - subst. left. destruct k.
    + exfalso. assert (owner s ch0 = Some None) by (apply (oi_client _ C w); rewrite Ep; reflexivity). congruence.
    + assert (chans s ch0 = Some (Chan 0 [] false (Some w))) as X by (apply (oi_get _ C w); rewrite Ep; reflexivity).
      unfold owner in Ho. rewrite X in Ho. injection Ho as <-. eauto.
  - destruct Hs as (cks & Hl & _). right. apply (Hreg ch); [congruence|reflexivity|exact I].
  - destruct Hs as (cks & Hl & _). right. pose proof (oi_visit _ C w) as Hv. rewrite Ep in Hv. apply (Hreg ch); [rewrite (Hv _ _ Hl); discriminate|reflexivity|exact I].
  - right. pose proof (oi_visit _ C w) as Hv. rewrite Ep in Hv. destruct Hv as [(cks0 & H0) Hv].
    destruct Hs as [->|(cks & Hl & _)].
    + apply (Hreg ch0); [congruence|reflexivity|exact I].
    + apply (Hreg ch); [rewrite (Hv _ _ Hl); discriminate|reflexivity|exact I].
Qed.

Lemma doomed_step s l s' w ch r : full_inv s -> doomed_at s w ch r -> step s l = Some s' -> doomed_at s' w ch r.
Proof.
  intros HF HD H. pose proof (doomed_owner _ _ _ _ HF HD) as Ho.
  assert (chans s ch = Some (Chan 0 [] false (Some r))) as Hch.
  { apply (oi_get _ (fi_own _ HF) r). destruct Ho as [(-> & cks & [E|(c & E)])|(_ & res & E)]; rewrite E; reflexivity. }
  destruct HD as (Hw & Hs & How & Hn). unfold doomed_at, owner in *.
  pose proof (li_writer _ (proj1 (fi_all _ HF))) as HL.
  pose proof (oi_get _ (fi_own _ HF)) as Hg.
  dstep H.
  all: at_pcs HL; at_pcs Hg; cbn in *.
  all: repeat match goal with X : writer ?s = Some ?t <-> True |- _ => destruct X as [_ X]; specialize (X I) end.
  all: repeat match goal with X : forall ch, Some ?c = Some ch -> _ |- _ => specialize (X c eq_refl) end.
  all: repeat match goal with X : forall ch, None = Some ch -> _ |- _ => clear X end.
  all: try congruence.
  all: repeat match goal with X : writer ?s = Some ?t, Y : writer ?s = Some ?u |- _ => assert (u = t) by congruence; subst u; clear Y end.
  all: repeat match goal with X : pcs ?s ?t = _ |- _ => rewrite X in * end; cbn in *; try tauto.
  all: repeat apply conj; try assumption.
  all: try solve [upds; repeat match goal with X : chans _ _ = _ |- _ => rewrite X in * end; cbn in *; congruence].
  all: try solve [upds; cbn in *; repeat match goal with X : pcs ?s ?t = _ |- _ => rewrite X in * end; cbn in *; try assumption; try congruence; try tauto].
  all: rewrite ?should_spec, ?upd_same in *; cbn in *.
  all: try solve [exfalso; destruct Hs as (_ & c' & E & Hr); congruence].
  all: try solve [upds; repeat match goal with X : chans _ _ = _ |- _ => rewrite X in * end; cbn in *; congruence].
  all: try solve [exfalso; match type of Hs with exists _, None = _ /\ _ => destruct Hs as (? & ? & ?); discriminate end].
  all: try solve [exfalso; match goal with X : _ = _ |- False => subst end; rewrite Hch in Heqo0; injection Heqo0 as <-; discriminate].
  all: try solve [unfold upd; match goal with |- context [Nat.eqb ?a ?b] => destruct (Nat.eqb_spec a b); [subst; rewrite Heqo0 in How|]; exact How end].
  all: try solve [destruct Hs as [->|Hs]; [|exact Hs]; rewrite Hch in Heqo0; injection Heqo0 as <-; discriminate].
  - assert (r0 <> w) by (intros ->; congruence). rewrite upd_other, upd_same by congruence. cbn.
    destruct Hs as [->|Hs]; [|exact Hs]. congruence.
  - destruct (Nat.eq_dec ch ch0) as [->|N]; [auto|]. right. rewrite lookup_remove. apply Nat.eqb_neq in N. rewrite N. exact Hs.
  - rewrite lookup_remove. destruct (Nat.eqb_spec ch ch0) as [->|N]; [|exact Hs]. destruct Hs as (cks & E & R). congruence.
Qed.

Lemma doomed_forever s w ch r : reachable step init s -> doomed_at s w ch r ->
  held_forever s w /\ never_returns s r.
Proof.
  intros R D. assert (forall ls s', run step s ls = Some s' -> full_inv s' /\ doomed_at s' w ch r) as H.
  { intros ls s' E. pattern s'. eapply (run_invariant step (fun x => full_inv x /\ doomed_at x w ch r)); [|split; [apply reachable_full, R|exact D]|exact E].
    intros a l b [Ha Hb] Hs. split; [eapply full_inv_step|eapply doomed_step]; eauto. }
  split.
  - intros ls s' E. apply H in E. destruct E as [_ (E & _)]. exact E.
  - intros ls s' E. apply H in E. destruct E as [HF HD]. pose proof (proj1 (proj2 (fi_all _ HF)) r) as HC.
    destruct (doomed_owner _ _ _ _ HF HD) as [(-> & cks & [X|(c & X)])|(_ & res & X)]; rewrite X in HC; destruct HC as (h & HC); eauto.
Qed.

(** *** Without doom the mutex can be released *)
Lemma released_step s l s' : step s l = Some s' -> released s' -> released s.
Proof. intros E (ls & s2 & R & H). exists (l :: ls), s2. cbn. rewrite E. auto. Qed.
Lemma released_now s l s' : step s l = Some s' -> writer s' = None \/ crashed s' <> None -> released s.
Proof. intros E H. exists [l], s'. cbn. rewrite E. auto. Qed.

(** sending on a client's channel: some cooperation of the client lets the send complete *)
Lemma client_send s t ch c n : full_inv s -> crashed s = None -> sending (pcs s t) = Some (ch, c, n) -> owner s ch = Some None ->
  exists ls s', run step s ls = Some s' /\
   (crashed s' <> None \/
    crashed s' = None /\ pcs s' = upd (pcs s) t n /\ writer s' = writer s /\ subs s' = subs s /\ last s' = last s /\ started s' = started s /\ (forall ch', owner s' ch' = owner s ch')).
Proof.
  intros HF Hc Hs Ho. unfold owner in Ho. destruct (chans s ch) as [[cap q cl own]|] eqn:Ex; [|discriminate]. cbn in Ho. injection Ho as ->.
  assert (forall q', (length q' < cap)%nat -> cl = false -> forall s0, chans s0 ch = Some (Chan cap q' cl None) -> crashed s0 = None -> pcs s0 = pcs s ->
    step s0 (LGo t) = Some (with_pc (enqueue s0 ch (Chan cap q' cl None) c) t n)) as Hgo.
  { intros q' Hq Hcl s0 Hx0 Hc0 Hp0. unfold step, go. rewrite Hc0, Hp0. destruct (pcs s t) eqn:Ep; try discriminate; cbn in Hs |- *; injection Hs as -> -> <-;
      rewrite Hx0; cbn; rewrite Hcl; apply Nat.ltb_lt in Hq; rewrite Hq; reflexivity. }
  destruct cl eqn:Ecl.
  - exists [LGo t], (crash s PanicSendClosed). split; [|left; discriminate]. cbn. unfold step, go. rewrite Hc.
    destruct (pcs s t) eqn:Ep; try discriminate; cbn in Hs |- *; injection Hs as -> -> <-; rewrite Ex; reflexivity.
  - assert (forall s0 q', chans s0 ch = Some (Chan cap q' false None) -> forall ch', owner (enqueue s0 ch (Chan cap q' false None) c) ch' = owner s0 ch') as Hown.
    { intros s0 q' E ch'. unfold owner, enqueue; cbn. unfold upd. destruct (Nat.eqb_spec ch' ch) as [->|]; [rewrite E; reflexivity|reflexivity]. }
    destruct cap as [|cap].
    + exists [LHandoffExt t]. eexists. split; [cbn; unfold step; rewrite Hc, Hs, Ex; reflexivity|]. right. cbn. auto 10.
    + destruct q as [|c0 q].
      * exists [LGo t]. eexists. split; [cbn [run]; rewrite (Hgo [] ltac:(cbn; lia) eq_refl s Ex Hc eq_refl); reflexivity|].
        right. cbn. repeat split; auto. intros ch'. apply (Hown s []). exact Ex.
      * assert (length (c0 :: q) <= S cap)%nat as Hlen.
        { pose proof (fi_fifo _ HF ch) as [_ X]. unfold queue, capacity in X. rewrite Ex in X. exact X. }
        exists [LRecv ch; LGo t]. eexists. split.
        -- cbn [run]. unfold step at 1. rewrite Hc, Ex. rewrite (Hgo q ltac:(cbn in Hlen; lia) eq_refl); [reflexivity|cbn; apply upd_same|exact Hc|reflexivity].
        -- right. cbn. repeat split; auto. intros ch'.
           etransitivity; [apply (Hown (log (with_chan s ch (Chan (S cap) q false None)) (HRecv ch c0)) q); cbn; apply upd_same|].
           unfold owner; cbn; unfold upd. destruct (Nat.eqb_spec ch' ch) as [->|]; [rewrite Ex; reflexivity|reflexivity].
Qed.

Lemma fresh_idle s : full_inv s -> exists n, pcs s n = Idle.
Proof. intros HF. destruct (fi_bound _ HF) as (n & H). exists n. apply H. lia. Qed.

Lemma full_run s ls s' : full_inv s -> run step s ls = Some s' -> full_inv s'.
Proof. intros HF. apply run_invariant; [|exact HF]. intros. eapply full_inv_step; eauto. Qed.
Lemma released_run s ls s' : run step s ls = Some s' -> released s' -> released s.
Proof. intros E (ls2 & s2 & R & H). exists (ls ++ ls2), s2. rewrite run_app, E. auto. Qed.

Lemma release_s5 s w ch k : crashed s = None -> pcs s w = S5 ch k -> released s.
Proof. intros Hc Hp. eapply (released_now s (LGo w)); [unfold step, go; rewrite Hc, Hp; reflexivity|]. destruct k; cbn; auto. Qed.
Lemma release_s4 s w ch checks k : full_inv s -> crashed s = None -> pcs s w = S4 ch checks k -> released s.
Proof.
  intros HF Hc Hp. destruct (started s) eqn:Es.
  - eapply (released_step s (LGo w)); [unfold step, go; rewrite Hc, Hp, Es; reflexivity|].
    apply (release_s5 _ w ch k); [exact Hc|cbn; apply upd_same].
  - destruct (fresh_idle s HF) as (n & Hn). eapply (released_step s (LFresh w n)); [unfold step; rewrite Hc, Hp, Es, Hn; reflexivity|].
    apply (release_s5 _ w ch k); [exact Hc|cbn]. rewrite upd_other, upd_same by congruence. reflexivity.
Qed.
Lemma release_s3 s w ch checks k c : full_inv s -> safe s -> crashed s = None -> writer s = Some w -> pcs s w = S3 ch checks k c -> released s.
Proof.
  intros HF Hsafe Hc Hw Hp. destruct k.
  - assert (owner s ch = Some None) as Ho by (apply (oi_client _ (fi_own _ HF) w); rewrite Hp; reflexivity).
    destruct (client_send s w ch c (S4 ch checks STop) HF Hc) as (ls & s' & R & [X|(Hc' & Hp' & _)]); [rewrite Hp; reflexivity|exact Ho| |].
    + exists ls, s'. auto.
    + eapply released_run; [exact R|]. eapply release_s4; [eapply full_run; eauto|exact Hc'|rewrite Hp'; apply upd_same].
  - destruct (Hsafe w ch w). split; [exact Hw|]. rewrite Hp. repeat split; [|discriminate].
    unfold owner. rewrite (oi_get _ (fi_own _ HF) w ch); [reflexivity|rewrite Hp; reflexivity].
Qed.

Lemma remove_length {A} ch (m : list (chan_id * A)) v : lookup ch m = Some v -> (length (remove ch m) < length m)%nat.
Proof.
  assert (forall m : list (chan_id * A), length (remove ch m) <= length m)%nat as Hle.
  { intros m0. induction m0 as [|[k x] m0 IH]; cbn; [lia|]. destruct (Nat.eqb ch k); cbn; lia. }
  induction m as [|[k x] m IH]; cbn; [discriminate|]. destruct (Nat.eqb ch k); cbn; [specialize (Hle m); lia|]. intros E. specialize (IH E). lia.
Qed.

Definition m3_releases (n : nat) : Prop :=
  forall s w old c pending, (length pending <= n)%nat -> full_inv s -> safe s -> crashed s = None -> writer s = Some w ->
  pcs s w = M3 old c pending -> released s.
Lemma release_m4 n s1 w old c ch pending : m3_releases n -> (length pending <= n)%nat -> full_inv s1 -> safe s1 -> crashed s1 = None -> writer s1 = Some w ->
  pcs s1 w = M4 old c ch pending -> released s1.
Proof.
  intros IH Hlen HF1 Hsafe1 Hc1 Hw Hp1.
    pose proof (oi_visit _ (fi_own _ HF1) w) as Hv. rewrite Hp1 in Hv. destruct Hv as [(cks & Hv) Hv'].
    destruct (owner s1 ch) as [[r|]|] eqn:Eo.
    + (* a waiting Get: it is at its select *)
      assert (pcs s1 r = G5 ch) as Hr.
      { destruct (pcs s1 r) eqn:E; try (exfalso; apply (Hsafe1 w ch r); split; [exact Hw|]; split; [rewrite Hp1; cbn; auto|]; split; [exact Eo|congruence]).
        assert (ch0 = ch); [|congruence]. destruct (oi_reg _ (fi_own _ HF1) ch r) as [X _]; [congruence|exact Eo|]. rewrite E in X. cbn in X. congruence. }
      assert (chans s1 ch = Some (Chan 0 [] false (Some r))) as Hch by (apply (oi_get _ (fi_own _ HF1) r); rewrite Hr; reflexivity).
      assert (r <> w) as Nr by (intros ->; congruence).
      set (s2 := log (log (with_pc (with_pc s1 w (M3 old c pending)) r (G6 ch (RConfig c))) (HSent ch c)) (HRecv ch c)).
      assert (step s1 (LHandoff w r) = Some s2) as St2.
      { unfold step. rewrite Hc1, Hp1. cbn [sending]. rewrite Hr, Hch, Nat.eqb_refl. reflexivity. }
      eapply released_step; [exact St2|].
      eapply (IH s2 w old c pending); [exact Hlen|eapply full_inv_step; eauto| |exact Hc1|exact Hw|cbn; rewrite upd_other, upd_same by congruence; reflexivity].
      intros w' ch' r' (A & B & C & D). change (writer s2) with (writer s1) in A. assert (w' = w) as -> by congruence.
      assert (pcs s2 w = M3 old c pending) as X by (unfold s2; cbn; rewrite upd_other, upd_same by congruence; reflexivity). rewrite X in B.
      change (last s2) with (last s1) in B. change (subs s2) with (subs s1) in B. change (owner s2 ch') with (owner s1 ch') in C.
      cbn in B. destruct B as (cks' & B1 & B2).
      assert (ch' <> ch) as Nch by (intros ->; rewrite (si_m4 _ (fi_subs _ HF1) _ _ _ _ _ Hp1) in B1; discriminate).
      assert (r' <> r) as Nrr.
      { intros ->. unfold owner in C. destruct (oi_reg _ (fi_own _ HF1) ch' r) as [Y _]; [rewrite (Hv' _ _ B1); discriminate|exact C|]. rewrite Hr in Y. cbn in Y. congruence. }
      apply (Hsafe1 w ch' r'). split; [exact Hw|]. split; [rewrite Hp1; cbn; right; eauto|]. split; [exact C|].
      intros Y. apply D. unfold s2; cbn. rewrite upd_other by congruence. rewrite upd_other; [exact Y|]. intros ->. congruence.
    + destruct (client_send s1 w ch c (M3 old c pending) HF1) as (ls & s2 & R & [X|(Hc' & Hp' & Hw' & Hs' & Hl' & Hst' & Ho')]); [exact Hc1|rewrite Hp1; reflexivity|exact Eo| |].
      * exists ls, s2. auto.
      * eapply released_run; [exact R|].
        eapply (IH s2 w old c pending); [exact Hlen|eapply full_run; eauto| |exact Hc'|rewrite Hw'; exact Hw|rewrite Hp'; apply upd_same].
        intros w' ch' r' (A & B & C & D). rewrite Hw' in A. assert (w' = w) as -> by congruence.
        rewrite Hp', Hl', Hs', Ho', upd_same in *. cbn in B. apply (Hsafe1 w ch' r'). split; [exact Hw|]. split; [rewrite Hp1; cbn; right; exact B|]. split; [exact C|].
        intros Y. apply D. rewrite upd_other; [exact Y|]. intros ->. congruence.
    + exfalso. apply (oi_alloc _ (fi_own _ HF1) ch); congruence.
Qed.


Lemma release_m3 n : m3_releases n.
Proof.
  induction n as [|n IH]; intros s w old c pending Hlen HF Hsafe Hc Hw Hp.
  - destruct pending; [|cbn in Hlen; lia].
    eapply (released_now s (LGo w)); [unfold step, go; rewrite Hc, Hp; reflexivity|]. cbn. auto.
  - destruct pending as [|[ch checks] rest] eqn:Epd; [eapply (released_now s (LGo w)); [unfold step, go; rewrite Hc, Hp; reflexivity|]; cbn; auto|].
    rewrite <- Epd in *. assert (lookup ch pending = Some checks) as El by (rewrite Epd; cbn; rewrite Nat.eqb_refl; reflexivity).
    pose proof (remove_length _ _ _ El) as Hrl.
    destruct (shouldSendUpdatedConfig checks old c) eqn:Es.
    2:{ eapply (released_step s (LPick w ch)); [unfold step; rewrite Hc, Hp, El, Es; reflexivity|].
        assert (full_inv (with_pc s w (M3 old c (remove ch pending)))) as HF'.
        { eapply (full_inv_step s (LPick w ch)); [exact HF|]. unfold step. rewrite Hc, Hp, El, Es. reflexivity. }
        eapply (IH _ w old c (remove ch pending)); [lia|exact HF'| |exact Hc|exact Hw|cbn; apply upd_same].
        intros w' ch' r' (A & B & C & D). cbn in *. assert (w' = w) as -> by congruence. rewrite upd_same in B.
        apply (Hsafe w ch' r'). split; [exact Hw|]. split; [|split; [exact C|]].
        - rewrite Hp. cbn in B |- *. destruct B as (cks & B1 & B2). rewrite lookup_remove in B1. destruct (Nat.eqb ch' ch); [discriminate|]. eauto.
        - intros X. apply D. rewrite upd_other; [exact X|]. intros ->. congruence. }
    set (s1 := with_pc s w (M4 old c ch (remove ch pending))).
    assert (step s (LPick w ch) = Some s1) as St by (unfold step; rewrite Hc, Hp, El, Es; reflexivity).
    eapply released_step; [exact St|].
    assert (full_inv s1) as HF1 by (eapply full_inv_step; eauto).
    assert (pcs s1 w = M4 old c ch (remove ch pending)) as Hp1 by (cbn; apply upd_same).
    assert (safe s1) as Hsafe1.
    { intros w' ch' r' (A & B & C & D). cbn in *. assert (w' = w) as -> by congruence. rewrite upd_same in B.
      apply (Hsafe w ch' r'). split; [exact Hw|]. split; [|split; [exact C|]].
      - rewrite Hp. cbn in B |- *. destruct B as [->|(cks & B1 & B2)]; [rewrite should_spec in Es; eauto|].
        rewrite lookup_remove in B1. destruct (Nat.eqb ch' ch); [discriminate|]. eauto.
      - intros X. apply D. rewrite upd_other; [exact X|]. intros ->. congruence. }
    eapply (release_m4 n s1 w old c ch (remove ch pending)); [exact IH|lia|exact HF1|exact Hsafe1|exact Hc|exact Hw|exact Hp1].
Qed.

Lemma safe_released s : reachable step init s -> safe s -> released s.
Proof.
  intros R Hsafe. destruct (crashed s) eqn:Hc; [exists [], s; cbn; split; [reflexivity|right; congruence]|].
  destruct (writer s) as [w|] eqn:Hw; [|exists [], s; cbn; auto].
  apply reachable_full in R. pose proof (li_writer _ (proj1 (fi_all _ R)) w) as HL. destruct HL as [HL _]. specialize (HL Hw).
  destruct (pcs s w) eqn:Hp; cbn in HL; try contradiction.
  - (* S2 *)
    assert (exists s', step s (LGo w) = Some s') as (s' & St) by (unfold step, go; rewrite Hc, Hp; eauto).
    eapply released_step; [exact St|]. assert (full_inv s') as HF' by (eapply full_inv_step; eauto).
    unfold step, go in St. rewrite Hc, Hp in St. destruct (last s) as [c|] eqn:El; [destruct (shouldSendUpdatedConfig checks None c) eqn:Es|];
      injection St as <-; [|eapply release_s4; [exact HF'|exact Hc|cbn; apply upd_same]..].
    rewrite should_spec in Es. eapply release_s3; [exact HF'| |exact Hc|exact Hw|cbn; apply upd_same].
    intros w' ch' r' (A & B & C & D). cbn in *. assert (w' = w) as -> by congruence. rewrite upd_same in B. cbn in B. subst ch'.
    apply (Hsafe w ch r'). split; [exact Hw|]. rewrite Hp. split; [cbn; split; [reflexivity|]; eauto|]. split; [exact C|].
    intros Y. apply D. rewrite upd_other; [exact Y|]. intros ->. congruence.
  - eapply release_s3; eauto.
  - eapply release_s4; eauto.
  - eapply release_s5; eauto.
  - eapply (released_now s (LGo w)); [unfold step, go; rewrite Hc, Hp; reflexivity|]. cbn. auto.
  - eapply (released_now s (LGo w)); [unfold step, go; rewrite Hc, Hp; reflexivity|]. cbn. auto.
  - eapply (released_now s (LGo w)); [unfold step, go; rewrite Hc, Hp; reflexivity|]. destruct k; cbn; auto.
  - (* M2 *)
    assert (step s (LGo w) = Some (log (with_pc (with_last s (Some c)) w (M3 (last s) c (subs s))) (HInstall c))) as St by (unfold step, go; rewrite Hc, Hp; reflexivity).
    eapply released_step; [exact St|]. eapply (release_m3 (length (subs s)) _ w (last s) c (subs s)); [lia|eapply full_inv_step; eauto| |exact Hc|exact Hw|cbn; apply upd_same].
    intros w' ch' r' (A & B & C & D). cbn in *. assert (w' = w) as -> by congruence. rewrite upd_same in B.
    apply (Hsafe w ch' r'). split; [exact Hw|]. rewrite Hp. split; [exact B|]. split; [exact C|].
    intros Y. apply D. rewrite upd_other; [exact Y|]. intros ->. congruence.
  - eapply release_m3; eauto.
  - eapply (release_m4 (length pending)); eauto. apply release_m3.
Qed.

