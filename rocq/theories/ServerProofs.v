(** Invariants of the server model. *)
From Verif Require Export SpecServer.
Require Import Lia.

Ltac dstep H :=
  unfold step, go, lock, unlock, ret in H; cbv zeta in H;
  repeat (match type of H with
          | context [match ?x with _ => _ end] => first [is_var x; destruct x | destruct x eqn:?]
          end; try discriminate H);
  injection H as <-.
Ltac eqs := repeat match goal with
  | H : context [Nat.eqb ?a ?b] |- _ => destruct (Nat.eqb_spec a b); [subst|]
  | |- context [Nat.eqb ?a ?b] => destruct (Nat.eqb_spec a b); [subst|]
  end.

(** *** The two events *)
Record ev_inv (s : state) : Prop := {
  si_start : forall t, in_start (pcs s t) -> started (hist s) = [t] /\ start_ev s = match pcs s t with A2 => EvFiring t | _ => EvFired end;
  si_init : start_ev s = EvInit -> started (hist s) = [];
  si_firing : forall t, start_ev s = EvFiring t -> pcs s t = A2;
  si_once : (length (started (hist s)) <= 1)%nat;
  si_close : forall t, in_close (pcs s t) -> shutdowns (hist s) = [t] /\ shut_ev s = match pcs s t with K1 => EvFiring t | _ => EvFired end;
  si_cinit : shut_ev s = EvInit -> shutdowns (hist s) = [];
  si_cfiring : forall t, shut_ev s = EvFiring t -> pcs s t = K1;
  si_conce : (length (shutdowns (hist s)) <= 1)%nat
}.
Lemma ev_step s l s' : ev_inv s -> step s l = Some s' -> ev_inv s'.
Proof.
  intros HI H. dstep H. all: destruct HI as [I1 I2 I3 I4 I5 I6 I7 I8].
  all: try match goal with E : pcs ?s ?t = ?p, I1 : forall t, in_start _ -> _, I5 : forall t, in_close _ -> _ |- _ =>
     let X := fresh "X" in let Y := fresh "Y" in pose proof (I1 t) as X; pose proof (I5 t) as Y; rewrite E in X, Y; cbn in X, Y end.
  all: constructor; cbn; auto; unfold upd; intros; cbn in *.
  all: eqs; cbn in *; try tauto; try congruence; auto.
  all: try solve [rewrite app_length; cbn; repeat match goal with I : ?e = EvInit -> _ = [], E : ?e = EvInit |- _ => rewrite (I E); clear I end; cbn; lia].
  all: try solve [match goal with I3 : forall t, ?e = EvFiring t -> _, E : ?e = EvFiring _ |- _ => apply I3 in E; congruence end].
  all: repeat match goal with I : ?e = EvInit -> _ = [], E : ?e = EvInit |- _ => rewrite (I E); clear I end; auto.
  all: repeat match goal with X : True -> _ |- _ => specialize (X I) end.
  all: try solve [exfalso; match goal with I1 : forall t, in_start (pcs ?s t) -> _, E : in_start (pcs ?s ?t0) |- _ => apply I1 in E; destruct E as [E1 E2]; destruct (pcs s t0); intuition congruence end].
  all: try solve [exfalso; match goal with I1 : forall t, in_close (pcs ?s t) -> _, E : in_close (pcs ?s ?t0) |- _ => apply I1 in E; destruct E as [E1 E2]; destruct (pcs s t0); intuition congruence end].
Qed.
Lemma ev_init : ev_inv NewServer.
Proof. constructor; cbn; intros; try tauto; try discriminate; auto. Qed.
Lemma reachable_ev s : reachable step init s -> ev_inv s.
Proof. apply reachable_invariant; [intros ? ->; apply ev_init|apply ev_step]. Qed.

(** *** The mutex *)
Definition lock_inv (s : state) : Prop := forall t, in_section (pcs s t) <-> mu s = Some t.
Lemma lock_step s l s' : lock_inv s -> step s l = Some s' -> lock_inv s'.
Proof.
  intros HI H. dstep H. all: intros t1; pose proof (HI t1) as H1.
  all: try match goal with E : pcs ?s ?t = ?p, HI : lock_inv _ |- _ => let X := fresh "X" in pose proof (HI t) as X; rewrite E in X; cbn in X end.
  all: clear HI; cbn; auto; unfold upd; cbn in *.
  all: eqs; cbn in *; try tauto; try (intuition congruence).
  all: try (destruct X as [X _]; specialize (X I); rewrite X in *; intuition congruence).
  all: match goal with E : pcs ?s ?c = Idle, H1 : in_section (pcs ?s ?c) <-> _ |- _ => rewrite E in H1; exact H1 end.
Qed.
Lemma lock_init : lock_inv NewServer.
Proof. intros t. cbn. split; [tauto|discriminate]. Qed.
Lemma reachable_lock s : reachable step init s -> lock_inv s.
Proof. apply reachable_invariant; [intros ? ->; apply lock_init|apply lock_step]. Qed.

(** *** Who owns a listener or a connection *)
Definition own_lis (p : pc) : option nat :=
  match p with A6 l | S0 l | S1 l | S2 l | S3 l | S4 l | S5 l | S6 l _ | SRet l _ => Some l | _ => None end.
Definition own_conn (p : pc) : option nat :=
  match p with
  | S6 _ c | C0 c | C1 c | C2 c | C3 c | C4 c | C5 c | C6 c | C7 c _ | C8 c _ | C9 c _ | C10 c _ | C11 c _ | CRet c _ => Some c
  | _ => None
  end.
Record own_inv (s : state) : Prop := {
  oi_lis : forall t t' l, own_lis (pcs s t) = Some l -> own_lis (pcs s t') = Some l -> t = t';
  oi_lis_lt : forall t l, own_lis (pcs s t) = Some l -> (l < next_lis s)%nat;
  oi_inst_lt : forall l, In l (installed (hist s)) -> (l < next_lis s)%nat;
  oi_conn : forall t t' c, own_conn (pcs s t) = Some c -> own_conn (pcs s t') = Some c -> t = t';
  oi_conn_lt : forall t c, own_conn (pcs s t) = Some c -> (c < next_conn s)%nat;
  oi_reg_lt : forall c, In c (registered (hist s)) -> (c < next_conn s)%nat
}.
Lemma own_frame s s' :
  (forall t l, own_lis (pcs s' t) = Some l -> own_lis (pcs s t) = Some l) -> (forall t c, own_conn (pcs s' t) = Some c -> own_conn (pcs s t) = Some c) ->
  next_lis s' = next_lis s -> next_conn s' = next_conn s ->
  (forall l, In l (installed (hist s')) -> In l (installed (hist s)) \/ exists t, own_lis (pcs s t) = Some l) ->
  (forall c, In c (registered (hist s')) -> In c (registered (hist s)) \/ exists t, own_conn (pcs s t) = Some c) -> own_inv s -> own_inv s'.
Proof.
  intros H1 H2 H3 H4 H5 H6 [I1 I2 I3 I4 I5 I6]. constructor; rewrite ?H3, ?H4; eauto.
  - intros l Hl. destruct (H5 l Hl) as [X|[t X]]; eauto.
  - intros c Hc. destruct (H6 c Hc) as [X|[t X]]; eauto.
Qed.
Lemma own_step s l s' : own_inv s -> step s l = Some s' -> own_inv s'.
Proof.
  intros HI H. dstep H.
  all: try (eapply own_frame; [| | | | | |exact HI]; cbn; auto; [intros t1 l1|intros t1 l1|..]; unfold upd; [eqs; [|auto]; match goal with E : pcs _ _ = _ |- _ => rewrite E; cbn; congruence end
     |eqs; [|auto]; match goal with E : pcs _ _ = _ |- _ => rewrite E; cbn; congruence end|..]; fail).
  all: destruct HI as [I1 I2 I3 I4 I5 I6].
  all: constructor; cbn; auto; unfold upd; intros.
  all: eqs; cbn in *; auto; try discriminate; try congruence.
  all: repeat match goal with E : Some _ = Some _ |- _ => injection E as E; subst end.
  all: repeat match goal with E : In _ (_ ++ _) |- _ => rewrite in_app_iff in E; destruct E as [E|[E|[]]]; [|subst] end; auto.
  all: repeat match goal with I2 : forall t l, own_lis (pcs ?s t) = Some l -> _, E : own_lis (pcs ?s ?t) = Some ?l |- _ => lazymatch goal with _ : (l < _)%nat |- _ => fail | _ => pose proof (I2 t l E) end end.
  all: repeat match goal with I2 : forall t l, own_conn (pcs ?s t) = Some l -> _, E : own_conn (pcs ?s ?t) = Some ?l |- _ => lazymatch goal with _ : (l < _)%nat |- _ => fail | _ => pose proof (I2 t l E) end end.
  all: repeat match goal with I2 : forall l, In l (_ _) -> _, E : In ?l _ |- _ => lazymatch goal with _ : (l < _)%nat |- _ => fail | _ => pose proof (I2 l E) end end.
  all: try lia.
  all: eauto.
  all: try solve [match goal with E : pcs ?s ?t = _, I2 : forall t l, own_lis (pcs ?s t) = Some l -> (l < _)%nat |- _ => apply (I2 t); rewrite E; reflexivity end].
  all: try solve [match goal with E : pcs ?s ?t = _, I2 : forall t l, own_conn (pcs ?s t) = Some l -> (l < _)%nat |- _ => apply (I2 t); rewrite E; reflexivity end].
  all: try solve [exfalso; match goal with E : pcs ?s ?t = _, n : ?t0 <> ?t, F : own_lis (pcs ?s ?t0) = Some ?l, I1 : forall t t' l, own_lis (pcs ?s t) = Some l -> _ |- _ => apply n; apply (I1 t0 t l F); rewrite E; reflexivity end].
  all: try solve [exfalso; match goal with E : pcs ?s ?t = _, n : ?t0 <> ?t, F : own_conn (pcs ?s ?t0) = Some ?l, I1 : forall t t' l, own_conn (pcs ?s t) = Some l -> _ |- _ => apply n; apply (I1 t0 t l F); rewrite E; reflexivity end].
Qed.
Lemma own_init : own_inv NewServer.
Proof. constructor; cbn; intros; try tauto; discriminate. Qed.
Lemma reachable_own s : reachable step init s -> own_inv s.
Proof. apply reachable_invariant; [intros ? ->; apply own_init|apply own_step]. Qed.
