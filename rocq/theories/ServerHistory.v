(** What the server's history says is what happened. *)
From Verif Require Import SpecConnections ServerProofs ServerSessions ServerMore.
Require Import Lia.

Definition table_inv (s : state) : Prop := sessions s = table (hist s).
Lemma table_step s l s' : table_inv s -> step s l = Some s' -> table_inv s'.
Proof. unfold table_inv. intros I H. dstep H; cbn; rewrite ?I; reflexivity. Qed.
Lemma reachable_table s : reachable step init s -> table_inv s.
Proof. apply reachable_invariant; [intros ? ->; reflexivity|apply table_step]. Qed.

Definition inside_inv (s : state) : Prop := forall t, inside t (hist s) = match pcs s t with Idle => false | _ => true end.
Lemma inside_step s l s' : inside_inv s -> step s l = Some s' -> inside_inv s'.
Proof.
  intros I H t0. pose proof (I t0) as It. dstep H; cbn; unfold upd; eqs; try rewrite It; try reflexivity; auto; try congruence.
  all: match goal with E : pcs ?s ?t = _ |- context [pcs ?s ?t] => rewrite E; reflexivity | E : pcs ?s ?t = _ |- context [inside ?t] => rewrite E; reflexivity | _ => idtac end.
Qed.
Lemma reachable_inside s : reachable step init s -> inside_inv s.
Proof. apply reachable_invariant; [intros ? -> t; reflexivity|apply inside_step]. Qed.

Record once_inv (s : state) : Prop := {
  on_fired : forall c, s_fired s c = true <-> In c (fired (hist s));
  on_nodup : NoDup (fired (hist s));
  on_closing : forall t c, closing (pcs s t) = Some c -> ~ In c (conns_closed (hist s)) /\ In c (fired (hist s));
  on_uniq : forall t t' c, closing (pcs s t) = Some c -> closing (pcs s t') = Some c -> t = t';
  on_closed : forall c, In c (conns_closed (hist s)) -> In c (fired (hist s)) /\ conn_open s c = false;
  on_open : forall c, (c < next_conn s)%nat -> conn_open s c = false -> In c (conns_closed (hist s));
  on_nodup' : NoDup (conns_closed (hist s))
}.
Inductive kind (s s' : state) : Prop :=
| KSame : fired (hist s') = fired (hist s) -> conns_closed (hist s') = conns_closed (hist s) -> s_fired s' = s_fired s ->
    conn_open s' = conn_open s -> next_conn s' = next_conn s -> (forall t c, closing (pcs s' t) = Some c -> closing (pcs s t) = Some c) -> kind s s'
| KNew : fired (hist s') = fired (hist s) -> conns_closed (hist s') = conns_closed (hist s) -> s_fired s' = s_fired s ->
    conn_open s' = upd (conn_open s) (next_conn s) true -> next_conn s' = S (next_conn s) -> (forall t c, closing (pcs s' t) = Some c -> closing (pcs s t) = Some c) -> kind s s'
| KFire t c : s_fired s c = false -> fired (hist s') = c :: fired (hist s) -> conns_closed (hist s') = conns_closed (hist s) -> s_fired s' = upd (s_fired s) c true ->
    conn_open s' = conn_open s -> next_conn s' = next_conn s -> closing (pcs s' t) = Some c -> (forall t', t' <> t -> pcs s' t' = pcs s t') -> kind s s'
| KClose t c : closing (pcs s t) = Some c -> fired (hist s') = fired (hist s) -> conns_closed (hist s') = c :: conns_closed (hist s) -> s_fired s' = s_fired s ->
    conn_open s' = upd (conn_open s) c false -> next_conn s' = next_conn s -> closing (pcs s' t) = None -> (forall t', t' <> t -> pcs s' t' = pcs s t') -> kind s s'.
Lemma step_kind s l s' : step s l = Some s' -> kind s s'.
Proof.
  intros H. dstep H.
  all: first
    [ solve [apply KSame; try reflexivity; intros t0 c0; cbn; unfold upd; eqs; cbn; auto; discriminate]
    | solve [apply KNew; try reflexivity; intros t0 c0; cbn; unfold upd; eqs; cbn; auto; discriminate]
    | solve [eapply KFire; try reflexivity; try eassumption; [cbn; rewrite upd_same; reflexivity|intros t' D; cbn; unfold upd; eqs; congruence]]
    | solve [eapply (KClose _ _ t); try reflexivity; [match goal with E : pcs _ _ = _ |- _ => rewrite E; reflexivity end|cbn; rewrite upd_same; reflexivity|intros t' D; cbn; unfold upd; eqs; congruence]]
    | idtac ].
Qed.
Lemma once_step s l s' : reachable step init s -> once_inv s -> step s l = Some s' -> once_inv s'.
Proof.
  intros R [I1 I2 I3 I4 I5 I6 I7] H. pose proof (reachable_ses _ R) as HS. pose proof (reachable_own _ R) as HO.
  assert (forall c, (next_conn s <= c)%nat -> ~ In c (fired (hist s))) as NF.
  { intros c Hc X. apply I1 in X. apply (sn_fired _ HS) in X. apply (oi_reg_lt _ HO) in X. lia. }
  destruct (step_kind _ _ _ H) as [E1 E2 E3 E4 E5 E6|E1 E2 E3 E4 E5 E6|t c F E1 E2 E3 E4 E5 E6 E7|t c F E1 E2 E3 E4 E5 E6 E7]; constructor; rewrite ?E1, ?E2, ?E3, ?E4, ?E5; auto; try solve [eauto].
  - intros c X. destruct (I5 c X) as [A B]. split; [exact A|]. unfold upd. eqs; [|exact B]. exfalso. apply (NF (next_conn s)); auto.
  - intros c Hc. unfold upd. eqs; [discriminate|]. apply I6. lia.
  - intros c0. unfold upd. cbn. eqs; [tauto|]. rewrite I1. split; [auto|]. intros [X|X]; [congruence|exact X].
  - constructor; [|exact I2]. intros X. apply I1 in X. congruence.
  - intros t0 c0 X. destruct (Nat.eq_dec t0 t) as [->|D].
    + rewrite E6 in X. injection X as <-. split; [|left; reflexivity]. intros Y. apply I5 in Y. destruct Y as [Y _]. apply I1 in Y. congruence.
    + rewrite (E7 _ D) in X. destruct (I3 _ _ X) as [A B]. split; [exact A|right; exact B].
  - intros t0 t1 c0 X Y.
    assert (forall t', t' <> t -> closing (pcs s' t') = Some c -> False) as U.
    { intros t' D Z. rewrite (E7 _ D) in Z. apply I3 in Z. destruct Z as [_ Z]. apply I1 in Z. congruence. }
    destruct (Nat.eq_dec t0 t) as [->|D0], (Nat.eq_dec t1 t) as [->|D1]; auto.
    + rewrite E6 in X. injection X as <-. exfalso. eapply U; eassumption.
    + rewrite E6 in Y. injection Y as <-. exfalso. eapply U; eassumption.
    + rewrite (E7 _ D0) in X. rewrite (E7 _ D1) in Y. eauto.
  - intros c0 X. destruct (I5 c0 X) as [A B]. split; [right; exact A|exact B].
  - intros t0 c0 X. assert (t0 <> t) as D by (intros ->; congruence). rewrite (E7 _ D) in X. destruct (I3 _ _ X) as [A B]. split; [|exact B]. intros [Y|Y]; [subst c0|auto].
    apply D. eauto.
  - intros t0 t1 c0 X Y. assert (t0 <> t) as D0 by (intros ->; congruence). assert (t1 <> t) as D1 by (intros ->; congruence). rewrite (E7 _ D0) in X. rewrite (E7 _ D1) in Y. eauto.
  - intros c0 [<-|X]; [split; [apply (I3 _ _ F)|apply upd_same]|]. destruct (I5 c0 X) as [A B]. split; [exact A|]. unfold upd. eqs; auto.
  - intros c0 Hc. unfold upd. cbn. eqs; [auto|]. intros X. right. auto.
  - constructor; [apply (I3 _ _ F)|exact I7].
Qed.
Lemma reachable_once s : reachable step init s -> once_inv s.
Proof.
  intros R. apply (reachable_invariant step init (fun s => reachable step init s /\ once_inv s)); [| |exact R].
  - intros ? ->. split; [exists NewServer, []; split; reflexivity|]. constructor; cbn; try discriminate; try contradiction; try constructor; try (intros; lia). all: try discriminate; try contradiction.
  - intros s1 l s2 [A B] E. split; [exact (reachable_step _ _ _ _ _ A E)|exact (once_step _ _ _ A B E)].
Qed.

(** *** Results of ServeConn *)
Definition result_at (p : pc) : option (nat * option error) :=
  match p with C7 c r | C8 c r | C9 c r | C10 c r | C11 c r | CRet c r => Some (c, r) | _ => None end.
Definition explained (ls : list label) (s : state) (c : nat) (r : option error) : Prop :=
  r = Some ErrServerClosed /\ ~ In c (registered (hist s)) \/ r = Some ErrSessionClosed /\ In c (fired (hist s)) \/ start_ended ls c r.
Lemma explained_more ls l s s' c r : step s l = Some s' -> (forall t, pcs s t <> C3 c) -> explained ls s c r -> explained (ls ++ [l]) s' c r.
Proof.
  intros H N [(X & Y)|[(X & Y)|(a & t & b & s1 & E & F)]]; [left|right; left|right; right].
  - split; [exact X|]. destruct (step_reg _ _ _ H) as [E|(t & c' & E & E')]; rewrite ?E, ?E'; [exact Y|]. rewrite in_app_iff. intros [Z|[Z|[]]]; [auto|]. subst c'. exact (N t E).
  - split; [exact X|]. destruct (step_kind _ _ _ H) as [E1|E1|t c' _ E1|t c' _ E1]; rewrite E1; auto. right. exact Y.
  - exists a, t, (b ++ [l]), s1. split; [rewrite E, <- app_assoc; reflexivity|exact F].
Qed.
Lemma step_result s l s' t c r : once_inv s -> ses_inv s -> step s l = Some s' -> result_at (pcs s' t) = Some (c, r) ->
  result_at (pcs s t) = Some (c, r) \/ r = Some ErrServerClosed /\ ~ In c (registered (hist s')) \/ r = Some ErrSessionClosed /\ In c (fired (hist s')) \/ l = LEnd t r /\ pcs s t = C6 c.
Proof.
  intros O SN H. dstep H; cbn; unfold upd; eqs; auto; try discriminate; cbn; intros X; injection X as <- <-; auto.
  all: try (left; match goal with E : pcs _ _ = _ |- _ => rewrite E; reflexivity end).
  all: try (right; right; left; split; [reflexivity|]; apply (on_fired _ O); assumption).
  all: try (right; left; split; [reflexivity|]; match goal with E : pcs ?s ?t = _ |- _ => eapply (sn_pre _ SN t); rewrite E; reflexivity end).
  all: auto.
Qed.
Lemma run_results ls : forall s, run step NewServer ls = Some s ->
  (forall t c r, result_at (pcs s t) = Some (c, r) -> explained ls s c r) /\ (forall t c r, In (HRet t (CServeConn c) r) (hist s) -> explained ls s c r).
Proof.
  induction ls as [|l ls IH] using rev_ind; intros s H; [injection H as <-; split; [discriminate|contradiction]|].
  rewrite run_app in H. destruct (run step NewServer ls) as [s1|] eqn:E; [|discriminate]. cbn in H. destruct (step s1 l) as [s2|] eqn:H2; [|discriminate]. injection H as ->. rename H2 into H. destruct (IH s1 eq_refl) as [A B].
  assert (reachable step init s1) as R1 by (exists NewServer, ls; split; [reflexivity|exact E]).
  pose proof (reachable_own _ R1) as HO.
  assert (forall t c r, result_at (pcs s1 t) = Some (c, r) -> forall t', pcs s1 t' <> C3 c) as N.
  { intros t c r X t' Y. assert (t' = t) as -> by (apply (oi_conn _ HO t' t c); [rewrite Y; reflexivity|destruct (pcs s1 t); try discriminate X; injection X as <- <-; reflexivity]). rewrite Y in X. discriminate X. }
  split.
  - intros t c r X. destruct (step_result _ _ _ _ _ _ (reachable_once _ R1) (reachable_ses _ R1) H X) as [Y|[Y|[Y|[-> Y]]]].
    + eapply explained_more; eauto.
    + left. exact Y.
    + right; left. exact Y.
    + right; right. exists ls, t, [], s1. auto.
  - intros t c r X. destruct (step_ret _ _ _ _ _ _ H X) as [Y|(Y & _)].
    + eapply explained_more; eauto. intros t' Z. destruct (cr_res _ (reachable_cnres _ R1) _ _ _ Y) as (_ & _ & W). apply (W t'). rewrite Z. reflexivity.
    + assert (result_at (pcs s1 t) = Some (c, r)) as W by (rewrite Y; reflexivity). eapply explained_more; eauto.
Qed.
