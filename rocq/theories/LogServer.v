(** The lines of a server on its own, which anyone may call. *)
From Verif Require Import LogProofs LogAlone.
From Verif Require ServerProofs.
Require Import Lia.
Import Server SpecServer ServerProofs.

Definition server_log (ls : list label) : list line := along step (fun v l _ => server_lines v l) NewServer ls.
(** a call of Serve ends with an error *)
Definition ends_with (s : state) (t : tid) (l : lid) (e : error) : Prop := pcs s t = SRet l (Some e) \/ In (HRet t (CServe l) (Some e)) (hist s).

Lemma hist_grows s a s' : step s a = Some s' -> exists d, hist s' = d ++ hist s.
Proof. intros H. dstep H; cbn; first [exists []; reflexivity|eexists [_]; reflexivity|eexists [_; _]; reflexivity]. Qed.
Lemma ends_grows s a s' t l e : step s a = Some s' -> ends_with s t l e -> ends_with s' t l e.
Proof.
  intros H [E|E]; [|right; destruct (hist_grows _ _ _ H) as [d ->]; apply in_or_app; now right]. unfold ends_with.
  dstep H; cbn; unfold upd; eqs; auto; try congruence.
  all: right; rewrite E in *; match goal with X : SRet _ _ = _ |- _ => injection X as <- <- end; cbn; auto.
Qed.
Lemma ends_logged s a s' t l e : step s a = Some s' -> ends_with s' t l e -> e <> ErrConnClosed ->
  ends_with s t l e \/ In (LnAcceptError l (Some e)) (server_lines s a) \/ e = ErrServerClosed /\ In (LnChangeError l) (server_lines s a).
Proof.
  unfold ends_with. intros H E N. dstep H; cbn in *; unfold upd in *; eqs; auto; rewrite ?Nat.eqb_refl in *.
  all: repeat match goal with X : _ \/ _ |- _ => destruct X as [X|X] end; try discriminate; auto.
  all: repeat match goal with X : pcs _ _ = _ |- _ => rewrite X in *; clear X end; try congruence.
  all: repeat match goal with X : ev_fired _ = _ |- _ => rewrite X in *; clear X | X : lis_open _ _ = _ |- _ => rewrite X in *; clear X end.
  all: try match goal with X : SRet _ _ = SRet _ _ |- _ => injection X; clear X; intros; subst | X : HRet _ _ _ = HRet _ _ _ |- _ => injection X; clear X; intros; subst end.
  all: cbn; auto; try tauto.
  all: try match goal with N : ?e <> ErrConnClosed |- context [match ?e with _ => _ end] => destruct e; cbn; auto; now destruct N end.
Qed.
Lemma line_ends s a s' l e : step s a = Some s' -> In (LnAcceptError l (Some e)) (server_lines s a) \/ e = ErrServerClosed /\ In (LnChangeError l) (server_lines s a) ->
  exists t, ends_with s' t l e.
Proof.
  intros H X. unfold server_lines in X. destruct a; try (cbn in X; tauto).
  - destruct (pcs s t) eqn:P; cbn in X; try (intuition discriminate). 2: { destruct (ev_fired (shut_ev s)); cbn in X; intuition discriminate. }
    destruct (ev_fired (shut_ev s)) eqn:V; cbn in X; [|tauto].
    destruct X as [[X|[]]|(-> & [[= ->]|[]])]; [discriminate|]. exists t. left. unfold step, go in H. destruct (crashed s); [discriminate|]. rewrite P, V in H. injection H as <-. cbn. unfold upd. now rewrite Nat.eqb_refl.
  - destruct (updates s); cbn in X; intuition discriminate.
  - destruct ok; [cbn in X; tauto|]. destruct (pcs s t); cbn in X; intuition discriminate.
  - destruct (pcs s t) eqn:P; try (cbn in X; tauto). destruct a as [| |e']; try (cbn in X; intuition discriminate). destruct (lis_open s l0) eqn:O; [|cbn in X; tauto].
    unfold step in H. destruct (crashed s); [discriminate|]. rewrite P in H. injection H as <-. exists t. left. cbn. unfold upd. rewrite Nat.eqb_refl, O.
    destruct e'; cbn in X; destruct X as [X|[_ X]]; try tauto; destruct X as [X|[]]; try discriminate; injection X as -> <-; reflexivity.
  - destruct r; [|cbn in X; tauto]. destruct (pcs s t); try (cbn in X; tauto). destruct (listener s); cbn in X; intuition discriminate.
Qed.
Lemma old_logged s a s' t l e : ev_inv s -> step s a = Some s' -> In (HListenerClosed t l (Some e)) (hist s') ->
  In (HListenerClosed t l (Some e)) (hist s) \/ In (LnOldListenerError l e) (server_lines s a) \/ In t (shutdowns (hist s)).
Proof.
  intros I H E. dstep H; cbn in *; auto.
  all: repeat match goal with X : _ \/ _ |- _ => destruct X as [X|X] end; try discriminate; auto.
  all: injection E; clear E; intros; subst; repeat match goal with X : pcs _ _ = _ |- _ => rewrite X end; repeat match goal with X : listener _ = _ |- _ => rewrite X end; cbn; auto.
  right. right. destruct (si_close _ I t) as [-> _]; [match goal with X : pcs _ _ = _ |- _ => rewrite X; exact Logic.I end|now left].
Qed.
Lemma line_old s a s' l e : step s a = Some s' -> In (LnOldListenerError l e) (server_lines s a) -> exists t, In (HListenerClosed t l (Some e)) (hist s').
Proof.
  intros H X. unfold server_lines in X. destruct a; try (cbn in X; tauto).
  - destruct (pcs s t); cbn in X; try (destruct (ev_fired (shut_ev s)); cbn in X); intuition discriminate.
  - destruct (updates s); cbn in X; intuition discriminate.
  - destruct ok; [cbn in X; tauto|]. destruct (pcs s t); cbn in X; intuition discriminate.
  - destruct (pcs s t); try (cbn in X; tauto). destruct a as [| |e']; try (cbn in X; intuition discriminate). destruct (lis_open s l0); [|cbn in X; tauto]. destruct e'; cbn in X; intuition discriminate.
  - destruct r as [e'|]; [|cbn in X; tauto]. destruct (pcs s t) eqn:P; try (cbn in X; tauto). destruct (listener s) eqn:L; cbn in X; [|tauto]. destruct X as [[= -> ->]|[]].
    exists t. unfold step in H. destruct (crashed s); [discriminate|]. rewrite P, L in H. injection H as <-. cbn. now left.
Qed.
Definition closings (s : state) : nat := match shut_ev s with EvFired => 1 | _ => 0 end.
Lemma closing_step s a s' : ev_inv s -> step s a = Some s' -> closings s' = (closings s + occurrences is_server_closing (server_lines s a))%nat.
Proof.
  intros I H. unfold closings, occurrences. pose proof (si_close _ I) as K. dstep H; cbn in *.
  all: try match goal with E : pcs _ ?t = _ |- _ => specialize (K t); rewrite E in *; cbn in * end; cbn; rewrite ?Nat.add_0_r; auto.
  all: repeat match goal with |- context [filter _ (match ?x with _ => _ end)] => destruct x; cbn end; rewrite ?Nat.add_0_r; auto.
  all: try match goal with E : shut_ev _ = _ |- _ => rewrite E; reflexivity end.
  all: destruct (K Logic.I) as [_ ->]; reflexivity.
Qed.
Lemma temporary_step s a s' : step s a = Some s' -> occurrences is_temporary (server_lines s a) = if accept_temporary a then 1%nat else 0%nat.
Proof.
  intros H. unfold occurrences. dstep H; cbn in *.
  all: repeat match goal with E : pcs _ _ = _ |- _ => rewrite E; clear E end; cbn; auto.
  all: repeat match goal with |- context [filter _ (match ?x with _ => _ end)] => destruct x; cbn end; auto.
Qed.

Record told_server (ls : list label) (s : state) : Prop := {
  ts_ends : forall t l e, ends_with s t l e -> e <> ErrConnClosed -> In (LnAcceptError l (Some e)) (server_log ls) \/ e = ErrServerClosed /\ In (LnChangeError l) (server_log ls);
  ts_line : forall l e, In (LnAcceptError l (Some e)) (server_log ls) \/ e = ErrServerClosed /\ In (LnChangeError l) (server_log ls) -> exists t, ends_with s t l e;
  ts_old : forall t l e, In (HListenerClosed t l (Some e)) (hist s) -> In (LnOldListenerError l e) (server_log ls) \/ In t (shutdowns (hist s));
  ts_old_line : forall l e, In (LnOldListenerError l e) (server_log ls) -> exists t, In (HListenerClosed t l (Some e)) (hist s);
  ts_closing : occurrences is_server_closing (server_log ls) = closings s;
  ts_temporary : occurrences is_temporary (server_log ls) = length (filter accept_temporary ls)
}.
Lemma shutdowns_grow h d t : In t (shutdowns h) -> In t (shutdowns (d ++ h)).
Proof. induction d as [|e d IH]; [auto|]. intros H. cbn. destruct e; auto. apply in_or_app. auto. Qed.
Lemma told_server_run ls : forall s, run step NewServer ls = Some s -> told_server ls s.
Proof.
  induction ls as [|a ls IH] using rev_ind; intros s' H.
  - injection H as <-. constructor; unfold ends_with; cbn; try reflexivity; intros; intuition discriminate.
  - rewrite run_app in H. destruct (run step NewServer ls) as [s|] eqn:E; [|discriminate]. cbn in H. destruct (step s a) as [s1|] eqn:S; [|discriminate]. injection H as ->.
    destruct (IH s eq_refl) as [A B C D F G]. assert (ev_inv s) as I by (apply reachable_ev; exists NewServer, ls; split; [reflexivity|exact E]).
    assert (server_log (ls ++ [a]) = server_log ls ++ server_lines s a) as W by (unfold server_log; rewrite (along_app _ _ _ _ _ _ E); cbn [along]; rewrite S, app_nil_r; reflexivity).
    destruct (hist_grows _ _ _ S) as [d Hd]. constructor; rewrite ?W.
    + intros t l e X N. destruct (ends_logged _ _ _ _ _ _ S X N) as [Y|[Y|(-> & Y)]]; [destruct (A _ _ _ Y N) as [Z|(-> & Z)]| |]; rewrite ?in_app_iff; auto 6.
    + intros l e X. rewrite !in_app_iff in X. assert ((In (LnAcceptError l (Some e)) (server_log ls) \/ e = ErrServerClosed /\ In (LnChangeError l) (server_log ls)) \/ (In (LnAcceptError l (Some e)) (server_lines s a) \/ e = ErrServerClosed /\ In (LnChangeError l) (server_lines s a))) as [Y|Y] by tauto.
      * destruct (B _ _ Y) as [t Z]. exists t. exact (ends_grows _ _ _ _ _ _ S Z).
      * exact (line_ends _ _ _ _ _ S Y).
    + intros t l e X. rewrite in_app_iff. destruct (old_logged _ _ _ _ _ _ I S X) as [Y|[Y|Y]]; [destruct (C _ _ _ Y) as [Z|Z]; [auto|]| auto |]; right; rewrite Hd; now apply shutdowns_grow.
    + intros l e X. apply in_app_or in X as [X|X]; [|exact (line_old _ _ _ _ _ S X)]. destruct (D _ _ X) as [t Y]. exists t. rewrite Hd. apply in_or_app. auto.
    + unfold occurrences in *. rewrite filter_app, app_length, F, (closing_step _ _ _ I S). reflexivity.
    + rewrite filter_app, app_length. cbn. pose proof (temporary_step _ _ _ S) as T. unfold occurrences in *. rewrite filter_app, app_length, G, T. destruct (accept_temporary a); reflexivity.
Qed.
(** a Close call that has returned has found the event fired *)
Lemma closed_server s : reachable step init s -> (forall t r, In (HRet t CClose r) (hist s) -> shut_ev s = EvFired).
Proof.
  intros R. enough (ev_inv s /\ (forall t r, In (HRet t CClose r) (hist s) \/ pcs s t = KRet r -> shut_ev s = EvFired)) as [_ X] by eauto. revert s R.
  apply (reachable_invariant step init (fun s => ev_inv s /\ (forall t r, In (HRet t CClose r) (hist s) \/ pcs s t = KRet r -> shut_ev s = EvFired))); [intros ? ->; split; [apply ev_init|intros ? ? [[]|?]; discriminate]|].
  intros s a s' [I X] H. split; [eapply ev_step; eassumption|]. intros t r Y. pose proof (si_close _ I) as K.
  dstep H; cbn in *; unfold upd in *; eqs; eauto.
  all: repeat match goal with Z : _ \/ _ |- _ => destruct Z as [Z|Z] end; try discriminate; eauto.
  all: try (match goal with Z : HRet _ _ _ = HRet _ _ _ |- _ => injection Z; clear Z; intros; subst; try discriminate end; eauto; fail).
  all: try (match goal with E : pcs _ ?t = _, K : forall t, in_close _ -> _ |- _ => specialize (K t); rewrite E in K; cbn in K; now destruct (K Logic.I) end; fail).
  all: exfalso; match goal with X : forall t r, _ -> EvInit = EvFired |- _ => enough (EvInit = EvFired) by discriminate; eapply X; eauto end.
Qed.
Lemma fired_shutdown s : reachable step init s -> shut_ev s = EvFired -> length (shutdowns (hist s)) = 1%nat.
Proof.
  intros R. enough (ev_inv s /\ (shut_ev s <> EvInit -> length (shutdowns (hist s)) = 1%nat)) as [_ X] by (intros V; apply X; rewrite V; discriminate). revert s R.
  apply (reachable_invariant step init (fun s => ev_inv s /\ (shut_ev s <> EvInit -> length (shutdowns (hist s)) = 1%nat))); [intros ? ->; split; [apply ev_init|intros X; now destruct X]|].
  intros s a s' [I X] H. split; [eapply ev_step; eassumption|]. pose proof (si_cinit _ I) as K. dstep H; cbn in *; auto.
  all: try (intros _; apply X; congruence). all: intros _.
  - rewrite K by reflexivity. reflexivity.
  - destruct (si_close _ I t) as [-> _]; [match goal with E : pcs _ t = _ |- _ => rewrite E; exact Logic.I end|reflexivity].
Qed.
Lemma server_told ls s : run step NewServer ls = Some s -> let w := server_log ls in let h := hist s in
  (forall t l e, In (HRet t (CServe l) (Some e)) h -> e <> ErrConnClosed -> In (LnAcceptError l (Some e)) w \/ e = ErrServerClosed /\ In (LnChangeError l) w) /\
  (forall l e, In (LnAcceptError l (Some e)) w \/ e = ErrServerClosed /\ In (LnChangeError l) w -> exists t, pcs s t = SRet l (Some e) \/ In (HRet t (CServe l) (Some e)) h) /\
  (forall t l e, In (HListenerClosed t l (Some e)) h -> In (LnOldListenerError l e) w \/ In t (shutdowns h)) /\
  (forall l e, In (LnOldListenerError l e) w -> exists t, In (HListenerClosed t l (Some e)) h) /\
  (occurrences is_server_closing w <= length (shutdowns h) <= 1)%nat /\ (forall t r, In (HRet t CClose r) h -> occurrences is_server_closing w = 1%nat) /\
  occurrences is_temporary w = length (filter accept_temporary ls).
Proof.
  intros H. assert (reachable step init s) as R by (exists NewServer, ls; split; [reflexivity|exact H]). destruct (told_server_run ls s H) as [A B C D F G]. cbv zeta.
  split; [intros t l e X; apply (A t l e); now right|]. split; [exact B|]. split; [exact C|]. split; [exact D|]. split; [|split; [|exact G]].
  - rewrite F. pose proof (reachable_ev _ R) as I. split; [|apply (si_conce _ I)]. unfold closings. destruct (shut_ev s) eqn:V; try lia. rewrite (fired_shutdown s R V). auto.
  - intros t r X. rewrite F. unfold closings. now rewrite (closed_server s R t r X).
Qed.
