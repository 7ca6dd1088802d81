(** Consequences: what Watch reports, how it ends, what can still happen. *)
From Verif Require Export WatcherProofs.
Require Import Lia.

(** *** watcherError *)
Definition alive (p : hpc) : bool := match p with H_None | H_End => false | _ => true end.
Record err_inv (s : state) : Prop := {
  er_val : failed (hist s) = false ->
    match starter s with
    | S_None | S_New | S_Make | S_Spawn | S_Add => werr s = None
    | S_NewFailed => exists e, werr s = Some e
    | S_End => if made (hist s) then In (WAdd (werr s)) (hist s) else exists e, werr s = Some e
    | _ => In (WAdd (werr s)) (hist s)
    end;
  er_ret : forall r, main s = M_Returned r -> alive (handler s) = true -> In (WAdd r) (hist s);
  er_one : forall r1 r2, In (WAdd r1) (hist s) -> In (WAdd r2) (hist s) -> r1 = r2
}.
Lemma err_init s : init s -> err_inv s.
Proof. intros [[f ->]|(cb & f & ->)]; constructor; cbn; auto; try discriminate; tauto. Qed.
Lemma added_false h r : added h = false -> ~ In (WAdd r) h.
Proof. intros H X. assert (added h = true); [|congruence]. apply existsb_exists. eexists. split; [exact X|reflexivity]. Qed.
Lemma err_frame s s' : err_inv s ->
  (failed (hist s') = false -> failed (hist s) = false) -> made (hist s') = made (hist s) ->
  (forall r, In (WAdd r) (hist s') <-> In (WAdd r) (hist s)) ->
  starter s' = starter s -> werr s' = werr s ->
  (forall r, main s' = M_Returned r -> main s = M_Returned r) ->
  (alive (handler s') = true -> alive (handler s) = true) -> err_inv s'.
Proof.
  intros [I1 I2 I3] HF HM HA HS HW HR HH. constructor.
  - intros X. specialize (I1 (HF X)). rewrite HS, HW, HM. destruct (starter s); auto; try (apply HA; exact I1).
    destruct (made (hist s)); auto. apply HA. exact I1.
  - intros r Hr Ha. apply HA. apply I2; auto.
  - intros r1 r2 H1 H2. apply HA in H1. apply HA in H2. auto.
Qed.
Lemma err_step s l s' : shape s -> err_inv s -> step s l = Some s' -> err_inv s'.
Proof.
  intros HS HI H. dstep H.
  all: try (eapply err_frame; [exact HI|cbn; auto; fail|cbn; auto; fail|intros; cbn; intuition congruence|cbn; auto; fail|cbn; auto; fail|cbn; auto; intros; congruence|cbn; rw; auto; try discriminate]; fail).
  all: destruct HI as [I1 I2 I3].
  all: pose proof (sh_made _ HS) as S1; pose proof (sh_hs _ HS) as S2; pose proof (sh_init _ HS) as S3; pose proof (sh_ended _ HS) as S4; pose proof (sh_add _ HS) as S5; pose proof (sh_ret _ HS) as S6; pose proof (sh_main _ HS) as S7.
  all: constructor; cbn in *; rw; intros; try discriminate; eauto.
  all: repeat match goal with H : _ \/ _ |- _ => destruct H; try discriminate end; eauto.
  all: repeat match goal with H : WAdd _ = WAdd _ |- _ => injection H as H; subst end.
  all: try solve [exfalso; match goal with A : added ?h = false, B : In (WAdd _) ?h |- _ => exact (added_false _ _ A B) end].
  all: fold (made (hist s)) in *; fold (failed (hist s)) in *.
  all: try solve [match goal with S : ?b = false |- _ => rewrite S; auto end].
  - destruct (starter s); try discriminate. auto.
  - specialize (I1 H). destruct (starter s); auto. destruct (made (hist s)); auto.
  - right. injection H as <-. assert (failed (hist s) = false) as Hf.
    { destruct (handler s); try discriminate; cbn in S4; destruct (failed (hist s)); auto. }
    pose proof (sh_wclosed _ HS) as S8. pose proof (sh_end _ HS) as S9.
    specialize (I1 Hf). destruct (starter s) eqn:?; try congruence. rewrite S1 in I1. destruct (handler s); try discriminate; exact I1.
  - rewrite H in S6. congruence.
  - reflexivity.
  - reflexivity.
  - rewrite S1. right. auto.
Qed.
Lemma reachable_err s : reachable step init s -> err_inv s.
Proof.
  intros H. apply (reachable_invariant step init (fun s => shape s /\ err_inv s)).
  - intros. split; [apply shape_init|apply err_init]; assumption.
  - intros s1 l s2 [A B] E. split; [eapply shape_step|eapply err_step]; eauto.
  - exact H.
Qed.

(** *** What Watch returned *)
Definition honest (r : option error) (h : list event) : Prop :=
  In (WAdd r) h \/ (r <> None /\ ~ In WMade h).
Fixpoint returns_ok (h : list event) : Prop :=
  match h with
  | [] => True
  | WWatchRet r :: h' => (failed h' = false -> honest r h') /\ returns_ok h'
  | _ :: h' => returns_ok h'
  end.
Lemma made_in h : made h = true <-> In WMade h.
Proof.
  unfold made. rewrite existsb_exists. split; [intros (x & A & B); destruct x; try discriminate; exact A|intros A; exists WMade; auto].
Qed.
Lemma stopped_in h : stopped h = true <-> In WStop h.
Proof.
  unfold stopped. rewrite existsb_exists. split; [intros (x & A & B); destruct x; try discriminate; exact A|intros A; exists WStop; auto].
Qed.
Lemma failed_in h : failed h = true <-> exists e, In (WError e) h.
Proof.
  unfold failed. rewrite existsb_exists. split; [intros (x & A & B); destruct x; try discriminate; eauto|intros [e A]; eexists; split; [exact A|reflexivity]].
Qed.
Lemma noticed_in h : noticed h = true <-> In WStopped h.
Proof.
  unfold noticed. rewrite existsb_exists. split; [intros (x & A & B); destruct x; try discriminate; exact A|intros A; exists WStopped; auto].
Qed.
Lemma closed_in h : closed h = true <-> In WClosed h.
Proof.
  unfold closed. rewrite existsb_exists. split; [intros (x & A & B); destruct x; try discriminate; exact A|intros A; exists WClosed; auto].
Qed.
Lemma not_in_made h : ~ In WMade h <-> made h = false.
Proof. rewrite <- made_in. destruct (made h); intuition congruence. Qed.
Lemma returns_step s l s' : shape s -> err_inv s -> returns_ok (hist s) -> step s l = Some s' -> returns_ok (hist s').
Proof.
  intros HS HE HI H. dstep H. all: cbn; auto.
  split; [|exact HI]. intros X. pose proof (er_val _ HE X) as V. pose proof (sh_init _ HS) as S3. pose proof (sh_made _ HS) as S1.
  unfold honest. destruct (starter s) eqn:?; try congruence; auto.
  destruct (made (hist s)) eqn:E; auto. right. destruct V as [e ->]. split; [discriminate|apply not_in_made; exact E].
Qed.
Lemma reachable_returns s : reachable step init s -> returns_ok (hist s).
Proof.
  intros H. apply (reachable_invariant step init (fun s => shape s /\ err_inv s /\ returns_ok (hist s))).
  - intros s0 H0. split; [apply shape_init; exact H0|split; [apply err_init; exact H0|]]. destruct H0 as [[f ->]|(cb & f & ->)]; exact I.
  - intros s1 l s2 (A & B & C) E. split; [|split]; [eapply shape_step|eapply err_step|eapply returns_step]; eauto.
  - exact H.
Qed.
Lemma returns_ok_split h2 r h1 : returns_ok (h2 ++ WWatchRet r :: h1) -> failed h1 = false -> honest r h1.
Proof. induction h2 as [|a h2 IH]; cbn; [tauto|]. destruct a; tauto. Qed.

(** *** After the handler is gone *)
(** Nothing is received or called once the handler has returned. *)
Fixpoint quiet_after (h : list event) : Prop :=
  match h with
  | [] => True
  | (WEvent _ | WCall _ | WReload _ | WError _ | WStopped) :: h' => failed h' || noticed h' = false /\ quiet_after h'
  | _ :: h' => quiet_after h'
  end.
Lemma quiet_step s l s' : shape s -> quiet_after (hist s) -> step s l = Some s' -> quiet_after (hist s').
Proof.
  intros HS HI H. pose proof (sh_ended _ HS) as S4. clear HS. dstep H. all: cbn in *; rw; auto.
  all: repeat split; auto.
Qed.
Lemma reachable_quiet s : reachable step init s -> quiet_after (hist s).
Proof.
  intros H. apply (reachable_invariant step init (fun s => shape s /\ quiet_after (hist s))).
  - intros s0 H0. split; [apply shape_init; exact H0|]. destruct H0 as [[f ->]|(cb & f & ->)]; exact I.
  - intros s1 l s2 (A & B) E. split; [eapply shape_step|eapply quiet_step]; eauto.
  - exact H.
Qed.
Lemma failed_app a b : failed (a ++ b) = failed a || failed b.
Proof. apply existsb_app. Qed.
Lemma noticed_app a b : noticed (a ++ b) = noticed a || noticed b.
Proof. apply existsb_app. Qed.
Lemma quiet_split h2 e h1 : quiet_after (h2 ++ e :: h1) ->
  match e with WError _ | WStopped => True | _ => False end ->
  forall x, In x h2 -> match x with WEvent _ | WCall _ | WReload _ | WError _ | WStopped => False | _ => True end.
Proof.
  intros H He. assert (failed (e :: h1) || noticed (e :: h1) = true) as Hg by (destruct e; try tauto; cbn; rewrite ?orb_true_r; reflexivity).
  induction h2 as [|a h2 IH]; [cbn; tauto|]. cbn [app quiet_after In] in *.
  assert (failed (h2 ++ e :: h1) || noticed (h2 ++ e :: h1) = true) as Hg2.
  { rewrite failed_app, noticed_app. apply orb_true_iff in Hg. destruct Hg as [-> | ->]; rewrite ?orb_true_r; reflexivity. }
  intros x [<-|Hx].
  - destruct a; auto; destruct H as [H _]; rewrite Hg2 in H; discriminate H.
  - destruct a; try (apply IH; tauto).
Qed.

(** *** Watch returned nil: watchDone exists *)
Lemma unmade_werr s : shape s -> err_inv s -> starter s = S_End -> made (hist s) = false -> exists e, werr s = Some e.
Proof.
  intros HS HE E M. pose proof (er_val _ HE) as V. rewrite E, M in V. apply V.
  pose proof (sh_ended _ HS) as S4. pose proof (sh_made _ HS) as S1. rewrite E, M in S1.
  destruct (handler s); try discriminate S1. cbn in S4. destruct (failed (hist s)); [discriminate S4|reflexivity].
Qed.
Lemma nil_made_step s l s' : shape s -> err_inv s -> (In (WWatchRet None) (hist s) -> made (hist s) = true) ->
  step s l = Some s' -> (In (WWatchRet None) (hist s') -> made (hist s') = true).
Proof.
  intros HS HE HI H. dstep H. all: cbn in *; auto; intros X.
  all: try solve [repeat (destruct X as [X|X]; [discriminate X|]); apply HI; exact X].
  destruct X as [X|X]; [|auto]. injection X as X.
  pose proof (sh_init _ HS) as S3. pose proof (sh_made _ HS) as S1.
  fold (made (hist s)). destruct (starter s) eqn:Es; try congruence.
  destruct (made (hist s)) eqn:E; auto. destruct (unmade_werr _ HS HE Es E) as [e V]. congruence.
Qed.
Lemma nil_made s : reachable step init s -> In (WWatchRet None) (hist s) -> made (hist s) = true.
Proof.
  intros H. assert (shape s /\ err_inv s /\ (In (WWatchRet None) (hist s) -> made (hist s) = true)); [|tauto].
  apply (reachable_invariant step init (fun s => shape s /\ err_inv s /\ (In (WWatchRet None) (hist s) -> made (hist s) = true))).
  - intros s0 H0. split; [apply shape_init; exact H0|split; [apply err_init; exact H0|]]. destruct H0 as [[f ->]|(cb & f & ->)]; intros [].
  - intros s1 l s2 (A & B & C) E. split; [|split]; [eapply shape_step|eapply err_step|eapply nil_made_step]; eauto.
  - exact H.
Qed.
Lemma logged_nil s : reachable step init s -> forall r, In (WLogged r) (hist s) -> r = None.
Proof.
  apply (reachable_invariant step init (fun s => forall r, In (WLogged r) (hist s) -> r = None)).
  - intros ? [[f ->]|(cb & f & ->)] r [].
  - intros s1 l s2 HI H. dstep H. all: cbn in *; auto; intros rr X.
    all: repeat (destruct X as [X|X]; [congruence|]); eauto.
Qed.
(** Where the log line is written. *)
Lemma logged_when s l s' r : step s l = Some s' -> hist s' = WLogged r :: hist s -> exists e, werr s = Some e.
Proof.
  intros H E. dstep H. all: cbn in E; try (apply (f_equal (@length event)) in E; cbn in E; exfalso; lia); try discriminate E. all: eauto.
Qed.
