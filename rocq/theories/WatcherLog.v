(** The line file_watcher.go:124 writes to the log. *)
From Verif Require Export SpecWatchLog.
From Verif Require Import WatcherProofs.

Definition noted (s : state) : Prop :=
  match starter s with
  | S_None | S_New => werr s = None /\ last_error (hist s) = None /\ logged (hist s) = []
  | S_NewFailed => logged (hist s) = []
  | S_Make | S_Spawn | S_Add | S_Init | S_Wait | S_Check => werr s = last_error (hist s) /\ logged (hist s) = []
  | S_Close => werr s = last_error (hist s) /\ logged (hist s) = match werr s with Some _ => [None] | None => [] end
  | S_End => closed (hist s) = true -> werr s = last_error (hist s) /\ logged (hist s) = match werr s with Some _ => [None] | None => [] end
  end.
Lemma noted_step s l s' : shape s -> noted s -> step s l = Some s' -> noted s'.
Proof.
  intros SH N H. pose proof (sh_main _ SH) as S0. pose proof (sh_hs _ SH) as S1. pose proof (sh_end _ SH) as S2. pose proof (sh_closed _ SH) as S3. pose proof (sh_wclosed _ SH) as S4. clear SH.
  unfold noted in *. dstep H; cbn in *; auto.
  all: try (destruct N as (N1 & N2 & N3)); try (destruct N as (N1 & N2)).
  - destruct (starter s); try discriminate S0. exact N.
  - exact N3.
  - split; congruence.
  - intros C. unfold closed in S3. rewrite C in S3. congruence.
  - auto.
  - auto.
  - rewrite N2, Heqo0. auto.
  - rewrite N2, Heqo0. auto.
  - destruct (starter s); cbn in *; try discriminate; try (split; [reflexivity|apply N]); try exact N.
Qed.
Lemma reachable_noted s : reachable step init s -> noted s.
Proof.
  intros R. enough (shape s /\ noted s) by tauto. revert s R. apply reachable_invariant.
  - intros s I. split; [apply shape_init; exact I|]. destruct I as [[f ->]|(cb & f & ->)]; cbn; auto.
  - intros s l s' [A B] E. split; [eapply shape_step|eapply noted_step]; eassumption.
Qed.
Lemma log_line s : reachable step init s -> In WClosed (hist s) -> logged (hist s) = match last_error (hist s) with Some _ => [None] | None => [] end.
Proof.
  intros R C. pose proof (reachable_noted _ R) as N. pose proof (reachable_shape _ R) as SH. pose proof (sh_closed _ SH) as S3. pose proof (sh_wclosed _ SH) as S4.
  assert (closed (hist s) = true) as D by (apply existsb_exists; exists WClosed; auto). unfold noted in N. rewrite D in *.
  destruct (starter s); try (rewrite <- S3 in S4; discriminate S4). destruct (N eq_refl) as [<- ->]. reflexivity.
Qed.
