(** Executions of labelled transition systems given by a partial step function.  A label is one
    choice of the scheduler or of the environment; an execution is a list of labels. *)
From Verif Require Export GoBase.

Fixpoint run {S L} (step : S -> L -> option S) (s : S) (ls : list L) : option S :=
  match ls with
  | [] => Some s
  | l :: ls' => match step s l with Some s' => run step s' ls' | None => None end
  end.

Definition reachable {S L} (step : S -> L -> option S) (init : S -> Prop) (s : S) : Prop :=
  exists s0 ls, init s0 /\ run step s0 ls = Some s.

Lemma run_app {S L} (step : S -> L -> option S) ls1 ls2 s :
  run step s (ls1 ++ ls2) = match run step s ls1 with Some s' => run step s' ls2 | None => None end.
Proof. revert s. induction ls1 as [|l ls1 IH]; intros s; cbn; [reflexivity|]. destruct (step s l); [apply IH|reflexivity]. Qed.

Lemma run_invariant {S L} (step : S -> L -> option S) (P : S -> Prop) :
  (forall s l s', P s -> step s l = Some s' -> P s') ->
  forall ls s s', P s -> run step s ls = Some s' -> P s'.
Proof.
  intros Hs ls. induction ls as [|l ls IH]; cbn; intros s s' Hp H; [congruence|].
  destruct (step s l) as [s1|] eqn:E; [|discriminate]. eauto.
Qed.

Lemma reachable_invariant {S L} (step : S -> L -> option S) (init P : S -> Prop) :
  (forall s, init s -> P s) -> (forall s l s', P s -> step s l = Some s' -> P s') ->
  forall s, reachable step init s -> P s.
Proof. intros Hi Hs s (s0 & ls & H0 & H). eapply run_invariant; eauto. Qed.

Lemma reachable_init {S L} (step : S -> L -> option S) (init : S -> Prop) s : init s -> reachable step init s.
Proof. intros H. exists s, []. auto. Qed.
Lemma reachable_step {S L} (step : S -> L -> option S) (init : S -> Prop) s l s' :
  reachable step init s -> step s l = Some s' -> reachable step init s'.
Proof.
  intros (s0 & ls & H0 & H) E. exists s0, (ls ++ [l]). split; [exact H0|]. rewrite run_app, H. cbn. rewrite E. reflexivity.
Qed.
Lemma reachable_run {S L} (step : S -> L -> option S) (init : S -> Prop) s ls s' :
  reachable step init s -> run step s ls = Some s' -> reachable step init s'.
Proof. intros (s0 & ls0 & H0 & H) E. exists s0, (ls0 ++ ls). split; [exact H0|]. rewrite run_app, H. exact E. Qed.

(** Goroutine-indexed tables. *)
Notation tid := nat.
Definition upd {A} (f : tid -> A) (t : tid) (a : A) : tid -> A := fun t' => if Nat.eqb t' t then a else f t'.
Lemma upd_same {A} (f : tid -> A) t a : upd f t a t = a.
Proof. unfold upd. rewrite Nat.eqb_refl. reflexivity. Qed.
Lemma upd_other {A} (f : tid -> A) t a t' : t' <> t -> upd f t a t' = f t'.
Proof. intros H. unfold upd. apply Nat.eqb_neq in H. rewrite H. reflexivity. Qed.
