(** The two models of starting the program, sequential (Cli.v) and concurrent (FileWatcher.v in System.v), agree. *)
From Verif Require Import Lts FileWatcher SpecWatcher WatcherProofs.
From Verif Require Import Cli SpecStart.
Import FileWatcher.

(** the events of the goroutine that called cli.Run *)
Definition of_main (e : event) : bool := match e with WRead _ | WWatch | WWatchRet _ => true | _ => false end.
Definition mains (h : list event) : list event := filter of_main h.
Definition main_inv (s : state) : Prop :=
  match main s with
  | M_Read => mains (hist s) = []
  | M_Send c => mains (hist s) = [WRead (Some c)]
  | M_Watch => exists c, mains (hist s) = [WRead (Some c)]
  | M_Wait => exists c, mains (hist s) = [WWatch; WRead (Some c)]
  | M_Returned r => exists c, mains (hist s) = [WWatchRet r; WWatch; WRead (Some c)]
  | M_Failed => mains (hist s) = [WRead None]
  end.
Lemma main_step_inv s l s' : main_inv s -> step s l = Some s' -> main_inv s'.
Proof.
  unfold main_inv. intros I H. dstep H. all: cbn in *; rw; auto.
  all: unfold mains in *; first [solve [rewrite I; eauto] | destruct I as (x & I); exists x; rewrite I; reflexivity].
Qed.
Lemma reachable_main s : reachable step from_cli s -> main_inv s.
Proof. apply reachable_invariant; [intros ? [f ->]; reflexivity|apply main_step_inv]. Qed.

Lemma action_main p e : of_main e = false -> action p e = [].
Proof. destruct e; try discriminate; reflexivity. Qed.
Lemma calls_mains p h : calls p h = calls p (mains h).
Proof.
  unfold calls, mains. induction h as [|e h IH]; [reflexivity|]. cbn [filter rev]. rewrite flat_map_app, IH.
  destruct (of_main e) eqn:E; cbn [rev flat_map]; [now rewrite flat_map_app|]. rewrite (action_main p e E). now rewrite !app_nil_r.
Qed.
Lemma in_mains e h : of_main e = true -> In e h -> In e (mains h).
Proof. intros H I. apply filter_In. auto. Qed.
Lemma loaded_read c h : In c (loaded h) -> In (WRead (Some c)) h.
Proof.
  induction h as [|e h IH]; [intros []|]. intros I.
  destruct e; cbn in I; try (right; now apply IH). match goal with x : option config |- _ => destruct x as [c'|] end; [|right; now apply IH].
  apply in_app_or in I as [I|[->|[]]]; [right; now apply IH|now left].
Qed.
