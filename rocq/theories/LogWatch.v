(** The lines about the end of the watch. *)
From Verif Require Import LogProofs.
From Verif Require WatcherProofs SpecWatchLog WatcherLog.

Lemma watch_errors_app w1 w2 : watch_errors (w1 ++ w2) = watch_errors w1 ++ watch_errors w2.
Proof. apply flat_map_app. Qed.
Lemma session_along_watch c xs : forall x, watch_errors (along Session.step (session_lines c) x xs) = [].
Proof.
  induction xs as [|l xs IH]; cbn [along run]; intros x; [auto|]. destruct (Session.step x l) as [x1|]; [|auto]. rewrite watch_errors_app, IH, app_nil_r.
  unfold session_lines. destruct l; auto.
  - destruct (Session.start_pc x), (Session.start_pc x1); auto. destruct r; auto.
  - destruct (Session.close_pc x t); auto; destruct t; auto; destruct err; auto.
  - destruct (Session.queue (Session.chan_in x d)); auto.
Qed.
Lemma server_along_watch xs : forall v, watch_errors (along Server.step (fun v l _ => server_lines v l) v xs) = [].
Proof.
  induction xs as [|l xs IH]; cbn [along run]; intros v; [auto|]. destruct (Server.step v l) as [v1|]; [|auto]. rewrite watch_errors_app, IH, app_nil_r.
  unfold server_lines. destruct l; auto.
  - destruct (Server.pcs v t); auto; destruct (ev_fired (Server.shut_ev v)); auto.
  - destruct (Server.updates v); auto.
  - destruct ok; auto. destruct (Server.pcs v t); auto.
  - destruct (Server.pcs v t); auto. destruct a; auto. destruct (Server.lis_open v l); auto. destruct e; auto.
  - destruct r; auto. destruct (Server.pcs v t); auto. destruct (Server.listener v); auto.
Qed.
Lemma watcher_along_watch xs : forall w w', run FileWatcher.step w xs = Some w' ->
  SpecWatchLog.logged (FileWatcher.hist w') = SpecWatchLog.logged (FileWatcher.hist w) ++ watch_errors (along FileWatcher.step (fun w l _ => watcher_lines w l) w xs).
Proof.
  induction xs as [|l xs IH]; cbn [along run]; intros w w' H; [injection H as <-; now rewrite app_nil_r|]. destruct (FileWatcher.step w l) as [w1|] eqn:E; [|discriminate]. rewrite (IH _ _ H), watch_errors_app, app_assoc. f_equal. clear IH H.
  unfold watcher_lines. WatcherProofs.dstep E.
  all: cbn in *; rewrite ?app_nil_r; reflexivity.
Qed.
Lemma watch_run f ls s : run step (Run f) ls = Some s -> watch_errors (written (Run f) ls) = SpecWatchLog.logged (FileWatcher.hist (watcher s)).
Proof.
  revert s. induction ls as [|l ls IH] using rev_ind; intros s' H.
  - injection H as <-. reflexivity.
  - rewrite run_app in H. destruct (run step (Run f) ls) as [s|] eqn:E0; [|discriminate]. rewrite (written_app _ _ _ _ E0). apply run_one in H. rewrite (written_one _ _ _ H).
    destruct (step_moves _ _ _ H) as (_ & m & P & E1 & _). unfold lines. rewrite P, !watch_errors_app, server_along_watch, session_along_watch, (watcher_along_watch _ _ _ E1), (IH _ eq_refl), !app_nil_r. reflexivity.
Qed.
