(** Property C69: the command line (pkg/cli/cli.go). For every argument list, configuration outcome,
    watch outcome and server outcome. *)
From Verif Require Import Cli SpecCli CliProofs.

Theorem C69_exit_code : forall e, calm e ->
  (snd (Run e) = Some 0 \/ snd (Run e) = Some 1) /\
  (snd (Run e) = Some 0 <->
    (exists ss, e_parsed e = Ok ss /\ asks_info ss = true) \/ (exists c, to_serve e = Some c /\ e_server e c = None)).
Proof.
  intros e [HP HR]. rewrite run_unfold. unfold to_serve.
  destruct (e_parsed e) as [ss|x|p] eqn:E; [|cbn; split; [auto|split; [discriminate|intros [(ss & A & _)|(c & A & _)]; discriminate A]]|destruct (HP p eq_refl)].
  destruct (asks_info ss) eqn:A; [cbn; split; [auto|split; [eauto|auto]]|].
  assert (forall P, (exists ss0, Ok ss = Ok ss0 /\ asks_info ss0 = true) \/ P <-> P) as X.
  { intros P. split; [|auto]. intros [(ss0 & B & C)|B]; [injection B as <-; congruence|exact B]. }
  rewrite X. cbv zeta. destruct (e_read e _) as [c|y|p] eqn:Er; [|cbn; split; [auto|split; [discriminate|intros (c & B & _); discriminate B]]|destruct (HR _ _ Er)].
  destruct (e_watch e _); cbn; [split; [auto|split; [discriminate|intros (c0 & B & _); discriminate B]]|].
  destruct (e_server e c) eqn:Es; cbn; (split; [auto|]); split; intros H; try discriminate H; eauto.
  destruct H as (c0 & B & C). injection B as <-. congruence.
Qed.
Print Assumptions C69_exit_code.

Theorem C69_server_runs_iff : forall e, served (fst (Run e)) = match to_serve e with Some c => [c] | None => [] end.
Proof.
  intros e. rewrite run_unfold. unfold to_serve. destruct (e_parsed e) as [ss|x|p]; try reflexivity.
  destruct (asks_info ss); [reflexivity|]. cbv zeta. destruct (e_read e _) as [c|y|p]; try reflexivity.
  destruct (e_watch e _); [reflexivity|]. destruct (e_server e c); reflexivity.
Qed.
Print Assumptions C69_server_runs_iff.

(** One message per failure, naming the error of the step that failed; none on success. *)
Theorem C69_one_message : forall e, calm e ->
  (snd (Run e) = Some 0 -> printed (fst (Run e)) = []) /\
  (snd (Run e) = Some 1 -> exists m, printed (fst (Run e)) = [m] /\ last (fst (Run e)) m = m /\
     match m with
     | PrintParseError x => e_parsed e = Err x
     | PrintConfigError x => exists ss, e_parsed e = Ok ss /\
         (e_read e (path_of (e_default e) ss) = Err x \/ e_watch e (path_of (e_default e) ss) = Some x)
     | PrintServerError x => exists c, to_serve e = Some c /\ e_server e c = Some x
     | _ => False
     end).
Proof.
  intros e [HP HR]. rewrite run_unfold. unfold to_serve.
  destruct (e_parsed e) as [ss|x|p] eqn:E; [|cbn; split; [discriminate|eauto]|destruct (HP p eq_refl)].
  destruct (asks_info ss) eqn:A; [cbn; split; [auto|discriminate]|].
  cbv zeta. destruct (e_read e _) as [c|y|p] eqn:Er; [|cbn; split; [discriminate|intros _; eexists; split; [reflexivity|split; [reflexivity|]]; eauto]|destruct (HR _ _ Er)].
  destruct (e_watch e _) eqn:Ew; cbn; [split; [discriminate|intros _; eexists; split; [reflexivity|split; [reflexivity|]]; eauto]|].
  destruct (e_server e c) eqn:Es; cbn; (split; [auto; discriminate|]); intros H; try discriminate H.
  eexists. split; [reflexivity|]. split; [reflexivity|]. eauto.
Qed.
Print Assumptions C69_one_message.

(** Only the requested file is read and watched, in that order, before the server runs. *)
Theorem C69_requested_file : forall e ss fx1 f fx2, e_parsed e = Ok ss -> fst (Run e) = fx1 ++ f :: fx2 ->
  match f with
  | ReadConfig p | WatchConfig p => p = path_of (e_default e) ss
  | RunServer c => fx1 = [ConfigureLogger (verbose ss); ReadConfig (path_of (e_default e) ss); WatchConfig (path_of (e_default e) ss)] /\
                   e_read e (path_of (e_default e) ss) = Ok c
  | ConfigureLogger b => b = verbose ss /\ fx1 = []
  | _ => True
  end.
Proof.
  intros e ss fx1 f fx2 E H. rewrite run_unfold, E in H. destruct (asks_info ss); [destruct fx1; discriminate H|].
  cbv zeta in H. destruct (e_read e _) as [c|y|p] eqn:Er; [destruct (e_watch e _); [|destruct (e_server e c)]|..]; cbn in H.
  all: do 6 (destruct fx1 as [|? fx1]; [cbn in H; first [discriminate H | injection H as <- <-; auto | injection H as <- ; auto | injection H as <- <- <-; auto | injection H as <- <- <- <-; auto | injection H as <- <- <- <- <-; auto] | cbn in H; first [discriminate H| injection H as <- H]]).
Qed.
Print Assumptions C69_requested_file.

(** Asking for help or the version touches nothing. *)
Theorem C69_info_only : forall e ss, e_parsed e = Ok ss -> asks_info ss = true -> Run e = ([], Some 0).
Proof. intros e ss E A. rewrite run_unfold, E, A. reflexivity. Qed.
Print Assumptions C69_info_only.

Definition example_env ss := Env (str "./gevulot.toml") (Ok ss)
  (fun p => if bytes_eqb p (str "x.toml") then Ok (Config (str ":1") (str "postgres://x/y")) else Err (ErrExternal 2))
  (fun _ => None) (fun _ => Some EOF).
Example C69_instance :
  Run (example_env [SetVerbose true; SetConfig (str "x.toml")]) =
    ([ConfigureLogger true; ReadConfig (str "x.toml"); WatchConfig (str "x.toml"); RunServer (Config (str ":1") (str "postgres://x/y")); PrintServerError EOF], Some 1) /\
  Run (example_env []) = ([ConfigureLogger false; ReadConfig (str "./gevulot.toml"); PrintConfigError (ErrExternal 2)], Some 1) /\
  Run (example_env [SetVerbose true; SetVersion true]) = ([], Some 0) /\
  (* taking the question back with the other flag's negation starts the server *)
  snd (Run (example_env [SetVersion true; SetConfig (str "x.toml"); SetHelp false])) = Some 1.
Proof. vm_compute. auto. Qed.
Example C69_instance_calm : calm (example_env [SetVerbose true]).
Proof. split; cbn; [discriminate|]. intros b p. destruct (bytes_eqb b _); intros X; inversion X. Qed.
