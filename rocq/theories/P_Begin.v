(** Property C127: starting the program, as the sequential model of the command line (Cli.v, Kingpin.v) has it and as the concurrent model of the whole program (System.v) has it. *)
From Verif Require Import Lts System SystemProofs SystemMore P_System SpecSystem SystemRuns.
From Verif Require FileWatcher SpecWatcher WatcherProofs.
From Verif Require Import Cli SpecCli CliProofs Kingpin SpecArgs ArgsProofs P_Args P_Start SpecStart StartProofs.

(** * C127 What the goroutine that called cli.Run does amid all others is what cli.Run does on its own *)

(** In every execution: with what reading and watching the file have given in it, or will give, the program run on its own does at least what it has done so far, in that order; if it
    serves by now, it serves the configuration that was sent first; if it has given up, it has done all it does, serves nothing and exits with 1. *)
Theorem C127_same_start : forall s argv0 args p e0, reachable System.step System.init s -> run_with argv0 args p ->
  let h := FileWatcher.hist (watcher s) in
  exists x r, (forall y, In (FileWatcher.WRead y) h -> y = x) /\ (forall q, In (FileWatcher.WWatchRet q) h -> q = r) /\
  forall server, exists b fx code,
    Kingpin.main (fun _ => match x with Some c => Ok c | None => Err e0 end) (fun _ => r) server argv0 args = Some (ConfigureLogger b :: calls p h ++ fx, code) /\
    (System.main s = RServe -> exists c rest, SpecWatcher.sent h = c :: rest /\ served (calls p h ++ fx) = [c]) /\
    (gave_up (watcher s) -> (exists e, fx = [PrintConfigError e]) /\ code = Some 1).
Proof.
  intros s argv0 args p e0 R (l & d & C & O & W & B & A) h.
  pose proof (pt_watcher _ (reachable_parts _ R)) as RW. pose proof (reachable_main _ RW) as M. pose proof (C83_serves_after_watching s R) as Sv. fold h in Sv.
  assert (forall read watch server, exists b, Kingpin.main read watch server argv0 args = Some (match read p with
    | Panic _ => ([ConfigureLogger b; ReadConfig p], None)
    | Err y => ([ConfigureLogger b; ReadConfig p; PrintConfigError y], Some 1)
    | Ok c => match watch p with
       | Some y => ([ConfigureLogger b; ReadConfig p; WatchConfig p; PrintConfigError y], Some 1)
       | None => match server c with Some y => ([ConfigureLogger b; ReadConfig p; WatchConfig p; RunServer c; PrintServerError y], Some 1)
                 | None => ([ConfigureLogger b; ReadConfig p; WatchConfig p; RunServer c], Some 0) end end end)) as U.
  { intros read watch server. exists (verbose (flat_map setting_of l)). unfold Kingpin.main. rewrite (proj2 (Parse_accepts args _) (ex_intro _ l (conj C (conj O eq_refl)))). rewrite run_unfold. cbn [e_parsed e_default e_read e_watch e_server].
    rewrite (default_beside argv0 d B). assert (path_of d (flat_map setting_of l) = p) as -> by exact (asked_unique l d _ _ O (path_asked l d O) A).
    destruct (asks_info (flat_map setting_of l)) eqn:I; [destruct W; now apply info_wanted|]. cbv zeta. destruct (read p); reflexivity. }
  assert (forall y, In (FileWatcher.WRead y) h -> In (FileWatcher.WRead y) (mains h)) as IR by (intros; now apply in_mains).
  assert (forall q, In (FileWatcher.WWatchRet q) h -> In (FileWatcher.WWatchRet q) (mains h)) as IW by (intros; now apply in_mains).
  rewrite (calls_mains p h). unfold gave_up. unfold main_inv in M. fold h in M. destruct (FileWatcher.main (watcher s)) as [|c| | | |r] eqn:EM.
  - exists None, None. rewrite M in *. split; [intros y I; destruct (IR y I)|]. split; [intros y I; destruct (IW y I)|]. intros server. edestruct (U) as (b & ->). eexists b, _, _. split; [reflexivity|].
    split; [intros X; destruct (Sv X); discriminate|intros [X|(? & X)]; discriminate].
  - exists (Some c), None. rewrite M in *. split; [intros y I; destruct (IR y I) as [[= <-]|[]]; reflexivity|]. split; [intros y I; destruct (IW y I) as [X|[]]; discriminate|]. intros server. edestruct (U) as (b & ->).
    exists b. destruct (server c); (eexists _, _; split; [reflexivity|]; split; [intros X; destruct (Sv X); discriminate|intros [X|(? & X)]; discriminate]).
  - destruct M as (c & M). exists (Some c), None. rewrite M in *. split; [intros y I; destruct (IR y I) as [[= <-]|[]]; reflexivity|]. split; [intros y I; destruct (IW y I) as [X|[]]; discriminate|]. intros server. edestruct (U) as (b & ->).
    exists b. destruct (server c); (eexists _, _; split; [reflexivity|]; split; [intros X; destruct (Sv X); discriminate|intros [X|(? & X)]; discriminate]).
  - destruct M as (c & M). exists (Some c), None. rewrite M in *. split; [intros y I; destruct (IR y I) as [X|[[= <-]|[]]]; [discriminate|reflexivity]|]. split; [intros y I; destruct (IW y I) as [X|[X|[]]]; discriminate|]. intros server. edestruct (U) as (b & ->).
    exists b. destruct (server c); (eexists _, _; split; [reflexivity|]; split; [intros X; destruct (Sv X); discriminate|intros [X|(? & X)]; discriminate]).
  - exists None, None. rewrite M in *. split; [intros y I; destruct (IR y I) as [[= <-]|[]]; reflexivity|]. split; [intros y I; destruct (IW y I) as [X|[]]; discriminate|]. intros server. edestruct (U) as (b & ->).
    exists b, [PrintConfigError e0], (Some 1). split; [reflexivity|]. split; [intros X; destruct (Sv X); discriminate|eauto].
  - destruct M as (c & M). exists (Some c), r.
    assert (SpecWatcher.loaded h = [c] -> System.main s = RServe -> exists rest, SpecWatcher.sent h = c :: rest) as SL by (intros L X; destruct (Sv X) as (_ & c' & rest & L' & ->); rewrite L in L'; injection L' as ->; eauto).
    assert (System.main s = RServe -> SpecWatcher.loaded h = [c]) as LL.
    { intros X. destruct (Sv X) as (_ & c' & rest & L' & _). rewrite L'. f_equal. assert (In (FileWatcher.WRead (Some c')) h) as I by (apply loaded_read; rewrite L'; now left). apply IR in I. rewrite M in I. destruct I as [I|[I|[[= <-]|[]]]]; discriminate || reflexivity. }
    rewrite M in *. split; [intros y I; destruct (IR y I) as [X|[X|[[= <-]|[]]]]; discriminate || reflexivity|]. split; [intros y I; destruct (IW y I) as [[= <-]|[X|[X|[]]]]; discriminate || reflexivity|]. intros server. edestruct (U) as (b & ->).
    exists b. destruct r as [e|]; [exists [PrintConfigError e], (Some 1); split; [reflexivity|]; split; [intros X; destruct (Sv X); discriminate|eauto]|].
    destruct (server c); (eexists _, _; split; [reflexivity|]; split; [intros X; destruct (SL (LL X) X) as (rest & E); exists c, rest; split; [exact E|reflexivity]|intros [X|(? & X)]; discriminate]).
Qed.
Print Assumptions C127_same_start.

(** The execution of C83_instance: the file was read and watched, and the configuration served is the one the sequential model serves; and one whose file cannot be read. *)
Example C127_instance : let p := str "g.toml" in let s := final whole in
  reachable System.step System.init s /\ calls p (FileWatcher.hist (watcher s)) = [ReadConfig p; WatchConfig p] /\ System.main s = RServe /\ ~ gave_up (watcher s) /\
  Kingpin.main (fun _ => Ok cfgA) (fun _ => None) (fun _ => None) (str "gevulot") [str "--config=g.toml"] = Some ([ConfigureLogger false; ReadConfig p; WatchConfig p; RunServer cfgA], Some 0).
Proof.
  cbv zeta. split; [exists (System.Run (Some cfgA)), whole; split; [now exists (Some cfgA)|apply final_run; vm_compute; reflexivity]|].
  split; [vm_compute; reflexivity|]. split; [vm_compute; reflexivity|]. split; [|vm_compute; reflexivity].
  assert (FileWatcher.main (watcher (final whole)) = FileWatcher.M_Returned None) as E by (vm_compute; reflexivity). intros [X|(? & X)]; rewrite E in X; discriminate.
Qed.
Example C127_instance_failed : exists s, System.step (System.Run None) (System.YWatcher FileWatcher.LMain) = Some s /\
  calls (str "g.toml") (FileWatcher.hist (watcher s)) = [ReadConfig (str "g.toml")] /\ gave_up (watcher s) /\ System.main s <> RServe.
Proof. eexists. split; [reflexivity|]. split; [reflexivity|]. split; [left; reflexivity|discriminate]. Qed.
