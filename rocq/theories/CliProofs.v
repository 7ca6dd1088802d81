From Verif Require Export SpecCli.

Lemma last_snoc {A} (l : list A) x d : last (l ++ [x]) d = x.
Proof. induction l as [|a l IH]; [reflexivity|]. cbn. destruct (l ++ [x]) eqn:E; [destruct l; discriminate E|exact IH]. Qed.
Lemma fold_settings ss d : fold_left apply_setting ss (CliArgs false false false d) =
  CliArgs (asks_info ss) false (verbose ss) (path_of d ss).
Proof.
  induction ss as [|s ss IH] using rev_ind; [reflexivity|].
  rewrite fold_left_app, IH. unfold asks_info, verbose, path_of. rewrite !flat_map_app.
  destruct s; cbn; rewrite ?app_nil_r, ?last_snoc; reflexivity.
Qed.
Lemma run_unfold e : Run e =
  match e_parsed e with
  | Panic _ => ([], None)
  | Err x => ([PrintParseError x], Some 1)
  | Ok ss =>
      if asks_info ss then ([], Some 0)
      else let p := path_of (e_default e) ss in
           match e_read e p with
           | Panic _ => ([ConfigureLogger (verbose ss); ReadConfig p], None)
           | Err x => ([ConfigureLogger (verbose ss); ReadConfig p; PrintConfigError x], Some 1)
           | Ok c =>
               match e_watch e p with
               | Some x => ([ConfigureLogger (verbose ss); ReadConfig p; WatchConfig p; PrintConfigError x], Some 1)
               | None =>
                   match e_server e c with
                   | Some x => ([ConfigureLogger (verbose ss); ReadConfig p; WatchConfig p; RunServer c; PrintServerError x], Some 1)
                   | None => ([ConfigureLogger (verbose ss); ReadConfig p; WatchConfig p; RunServer c], Some 0)
                   end
               end
           end
  end.
Proof.
  unfold Run, parseArgs. destruct (e_parsed e) as [ss|x|p]; try reflexivity.
  rewrite fold_settings. cbn [isHelp isVersion isVerbose configPath]. rewrite orb_false_r. destruct (asks_info ss); [reflexivity|].
  unfold prepareConfigChan. cbv zeta. destruct (e_read e _) as [c|x|p]; try reflexivity.
  destruct (e_watch e _); try reflexivity.
Qed.
