(** Concrete executions of a session, used by the examples and by the refuted expectations. *)
From Verif Require Import SpecWire BufferProofs FrameProofs FrameFacts ConnProofs ConnFacts DsnProofs.
From Verif Require Export SessionMore.
Require Import Lia.

(** the state an execution ends in *)
Definition final (ls : list label) : state := match run step NewSession ls with Some s => s | None => NewSession end.
Lemma run_final ls : match run step NewSession ls with Some _ => true | None => false end = true -> run step NewSession ls = Some (final ls).
Proof. unfold final. destruct (run step NewSession ls); [reflexivity|discriminate]. Qed.

(** postgres://bob@db.internal:5433/app *)
Definition ex_env : dsn_env :=
  DsnEnv (fun _ => Ok (URL (str "postgres") (Some (Userinfo (str "bob") None)) (str "db.internal") (str "5433") (str "/app") [])) None (fun m => m).
Definition ex_db : params := match parse_uri ex_env [] with Ok p => p | _ => empty_params end.
Definition ex_cfg : config := Config (str ":5432") (str "postgres://bob@db.internal:5433/app").
Lemma ex_parses : parse_uri ex_env (DatabaseURL ex_cfg) = Ok ex_db.
Proof.
  assert (match parse_uri ex_env [] with Ok _ => true | _ => false end = true) as X by (vm_compute; reflexivity).
  change (parse_uri ex_env (DatabaseURL ex_cfg)) with (parse_uri ex_env []). unfold ex_db. destruct (parse_uri ex_env []); [reflexivity|discriminate|discriminate].
Qed.
Definition ex_params (db : bytes) : list startup_param := [Param (str "user") (str "bob"); Param (str "database") db].
(** length 31, version 3.0, user bob, database app *)
Definition ex_startup : bytes :=
  [x00; x00; x00; x1f; x00; x03; x00; x00] ++ str "user" ++ [x00] ++ str "bob" ++ [x00] ++ str "database" ++ [x00] ++ str "app" ++ [x00; x00].
Definition ex_ssl : bytes := [x00; x00; x00; x08; x04; xd2; x16; x2f].
(** ReadyForQuery, Query, PasswordMessage *)
Definition ex_ready : bytes := [x5a; x00; x00; x00; x05; x49].
Definition ex_query : bytes := [x51; x00; x00; x00; x0d] ++ str "SELECT 1" ++ [x00].
Definition ex_password : bytes := [x70; x00; x00; x00; x0b] ++ str "s3cret" ++ [x00].
(** the client starts a session *)
Definition negotiating : list label := [LCallStart; LStart].
Definition serving : list label := [LArrive Client ex_startup; LStart; LConfig ex_env (Ok ex_cfg); LStart; LStart; LDial None; LStartWrite (length ex_startup)].
Definition served : list label := negotiating ++ serving.
(** a message read by the in pump of [d] and passed on to the out pump of the other side *)
Definition pass (d : side) (m : bytes) : list label := [LArrive d m; LRecv d; LIn d; LSelect d; LProc].
Definition close_by (t : tid) : list label := LCallClose t :: repeat (LClose t None) 9.

Example served_instance : option_map (fun s => (start_pc s, sent DB (hist s), sent Client (hist s), dials (hist s))) (run step NewSession served)
  = Some (SWait, ex_startup, [], [str "db.internal:5433"]).
Proof. vm_compute. reflexivity. Qed.
Example ex_env_sane : sane_env ex_env.
Proof. split; [intros m; apply Permutation.Permutation_refl|intros u q; discriminate]. Qed.

(** Any number of SSLRequests before the session is served *)
Definition waiting (s : state) : Prop := crashed s = None /\ start_pc s = SRecv /\ cached s = None /\ exists cs, conns s Client = Some (NetConn (Reader cs None) true) /\ concat cs = [].
Lemma wire_ssl : startup_wire 80877103 [] ex_ssl.
Proof.
  exists [x04; xd2; x16; x2f]. split; [apply senc_empty; vm_compute; intuition congruence|].
  exists [x00; x00; x00; x08]. split; [vm_compute; intuition congruence|reflexivity].
Qed.
Lemma wire_startup : startup_wire 196608 (ex_params (str "app")) ex_startup.
Proof.
  exists ([x00; x03; x00; x00] ++ (((str "user" ++ [x00]) ++ (str "bob" ++ [x00])) ++ ((str "database" ++ [x00]) ++ (str "app" ++ [x00])) ++ []) ++ [x00]). split.
  - apply senc_params; [discriminate|vm_compute; intuition congruence|].
    apply seq_cons; [|apply seq_cons; [|apply seq_nil]]; (apply param_intro; [discriminate| |]); (split; [vm_compute; intuition discriminate|reflexivity]).
  - exists [x00; x00; x00; x1f]. split; [vm_compute; intuition congruence|reflexivity].
Qed.
Lemma ssl_round s : waiting s -> exists s', run step s [LArrive Client ex_ssl; LStart; LStartWrite 1] = Some s' /\ waiting s' /\
  arrived Client (hist s') = arrived Client (hist s) ++ ex_ssl /\ sent Client (hist s') = sent Client (hist s) ++ ["N"%byte] /\ sent DB (hist s') = sent DB (hist s).
Proof.
  destruct s as [sp kp ip op pp ev ca cn ci co ge cr h]. intros (Hc & Hs & Hp & cs & Hcl & Hcs). cbn in Hc, Hs, Hp, Hcl. subst sp cr ca.
  destruct (recv_startup_wire _ _ _ [] (Reader (cs ++ [ex_ssl]) None) wire_ssl) as ([cs' f'] & E & St & Hf & _).
  { unfold stream. cbn [chunks]. rewrite concat_app, Hcs, app_nil_r. cbn. reflexivity. }
  unfold stream in St. cbn in St, Hf. subst f'.
  assert (step (State SRecv kp ip op pp ev None cn ci co ge None h) (LArrive Client ex_ssl) =
    Some (State SRecv kp ip op pp ev None (supd cn Client (Some (NetConn (Reader (cs ++ [ex_ssl]) None) true))) ci co ge None (HArrive Client ex_ssl :: h))) as E1.
  { unfold step. cbn. rewrite Hcl. reflexivity. }
  cbn [run]. rewrite E1. unfold step at 1. cbn - [RecvStartupMessage ex_ssl]. rewrite E. cbn - [ex_ssl].
  eexists. split; [reflexivity|]. cbn - [ex_ssl]. rewrite !app_nil_r. repeat split; auto. exists cs'. split; [reflexivity|exact St].
Qed.
Lemma serve s : waiting s -> exists s', run step s serving = Some s' /\ start_pc s' = SWait /\
  arrived Client (hist s') = arrived Client (hist s) ++ ex_startup /\ sent Client (hist s') = sent Client (hist s) /\ sent DB (hist s') = sent DB (hist s) ++ ex_startup.
Proof.
  destruct s as [sp kp ip op pp ev ca cn ci co ge cr h]. intros (Hc & Hs & Hp & cs & Hcl & Hcs). cbn in Hc, Hs, Hp, Hcl. subst sp cr ca.
  destruct (recv_startup_wire _ _ _ [] (Reader (cs ++ [ex_startup]) None) wire_startup) as ([cs' f'] & E & St & Hf & _).
  { unfold stream. cbn [chunks]. rewrite concat_app, Hcs, app_nil_r. cbn. reflexivity. }
  unfold stream in St. cbn in St, Hf. subst f'.
  assert (step (State SRecv kp ip op pp ev None cn ci co ge None h) (LArrive Client ex_startup) =
    Some (State SRecv kp ip op pp ev None (supd cn Client (Some (NetConn (Reader (cs ++ [ex_startup]) None) true))) ci co ge None (HArrive Client ex_startup :: h))) as E1.
  { unfold step. cbn. rewrite Hcl. reflexivity. }
  assert (exists p0, parse_uri ex_env (DatabaseURL ex_cfg) = Ok p0 /\ bytes_eqb (GetParameter (ex_params (str "app")) (str "database")) (get p0 (str "database")) = true) as (p0 & Ep & Eb).
  { exists ex_db. split; [exact ex_parses|vm_compute; reflexivity]. }
  unfold serving. cbn [run]. rewrite E1. set (m := StartupMessage 196608 (ex_params (str "app"))).
  assert (SendMessage m = ex_startup) as Em by (vm_compute; reflexivity).
  unfold step at 1. cbn [crashed]. unfold go_start at 1. cbn [start_pc conns]. unfold supd at 1. cbn [side_eqb]. unfold recv_on. cbn [is_open rd]. rewrite E.
  unfold negotiate. change (Z.eqb 196608 SSLRequestMagic) with false. change (Z.eqb 196608 DefaultProtocolVersion) with true. cbn [negb].
  unfold step at 1. cbn [crashed with_start log with_conn start_pc cached]. rewrite Ep. unfold got at 1, want_name at 1. rewrite Eb.
  unfold step at 1. cbn [crashed with_start log with_conn with_cached]. unfold go_start at 1. cbn [start_pc with_start cached with_cached log]. unfold got at 1.
  unfold step at 1. cbn [crashed with_start log with_conn with_cached]. unfold go_start at 1. cbn [start_pc with_start cached with_cached log]. unfold got at 1.
  unfold step at 1. cbn [crashed with_start log with_conn with_cached start_pc].
  unfold step at 1. cbn [crashed with_start log with_conn with_cached start_pc]. unfold start_write. cbn [start_pc log with_start with_conn conns]. unfold supd at 1. cbn [side_eqb].
  fold m. rewrite Em. replace (write_ok (length ex_startup) ex_startup) with true by reflexivity. rewrite firstn_all, skipn_all.
  eexists. split; [reflexivity|]. cbn - [ex_startup]. rewrite !app_nil_r. repeat split; auto.
Qed.
Lemma ssl_rounds n : exists ls s, run step NewSession ls = Some s /\ waiting s /\ arrived Client (hist s) = concat (repeat ex_ssl n) /\
  sent Client (hist s) = repeat "N"%byte n /\ sent DB (hist s) = [].
Proof.
  induction n as [|n (ls & s & H & W & A & B & C)].
  - exists negotiating. eexists. split; [vm_compute; reflexivity|]. split; [|auto]. repeat split. exists []. auto.
  - destruct (ssl_round s W) as (s' & H' & W' & A' & B' & C'). eexists (ls ++ _), s'. split; [rewrite run_app, H; exact H'|]. split; [exact W'|].
    rewrite A', B', C', A, B, C. cbn [repeat]. rewrite (repeat_cons n ex_ssl), (repeat_cons n "N"%byte), concat_app. cbn [concat]. rewrite app_nil_r. auto.
Qed.
