(** What is in the log. *)
From Verif Require Export SpecLog SystemProofs SystemSessions SystemTrace SystemFlow SystemFacts.
From Verif Require SessionTraffic SessionLife SessionProofs.
Require Import Lia.

(** *** One session *)
Fixpoint forwards (c : nat) (h : list Session.event) : list line :=
  match h with
  | [] => []
  | Session.HLog d b :: h' => forwards c h' ++ [LnForward c d b]
  | _ :: h' => forwards c h'
  end.
Definition ending (c : nat) (x : Session.state) : list line :=
  match Session.start_pc x with
  | Session.SDefer _ => match Session.close_pc x 0%nat with Session.K0 | Session.K1 => [] | _ => [LnClosing c] end
  | Session.SDone _ => [LnClosing c; LnClosed c]
  | _ => []
  end.
Definition story (c : nat) (x : Session.state) : list line :=
  match Session.start_pc x with
  | Session.SIdle => []
  | _ => LnInitializing c :: repeat (LnDenySSL c) (SpecSession.ssl_count (SpecSession.startups (Session.hist x))) ++ forwards c (Session.hist x) ++ ending c x
  end.
(** nobody has closed the session before the deferred Close of its Start does *)
Definition deferred (x : Session.state) : Prop := forall r, Session.start_pc x = Session.SDefer r -> Session.close_pc x 0%nat = Session.K0 -> Session.closed x = EvInit.
(** nothing is passed on before the session relays *)
Definition untouched (c : nat) (x : Session.state) : Prop :=
  (Session.start_pc x <> Session.SWait -> forwards c (Session.hist x) = [] /\ Session.proc_pc x = Session.POff) /\
  (Session.start_pc x = Session.SIdle -> SpecSession.startups (Session.hist x) = []).

Lemma ssl_snoc ms m : SpecSession.ssl_count (ms ++ [m]) = (SpecSession.ssl_count ms + if SpecSession.is_ssl m then 1 else 0)%nat.
Proof. unfold SpecSession.ssl_count. rewrite filter_app, app_length. cbn. destruct (SpecSession.is_ssl m); reflexivity. Qed.
Lemma repeat_snoc {A} (x : A) n : repeat x (n + 1) = repeat x n ++ [x].
Proof. rewrite repeat_app. reflexivity. Qed.
Lemma story_step c x l x' : SessionLife.all_inv x -> SessionTraffic.pexit_ok x -> SessionTraffic.alone x -> deferred x -> untouched c x ->
  Session.step x l = Some x' -> ~ SpecSession.calls_close l ->
  story c x' = story c x ++ session_lines c x l x' /\ deferred x' /\ untouched c x'.
Proof.
  intros HA HX [HL1 HL2] HD [HU HI] H NC. destruct (SessionLife.al_pipes _ HA) as [P1 P2 _ _ _]. pose proof (SessionProofs.ph_close _ P1) as H0. pose proof (SessionProofs.ph_phase _ P1) as H1.
  unfold deferred, untouched in *.
  SessionProofs.dstep H; cbn [SpecSession.calls_close] in NC; try tauto.
  all: unfold story, ending, session_lines; cbn -[repeat Nat.add SpecSession.ssl_count].
  all: repeat match goal with E : Session.start_pc _ = _ |- _ => rewrite E in *; clear E end.
  all: rewrite ?app_nil_r.
  all: try (split; [reflexivity|split; [exact HD|split; [exact HU|exact HI]]]).
  all: try match goal with E : Session.close_pc _ ?t = _ |- _ => destruct t as [|t]; [|rewrite HL1 in E; discriminate E] end.
  all: try match goal with E : ev_fired (Session.closed _) = true |- _ => rewrite HL2 in E; discriminate E end.
  all: try match goal with E : Session.all_exited _ = true |- _ => exfalso; apply SessionProofs.all_exited_spec in E; destruct E as (_ & _ & _ & _ & E); apply HX in E; congruence end.
  all: try match goal with E : Session.proc_pc _ = _ |- _ => rewrite E in HU end.
  all: try solve [split; [reflexivity|split; [intros; first [discriminate|exact HL2]|split; [intros; first [congruence|apply HU; discriminate]|intros; first [discriminate|apply HI; reflexivity]]]]].
  all: try match goal with E : Session.close_pc ?x 0%nat = _ |- _ => rewrite E in *; destruct (Session.start_pc x) eqn:Es; try discriminate H0; destruct (HU ltac:(discriminate)) as [F1 F2]; rewrite F1, ?upd_same; cbn [app];
    rewrite <- ?app_assoc; cbn [app]; split; [reflexivity|split; [intros; try discriminate; try congruence|split; [intros; auto|intros; discriminate]]] end.
  all: try match goal with E : Session.closed ?x = EvFired, E1 : Session.close_pc ?x 0%nat = Session.K0 |- _ => exfalso; destruct (Session.start_pc x) eqn:Es; rewrite E1 in *; try discriminate H0; specialize (HD _ eq_refl eq_refl); congruence end.
  all: try match goal with E : Session.close_pc ?x (S _) = _ |- _ => rewrite HL1 in E; discriminate E end.
  all: try match goal with E : Session.proc_pc ?x = _ |- _ => assert (Es : Session.start_pc x = Session.SWait) by (destruct (Session.start_pc x); try reflexivity; destruct (HU ltac:(discriminate)); discriminate); rewrite Es in *; cbn [app] end.
  - destruct (HU ltac:(discriminate)) as [F1 F2]. rewrite F1, (HI eq_refl). cbn. repeat split; auto; discriminate.
  - rewrite ssl_snoc. unfold SpecSession.is_ssl. change 80877103 with Messages.SSLRequestMagic. rewrite Heqb, repeat_snoc. destruct (HU ltac:(discriminate)) as [F1 F2]. rewrite F1, !app_nil_r. cbn. repeat split; auto; try discriminate.
  - rewrite ssl_snoc. unfold SpecSession.is_ssl. change 80877103 with Messages.SSLRequestMagic. rewrite Heqb, Nat.add_0_r. split; [reflexivity|]. split; [auto|]. split; [intros; apply HU; discriminate|discriminate].
  - rewrite ssl_snoc. unfold SpecSession.is_ssl. change 80877103 with Messages.SSLRequestMagic. rewrite Heqb, Nat.add_0_r. split; [reflexivity|]. split; [discriminate|]. split; [intros; apply HU; discriminate|discriminate].
  - destruct (HU ltac:(discriminate)) as [F1 F2]. rewrite F1. match goal with E : Session.close_pc x 0%nat = _ |- _ => rewrite E end. cbn [app]. rewrite <- app_assoc. destruct err; cbn [app].
    all: split; [rewrite <- ?app_assoc; reflexivity|]; split; [discriminate|]; split; [auto|discriminate].
  - match goal with E : Session.queue _ = _ |- _ => rewrite E end. rewrite !app_nil_r. split; [reflexivity|]. split; [discriminate|]. split; [congruence|discriminate].
  - match goal with E : Session.queue _ = _ |- _ => rewrite E end. rewrite !app_nil_r, app_assoc. split; [reflexivity|]. split; [discriminate|]. split; [congruence|discriminate].
  - split; [reflexivity|]. split; [discriminate|]. split; [congruence|discriminate].
  - split; [reflexivity|]. split; [discriminate|]. split; [congruence|discriminate].
Qed.
Definition story_inv (c : nat) (x : Session.state) : Prop := SessionLife.all_inv x /\ SessionTraffic.pexit_ok x /\ SessionTraffic.alone x /\ deferred x /\ untouched c x.
Lemma story_run c xs : forall x x', story_inv c x -> run Session.step x xs = Some x' -> Forall (fun l => ~ SpecSession.calls_close l) xs ->
  story c x' = story c x ++ along Session.step (session_lines c) x xs /\ deferred x' /\ untouched c x'.
Proof.
  induction xs as [|l xs IH]; cbn; intros x x' (A1 & A2 & A3 & A4 & A5) H F; [injection H as <-; rewrite app_nil_r; auto|].
  destruct (Session.step x l) as [x1|] eqn:E; [|discriminate]. inversion F as [|? ? F1 F2]; subst. destruct (story_step c x l x1 A1 A2 A3 A4 A5 E F1) as (B1 & B2 & B3).
  destruct (IH x1 x') as (C1 & C2 & C3); auto.
  - destruct (SessionLife.al_pipes _ A1) as [P1 P2 _ _ _]. split; [eapply SessionLife.all_step; eassumption|]. split; [eapply SessionTraffic.pexit_step; eassumption|]. split; [eapply SessionTraffic.alone_step; eassumption|]. split; assumption.
  - rewrite C1, B1, app_assoc. auto.
Qed.
Lemma session_lines_about c c' x l x' : filter (about c') (session_lines c x l x') = if Nat.eqb c c' then session_lines c x l x' else [].
Proof.
  unfold session_lines. destruct l; cbn; try (destruct (Nat.eqb c c'); reflexivity).
  - destruct (Session.start_pc x), (Session.start_pc x'); cbn; try (destruct (Nat.eqb c c'); reflexivity). destruct r; cbn; destruct (Nat.eqb c c'); reflexivity.
  - destruct (Session.close_pc x t); cbn; try (destruct (Nat.eqb c c'); reflexivity); destruct t; try destruct err; cbn; destruct (Nat.eqb c c'); reflexivity.
  - destruct (Session.queue (Session.chan_in x d)); cbn; destruct (Nat.eqb c c'); reflexivity.
Qed.
Lemma session_along_about c c' xs : forall x, filter (about c') (along Session.step (session_lines c) x xs) = if Nat.eqb c c' then along Session.step (session_lines c) x xs else [].
Proof.
  induction xs as [|l xs IH]; cbn; intros x; [destruct (Nat.eqb c c'); reflexivity|]. destruct (Session.step x l) as [x1|]; [|destruct (Nat.eqb c c'); reflexivity].
  rewrite filter_app, session_lines_about, IH. destruct (Nat.eqb c c'); reflexivity.
Qed.
Lemma watcher_along_about c xs : forall w, filter (about c) (along FileWatcher.step (fun w l _ => watcher_lines w l) w xs) = [].
Proof.
  induction xs as [|l xs IH]; cbn; intros w; [reflexivity|]. destruct (FileWatcher.step w l) as [w1|]; [|reflexivity]. rewrite filter_app, IH, app_nil_r.
  unfold watcher_lines. destruct l; try reflexivity; [destruct (FileWatcher.starter w), (FileWatcher.werr w)|destruct (FileWatcher.handler w), (FileWatcher.file w)]; reflexivity.
Qed.

(** *** The server *)
Definition greets (v : Server.state) (l : Server.label) (c : nat) : bool :=
  match l with Server.LGo t => match Server.pcs v t with Server.C0 c' => (negb (ev_fired (Server.shut_ev v)) && Nat.eqb c' c)%bool | _ => false end | _ => false end.
Lemma server_lines_about c v l : filter (about c) (server_lines v l) = if greets v l c then [LnNewConnection c] else [].
Proof.
  unfold server_lines, greets. destruct l; try reflexivity; try (destruct (Server.pcs v t); reflexivity).
  - destruct (Server.pcs v t); try reflexivity; destruct (ev_fired (Server.shut_ev v)); try reflexivity. cbn. destruct (Nat.eqb_spec c0 c); [subst|]; reflexivity.
  - destruct (Server.updates v); reflexivity.
  - destruct ok; try reflexivity. destruct (Server.pcs v t); reflexivity.
  - destruct (Server.pcs v t); try reflexivity. destruct a; try reflexivity. destruct (Server.lis_open v l); try reflexivity. destruct e; reflexivity.
  - destruct r; try reflexivity. destruct (Server.pcs v t); try reflexivity. destruct (Server.listener v); reflexivity.
Qed.
(** the owner of a connection has announced it *)
Definition greeted (p : Server.pc) : nat := match p with Server.S6 _ _ | Server.C0 _ => 0 | _ => 1 end.
Lemma greeted_step v l v' : calm_srv v -> ServerProofs.own_inv v -> Server.step v l = Some v' -> calm_server_label l \/ (exists c, l = Server.LConfig c) \/ l = Server.LRecv 0 ->
  (Server.next_conn v <= Server.next_conn v')%nat /\
  (forall t c, ServerProofs.own_conn (Server.pcs v' t) = Some c ->
     (Server.next_conn v <= c)%nat /\ greeted (Server.pcs v' t) = 0%nat \/
     exists t', ServerProofs.own_conn (Server.pcs v t') = Some c /\ greeted (Server.pcs v' t) = (greeted (Server.pcs v t') + if greets v l c then 1 else 0)%nat).
Proof.
  intros I O H L. pose proof (cv_shut _ I) as SH. unfold greets.
  vstep H; cbn in L.
  all: try (exfalso; destruct L as [L|[[? L]|L]]; try discriminate L; try contradiction; fail).
  all: cbn; rewrite ?SH in *; cbn.
  all: split; [lia|].
  all: intros t1 c1; unfold upd; repeat (eqs; cbn); intros X; try discriminate X; auto.
  all: try (right; exists t1; rewrite Nat.add_0_r; split; [exact X|reflexivity]).
  all: try (match goal with E : Server.pcs _ ?t = _ |- _ => right; exists t; rewrite E; split; [exact X|reflexivity] end).
  - discriminate.
  - congruence.
  - exfalso. match goal with E : Server.pcs v ?t = Server.C0 _, N : t1 <> ?t |- _ => apply N, (ServerProofs.oi_conn _ O t1 t c1 X); rewrite E; reflexivity end.
  - left. injection X as <-. auto.
Qed.

(** *** The log of the program, by connection *)
Lemma written_app ls1 ls2 : forall s s1, run step s ls1 = Some s1 -> written s (ls1 ++ ls2) = written s ls1 ++ written s1 ls2.
Proof.
  induction ls1 as [|l ls1 IH]; cbn; intros s s1 H; [injection H as <-; reflexivity|]. destruct (step s l) as [s2|]; [|discriminate]. rewrite (IH _ _ H), app_assoc. reflexivity.
Qed.
Lemma written_one s l s1 : step s l = Some s1 -> written s [l] = lines s l.
Proof. intros H. cbn. rewrite H. apply app_nil_r. Qed.
Record told (s : state) (w : list line) : Prop := {
  td_lines : forall c, exists n, filter (about c) w = repeat (LnNewConnection c) n ++ story c (sess s c) /\
    ((Server.next_conn (srv s) <= c)%nat -> n = 0%nat) /\ (n <= 1)%nat /\
    (forall t, ServerProofs.own_conn (Server.pcs (srv s) t) = Some c -> n = greeted (Server.pcs (srv s) t)) /\
    (Session.start_pc (sess s c) <> Session.SIdle -> n = 1%nat);
  td_deferred : forall c, deferred (sess s c);
  td_untouched : forall c, untouched c (sess s c)
}.
(** a session is called or has been called *)
Lemma idle_step x l x' : SessionProofs.phase_inv x -> Session.step x l = Some x' -> Session.start_pc x = Session.SIdle -> l = Session.LCallStart \/ Session.start_pc x' = Session.SIdle.
Proof.
  intros P H E. pose proof (SessionProofs.ph_close _ P) as H0. rewrite E in H0. SessionProofs.dstep H; cbn; auto; try congruence.
Qed.
Lemma idle_run xs : forall x x', SessionLife.all_inv x -> run Session.step x xs = Some x' -> ~ In Session.LCallStart xs -> Session.start_pc x = Session.SIdle -> Session.start_pc x' = Session.SIdle.
Proof.
  induction xs as [|l xs IH]; cbn; intros x x' A H N E; [congruence|]. destruct (Session.step x l) as [x1|] eqn:E1; [|discriminate]. destruct (SessionLife.al_pipes _ A) as [P1 _ _ _ _].
  destruct (idle_step _ _ _ P1 E1 E) as [->|X]; [tauto|]. apply (IH x1); auto. eapply SessionLife.all_step; eassumption.
Qed.
Lemma told_step s l s' w : reachable step init s -> told s w -> step s l = Some s' -> told s' (w ++ lines s l).
Proof.
  intros R [T1 T2 T3] E. destruct (step_moves _ _ _ E) as (_ & m & P & E1 & E2 & E3 & E4 & E5 & _).
  pose proof (reachable_calm _ R) as CA. pose proof (ca_srv _ CA) as CV. destruct (calm_plan _ _ _ _ CA P E3) as (_ & C2 & C3).
  pose proof (ServerProofs.reachable_own _ (pt_srv _ (reachable_parts _ R))) as O.
  assert (NC : Forall (fun l => ~ SpecSession.calls_close l) (ms m)) by (apply Forall_forall; intros y Hy Z; destruct y; try contradiction; eapply C3, Hy).
  assert (SI : forall c, story_inv c (sess s c)) by (intros c; destruct (session_alone_inv s c R) as (A1 & A2 & A3); exact (conj A1 (conj A2 (conj A3 (conj (T2 c) (T3 c)))))).
  destruct (story_run (mc m) (ms m) _ _ (SI (mc m)) E4 NC) as (S1 & S2 & S3).
  assert (RE : reachable step init s') by (exact (reachable_step _ _ _ _ _ R E)).
  assert (ML : lines s l = along FileWatcher.step (fun w l _ => watcher_lines w l) (watcher s) (mw m) ++ along Server.step (fun v l _ => server_lines v l) (srv s) (mv m) ++ along Session.step (session_lines (mc m)) (sess s (mc m)) (ms m))
    by (unfold lines; rewrite P; reflexivity).
  assert (G : exists g : nat -> nat, forall c, filter (about c) (along Server.step (fun v l _ => server_lines v l) (srv s) (mv m)) = repeat (LnNewConnection c) (g c) /\
    (Server.next_conn (srv s) <= Server.next_conn (srv s'))%nat /\
    (forall t, ServerProofs.own_conn (Server.pcs (srv s') t) = Some c -> (Server.next_conn (srv s) <= c)%nat /\ greeted (Server.pcs (srv s') t) = 0%nat \/
       exists t', ServerProofs.own_conn (Server.pcs (srv s) t') = Some c /\ greeted (Server.pcs (srv s') t) = (greeted (Server.pcs (srv s) t') + g c)%nat) /\
    (g c = 0%nat \/ g c = 1%nat /\ ms m = [] /\ exists t, Server.pcs (srv s) t = Server.C0 c)).
  { clear ML S1 S2 S3 SI E4 E5 E1 E2 T1 T2 T3. destruct (mv m) as [|l1 [|l2 ll]] eqn:EM.
    - exists (fun _ => 0%nat). intros c. apply run_none in E3. rewrite E3. cbn. repeat split; auto. intros t X. right. exists t. rewrite Nat.add_0_r. auto.
    - apply run_one in E3. exists (fun c => if greets (srv s) l1 c then 1%nat else 0%nat). destruct C2 as [C2|[? C2]]; [|discriminate C2]. inversion C2; subst.
      destruct (greeted_step _ _ _ CV O E3 (or_introl H1)) as [G1 G2]. intros c. cbn. rewrite E3, app_nil_r, server_lines_about. split; [destruct (greets (srv s) l1 c); reflexivity|]. split; [exact G1|]. split; [intros t X; apply G2, X|].
      destruct (greets (srv s) l1 c) eqn:Q; [|auto]. right. split; [reflexivity|]. unfold greets in Q. destruct l1; try discriminate Q. destruct (Server.pcs (srv s) t) eqn:Ep; try discriminate Q. apply andb_prop in Q. destruct Q as [_ Q]. apply Nat.eqb_eq in Q. subst.
      split; [|eauto]. clear - P EM Ep. dplan P; cbn in EM; try discriminate EM; try reflexivity; injection EM as EM; subst; congruence.
    - destruct C2 as [C2|[cf C2]].
      + exfalso. clear - P EM C2 CV. dplan P; cbn in EM; try discriminate EM; injection EM as <- <- <-; inversion C2 as [|? ? ? C3]; inversion C3; subst; cbn in *; contradiction.
      + injection C2 as -> -> ->. exists (fun _ => 0%nat). intros c. assert (E0 : Server.pcs (srv s) 0%nat = Server.A4) by (clear - P EM; dplan P; cbn in EM; try discriminate EM; reflexivity).
        pose proof E3 as E3'. apply run_two in E3'. destruct E3' as (v1 & X & Y). split; [cbn; rewrite X, Y, app_nil_r; destruct (Server.updates v1); reflexivity|].
        rewrite (calm_update _ _ _ _ CV E0 X Y). cbn. split; [auto|]. split; [|auto]. intros t. unfold upd. destruct (Nat.eqb_spec t 0) as [->|N]; [discriminate|]. intros Z. right. exists t. rewrite Nat.add_0_r. auto. }
  destruct G as [g G].
  assert (TL : forall c, exists n, filter (about c) (w ++ lines s l) = repeat (LnNewConnection c) n ++ story c (sess s' c) /\
    ((Server.next_conn (srv s') <= c)%nat -> n = 0%nat) /\ (n <= 1)%nat /\
    (forall t, ServerProofs.own_conn (Server.pcs (srv s') t) = Some c -> n = greeted (Server.pcs (srv s') t)) /\
    (Session.start_pc (sess s c) <> Session.SIdle -> n = 1%nat)).
  { intros c. destruct (T1 c) as (n & N1 & N2 & N3 & N4 & N5). destruct (G c) as (G1 & G2 & G3 & G4). exists (n + g c)%nat.
    assert (G0 : g c = 0%nat \/ g c = 1%nat /\ n = 0%nat /\ ms m = [] /\ story c (sess s c) = [] /\ Session.start_pc (sess s c) = Session.SIdle /\ (c < Server.next_conn (srv s))%nat).
    { destruct G4 as [G4|(G4 & G5 & t & G6)]; [auto|right]. split; [exact G4|]. assert (Ow : ServerProofs.own_conn (Server.pcs (srv s) t) = Some c) by (rewrite G6; reflexivity).
      split; [rewrite (N4 t Ow), G6; reflexivity|]. split; [exact G5|]. pose proof (lk_agree _ (reachable_linked _ R) _ _ Ow) as A. rewrite G6 in A. cbn in A. unfold story. rewrite A. split; [reflexivity|]. split; [reflexivity|]. exact (ServerProofs.oi_conn_lt _ O t c Ow). }
    assert (SS : story c (sess s' c) = story c (sess s c) ++ if Nat.eqb (mc m) c then along Session.step (session_lines (mc m)) (sess s (mc m)) (ms m) else []).
    { destruct (Nat.eqb_spec (mc m) c) as [<-|N]; [exact S1|]. rewrite E5, app_nil_r by congruence. reflexivity. }
    split; [|split; [|split; [|split]]].
    - rewrite ML, !filter_app, watcher_along_about, G1, session_along_about, N1, SS. cbn [app]. rewrite repeat_app. destruct G0 as [G0|(G0 & -> & G5 & G6 & _)]; rewrite G0; cbn [repeat app]; [rewrite app_nil_r, <- app_assoc; reflexivity|].
      rewrite G5, G6. cbn. destruct (Nat.eqb (mc m) c); reflexivity.
    - intros X. rewrite N2 by lia. destruct G0 as [G0|(_ & _ & _ & _ & _ & G0)]; [lia|lia].
    - destruct G0 as [G0|(-> & -> & _)]; lia.
    - intros t X. destruct (G3 t X) as [[A B]|(t' & A & B)]; [|rewrite (N4 t' A); symmetry; exact B]. rewrite (N2 A), B. destruct G0 as [G0|(_ & _ & _ & _ & _ & G0)]; lia.
    - intros X. rewrite (N5 X). destruct G0 as [G0|(_ & _ & _ & _ & G0 & _)]; [lia|contradiction]. }
  assert (OTH : forall c, sess s' c = sess s c \/ c = mc m) by (intros c; destruct (Nat.eq_dec c (mc m)); auto).
  constructor.
  - intros c. destruct (TL c) as (n & N1 & N2 & N3 & N4 & N5). exists n. split; [exact N1|]. split; [exact N2|]. split; [exact N3|]. split; [exact N4|]. intros X.
    destruct (Session.start_pc (sess s c)) eqn:Es; try (apply N5; discriminate). pose proof (lk_owner _ (reachable_linked _ RE) c) as OW.
    assert (Q : (exists t, running (Server.pcs (srv s') t) c) -> n = 1%nat).
    { intros (t & Q). rewrite (N4 t). { destruct (Server.pcs (srv s') t); try contradiction; reflexivity. } destruct (Server.pcs (srv s') t); try contradiction; cbn in Q; subst; reflexivity. }
    destruct (Session.start_pc (sess s' c)) eqn:Es'; try congruence; try (apply Q, OW). exfalso.
    destruct (OTH c) as [Z|Z]; [congruence|]. subst c. destruct (session_alone_inv s (mc m) R) as (A1 & A2 & A3). pose proof (SessionLife.al_pipes _ A1) as [P1 _ _ _ _].
    assert (K : ms m = [Session.LCallStart; Session.LStart] \/ ~ In Session.LCallStart (ms m)).
    { clear - P. dplan P; cbn; auto; right; intros X; repeat (destruct X as [X|X]; [try discriminate X; subst; cbn in *; try discriminate|]); try contradiction.
      match goal with B : _ = true |- _ => apply andb_prop in B; destruct B as [_ B]; discriminate B end. }
    destruct K as [K|K].
    + rewrite K in E4. apply run_two in E4. destruct E4 as (x1 & X1 & X2). destruct (SessionAlone.begin_step _ _ _ A3 X1 X2) as (_ & B & _). congruence.
    + rewrite (idle_run _ _ _ A1 E4 K Es) in Es'. discriminate.
  - intros c. destruct (OTH c) as [->| ->]; [apply T2|exact S2].
  - intros c. destruct (OTH c) as [->| ->]; [apply T3|exact S3].
Qed.

Lemma told_run f ls s : run step (Run f) ls = Some s -> told s (written (Run f) ls).
Proof.
  revert s. induction ls as [|l ls IH] using rev_ind; intros s H.
  - injection H as <-. cbn. constructor; intros c.
    + exists 0%nat. cbn. repeat split; auto; try lia; try congruence.
    + intros r X. discriminate.
    + split; auto.
  - rewrite run_app in H. destruct (run step (Run f) ls) as [s1|] eqn:E; [|discriminate]. rewrite (written_app _ _ _ _ E). apply run_one in H. rewrite (written_one _ _ _ H). apply told_step; auto.
    exists (Run f), ls. split; [eexists; reflexivity|exact E].
Qed.

(** *** The lines about listening *)
Lemma failed_snoc ok c rs cs : length rs = length cs -> failed (rs ++ [ok]) (cs ++ [c]) = failed rs cs ++ (if ok then [] else [Listen c]).
Proof.
  revert cs. induction rs as [|r rs IH]; intros [|c1 cs] E; cbn in *; try discriminate; [rewrite app_nil_r; reflexivity|].
  rewrite IH by lia. rewrite app_assoc. reflexivity.
Qed.
Lemma servings_app w1 w2 : servings (w1 ++ w2) = servings w1 ++ servings w2.
Proof. apply flat_map_app. Qed.
Lemma cant_listens_app w1 w2 : cant_listens (w1 ++ w2) = cant_listens w1 ++ cant_listens w2.
Proof. apply flat_map_app. Qed.
Lemma session_lines_listen c x l x' : servings (session_lines c x l x') = [] /\ cant_listens (session_lines c x l x') = [].
Proof.
  unfold session_lines. destruct l; auto.
  - destruct (Session.start_pc x), (Session.start_pc x'); auto. destruct r; auto.
  - destruct (Session.close_pc x t); auto; destruct t; auto; destruct err; auto.
  - destruct (Session.queue (Session.chan_in x d)); auto.
Qed.
Lemma session_along_listen c xs : forall x, servings (along Session.step (session_lines c) x xs) = [] /\ cant_listens (along Session.step (session_lines c) x xs) = [].
Proof.
  induction xs as [|l xs IH]; cbn; intros x; [auto|]. destruct (Session.step x l) as [x1|]; [|auto]. destruct (IH x1) as [I1 I2]. destruct (session_lines_listen c x l x1) as [I3 I4].
  rewrite servings_app, cant_listens_app, I1, I2, I3, I4. auto.
Qed.
Lemma watcher_along_listen xs : forall w, servings (along FileWatcher.step (fun w l _ => watcher_lines w l) w xs) = [] /\ cant_listens (along FileWatcher.step (fun w l _ => watcher_lines w l) w xs) = [].
Proof.
  induction xs as [|l xs IH]; cbn; intros w; [auto|]. destruct (FileWatcher.step w l) as [w1|]; [|auto]. destruct (IH w1) as [I1 I2]. rewrite servings_app, cant_listens_app, I1, I2, !app_nil_r.
  unfold watcher_lines. destruct l; auto; [destruct (FileWatcher.starter w), (FileWatcher.werr w)|destruct (FileWatcher.handler w), (FileWatcher.file w)]; auto.
Qed.
Lemma server_lines_listen v l v' : calm_srv v -> Server.step v l = Some v' -> calm_server_label l -> (forall ok, l <> Server.LListen 0 ok) -> servings (server_lines v l) = [] /\ cant_listens (server_lines v l) = [].
Proof.
  intros I H L N. unfold server_lines. destruct l; auto; try contradiction.
  - destruct (Server.pcs v t); auto; destruct (ev_fired (Server.shut_ev v)); auto.
  - destruct ok; auto. destruct (Nat.eq_dec t 0) as [->|X]; [exfalso; eapply N; reflexivity|]. pose proof (cv_worker _ I t X) as W. destruct (Server.pcs v t); auto. destruct W.
  - destruct (Server.pcs v t); auto. destruct a; auto. destruct (Server.lis_open v l); auto. destruct e; auto.
  - destruct r; auto. destruct (Server.pcs v t); auto. destruct (Server.listener v); auto.
Qed.
Definition posted (ls : list label) (s : state) (w : list line) : Prop := exists tried,
  SpecDistributor.received 0%nat (Distributor.hist (dist s)) = tried ++ waiting (Server.pcs (srv s) 0%nat) /\
  length tried = length (attempts ls) /\
  servings w = map Listen (SpecDistributor.received 0%nat (Distributor.hist (dist s))) /\ cant_listens w = failed (attempts ls) tried.
Lemma posted_step ls s l s' w : reachable step init s -> posted ls s w -> step s l = Some s' -> posted (ls ++ [l]) s' (w ++ lines s l).
Proof.
  intros R (tried & A1 & A2 & A3 & A4) E. destruct (step_moves _ _ _ E) as (_ & m & P & _ & E2 & E3 & _).
  pose proof (reachable_calm _ R) as CA. pose proof (ca_srv _ CA) as CV. pose proof (ca_dist _ CA) as CD.
  destruct (calm_plan _ _ _ _ CA P E3) as (C1 & C2 & _).
  assert (N : forall t, normal (Distributor.pcs (dist s) t)) by (intros t; apply duty_normal, (du_duty _ (reachable_duties _ R))).
  assert (K : (exists ok, l = YServer (Server.LListen 0 ok)) \/ l = YUpdate \/
    (attempts [l] = [] /\ (forall t, ~ In (Distributor.LRecv t) (md m)) /\ (mv m = [] \/ exists l1, mv m = [l1] /\ forall ok, l1 <> Server.LListen 0 ok))).
  { destruct l; auto.
    all: try (right; right; clear - P CV; dplan P; (split; [reflexivity|cbn; split; [intros t1 X; repeat (destruct X as [X|X]; [discriminate X|]); destruct X|first [left; reflexivity|right; eexists; split; [reflexivity|discriminate]]]]); fail).
    - right. right. clear - P. dplan P. split; [reflexivity|]. split; [|auto]. intros t X. destruct X as [X|X]; [|destruct X]. rewrite X in Heqb. discriminate Heqb.
    - clear - P CV E3. dplan P. destruct l; try (right; right; split; [reflexivity|split; [intros ? []|right; eexists; split; [reflexivity|discriminate]]]; fail).
      left. exists ok. do 2 f_equal. apply run_one in E3. destruct (Nat.eq_dec t 0) as [|X]; [assumption|]. pose proof (cv_worker _ CV t X) as W. unfold Server.step in E3.
      rewrite (cv_crash _ CV) in E3. destruct (Server.pcs (srv s) t); try discriminate E3. destruct W.
    - exfalso. clear - P CA. destruct (ca_main _ CA) as [[X Y]|[X Y]]; unfold plan in P; rewrite X in P; destruct (Server.pcs (srv s) 0%nat); try discriminate P; destruct Y. }
  assert (SL : servings (lines s l) = servings (along Server.step (fun v l _ => server_lines v l) (srv s) (mv m)) /\ cant_listens (lines s l) = cant_listens (along Server.step (fun v l _ => server_lines v l) (srv s) (mv m))).
  { unfold lines. rewrite P. destruct (watcher_along_listen (mw m) (watcher s)) as [W1 W2]. destruct (session_along_listen (mc m) (ms m) (sess s (mc m))) as [W3 W4].
    rewrite !servings_app, !cant_listens_app, W1, W2, W3, W4, !app_nil_r. auto. }
  unfold posted. rewrite servings_app, cant_listens_app. destruct SL as [-> ->]. rewrite attempts_app.
  destruct K as [[ok ->]|[->|(K1 & K2 & K3)]].
  - dplan P. apply run_none in E2. apply run_one in E3. cbn [along]. rewrite E3, app_nil_r, E2, A1. cbn [attempts].
    rewrite A1 in A3. clear - E3 A2 A3 A4 CV. revert E3. generalize (srv s'). intros v' H. vstep H; cbn.
    + rewrite ?upd_same, ?app_nil_r. exists (tried ++ [cfg]). split; [rewrite app_nil_r; reflexivity|]. split; [rewrite !app_length, A2; reflexivity|]. split; [exact A3|]. rewrite A4, failed_snoc by lia. rewrite app_nil_r. reflexivity.
    + match goal with E : Server.pcs _ _ = _ |- _ => rewrite E end. rewrite ?upd_same. exists (tried ++ [cfg]). split; [rewrite app_nil_r; reflexivity|]. split; [rewrite !app_length, A2; reflexivity|]. cbn. rewrite ?app_nil_r. split; [exact A3|]. rewrite A4, failed_snoc by lia. reflexivity.
  - dplan P. apply run_one in E2. pose proof E3 as E3'. apply run_two in E3'. destruct E3' as (v1 & X & Y). cbn [along]. rewrite X, Y. rewrite (calm_update _ _ _ _ CV Heqp X Y). cbn. rewrite ?app_nil_r.
    cbn in A1. rewrite app_nil_r in A1. assert (Server.updates v1 = [c]) as ->. { clear - X CV. pose proof (cv_updates _ CV). pose proof (cv_closed _ CV). vstep X; cbn; [congruence|]. reflexivity. }
    exists tried. revert E2. generalize (dist s'). intros d' H. unfold Distributor.step in H. rewrite (dist_no_crash _ R), Heqo in H. destruct ch_owner; [discriminate|]. injection H as <-. cbn. rewrite map_app, A3, A4, A1, app_nil_r. auto.
  - exists tried. rewrite K1, app_nil_r.
    assert (SpecDistributor.received 0%nat (Distributor.hist (dist s')) = SpecDistributor.received 0%nat (Distributor.hist (dist s))) as ->.
    { destruct (one_or_call _ _ _ P) as [X|[(l1 & X & Y)|(Z & X)]]; rewrite X in E2, K2.
      - apply run_none in E2. rewrite E2. reflexivity.
      - apply run_one in E2. eapply received_step; eauto.
        + intros ->. apply (K2 0%nat). left. reflexivity.
        + intros t ->. clear - P X. dplan P; cbn in X; try discriminate X. injection X as ->. discriminate Heqb.
      - apply run_two in E2. destruct E2 as (d1 & X1 & X2). revert X1 X2. clear. generalize (dist s'). intros d' X1 X2. ddstep X1. ddstep X2. reflexivity. }
    destruct K3 as [K3|(l1 & K3 & K4)]; rewrite K3 in *.
    + apply run_none in E3. rewrite E3. cbn. rewrite !app_nil_r. auto.
    + apply run_one in E3. cbn [along]. rewrite E3, app_nil_r. assert (CL : calm_server_label l1) by (destruct C2 as [C2|[? C2]]; [|discriminate C2]; inversion C2; assumption).
      destruct (server_waiting _ _ _ CV E3) as [-> _]; auto. destruct (server_lines_listen _ _ _ CV E3 CL K4) as [-> ->]. rewrite !app_nil_r. auto.
Qed.
Lemma posted_run f ls s : run step (Run f) ls = Some s -> posted ls s (written (Run f) ls).
Proof.
  revert s. induction ls as [|l ls IH] using rev_ind; intros s H.
  - injection H as <-. exists []. auto.
  - rewrite run_app in H. destruct (run step (Run f) ls) as [s1|] eqn:E; [|discriminate]. rewrite (written_app _ _ _ _ E). apply run_one in H. rewrite (written_one _ _ _ H).
    eapply posted_step; [|apply IH, eq_refl|exact H]. exists (Run f), ls. split; [eexists; reflexivity|exact E].
Qed.

(** *** The lines about ready listeners *)
Lemma readies_app w1 w2 : readies (w1 ++ w2) = readies w1 ++ readies w2.
Proof. apply flat_map_app. Qed.
Lemma session_along_ready c xs : forall x, readies (along Session.step (session_lines c) x xs) = [].
Proof.
  induction xs as [|l xs IH]; cbn; intros x; [auto|]. destruct (Session.step x l) as [x1|]; [|auto]. rewrite readies_app, IH, app_nil_r.
  unfold session_lines. destruct l; auto.
  - destruct (Session.start_pc x), (Session.start_pc x1); auto. destruct r; auto.
  - destruct (Session.close_pc x t); auto; destruct t; auto; destruct err; auto.
  - destruct (Session.queue (Session.chan_in x d)); auto.
Qed.
Lemma watcher_along_ready xs : forall w, readies (along FileWatcher.step (fun w l _ => watcher_lines w l) w xs) = [].
Proof.
  induction xs as [|l xs IH]; cbn; intros w; [auto|]. destruct (FileWatcher.step w l) as [w1|]; [|auto]. rewrite readies_app, IH, app_nil_r.
  unfold watcher_lines. destruct l; auto; [destruct (FileWatcher.starter w), (FileWatcher.werr w)|destruct (FileWatcher.handler w), (FileWatcher.file w)]; auto.
Qed.
Definition unready (p : Server.pc) : option nat :=
  match p with Server.A6 l | Server.S0 l | Server.S1 l | Server.S2 l | Server.S3 l | Server.S4 l => Some l | _ => None end.
Record ready_inv (v : Server.state) (w : list line) : Prop := {
  rd_once : NoDup (readies w);
  rd_inst : forall l, In l (readies w) -> In l (SpecServer.installed (Server.hist v));
  rd_not : forall t l, unready (Server.pcs v t) = Some l -> ~ In l (readies w);
  rd_s4 : forall t l, Server.pcs v t = Server.S4 l -> In l (SpecServer.installed (Server.hist v))
}.
Lemma ready_step v l v' w : calm_srv v -> ServerProofs.own_inv v -> ready_inv v w -> Server.step v l = Some v' -> calm_server_label l \/ (exists c, l = Server.LConfig c) \/ l = Server.LRecv 0 ->
  ready_inv v' (w ++ server_lines v l).
Proof.
  intros I O [R1 R2 R3 R4] H L. pose proof (cv_shut _ I) as SH. unfold server_lines.
  assert (U : forall t l, unready (Server.pcs v t) = Some l -> ServerProofs.own_lis (Server.pcs v t) = Some l) by (intros t l0; destruct (Server.pcs v t); cbn; congruence).
  vstep H; cbn in L.
  all: try (exfalso; destruct L as [L|[[? L]|L]]; try discriminate L; try contradiction; fail).
  all: rewrite ?SH in *; cbn [ev_fired] in *.
  all: repeat match goal with E : Server.pcs _ _ = _ |- context [match Server.pcs _ _ with _ => _ end] => rewrite E end.
  all: constructor; rewrite ?readies_app; cbn; rewrite ?app_nil_r; auto.
  all: repeat match goal with |- context [readies ?x] => match x with match ?e with _ => _ end => let Z := fresh in assert (Z : readies x = []) by (destruct e; reflexivity); rewrite Z; clear Z end end; rewrite ?app_nil_r; auto.
  all: try (intros t1 l1; unfold upd; repeat (eqs; cbn); intros X; try discriminate X; subst; eauto; fail).
  all: try (intros t1 l1; unfold upd; repeat (eqs; cbn); intros X; try discriminate X; subst; first [eapply R3; exact X|injection X as <-; match goal with E : Server.pcs _ ?t = _ |- _ => apply (R3 t); rewrite E; reflexivity end]; fail).
  - intros l1 X. apply in_or_app. left. auto.
  - intros t1 l1. unfold upd. destruct (Nat.eqb_spec t1 t) as [->|N]; intros X; apply in_or_app; [injection X as <-; right; left; reflexivity|left; eauto].
  - eapply Permutation.Permutation_NoDup; [apply Permutation.Permutation_cons_append|]. constructor; [|exact R1]. apply (R3 t). rewrite Heqp. reflexivity.
  - intros l1 X. apply in_app_or in X. destruct X as [X|[<-|[]]]; eauto.
  - intros t1 l1. unfold upd. destruct (Nat.eqb_spec t1 t) as [->|N]; [discriminate|]. intros X Y. apply in_app_or in Y. destruct Y as [Y|[<-|[]]]; [exact (R3 _ _ X Y)|].
    apply N, (ServerProofs.oi_lis _ O t1 t l); [exact (U _ _ X)|rewrite Heqp; reflexivity].
  - intros t1 l1. unfold upd. destruct (Nat.eqb_spec t1 t) as [->|N]; [|apply R3]. intros X Y. injection X as <-. apply R2, (ServerProofs.oi_inst_lt _ O) in Y. lia.
Qed.
Lemma ready_run f ls s : run step (Run f) ls = Some s -> ready_inv (srv s) (written (Run f) ls).
Proof.
  revert s. induction ls as [|l ls IH] using rev_ind; intros s' H.
  - injection H as <-. constructor; cbn; try tauto; try constructor; intros t; destruct t; discriminate.
  - rewrite run_app in H. destruct (run step (Run f) ls) as [s|] eqn:E0; [|discriminate]. rewrite (written_app _ _ _ _ E0). apply run_one in H. rewrite (written_one _ _ _ H). specialize (IH _ eq_refl).
    assert (R : reachable step init s) by (exists (Run f), ls; split; [eexists; reflexivity|exact E0]).
    destruct (step_moves _ _ _ H) as (_ & m & P & _ & _ & E3 & _). pose proof (reachable_calm _ R) as CA. pose proof (ca_srv _ CA) as CV. destruct (calm_plan _ _ _ _ CA P E3) as (_ & C2 & _).
    pose proof (ServerProofs.reachable_own _ (pt_srv _ (reachable_parts _ R))) as O.
    assert (SL : readies (written (Run f) ls ++ lines s l) = readies (written (Run f) ls ++ along Server.step (fun v l _ => server_lines v l) (srv s) (mv m))).
    { unfold lines. rewrite P, !readies_app, watcher_along_ready, session_along_ready, app_nil_r. reflexivity. }
    enough (Q : ready_inv (srv s') (written (Run f) ls ++ along Server.step (fun v l _ => server_lines v l) (srv s) (mv m))) by (destruct Q as [Q1 Q2 Q3 Q4]; constructor; rewrite ?SL; auto).
    destruct (mv m) as [|l1 [|l2 ll]] eqn:EM.
    + apply run_none in E3. rewrite E3. cbn. rewrite app_nil_r. exact IH.
    + apply run_one in E3. cbn. rewrite E3, app_nil_r. destruct C2 as [C2|[? C2]]; [|discriminate C2]. inversion C2; subst. eapply ready_step; eauto.
    + destruct C2 as [C2|[cf C2]].
      * exfalso. clear - P EM C2 CV. dplan P; cbn in EM; try discriminate EM; injection EM as <- <- <-; inversion C2 as [|? ? ? C3]; inversion C3; subst; cbn in *; contradiction.
      * injection C2 as -> -> ->. assert (E0' : Server.pcs (srv s) 0%nat = Server.A4) by (clear - P EM; dplan P; cbn in EM; try discriminate EM; reflexivity).
        pose proof E3 as E3'. apply run_two in E3'. destruct E3' as (v1 & X & Y). cbn. rewrite X, Y, app_nil_r. rewrite (calm_update _ _ _ _ CV E0' X Y).
        destruct IH as [Q1 Q2 Q3 Q4]. assert (Z : forall w, readies (w ++ match Server.updates v1 with [] => [] | cfg :: _ => [LnServing (Listen cfg)] end) = readies w) by (intros w; rewrite readies_app; destruct (Server.updates v1); apply app_nil_r).
        constructor; rewrite ?Z; auto; cbn; intros t l1; unfold upd; destruct (Nat.eqb t 0); try discriminate; first [apply Q3|apply Q4].
Qed.

(** *** The lines of the watcher *)
Definition loads (w : list line) : nat := occurrences is_load_error w.
Lemma loads_app w1 w2 : loads (w1 ++ w2) = (loads w1 + loads w2)%nat.
Proof. unfold loads, occurrences. rewrite filter_app, app_length. reflexivity. Qed.
Lemma session_along_loads c xs : forall x, loads (along Session.step (session_lines c) x xs) = 0%nat.
Proof.
  induction xs as [|l xs IH]; cbn [along run]; intros x; [auto|]. destruct (Session.step x l) as [x1|]; [|auto]. rewrite loads_app, IH, Nat.add_0_r.
  unfold session_lines. destruct l; auto.
  - destruct (Session.start_pc x), (Session.start_pc x1); auto. destruct r; auto.
  - destruct (Session.close_pc x t); auto; destruct t; auto; destruct err; auto.
  - destruct (Session.queue (Session.chan_in x d)); auto.
Qed.
Lemma server_along_loads xs : forall v, loads (along Server.step (fun v l _ => server_lines v l) v xs) = 0%nat.
Proof.
  induction xs as [|l xs IH]; cbn [along run]; intros v; [auto|]. destruct (Server.step v l) as [v1|]; [|auto]. rewrite loads_app, IH, Nat.add_0_r.
  unfold server_lines. destruct l; auto.
  - destruct (Server.pcs v t); auto; destruct (ev_fired (Server.shut_ev v)); auto.
  - destruct (Server.updates v); auto.
  - destruct ok; auto. destruct (Server.pcs v t); auto.
  - destruct (Server.pcs v t); auto. destruct a; auto. destruct (Server.lis_open v l); auto. destruct e; auto.
  - destruct r; auto. destruct (Server.pcs v t); auto. destruct (Server.listener v); auto.
Qed.
Lemma watcher_along_loads xs : forall w w', run FileWatcher.step w xs = Some w' ->
  failed_reloads (FileWatcher.hist w') = (failed_reloads (FileWatcher.hist w) + loads (along FileWatcher.step (fun w l _ => watcher_lines w l) w xs))%nat.
Proof.
  induction xs as [|l xs IH]; cbn [along run]; intros w w' H; [injection H as <-; unfold loads; cbn; lia|]. destruct (FileWatcher.step w l) as [w1|] eqn:E; [|discriminate]. rewrite (IH _ _ H), loads_app, Nat.add_assoc. f_equal. clear IH H.
  unfold watcher_lines. WatcherProofs.dstep E.
  all: cbn in *; try (rewrite ?Nat.add_0_r; reflexivity).
  unfold failed_reloads. lia.
Qed.
Lemma loads_run f ls s : run step (Run f) ls = Some s -> loads (written (Run f) ls) = failed_reloads (FileWatcher.hist (watcher s)).
Proof.
  revert s. induction ls as [|l ls IH] using rev_ind; intros s' H.
  - injection H as <-. reflexivity.
  - rewrite run_app in H. destruct (run step (Run f) ls) as [s|] eqn:E0; [|discriminate]. rewrite (written_app _ _ _ _ E0). apply run_one in H. rewrite (written_one _ _ _ H).
    destruct (step_moves _ _ _ H) as (_ & m & P & E1 & _). unfold lines. rewrite P, !loads_app, server_along_loads, session_along_loads, (watcher_along_loads _ _ _ E1), (IH _ eq_refl). lia.
Qed.

(** *** Lines that do not occur *)
Definition odd_line (ln : line) : Prop := match ln with LnChangeError _ | LnServerClosing | LnWatchError (Some _) => True | _ => False end.
Lemma session_along_odd c ln xs : forall x, In ln (along Session.step (session_lines c) x xs) -> ~ odd_line ln.
Proof.
  induction xs as [|l xs IH]; cbn; intros x; [tauto|]. destruct (Session.step x l) as [x1|]; [|tauto]. intros H. apply in_app_or in H. destruct H as [H|H]; [|eauto]. clear IH.
  unfold session_lines in H. destruct l; cbn in H; try tauto.
  - destruct H as [<-|[]]. auto.
  - destruct (Session.start_pc x), (Session.start_pc x1); cbn in H; try tauto; try (destruct H as [<-|[]]; auto). destruct r; destruct H as [<-|[]]; auto.
  - destruct (Session.close_pc x t) as [| | | | | | | | |[]]; destruct t; cbn in H; try tauto; destruct H as [<-|[]]; auto.
  - destruct (Session.queue (Session.chan_in x d)); [tauto|]. destruct H as [<-|[]]; auto.
Qed.
Lemma watcher_along_odd ln xs : forall w, In ln (along FileWatcher.step (fun w l _ => watcher_lines w l) w xs) -> ~ odd_line ln.
Proof.
  induction xs as [|l xs IH]; cbn; intros w; [tauto|]. destruct (FileWatcher.step w l) as [w1|]; [|tauto]. intros H. apply in_app_or in H. destruct H as [H|H]; [|eauto]. clear IH.
  unfold watcher_lines in H. destruct l; try destruct H; [destruct (FileWatcher.starter w), (FileWatcher.werr w)|destruct (FileWatcher.handler w), (FileWatcher.file w)]; cbn in H; try tauto; destruct H as [<-|[]]; auto.
Qed.
Lemma server_odd ln v l : calm_srv v -> In ln (server_lines v l) -> ~ odd_line ln.
Proof.
  intros I H. unfold server_lines in H. rewrite (cv_shut _ I) in H. cbn in H. destruct l; try destruct H.
  - destruct (Server.pcs v t) eqn:E; cbn in H; try tauto; try (destruct H as [<-|[]]; auto). exfalso. destruct (Nat.eq_dec t 0) as [->|N].
    + destruct (cv_main _ I) as [M|M]; rewrite E in M; [discriminate|destruct M].
    + pose proof (cv_worker _ I t N) as W. rewrite E in W. destruct W.
  - destruct (Server.updates v); cbn in H; try tauto. destruct H as [<-|[]]; auto.
  - destruct ok; try destruct H. destruct (Server.pcs v t); cbn in H; try tauto. destruct H as [<-|[]]; auto.
  - destruct (Server.pcs v t); try destruct H. destruct a; cbn in H; try tauto; [destruct H as [<-|[]]; auto|]. destruct (Server.lis_open v l); [|destruct H]. destruct e; cbn in H; try tauto; destruct H as [<-|[]]; auto.
  - destruct r; try destruct H. destruct (Server.pcs v t); try destruct H. destruct (Server.listener v); cbn in H; try tauto. destruct H as [<-|[]]; auto.
Qed.
Lemma odd_run f ls s ln : run step (Run f) ls = Some s -> In ln (written (Run f) ls) -> ~ odd_line ln.
Proof.
  revert s. induction ls as [|l ls IH] using rev_ind; intros s' H; [destruct 1|].
  rewrite run_app in H. destruct (run step (Run f) ls) as [s|] eqn:E0; [|discriminate]. rewrite (written_app _ _ _ _ E0). apply run_one in H. rewrite (written_one _ _ _ H). intros X. apply in_app_or in X. destruct X as [X|X]; [exact (IH _ eq_refl X)|].
  assert (R : reachable step init s) by (exists (Run f), ls; split; [eexists; reflexivity|exact E0]).
  destruct (step_moves _ _ _ H) as (_ & m & P & _ & _ & E3 & _). pose proof (reachable_calm _ R) as CA. pose proof (ca_srv _ CA) as CV. destruct (calm_plan _ _ _ _ CA P E3) as (_ & C2 & _).
  unfold lines in X. rewrite P in X. apply in_app_or in X. destruct X as [X|X]; [exact (watcher_along_odd _ _ _ X)|]. apply in_app_or in X. destruct X as [X|X]; [|exact (session_along_odd _ _ _ _ X)].
  destruct (mv m) as [|l1 [|l2 ll]] eqn:EM.
  + destruct X.
  + cbn in X. destruct (Server.step (srv s) l1); [|destruct X]. rewrite app_nil_r in X. exact (server_odd _ _ _ CV X).
  + destruct C2 as [C2|[cf C2]].
    * exfalso. clear - P EM C2 CV. dplan P; cbn in EM; try discriminate EM; injection EM as <- <- <-; inversion C2 as [|? ? ? C3]; inversion C3; subst; cbn in *; contradiction.
    * injection C2 as -> -> ->. cbn in X. destruct (Server.step (srv s) (Server.LConfig cf)) as [v1|]; [|destruct X]. destruct (Server.step v1 (Server.LRecv 0)) as [v2|]; [|destruct X]. rewrite app_nil_r in X. destruct (Server.updates v1); [destruct X|destruct X as [<-|[]]; auto].
Qed.
Lemma forwards_in c h ln : In ln (forwards c h) -> exists d b, ln = LnForward c d b.
Proof. induction h as [|e h IH]; cbn; [tauto|]. destruct e; auto. intros H. apply in_app_or in H. destruct H as [H|[<-|[]]]; eauto. Qed.
Lemma story_in c x ln : In ln (story c x) -> ~ impossible ln.
Proof.
  unfold story. intros H. destruct (Session.start_pc x) eqn:E; [destruct H|..]; (destruct H as [<-|H]; [auto|]; apply in_app_or in H; destruct H as [H|H]; [apply repeat_spec in H; subst; auto|]; apply in_app_or in H; destruct H as [H|H];
    [apply forwards_in in H; destruct H as (? & ? & ->); auto|]; unfold ending in H; rewrite E in H); try contradiction.
  - destruct (Session.close_pc x 0%nat); try contradiction; destruct H as [<-|[]]; auto.
  - destruct H as [<-|[<-|[]]]; auto.
Qed.
Lemma possible_run f ls s ln : run step (Run f) ls = Some s -> In ln (written (Run f) ls) -> ~ impossible ln.
Proof.
  intros H X I. pose proof (odd_run _ _ _ _ H X) as O. pose proof (told_run _ _ _ H) as T.
  assert (A : (exists c, about c ln = true) \/ odd_line ln) by (destruct ln; try destruct I; cbn; auto; left; eexists; apply Nat.eqb_refl).
  destruct A as [[c A]|A]; [|tauto]. destruct (td_lines _ _ T c) as (n & N & _). assert (Y : In ln (filter (about c) (written (Run f) ls))) by (apply filter_In; auto).
  rewrite N in Y. apply in_app_or in Y. destruct Y as [Y|Y]; [apply repeat_spec in Y; subst; destruct I|exact (story_in _ _ _ Y I)].
Qed.

(** *** What the lines about a connection amount to *)
Lemma forwards_all c h : Forall (fun ln => forward ln = true) (forwards c h).
Proof. apply Forall_forall. intros ln H. apply forwards_in in H. destruct H as (? & ? & ->). reflexivity. Qed.
Lemma life s c : reachable step init s -> SessionLife.all_inv (sess s c).
Proof. intros R. exact (proj1 (session_alone_inv s c R)). Qed.
Lemma finished f ls s c : run step (Run f) ls = Some s -> SpecSession.start_results (Session.hist (sess s c)) <> [] ->
  filter (about c) (written (Run f) ls) = opening c (SpecSession.ssl_count (SpecSession.startups (Session.hist (sess s c)))) ++ [LnClosing c; LnClosed c].
Proof.
  intros H N. assert (R : reachable step init s) by (exists (Run f), ls; split; [eexists; reflexivity|exact H]). destruct (told_run _ _ _ H) as [T1 T2 T3]. destruct (T1 c) as (n & N1 & _ & _ & _ & N5).
  pose proof (SessionLife.li_result _ (SessionLife.al_life _ (life s c R))) as L. destruct (Session.start_pc (sess s c)) eqn:E; try congruence.
  rewrite N1, (N5 ltac:(discriminate)). unfold story, ending. rewrite E. destruct (T3 c) as [T4 _]. rewrite E in T4. destruct (T4 ltac:(discriminate)) as [-> _]. reflexivity.
Qed.
Lemma unfinished f ls s c : run step (Run f) ls = Some s -> SpecSession.start_results (Session.hist (sess s c)) = [] ->
  let w := filter (about c) (written (Run f) ls) in let k := SpecSession.ssl_count (SpecSession.startups (Session.hist (sess s c))) in
  w = [] \/ w = [LnNewConnection c] \/ w = opening c k \/ w = opening c k ++ [LnClosing c] \/
  SpecSession.connected (Session.hist (sess s c)) = true /\ exists fw, w = opening c k ++ fw /\ Forall (fun ln => forward ln = true) fw.
Proof.
  intros H N w k. assert (R : reachable step init s) by (exists (Run f), ls; split; [eexists; reflexivity|exact H]). destruct (told_run _ _ _ H) as [T1 T2 T3]. destruct (T1 c) as (n & N1 & _ & N3 & _ & N5). fold w in N1.
  pose proof (SessionLife.li_result _ (SessionLife.al_life _ (life s c R))) as L. unfold story, ending in N1. destruct (T3 c) as [T4 _].
  destruct (Session.start_pc (sess s c)) eqn:E; try congruence; try (destruct (T4 ltac:(discriminate)) as [F _]; rewrite F in N1); try specialize (N5 ltac:(discriminate)); fold k in N1; cbn [app] in N1; rewrite ?app_nil_r in N1.
  all: try (subst n; right; right; left; exact N1).
  - destruct n as [|[|n]]; [left; exact N1|right; left; exact N1|lia].
  - subst n. do 4 right. split; [|exists (forwards c (Session.hist (sess s c))); split; [exact N1|apply forwards_all]].
    pose proof (SessionPipe.pp_nego _ (SessionLife.al_pipes _ (life s c R))) as G. unfold SessionPipe.nego_ok in G. rewrite E in G. destruct G as (? & ? & _ & _ & G). exact G.
  - subst n. destruct (Session.close_pc (sess s c) 0%nat); rewrite ?app_nil_r in N1; first [right; right; left; exact N1|right; right; right; left; exact N1].
Qed.
Lemma forwards_from_app c d w1 w2 : forwards_from c d (w1 ++ w2) = forwards_from c d w1 ++ forwards_from c d w2.
Proof. apply flat_map_app. Qed.
Lemma forwards_from_about c d w : forwards_from c d w = forwards_from c d (filter (about c) w).
Proof.
  induction w as [|ln w IH]; [reflexivity|]. change (ln :: w) with ([ln] ++ w). rewrite forwards_from_app, filter_app, forwards_from_app, IH. f_equal.
  destruct ln; cbn; try reflexivity; try (destruct (Nat.eqb c0 c); reflexivity). destruct (Nat.eqb c0 c) eqn:E; cbn; rewrite ?E; reflexivity.
Qed.
Lemma forwards_logged c d h : forwards_from c d (forwards c h) = SpecSession.logged d h.
Proof.
  induction h as [|e h IH]; [reflexivity|]. destruct e; cbn [forwards SpecSession.logged]; auto. rewrite forwards_from_app, IH. cbn. rewrite Nat.eqb_refl. cbn. rewrite app_nil_r. destruct (Session.side_eqb d d0); reflexivity.
Qed.
Lemma forwards_none c d ws : Forall (fun ln => forward ln = false) ws -> forwards_from c d ws = [].
Proof. induction 1 as [|ln ws E _ IH]; [reflexivity|]. destruct ln; try discriminate E; exact IH. Qed.
Lemma repeat_forall {A} (P : A -> Prop) x n : P x -> Forall P (repeat x n).
Proof. intros H. induction n; cbn; auto. Qed.
Lemma log_run f ls s c d : run step (Run f) ls = Some s -> forwards_from c d (written (Run f) ls) = SpecSession.logged d (Session.hist (sess s c)).
Proof.
  intros H. rewrite forwards_from_about. destruct (told_run _ _ _ H) as [T1 _ T3]. destruct (T1 c) as (n & N1 & _). rewrite N1, forwards_from_app, forwards_none by (apply repeat_forall; reflexivity). cbn [app].
  rewrite <- (forwards_logged c). unfold story. destruct (T3 c) as [T4 _]. destruct (Session.start_pc (sess s c)) eqn:E.
  1: destruct (T4 ltac:(discriminate)) as [-> _]; reflexivity.
  all: change (forwards_from c d (LnInitializing c :: ?x)) with (forwards_from c d x); rewrite !forwards_from_app, (forwards_none c d (repeat _ _)) by (apply repeat_forall; reflexivity); cbn [app].
  all: rewrite (forwards_none c d (ending _ _)), ?app_nil_r; [reflexivity|].
  all: unfold ending; rewrite E; auto.
  destruct (Session.close_pc (sess s c) 0%nat); auto.
Qed.
Lemma forwarded_run f ls s c d : run step (Run f) ls = Some s -> exists ahead behind,
  forwards_from c d (written (Run f) ls) = map Conn.SendMessage (SpecSession.taken (Session.other d) (Session.hist (sess s c)) ++ ahead) /\
  SpecSession.msgs d (Session.hist (sess s c)) = SpecSession.taken (Session.other d) (Session.hist (sess s c)) ++ ahead ++ behind.
Proof.
  intros H. assert (R : reachable step init s) by (exists (Run f), ls; split; [eexists; reflexivity|exact H]). pose proof (pt_sess _ (reachable_parts _ R) c) as RS. pose proof (SessionMore.reachable_full _ RS) as F.
  pose proof (SessionPipe.pp_pipe _ (SessionLife.al_pipes _ (SessionMore.fu_all _ F)) d) as Pd. pose proof (SessionMore.fu_log _ F d) as L.
  rewrite (log_run _ _ _ c d H), L, Pd. unfold SessionPipe.in_flight. 
  exists (Session.queue (Session.chan_out (sess s c) (Session.other d)) ++ SessionPipe.in_hand (Session.proc_pc (sess s c)) d), (Session.queue (Session.chan_in (sess s c) d) ++ SessionPipe.in_pump (Session.in_pc (sess s c) d)).
  split; [reflexivity|]. rewrite <- !app_assoc. reflexivity.
Qed.
