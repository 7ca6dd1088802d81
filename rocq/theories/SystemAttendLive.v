(** Every accepted connection is attended to, however busy the program is. *)
From Verif Require Import Fair SystemReloadLive.
From Verif Require Export SystemAttend.
Require Import Lia.

Lemma mutex_rank s t : waits_mutex s t <-> lrank s t = 93%nat \/ lrank s t = 4%nat.
Proof.
  unfold waits_mutex, lrank. destruct (Server.pcs (srv s) t); split; try tauto; try lia.
  - unfold strank. destruct (Session.start_pc (sess s c)); try lia. destruct (Session.cached (sess s c)), w; unfold wrank, grank; try lia; destruct (Distributor.pcs (dist s) t); lia.
  - destruct (Session.close_pc (sess s c) 0%nat); cbn; lia.
Qed.
(** *** What a session goes through *)
Lemma sess_runs s l s' c : step s l = Some s' -> exists xs, run Session.step (sess s c) xs = Some (sess s' c).
Proof.
  intros E. destruct (step_moves _ _ _ E) as (_ & m & _ & _ & _ & _ & E4 & E5 & _). destruct (Nat.eq_dec c (mc m)) as [->|N]; [eexists; exact E4|].
  exists []. rewrite (E5 _ N). reflexivity.
Qed.
Lemma sess_lift (P : Session.state -> Prop) s l s' c : (forall x k x', SessionLife.all_inv x -> P x -> Session.step x k = Some x' -> P x') ->
  reachable step init s -> step s l = Some s' -> P (sess s c) -> P (sess s' c).
Proof.
  intros H R E X. destruct (sess_runs _ _ _ c E) as [xs Y]. destruct (session_alone_inv _ c R) as (AI & _).
  apply (run_invariant Session.step (fun x => SessionLife.all_inv x /\ P x)) with (2 := conj AI X) in Y; [apply Y|].
  intros x k x' [A B] Z. split; [eapply SessionLife.all_step; eassumption|eapply H; eassumption].
Qed.
Lemma conn_grows s l s' : step s l = Some s' -> (Server.next_conn (srv s) <= Server.next_conn (srv s'))%nat.
Proof.
  intros E. destruct (step_moves _ _ _ E) as (_ & m & _ & _ & _ & E3 & _). revert E3. apply (run_invariant Server.step (fun v => (Server.next_conn (srv s) <= Server.next_conn v)%nat)); [|lia].
  intros v k v' X H. enough (Server.next_conn v <= Server.next_conn v')%nat by lia. clear -H. vstep H; cbn; lia.
Qed.
(** it will return [r] *)
Definition leaving (r : option error) (x : Session.state) : Prop := Session.start_pc x = Session.SDefer r \/ Session.start_pc x = Session.SDone r.
Lemma leaving_step r x k x' : SessionLife.all_inv x -> leaving r x -> Session.step x k = Some x' -> leaving r x'.
Proof. intros _ [X|X] H; unfold leaving; SessionProofs.dstep H; cbn in *; try congruence; auto. right. congruence. Qed.
(** it reads its client's packet, or returns *)
Definition reading (n : nat) (x : Session.state) : Prop :=
  (n < length (SpecSession.startups (Session.hist x)))%nat \/ (exists r, leaving r x) \/
  Session.start_pc x = Session.SRecv /\ asked x /\ length (SpecSession.startups (Session.hist x)) = n.
Lemma startups_step x k x' : Session.step x k = Some x' -> (length (SpecSession.startups (Session.hist x)) <= length (SpecSession.startups (Session.hist x')))%nat.
Proof. intros H. SessionProofs.dstep H; cbn; rewrite ?app_length; cbn; try lia. Qed.
Lemma frame_more f rest a b : SpecFrames.frame_at 4 a f rest -> SpecFrames.frame_at 4 (a ++ b) f (rest ++ b).
Proof. intros (tag & len & body & L & -> & H). exists tag, len, body, L. rewrite app_assoc. tauto. Qed.
Lemma reading_step n x k x' : SessionLife.all_inv x -> reading n x -> Session.step x k = Some x' -> reading n x'.
Proof.
  intros A [X|[[r X]|(X & (rd & b & Y & Z) & W)]] H.
  - left. pose proof (startups_step _ _ _ H). lia.
  - right. left. exists r. eapply leaving_step; eassumption.
  - pose proof (SessionLife.al_pipes _ A) as PI. pose proof (SessionProofs.ph_phase _ (SessionPipe.pp_phase _ PI)) as PH. rewrite X in PH. destruct PH as ((O1 & O2 & _) & _).
    unfold reading, leaving, asked. SessionProofs.dstep H; cbn in *; try congruence; auto.
    all: try (right; right; split; [congruence|]; split; [exists rd, b; auto|exact W]; fail).
    all: try (left; rewrite app_length; cbn; lia).
    all: try (right; left; eexists; left; reflexivity).
    all: try (destruct d; congruence).
    all: try (destruct d; cbn in *; right; right; (split; [exact X|]; split; [|exact W]); [|exists rd, b; auto]).
    + do 2 eexists. split; [reflexivity|]. rewrite Heqo0 in Y. injection Y as <- _. cbn in *. destruct Z as [Z|(f & rest & Z)]; [contradiction|]. right. rewrite concat_app.
      do 2 eexists. apply frame_more. exact Z.
    + do 2 eexists. split; [reflexivity|]. left. discriminate.
    + do 2 eexists. split; [reflexivity|]. left. discriminate.
    + right. right. split; [congruence|]. split; [|exact W]. injection Y as ->. do 2 eexists. split; [eassumption|exact Z].
    + right. right. split; [congruence|]. split; [|exact W]. injection Y as ->. do 2 eexists. split; [reflexivity|exact Z].
Qed.
(** it has its client's startup message *)
Definition determined (x : Session.state) : Prop := match Session.start_pc x with Session.SGet _ => True | _ => answered x end.
Lemma determined_step x k x' : SessionLife.all_inv x -> determined x -> Session.step x k = Some x' -> determined x'.
Proof. intros _ X H. unfold determined, answered in *. SessionProofs.dstep H; cbn in *; try contradiction; auto. rewrite Heqs. exact I. Qed.
Section Attend.
  Variables (st : nat -> state) (lb : nat -> option label).
  Hypothesis EX : execution step st lb.
  Hypothesis R0 : reachable step init (st 0%nat).
  Hypothesis FR : fair_roles st lb.
  Hypothesis WF : writers_first st lb.
  Hypothesis FG : fair_goroutines st lb.
  Notation Ev := (Fair.ev st good).
  Let RC := reach st lb EX R0.
  (** a goroutine that is again and again able to act acts *)
  Lemma acts_on (t : tid) (P Q : state -> Prop) i : P (st i) ->
    (forall j, (i <= j)%nat -> P (st j) -> Ev j (fun s => Q s \/ can_act s t)) ->
    (forall k l, (i <= k)%nat -> good (st k) -> P (st k) -> step (st k) l = Some (st (S k)) -> ~ acting (st k) t l -> P (st (S k)) \/ Q (st (S k))) ->
    (forall k l, (i <= k)%nat -> good (st k) -> P (st k) -> step (st k) l = Some (st (S k)) -> acting (st k) t l -> Q (st (S k))) -> Ev i Q.
  Proof.
    intros HP HE HK HA. apply (swait step st lb good EX good_dec (fun s l => acting s t l) P Q i (fun s l => acting_dec s t l) (FG t i) HP); eauto.
  Qed.
  (** the mutex is freed *)
  Lemma ev_mutex i : Ev i (fun s => Server.mu (srv s) = None).
  Proof.
    destruct (Server.mu (srv (st i))) as [h|] eqn:M; [|apply ev_now; exact M]. revert i M.
    apply (ev_measure st good good_dec (fun s => hrank (Server.pcs (srv s) h)) (fun s => Server.mu (srv s) = Some h)). intros i G M.
    apply (acts_on h (fun s => Server.mu (srv s) = Some h /\ Server.pcs (srv s) h = Server.pcs (srv (st i)) h)); [auto| | |].
    - intros j _ (X & _). destruct (good_dec (st j)) as [Gj|Gj]; [|exists j; auto]. apply ev_now. right. apply holder_able; auto.
    - intros k l _ _ (X & Y) E N. left. destruct (holder_keep _ _ _ _ (RC k) E N X). split; congruence.
    - intros k l _ _ (X & Y) E A. destruct (holder_do _ _ _ _ (RC k) E A X) as [Z|[Z1 Z2]]; [auto|]. right. split; [exact Z1|]. rewrite <- Y. exact Z2.
  Qed.
  (** nobody holds the distributor's lock for writing *)
  Lemma ev_readable i : up (st i) -> Ev i (fun s => Distributor.writer (dist s) = None).
  Proof.
    intros U. destruct (has_monitor _ (RC i) U) as [m Hm].
    apply (ev_bind st good good_dec _ _ _ (ev_M0 st lb EX R0 FR WF i m (conj U Hm))). intros j Hj G ((Uj & _) & Y). apply ev_now.
    destruct (Distributor.writer (dist (st j))) as [w|] eqn:W; [|reflexivity]. exfalso. pose proof (writer_mon _ _ (RC j) Uj W) as MW.
    assert (w = m) as ->. { apply (DistributorProofs.mi_unique _ (DistributorProofs.reachable_mon _ (pt_dist _ (reachable_parts _ (RC j))))); [exact MW|]. rewrite Y. exact I. }
    apply (DistributorProofs.li_writer _ (DistributorProofs.reachable_lock _ (pt_dist _ (reachable_parts _ (RC j))))) in W. rewrite Y in W. exact W.
  Qed.
  Definition tended (c : nat) (s : state) : Prop := over s c \/ on_hold s c.
  Lemma ev_tended c n : forall i t, up (st i) -> has_conn (srv (st i)) t c -> (lrank (st i) t < n)%nat -> Ev i (tended c).
  Proof.
    induction n as [|n IH]; intros i t U HC HL; [lia|].
    destruct (good_dec (st i)) as [G|G]; [|exists i; auto].
    destruct (asleep_dec (st i) t c) as [[A1 A2]|A]; [apply ev_now; right; exact (idle_hold _ _ _ (RC i) G A1 A2)|].
    set (P := fun s => up s /\ has_conn (srv s) t c /\ ~ asleep s t c /\ lrank s t = lrank (st i) t).
    set (Q := fun s => ~ good s \/ tended c s \/ up s /\ lower s c (lrank (st i) t)).
    assert (K1 : forall k l, P (st k) -> step (st k) l = Some (st (S k)) -> ~ acting (st k) t l -> P (st (S k)) \/ Q (st (S k))).
    { intros k l (Y1 & Y2 & Y3 & Y4) E N. destruct (good_dec (st (S k))) as [G'|G']; [|right; left; exact G']. destruct (conn_keep _ _ _ _ _ (RC k) E N Y2 Y3) as [Z1 Z2].
      destruct (asleep_dec (st (S k)) t c) as [[B1 B2]|B]; [right; right; left; right; exact (idle_hold _ _ _ (RC (S k)) G' B1 B2)|].
      left. split; [exact (up_step _ _ _ (RC k) Y1 E)|]. split; [exact Z1|]. split; [exact B|]. congruence. }
    assert (K2 : forall k l, P (st k) -> step (st k) l = Some (st (S k)) -> acting (st k) t l -> Q (st (S k))).
    { intros k l (Y1 & Y2 & Y3 & Y4) E A'. destruct (good_dec (st (S k))) as [G'|G']; [|left; exact G'].
      destruct (conn_do _ _ _ _ _ (RC k) G' Y1 Y2 Y3 A' E) as [Z|Z]; [right; left; left; exact Z|]. right; right. split; [exact (up_step _ _ _ (RC k) Y1 E)|]. rewrite <- Y4. exact Z. }
    assert (Ev i Q) as X.
    { apply (acts_on t P); [split; auto| |intros k l _ _; apply K1|intros k l _ _; apply K2].
      intros j Hj Pj. pose proof Pj as (Y1 & Y2 & Y3 & Y4).
      assert (WM : forall k, P (st k) -> (waits_mutex (st k) t <-> lrank (st i) t = 93%nat \/ lrank (st i) t = 4%nat)).
      { intros k (Z1 & Z2 & Z3 & <-). apply mutex_rank. }
      assert (AT : Ev j (fun s => (waits_mutex (st j) t -> Server.mu (srv s) = None) /\ (~ waits_mutex (st j) t -> Distributor.writer (dist s) = None))).
      { assert (waits_mutex (st j) t \/ ~ waits_mutex (st j) t) as [W|W] by (unfold waits_mutex; destruct (Server.pcs (srv (st j)) t); auto).
        - apply (ev_mono st good good_dec _ _ _ (ev_mutex j)). tauto.
        - apply (ev_mono st good good_dec _ _ _ (ev_readable j Y1)). tauto. }
      destruct AT as (k & Hk & [B|[B1 B2]]); [exists k; auto|]. destruct (good_dec (st k)) as [Gk|Gk]; [|exists k; auto].
      assert (K3 : forall k0 l, (j <= k0)%nat -> P (st k0) -> lb k0 = Some l -> step (st k0) l = Some (st (S k0)) -> P (st (S k0)) \/ Q (st (S k0))).
      { intros k0 l _ Pk _ E. destruct (acting_dec (st k0) t l); [right|]; eauto. }
      destruct (unless step st lb EX P Q j k Pj Hk K3) as [Pk|(k' & Hk' & Qk)].
      - exists k. split; [exact Hk|]. right. right. pose proof (WM _ Pj) as W1. pose proof (WM _ Pk) as W2. destruct Pk as (Z1 & Z2 & Z3 & Z4). apply (conn_able _ t c); auto.
        + intros W. apply B1. tauto.
        + intros W. apply B2. intros W'. pose proof (du_duty _ (reachable_duties _ (RC k)) t) as D. unfold duty in D. unfold waits_read in W. rewrite W in D. destruct D as (c0 & w & D & _).
          assert (waits_mutex (st k) t) as V by tauto. unfold waits_mutex in V. rewrite D in V. exact V.
      - exists k'. split; [exact Hk'|]. right. left. exact Qk. }
    apply (ev_bind st good good_dec _ _ _ X). intros j Hj Gj [Y|[Y|[Uj (t' & Y1 & Y2)]]]; [contradiction|apply ev_now; exact Y|]. apply (IH j t'); auto. lia.
  Qed.
  Lemma acc_later c i j : In c (accepted (Server.hist (srv (st i)))) -> (i <= j)%nat -> In c (accepted (Server.hist (srv (st j)))).
  Proof.
    intros A Hj. apply (Fair.kept step st lb EX (fun s => In c (accepted (Server.hist (srv s)))) i A); [|exact Hj]. intros k l _ X _ E.
    rewrite accepted_all in * by (first [exact (RC k)|exact (RC (S k))]). rewrite in_seq in *. pose proof (conn_grows _ _ _ E). lia.
  Qed.
  (** every connection comes to a point where it is over, or waits for somebody else *)
  Lemma ev_attended c i : In c (accepted (Server.hist (srv (st i)))) -> Ev i (tended c).
  Proof.
    intros A. assert (main (st i) = RServe) as M.
    { destruct (ca_main _ (reachable_calm _ (RC i))) as [[M _]|[M _]]; [|exact M]. rewrite (untouched _ (RC i) M) in A. destruct A. }
    apply (ev_bind st good good_dec _ _ _ (ev_up st lb EX R0 FR i M)). intros j Hj G U.
    pose proof (acc_later c i j A Hj) as Aj.
    destruct (fate _ _ (RC j) Aj) as [[(t & H & _) _]|O]; [|apply ev_now; left; exact O]. exact (ev_tended c (S (lrank (st j) t)) j t U H ltac:(lia)).
  Qed.
  Lemma held (P : Session.state -> Prop) c i j : (forall x k x', SessionLife.all_inv x -> P x -> Session.step x k = Some x' -> P x') -> P (sess (st i) c) -> (i <= j)%nat -> P (sess (st j) c).
  Proof. intros H X Hj. apply (Fair.kept step st lb EX (fun s => P (sess s c)) i X); [|exact Hj]. intros k l _ Y _ E. exact (sess_lift P _ _ _ c H (RC k) E Y). Qed.
  Lemma over_at c s : reachable step init s -> over s c -> exists r, serve_results c (Server.hist (srv s)) = [r] /\ Session.start_pc (sess s c) = Session.SDone r.
  Proof.
    intros R (r & _ & X & _). exists r. split; [exact X|]. destruct (serve_results_in c (Server.hist (srv s)) r) as [t Z]; [rewrite X; left; reflexivity|]. exact (over_done _ R _ _ _ Z).
  Qed.
  (** session.Start, on its way out, gets out *)
  Lemma ev_left c r i : leaving r (sess (st i) c) -> In c (accepted (Server.hist (srv (st i)))) -> Ev i (fun s => over s c /\ serve_results c (Server.hist (srv s)) = [r]).
  Proof.
    intros L A. apply (ev_bind st good good_dec _ _ _ (ev_attended c i A)). intros j Hj G T. apply ev_now. pose proof (held (leaving r) c i j (leaving_step r) L Hj) as X. destruct T as [T|[T _]].
    - split; [exact T|]. destruct (over_at c _ (RC j) T) as (r' & Y & Z). destruct X; congruence.
    - exfalso. destruct T, X; congruence.
  Qed.
  Lemma ev_read c i n : reading n (sess (st i) c) -> In c (accepted (Server.hist (srv (st i)))) ->
    Ev i (fun s => (n < length (SpecSession.startups (Session.hist (sess s c))))%nat \/ exists r, leaving r (sess s c)).
  Proof.
    intros L A. apply (ev_bind st good good_dec _ _ _ (ev_attended c i A)). intros j Hj G T; apply ev_now.
    destruct (held (reading n) c i j (reading_step n) L Hj) as [X|[X|(X & (rd & b & Y & Z) & _)]]; auto. exfalso. destruct T as [T|[T _]].
    - destruct (over_at c _ (RC j) T) as (r' & _ & W). congruence.
    - destruct T as [r E1 E2 E3 E4|? E|? ? E|? E|E]; try congruence. rewrite Y in E2. injection E2 as -> _. destruct Z as [Z|(f & rest & Z)]; [contradiction|].
      exact (FrameProofs.frame_at_not_incomplete 4 _ _ _ ltac:(lia) Z E4).
  Qed.
  Lemma ev_got c i : determined (sess (st i) c) -> In c (accepted (Server.hist (srv (st i)))) -> Ev i (fun s => answered (sess s c)).
  Proof.
    intros L A. apply (ev_bind st good good_dec _ _ _ (ev_attended c i A)). intros j Hj G T; apply ev_now. pose proof (held determined c i j determined_step L Hj) as X. destruct T as [T|[T _]].
    - destruct (over_at c _ (RC j) T) as (r' & _ & W). unfold answered. rewrite W. exact I.
    - unfold determined, answered in *. destruct T as [r E|? E|? ? E|? E|E]; rewrite E in *; auto.
  Qed.
End Attend.
