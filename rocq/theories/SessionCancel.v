(** What becomes of a packet that is neither a startup packet of version 3.0 nor an SSLRequest. *)
From Verif Require Export SpecCancel SessionEnd SessionReason SessionTraffic.
From Verif Require Import BufferProofs FrameProofs ConnProofs DecodeFacts RejectProofs.
Require Import Lia.

(** The configuration is asked for only after a startup packet of version 3.0. *)
Definition after_startup (h : list event) : Prop := exists reqs ps, Forall ssl_request reqs /\ startups h = reqs ++ [StartupMessage 196608 ps].
Definition asks_after (s : state) : Prop := configs (hist s) <> [] -> after_startup (hist s).
Lemma asks_after_step s l s' : nego_ok s -> asks_after s -> step s l = Some s' -> asks_after s'.
Proof.
  intros N H E. unfold asks_after in *. unfold nego_ok in N. dstep E; cbn; try exact H; intros C.
  all: repeat match goal with E : start_pc _ = _ |- _ => rewrite E in N; clear E end; cbn in N.
  all: unfold after_startup; cbn.
  all: repeat match goal with w : want |- _ => destruct w end.
  all: try (destruct N as (_ & C' & _); congruence).
  all: try (destruct N as (-> & (reqs & F & Hs) & _); exists reqs; eexists; split; [exact F|exact Hs]).
  all: try (destruct N as (p & ps & _ & _ & X & _); congruence).
Qed.
Lemma reachable_asks_after s : reachable step init s -> asks_after s.
Proof.
  intros R. destruct R as (s0 & ls & -> & H). revert H.
  assert (reachable step init NewSession /\ asks_after NewSession) as X by (split; [apply reachable_init; reflexivity|intros X; destruct X; reflexivity]).
  revert X. generalize NewSession as s1. induction ls as [|l ls IH]; cbn; intros s1 [X Y] H; [injection H as <-; exact Y|].
  destruct (step s1 l) as [s2|] eqn:E; [|discriminate]. apply (IH s2); [|exact H]. split; [exact (reachable_step _ _ _ _ _ X E)|].
  exact (asks_after_step _ _ _ (pp_nego _ (al_pipes _ (reachable_all _ X))) Y E).
Qed.

Lemma packet_frame v pk more : packet_code v pk -> frame_at 4 (pk ++ more) pk more.
Proof.
  intros (code & x & _ & len & R & ->). pose proof (int32_repr_range _ _ R) as Rr. unfold in_int32 in Rr.
  exists [], len, (code ++ x), (Z.of_nat (length (code ++ x)) + 4). split; [reflexivity|]. split; [reflexivity|]. split; [reflexivity|]. split; [exact R|].
  unfold announced_body. destruct (Z.leb_spec 4 (Z.of_nat (length (code ++ x)) + 4)); lia.
Qed.
Lemma packet_version v pk m : packet_code v pk -> ParseStartupMessage (StartupFrame pk) = Ok m -> exists ps, m = StartupMessage v ps.
Proof.
  intros (code & x & Rc & Hp) H. destruct (startup_packet_frame _ _ Hp) as [E L]. subst pk.
  destruct (startup_sound _ _ H) as (v' & ps & b & l & tr & -> & Eb & El & He).
  exists ps. f_equal. change (MessageBody (NewStartupFrame (code ++ x)) = Ok b) in Eb. rewrite NewStartupFrame_body in Eb. injection Eb as <-.
  destruct He as [? l1 R1|? ? l1 l2 _ R1 _]; [|rewrite <- app_assoc in El]; apply (int32_unique _ _ _ _ _ _ R1 Rc (eq_sym El)).
Qed.

(** the first frame of a stream that begins with a packet is the packet *)
Lemma first_packet v pk more f s' m : packet_code v pk -> frame_at 4 (pk ++ more) f s' -> ParseStartupMessage (StartupFrame f) = Ok m ->
  f = pk /\ s' = more /\ exists ps, m = StartupMessage v ps.
Proof.
  intros P F H. destruct (frame_at_fun _ _ _ _ _ _ F (packet_frame _ _ more P)) as [-> ->]. split; [reflexivity|]. split; [reflexivity|]. eapply packet_version; eassumption.
Qed.
Lemma wire_packet v ps l : startup_wire v ps l -> packet_code v l.
Proof.
  intros (body & He & Hp). destruct He as [? l1 R1|? ? l1 l2 _ R1 _]; [exists l1, []; rewrite app_nil_r; auto|exists l1, (l2 ++ [x00]); auto].
Qed.
(** Whatever is decoded as SSLRequests from SSLRequests and another packet leaves a complete packet. *)
Lemma ssl_leaves ss v pk more : Forall (startup_wire ssl_request_code []) ss -> packet_code v pk -> v <> ssl_request_code ->
  forall ms mid, decodes_startup (concat ss ++ pk ++ more) ms mid -> Forall ssl_request ms ->
  (length ms <= length ss)%nat /\ exists w pk' more', mid = pk' ++ more' /\ packet_code w pk' /\ (w <> ssl_request_code -> w = v).
Proof.
  intros Fs Hp Hv. induction Fs as [|l ss Hl Fs IH]; intros ms mid D F; cbn [concat app] in D.
  - inversion D as [|? f s' ? ? ? Hf Hm D']; subst; [split; [cbn; lia|]; exists v, pk, more; auto|]. exfalso.
    destruct (first_packet _ _ _ _ _ _ Hp Hf Hm) as (_ & _ & ps & ->). inversion F as [|? ? (q & X)]; subst. injection X as X _. contradiction.
  - rewrite <- app_assoc in D. pose proof (wire_packet _ _ _ Hl) as Pl. inversion D as [|? f s' ? ? ? Hf Hm D']; subst.
    + split; [cbn; lia|]. exists ssl_request_code, l, (concat ss ++ pk ++ more). split; [reflexivity|]. split; [exact Pl|]. intros X. contradiction.
    + destruct (first_packet _ _ _ _ _ _ Pl Hf Hm) as (_ & -> & ps & ->). inversion F; subst. destruct (IH _ _ D' ltac:(assumption)) as [L X]. split; [cbn; lia|exact X].
Qed.
Lemma decodes_app hdr parse a b s mid : decodes hdr parse s (a ++ b) mid -> exists mid', decodes hdr parse s a mid' /\ decodes hdr parse mid' b mid.
Proof.
  revert s. induction a as [|q a IH]; intros s D; cbn [app] in D; [exists s; split; [constructor|exact D]|].
  inversion D as [|? f s' ? ? ? Hf Hm D']; subst. destruct (IH _ D') as (mid' & X & Y). exists mid'. split; [|exact Y]. econstructor; eassumption.
Qed.

(** The startup packets that a session may have read are those SSLRequests, and perhaps the other packet. *)
Lemma read_only ss v pk more : Forall (startup_wire ssl_request_code []) ss -> packet_code v pk -> v <> ssl_request_code ->
  forall reqs m mid, decodes_startup (concat ss ++ pk ++ more) (reqs ++ [m]) mid -> Forall ssl_request reqs -> ~ ssl_request m ->
  exists ps, m = StartupMessage v ps.
Proof.
  intros Fs Hp Hv reqs m mid D F N. unfold decodes_startup in D.
  destruct (decodes_app _ _ _ _ _ _ D) as (mid' & D1 & D2).
  destruct (ssl_leaves _ _ _ more Fs Hp Hv _ _ D1 F) as (_ & w & pk' & more' & -> & Pw & Ew). inversion D2 as [|? f s' ? ? ? Hf Hm D']; subst.
  destruct (first_packet _ _ _ _ _ _ Pw Hf Hm) as (_ & _ & ps & ->). exists ps. f_equal. apply Ew. intros ->. apply N. exists ps. reflexivity.
Qed.

Lemma startups_shape s : reachable step init s -> exists reqs rest, startups (hist s) = reqs ++ rest /\ Forall ssl_request reqs /\ (length rest <= 1)%nat /\ Forall (fun m => is_ssl m = false) rest.
Proof.
  intros R. pose proof (pp_nego _ (al_pipes _ (reachable_all _ R))) as N. unfold nego_ok in N.
  assert (forall reqs v ps, Forall ssl_request reqs -> startups (hist s) = reqs ++ [StartupMessage v ps] -> v = 196608 -> exists reqs rest, startups (hist s) = reqs ++ rest /\ Forall ssl_request reqs /\ (length rest <= 1)%nat /\ Forall (fun m => is_ssl m = false) rest) as X.
  { intros reqs v ps F E ->. exists reqs, [StartupMessage 196608 ps]. repeat split; auto. }
  assert (forall p ps, accepted (hist s) p ps -> exists reqs rest, startups (hist s) = reqs ++ rest /\ Forall ssl_request reqs /\ (length rest <= 1)%nat /\ Forall (fun m => is_ssl m = false) rest) as Y.
  { intros p ps ((reqs & F & E) & _). eapply X; [exact F|exact E|reflexivity]. }
  assert (Forall ssl_request (startups (hist s)) -> exists reqs rest, startups (hist s) = reqs ++ rest /\ Forall ssl_request reqs /\ (length rest <= 1)%nat /\ Forall (fun m => is_ssl m = false) rest) as Z.
  { intros F. exists (startups (hist s)), []. rewrite app_nil_r. repeat split; auto. }
  destruct (start_pc s) as [| | |?|[]| | | | |].
  all: try (destruct N as (F & _); apply Z; try rewrite F; auto; fail).
  all: try (destruct N as (p & ps & ? & A & _); eapply Y; exact A).
  all: try (destruct N as (p & ps & A & _); eapply Y; exact A).
  all: try (destruct N as (-> & (reqs & F & E) & _); eapply X; [exact F|exact E|reflexivity]).
  all: destruct N as [(_ & _ & N)|(p & ps & A & _)]; [exact N|eapply Y; exact A].
Qed.

Lemma nowhere s n v : reachable step init s -> client_began (hist s) n v -> v <> 196608 -> v <> ssl_request_code -> got_nowhere (hist s) n.
Proof.
  intros R (ss & pk & more & Ln & Fs & Hp & A) N1 N2.
  destruct (order_db s R) as (mid & rest & D & _). rewrite A in D.
  assert (~ after_startup (hist s)) as NA.
  { intros (reqs & ps & F & E). rewrite E in D. destruct (read_only _ _ _ _ Fs Hp N2 _ _ _ D F) as (ps' & X); [|injection X as X _; congruence].
    intros (q & X). discriminate X. }
  assert (~ (dials (hist s) <> [] \/ connected (hist s) = true \/ sent DB (hist s) <> [])) as ND.
  { intros X. destruct (dialled s R X) as (p & ps & ((reqs & F & E) & _) & _). apply NA. exists reqs, ps. auto. }
  assert (connected (hist s) = false) as C by (destruct (connected (hist s)); [destruct ND; auto|reflexivity]).
  split; [destruct (configs (hist s)) eqn:E; [reflexivity|]; destruct NA; apply (reachable_asks_after s R); rewrite E; discriminate|].
  split; [destruct (dials (hist s)); [reflexivity|destruct ND; left; discriminate]|]. split; [exact C|].
  split; [destruct (sent DB (hist s)); [reflexivity|destruct ND; right; right; discriminate]|].
  destruct (refusals_only s R C) as (k & L & E). exists k. split; [|exact E]. etransitivity; [exact L|].
  destruct (startups_shape s R) as (reqs & rs & Es & Fr & _ & Fo). rewrite Es in *. destruct (decodes_app _ _ _ _ _ _ D) as (mid' & D1 & _).
  subst n. etransitivity; [|exact (proj1 (ssl_leaves _ _ _ more Fs Hp N2 _ _ D1 Fr))]. unfold ssl_count. rewrite filter_app, app_length.
  assert (filter is_ssl rs = []) as ->. { clear - Fo. induction Fo as [|m rs E F IH]; [reflexivity|]. cbn. rewrite E. exact IH. }
  cbn. rewrite Nat.add_0_r. clear. induction reqs as [|m reqs IH]; cbn; [lia|]. destruct (is_ssl m); cbn; lia.
Qed.

(** A refusal answers something. *)
Definition denies_ok (s : state) : Prop := forall b, start_pc s = SDeny b -> startups (hist s) <> [].
Lemma denies s b : reachable step init s -> start_pc s = SDeny b -> startups (hist s) <> [].
Proof.
  intros R. revert b. apply (reachable_invariant step init denies_ok); [| |exact R].
  - intros s0 -> b E. discriminate E.
  - intros s0 l s1 H E b. dstep E; cbn; try discriminate; try exact (H _); try (intros _; refine (H _ _); eassumption).
    all: intros _ X; apply app_eq_nil in X; destruct X; discriminate.
Qed.
