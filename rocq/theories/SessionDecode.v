(** What the session decodes from what arrives. *)
From Verif Require Import BufferProofs FrameProofs FrameFacts ConnProofs ConnFacts.
From Verif Require Export SessionPipe.
Require Import Lia.

Lemma frame_at_more hdr s f rest b : frame_at hdr s f rest -> frame_at hdr (s ++ b) f (rest ++ b).
Proof. intros (tag & len & body & L & -> & H). exists tag, len, body, L. rewrite <- app_assoc. auto. Qed.
Lemma decodes_snoc hdr parse s ms mid f rest m :
  decodes hdr parse s ms mid -> frame_at hdr mid f rest -> parse f = Ok m -> decodes hdr parse s (ms ++ [m]) rest.
Proof. induction 1; intros; cbn; econstructor; eauto. constructor. Qed.
Lemma decodes_more hdr parse s ms rest b : decodes hdr parse s ms rest -> decodes hdr parse (s ++ b) ms (rest ++ b).
Proof. induction 1; econstructor; eauto using frame_at_more. Qed.

Lemma recv_inv r m r' : RecvMessage r = Done (Ok m) r' ->
  fin r' = fin r /\ exists f, frame_at 5 (concat (chunks r)) f (concat (chunks r')) /\ dispatch (StandardFrame f) = Ok m.
Proof.
  unfold RecvMessage. destruct (ReadStandardFrame r) as [|x r1] eqn:E; [discriminate|]. intros H. injection H as H <-.
  destruct (ReadStandardFrame_inv _ _ _ E) as (Hf & [(f & -> & Hx)|(e & -> & _)]); [|discriminate H]. eauto.
Qed.
Lemma recv_startup_inv r m r' : RecvStartupMessage r = Done (Ok m) r' ->
  fin r' = fin r /\ exists f, frame_at 4 (concat (chunks r)) f (concat (chunks r')) /\ ParseStartupMessage (StartupFrame f) = Ok m.
Proof.
  unfold RecvStartupMessage. destruct (ReadStartupFrame r) as [|x r1] eqn:E; [discriminate|]. intros H. injection H as H <-.
  destruct (ReadStartupFrame_inv _ _ _ E) as (Hf & [(f & -> & Hx)|(e & -> & _)]); [|discriminate H]. eauto.
Qed.

Definition reading (s : state) (d : side) : Prop :=
  in_pc s d <> IExit /\ match start_pc s with SDefer _ | SDone _ => False | _ => True end.
Definition unread (s : state) (d : side) (rest : bytes) : Prop :=
  match conns s d with
  | None => rest = []
  | Some c => concat (chunks (rd c)) = rest \/ concat (chunks (rd c)) = [] /\ fin (rd c) <> None
  end.
Definition dec_ok (s : state) (d : side) : Prop :=
  (in_pc s d = IOff -> msgs d (hist s) = []) /\
  exists mid rest, decodes_startup (arrived d (hist s)) (match d with Client => startups (hist s) | DB => [] end) mid /\
    decodes_standard mid (msgs d (hist s)) rest /\ (reading s d -> unread s d rest).
Lemma frame_at_nil hdr f rest : (4 <= hdr)%nat -> ~ frame_at hdr [] f rest.
Proof. intros Hh (tag & len & body & L & H & -> & _ & (Hl & _) & _). apply f_equal with (f := @length byte) in H. cbn in H. rewrite !app_length, Hl in H. lia. Qed.

Lemma dec_view s s' d : msgs d (hist s') = msgs d (hist s) -> arrived d (hist s') = arrived d (hist s) ->
  (d = Client -> startups (hist s') = startups (hist s)) ->
  (in_pc s' d = IOff -> in_pc s d = IOff) -> (reading s' d -> reading s d /\ conns s' d = conns s d) -> dec_ok s d -> dec_ok s' d.
Proof.
  intros H1 H2 H3 H4 H5 [D1 (mid & rest & D2 & D3 & D4)]. split; [rewrite H1; auto|]. exists mid, rest. rewrite H1, H2.
  split; [|split; [exact D3|]].
  - destruct d; [rewrite H3 by reflexivity|]; exact D2.
  - intros R. destruct (H5 R) as [R' E]. unfold unread in *. rewrite E. exact (D4 R').
Qed.
Lemma dec_step s l s' : phase_inv s -> (forall d, dec_ok s d) -> step s l = Some s' -> forall d, dec_ok s' d.
Proof.
  intros HP HD H. dstep H.
  all: intros d'; pose proof (HD d') as HD'; clear HD; pose proof (ph_phase _ HP) as H2.
  all: repeat match goal with E : start_pc _ = _ |- _ => rewrite E in H2; revert E end; intros.
  all: try match type of H2 with off _ /\ _ => destruct H2 as [(? & ? & ?Oc & ?Od & ?) ?Hc] end.
  all: sides; cbn in *.
  all: try solve [eapply dec_view; [| | | | |exact HD']; cbn; unfold supd, reading; cbn; rewrite ?app_nil_r; try reflexivity; try (intros; discriminate); try (intros; congruence);
     repeat match goal with E : start_pc _ = _ |- _ => rewrite E end; try tauto; intuition congruence].
  all: destruct HD' as [D1 (mid & bs & D2 & D3 & D4)].
  all: unfold reading, unread in D4; repeat match goal with E : conns _ _ = _ |- _ => rewrite E in D4 end; cbn in D4.
  all: split; [cbn; unfold supd; cbn; auto; try discriminate|].
  all: try (match goal with E : start_pc _ = SRecv |- _ => idtac end;
    match goal with E : recv_on _ ?c = Done _ _ |- _ => unfold recv_on in E; destruct (is_open c); [|discriminate E]; apply recv_startup_inv in E; destruct E as (Hf & f & Ef & Em) end;
    rewrite D1 in D3 by assumption; inversion D3; subst bs;
    assert (frame_at 4 mid f (concat (chunks rest))) as Ef' by
      (destruct D4 as [<-|[X _]]; [rewrite H, Heqs0; split; [discriminate|exact I]|exact Ef|rewrite X in Ef; apply frame_at_nil in Ef; [destruct Ef|lia]]);
    exists (concat (chunks rest)), (concat (chunks rest)); cbn [hist log with_conn with_start arrived startups msgs leave with_close]; rewrite D1 by assumption;
    split; [eapply decodes_snoc; eassumption|split; [constructor|]];
    intros _; unfold unread; cbn; left; reflexivity).
  all: repeat match goal with E : start_pc _ = _ |- _ => rewrite E in D4 end.
  1-2: exists (mid ++ b), (bs ++ b); cbn; split; [apply decodes_more; exact D2|split; [apply decodes_more; exact D3|]];
    intros R; destruct (D4 R) as [<-|[_ X]]; [|destruct X; reflexivity]; unfold unread; cbn; left; rewrite concat_app; cbn; rewrite app_nil_r; reflexivity.
  1-2: exists mid, bs; cbn; repeat split; auto; intros R; destruct (D4 R) as [<-|[_ X]]; [|destruct X; reflexivity]; unfold unread; cbn; left; reflexivity.
  1-2: exists mid, bs; cbn; repeat split; auto; intros R; unfold unread; cbn; right; split; [reflexivity|discriminate].
  2-3: exists mid, bs; cbn; repeat split; auto; intros R; exact (D4 R).
  2-3: match goal with E : recv_on _ ?c = Done _ _ |- _ => unfold recv_on in E; destruct (is_open c); [|discriminate E]; apply recv_inv in E; destruct E as (Hf & f & Ef & Em) end.
  - exists mid, bs. cbn. repeat split; auto. intros R. unfold unread. cbn. left. rewrite D4; auto.
  - assert (frame_at 5 bs f (concat (chunks rest))) as Ef'.
    { destruct D4 as [<-|[X _]]; [split; [rewrite Heqi; discriminate|]|exact Ef|rewrite X in Ef; apply frame_at_nil in Ef; [destruct Ef|lia]].
      unfold off, exited in H2. destruct (start_pc s); try exact I; intuition congruence. }
    exists mid, (concat (chunks rest)). cbn. split; [exact D2|]. split; [eapply decodes_snoc; eassumption|]. intros _. unfold unread. cbn. left. reflexivity.
  - assert (frame_at 5 bs f (concat (chunks rest))) as Ef'.
    { destruct D4 as [<-|[X _]]; [split; [rewrite Heqi; discriminate|]|exact Ef|rewrite X in Ef; apply frame_at_nil in Ef; [destruct Ef|lia]].
      unfold off, exited in H2. destruct (start_pc s); try exact I; intuition congruence. }
    exists mid, (concat (chunks rest)). cbn. split; [exact D2|]. split; [eapply decodes_snoc; eassumption|]. intros _. unfold unread. cbn. left. reflexivity.
Qed.
Lemma dec_init d : dec_ok NewSession d.
Proof. split; [reflexivity|]. exists [], []. destruct d; cbn; (split; [constructor|split; [constructor|]]); intros _; cbn; auto. Qed.
