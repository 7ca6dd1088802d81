(** What decoding accepts and what it returns, in terms of the grammar of SpecProtocol.v
    (statements C91 of P_Messages.v). *)
From Verif Require Import GoBase SpecWire SpecFrames SpecProtocol Conn BufferProofs FrameProofs FrameFacts
  MessageProofs ConnProofs ConnFacts.
From Coq Require Import ZifyBool ZifyNat ZifyN.
Arguments Z.pow : simpl never.

Lemma dispatch_not_negotiate f m : dispatch f = Ok m -> ~ is_negotiate m.
Proof.
  intros H. pose proof H as H0. apply dispatch_sound in H. destruct H as (t & b & Ht & Hb & l & tr & Hl & He & _).
  intros N. destruct m; try contradiction. inversion He; subst.
  unfold dispatch in H0. rewrite Ht in H0. cbn in H0. unfold ParseNoticeResponseMessage, parse_typed in H0. rewrite Ht in H0. discriminate H0.
Qed.

Lemma decode_exact : forall t body l rest r m, packet t body l -> stream r (l ++ rest) ->
  (exists r', RecvMessage r = Done (Ok m) r') <->
  (exists kept dropped, body = kept ++ dropped /\ encodes m t kept /\ (takes_all m -> dropped = []) /\ ~ is_negotiate m).
Proof.
  intros t body l rest r m Hp H. destruct (recv_packet _ _ _ _ _ Hp H) as (r' & E & _). split.
  - intros (r2 & E2). rewrite E in E2. injection E2 as E2 <-. pose proof (dispatch_not_negotiate _ _ E2) as N.
    apply dispatch_sound in E2. destruct E2 as (t' & b' & Ht & Hb & k & d & -> & He & Hn).
    rewrite NewStandardFrame_type in Ht. rewrite NewStandardFrame_body in Hb. injection Ht as <-. injection Hb as ->.
    exists k, d. auto.
  - intros (k & d & -> & He & Hn & N). exists r'. rewrite E. f_equal. apply dispatch_complete; assumption.
Qed.

Lemma startup_sound_tail f v ps : ParseStartupMessage f = Ok (StartupMessage v ps) ->
  exists l tr, MessageBody f = Ok (l ++ tr) /\ startup_encodes v ps l /\
    (ps = [] -> tr = [] \/ exists tr', tr = x00 :: tr').
Proof.
  unfold ParseStartupMessage. destruct (MessageBody f) as [b| |]; cbn [res_bind]; try discriminate.
  intros H. destruct (parse_startup_body b) as [x b'] eqn:E. cbn in H. subst x.
  unfold parse_startup_body in E. apply rd_bind_ok in E. destruct E as (v0 & b1 & H1 & H).
  apply sound_int32 in H1. destruct H1 as (l1 & -> & R1).
  destruct (0 <? rb_len b1) eqn:Eb.
  - apply rd_bind_ok in H. destruct H as (ps0 & b2 & H2 & H). injection H as <- <- <-.
    apply parse_params_sound in H2. destruct H2 as (l2 & -> & l3 & -> & R3). destruct ps0 as [|p ps0].
    + inversion R3; subst. exists l1, (([] ++ [x00]) ++ b2). split; [reflexivity|]. split; [constructor; exact R1|].
      intros _. right. exists b2. reflexivity.
    + exists (l1 ++ l3 ++ [x00]), b2. rewrite <- !app_assoc. split; [reflexivity|]. split; [constructor; [discriminate|exact R1|exact R3]|].
      discriminate.
  - injection H as <- <- <-. exists l1, b1. split; [reflexivity|]. split; [constructor; exact R1|]. intros _. left.
    unfold rb_len in Eb. destruct b1; [reflexivity|cbn [length] in Eb; lia].
Qed.

Lemma parse_startup_empty v l tr : int32_repr v l ->
  ParseStartupMessage (NewStartupFrame (l ++ x00 :: tr)) = Ok (StartupMessage v []).
Proof.
  intros H. unfold ParseStartupMessage. rewrite NewStartupFrame_body. cbn [res_bind].
  unfold parse_startup_body, rd_bind at 1. rewrite (complete_int32 _ _ _ H).
  destruct (0 <? rb_len (x00 :: tr)) eqn:E; [|reflexivity]. unfold rd_bind.
  assert (seq_repr param_repr [] []) as S0 by constructor.
  change (x00 :: tr) with ([] ++ x00 :: tr) at 2.
  rewrite (parse_params_complete _ _ _ _ S0); [reflexivity|]. cbn. lia.
Qed.

Lemma startup_packet_frame body l : startup_packet body l ->
  l = Bytes (NewStartupFrame body) /\ Z.of_nat (length body) + 4 < 2 ^ 31.
Proof.
  intros (len & R & ->). pose proof (int32_repr_range _ _ R) as Rr. unfold in_int32 in Rr. split; [|lia].
  rewrite NewStartupFrame_bytes, wrap32_id by exact Rr. rewrite <- (int32_repr_put _ _ R). reflexivity.
Qed.

Lemma decode_startup_exact : forall body l rest r v ps, startup_packet body l -> stream r (l ++ rest) ->
  (exists r', RecvStartupMessage r = Done (Ok (StartupMessage v ps)) r') <->
  (exists kept dropped, body = kept ++ dropped /\ startup_encodes v ps kept /\
     (ps = [] -> dropped = [] \/ exists d, dropped = x00 :: d)).
Proof.
  intros body l rest r v ps Hp H. destruct (startup_packet_frame _ _ Hp) as [-> Hl].
  destruct (startup_frame_survives _ _ _ Hl H) as (r' & E & H1 & H2 & _).
  unfold RecvStartupMessage. rewrite E. cbn [res_bind]. split.
  - intros (r2 & E2). injection E2 as E2 _. apply startup_sound_tail in E2. destruct E2 as (k & d & Hb & He & Hd).
    rewrite NewStartupFrame_body in Hb. injection Hb as ->. exists k, d. auto.
  - intros (k & d & -> & He & Hd). exists r'. f_equal. destruct ps as [|p ps].
    + destruct (Hd eq_refl) as [-> | (d' & ->)]; [apply parse_startup_complete; auto|].
      inversion He; subst; [|congruence]. apply parse_startup_empty. assumption.
    + apply parse_startup_complete; [exact He|discriminate].
Qed.

Lemma decode_negotiate_exact : forall body m,
  ParseNegotiateProtocolVersionMessage (NewStandardFrame "v" body) = Ok m <->
  (exists kept dropped, body = kept ++ dropped /\ encodes m "v" kept).
Proof.
  intros body m. split.
  - intros H. apply sound_Negotiate in H. destruct H as (b & _ & Hb & k & d & -> & He & _).
    rewrite NewStandardFrame_body in Hb. injection Hb as ->. eauto.
  - intros (k & d & -> & He). inversion He; subst.
    + exact (own_parser_complete _ _ _ d He (fun x => match x with end)).
    + exfalso. match goal with H : ~ structured_type _ |- _ => apply H end. cbn. tauto.
Qed.
