(** The statements of P_Messages.v, proved from ConnProofs.v. *)
From Verif Require Import GoBase SpecWire SpecFrames SpecProtocol Conn BufferProofs FrameProofs FrameFacts
  MessageProofs ConnProofs.
From Coq Require Import ZifyBool ZifyNat ZifyN.
Ltac Zify.zify_post_hook ::= Z.div_mod_to_equations.
Arguments Z.pow : simpl never.
Arguments Z.add : simpl never.
Arguments Z.mul : simpl never.
Arguments Z.of_nat : simpl never.
Arguments Z.to_nat : simpl never.

(** * C14, C15 *)

Lemma own_roundtrip : forall m, representable m -> own_parser m (Frame m) = Ok m.
Proof.
  intros m Hr. destruct m as [v ps| | | | | | | | | | | | | | | | | | | | | |t b];
  try match goal with
  | |- own_parser ?m _ = _ =>
      destruct (representable_encodes m I Hr) as (t & l & He);
      rewrite (encodes_Frame _ _ _ He), <- (app_nil_r l); apply own_parser_complete; [exact He|reflexivity]
  end.
  - destruct (startup_representable _ _ Hr) as (l & He & _).
    rewrite (startup_encodes_Frame _ _ _ He), <- (app_nil_r l). apply parse_startup_complete; [exact He|reflexivity].
  - reflexivity.
Qed.

Lemma recv_standard : forall m rest r, standard m -> ~ is_negotiate m -> representable m ->
  stream r (SendMessage m ++ rest) ->
  exists r', RecvMessage r = Done (Ok m) r' /\ stream r' rest /\ fin r' = fin r.
Proof.
  intros m rest r Hs Hn Hr H. destruct (representable_encodes m Hs Hr) as (t & l & He).
  unfold SendMessage in H. rewrite (encodes_Frame _ _ _ He) in H.
  destruct Hr as [_ Hb]. rewrite <- (encodes_size _ _ _ He) in Hb.
  destruct (std_frame_survives _ _ _ _ Hb H) as (r' & E & H1 & H2 & _). exists r'.
  unfold RecvMessage. rewrite E. cbn [res_bind]. rewrite <- (app_nil_r l), (dispatch_complete _ _ _ [] He Hn); auto.
Qed.

Lemma recv_startup : forall v ps rest r, representable (StartupMessage v ps) ->
  stream r (SendMessage (StartupMessage v ps) ++ rest) ->
  exists r', RecvStartupMessage r = Done (Ok (StartupMessage v ps)) r' /\ stream r' rest /\ fin r' = fin r.
Proof.
  intros v ps rest r Hr H. destruct (startup_representable _ _ Hr) as (l & He & Hl).
  unfold SendMessage in H. rewrite (startup_encodes_Frame _ _ _ He) in H.
  destruct Hr as [_ Hb]. rewrite <- Hl in Hb.
  destruct (startup_frame_survives _ _ _ Hb H) as (r' & E & H1 & H2 & _). exists r'.
  unfold RecvStartupMessage. rewrite E. cbn [res_bind]. rewrite <- (app_nil_r l), (parse_startup_complete _ _ _ [] He); auto.
Qed.

Lemma recv_sequence : forall ms rest r,
  Forall (fun m => standard m /\ ~ is_negotiate m /\ representable m) ms ->
  stream r (concat (map SendMessage ms) ++ rest) ->
  exists r', reads RecvMessage r ms r' /\ stream r' rest /\ fin r' = fin r.
Proof.
  intros ms rest r H. revert r. induction H as [|m ms (Hs & Hn & Hr) Hms IH]; intros r H.
  - exists r. split; [constructor|]. auto.
  - cbn [map concat] in H. rewrite <- app_assoc in H.
    destruct (recv_standard _ _ _ Hs Hn Hr H) as (r1 & E & H1 & F1).
    destruct (IH r1 H1) as (r2 & E2 & H2 & F2). exists r2.
    split; [econstructor; eassumption|]. split; [exact H2|congruence].
Qed.

(** * Packets *)

Lemma packet_frame t body l : packet t body l ->
  l = Bytes (NewStandardFrame t body) /\ Z.of_nat (length body) + 4 < 2 ^ 31.
Proof.
  intros (len & R & ->). pose proof (int32_repr_range _ _ R) as Rr. unfold in_int32 in Rr. split; [|lia].
  rewrite NewStandardFrame_bytes, wrap32_id by exact Rr. rewrite <- (int32_repr_put _ _ R). reflexivity.
Qed.

Lemma recv_packet t body l rest r : packet t body l -> stream r (l ++ rest) ->
  exists r', RecvMessage r = Done (dispatch (NewStandardFrame t body)) r' /\ stream r' rest /\ fin r' = fin r.
Proof.
  intros Hp H. destruct (packet_frame _ _ _ Hp) as [-> Hl].
  destruct (std_frame_survives _ _ _ _ Hl H) as (r' & E & H1 & H2 & _). exists r'.
  unfold RecvMessage. rewrite E. auto.
Qed.

Lemma negotiate_rejected : forall body l rest r, packet "v" body l -> stream r (l ++ rest) ->
  exists r', RecvMessage r = Done (Err ErrMalformedMessage) r'.
Proof. intros body l rest r Hp H. destruct (recv_packet _ _ _ _ _ Hp H) as (r' & E & _). exists r'. exact E. Qed.

Lemma typed_other_type T body f t : MessageType f = Ok t -> t <> T -> parse_typed T body f = Err ErrMalformedMessage.
Proof.
  intros Ht Hne. unfold parse_typed. rewrite Ht. cbn [res_bind]. rewrite byte_eqb_neq by exact Hne. reflexivity.
Qed.

Lemma typed_parsers_reject : forall p T f t, In (p, T) typed_parsers -> MessageType f = Ok t -> t <> T ->
  p f = Err ErrMalformedMessage.
Proof.
  intros p T f t Hi Ht Hne. unfold typed_parsers in Hi. cbn [In] in Hi.
  repeat destruct Hi as [Hi|Hi]; try contradiction; injection Hi as <- <-; eapply typed_other_type; eassumption.
Qed.

Lemma startup_frame_rejected : forall p T b, In (p, T) typed_parsers -> p (StartupFrame b) = Err ErrMalformedMessage.
Proof.
  intros p T b Hi. eapply typed_parsers_reject; [exact Hi|reflexivity|]. unfold typed_parsers in Hi. cbn [In] in Hi.
  repeat destruct Hi as [Hi|Hi]; try contradiction; injection Hi as <- <-; discriminate.
Qed.

(** * Forwarding *)

(** [forwards r l r']: the next message is received and sending it on writes exactly [l] *)
Lemma forward_exact m t body l rest r : encodes m t body -> ~ is_negotiate m -> packet t body l ->
  stream r (l ++ rest) ->
  exists r', RecvMessage r = Done (Ok m) r' /\ stream r' rest /\ fin r' = fin r /\ SendMessage m = l.
Proof.
  intros He Hn Hp H. destruct (recv_packet _ _ _ _ _ Hp H) as (r' & E & H1 & H2). exists r'.
  rewrite <- (app_nil_r body), (dispatch_complete _ _ _ [] He Hn) in E by reflexivity.
  repeat split; try assumption. unfold SendMessage. rewrite (encodes_Frame _ _ _ He).
  symmetry. apply packet_frame. exact Hp.
Qed.

Lemma unstructured_opaque t : opaque_backend_type t \/ opaque_frontend_type t -> ~ structured_type t.
Proof.
  unfold opaque_backend_type, opaque_frontend_type, structured_type. intros H Hs. cbn in H, Hs.
  intuition (subst; discriminate).
Qed.

Lemma backend_forwarded : forall l rest r, backend_packet l -> stream r (l ++ rest) ->
  exists m r', RecvMessage r = Done (Ok m) r' /\ stream r' rest /\ fin r' = fin r /\ SendMessage m = l.
Proof.
  intros l rest r [m t body l' Hk He Hp|t body l' Ht Hp] H.
  - exists m. eapply forward_exact; try eassumption. destruct m; cbn in Hk |- *; tauto.
  - exists (GenericMessage t body). eapply forward_exact; try eassumption.
    + constructor. apply unstructured_opaque. auto.
    + exact (fun x => x).
Qed.

Lemma frontend_forwarded : forall l rest r, frontend_packet l -> stream r (l ++ rest) ->
  exists m r', RecvMessage r = Done (Ok m) r' /\ stream r' rest /\ fin r' = fin r /\ SendMessage m = l.
Proof.
  intros l rest r [q body l' Hc Hp|p body l' Hc Hp|l' Hp|kind name body l' Hk Hc Hp|t body l' Ht Hp] H.
  - exists (Query q). eapply forward_exact; try eassumption; [constructor; exact Hc|exact (fun x => x)].
  - exists (Password p). eapply forward_exact; try eassumption; [constructor; exact Hc|exact (fun x => x)].
  - exists Terminate. eapply forward_exact; try eassumption; [constructor|exact (fun x => x)].
  - exists (CommandComplete (kind :: name)). eapply forward_exact; try eassumption; [|exact (fun x => x)].
    constructor. destruct Hc as [Hn ->]. split; [|reflexivity].
    intros [E|E]; [|exact (Hn E)]. subst kind. cbn in Hk. destruct Hk as [Hk|[Hk|[]]]; discriminate.
  - exists (GenericMessage t body). eapply forward_exact; try eassumption.
    + constructor. apply unstructured_opaque. auto.
    + exact (fun x => x).
Qed.

(** prefix theorem *)
Lemma std_frame_parts fb s rest : frame_at 5 s fb rest -> exists t len body,
  fb = t :: len ++ body /\ length len = 4%nat /\ s = t :: len ++ body ++ rest /\
  MessageType (StandardFrame fb) = Ok t /\ MessageBody (StandardFrame fb) = Ok body /\
  exists L, int32_repr L len /\ Z.of_nat (length body) = announced_body L.
Proof.
  intros (tag & len & body & L & Hs & Hf & Ht & HL & Hb). destruct tag as [|t [|? ?]]; try discriminate Ht.
  pose proof (int32_repr_length _ _ HL) as Hlen. exists t, len, body.
  split; [exact Hf|]. split; [exact Hlen|]. split; [rewrite Hs, Hf; cbn [app]; rewrite <- app_assoc; reflexivity|].
  rewrite Hf. split; [reflexivity|]. split; [|eauto].
  cbn [app MessageBody]. destruct len as [|? [|? [|? [|? [|? ?]]]]]; try discriminate Hlen. reflexivity.
Qed.
Lemma startup_frame_parts fb s rest : frame_at 4 s fb rest -> exists len body,
  fb = len ++ body /\ length len = 4%nat /\ s = len ++ body ++ rest /\
  MessageBody (StartupFrame fb) = Ok body.
Proof.
  intros (tag & len & body & L & Hs & Hf & Ht & HL & Hb). destruct tag as [|t ?]; try discriminate Ht.
  pose proof (int32_repr_length _ _ HL) as Hlen. exists len, body. cbn [app] in *.
  split; [exact Hf|]. split; [exact Hlen|]. split; [rewrite Hs, Hf, <- app_assoc; reflexivity|].
  rewrite Hf. cbn [MessageBody]. destruct len as [|? [|? [|? [|? [|? ?]]]]]; try discriminate Hlen. reflexivity.
Qed.

Lemma forwarding_prefix : forall r m r', RecvMessage r = Done (Ok m) r' ->
  exists t len kept dropped,
    concat (chunks r) = t :: len ++ (kept ++ dropped) ++ concat (chunks r') /\
    length len = 4%nat /\ Frame m = NewStandardFrame t kept.
Proof.
  intros r m r' H. unfold RecvMessage in H. destruct (ReadStandardFrame r) as [|x r1] eqn:E; [discriminate|].
  injection H as H <-. destruct (ReadStandardFrame_inv _ _ _ E) as [_ [(fb & -> & F)|(e & -> & _)]]; [|discriminate H].
  cbn [res_bind] in H. destruct (std_frame_parts _ _ _ F) as (t & len & body & Hf & Hlen & Hs & Ht & Hb & _).
  apply dispatch_sound in H. destruct H as (t' & b' & Ht' & Hb' & l & tr & Hl & He & _).
  rewrite Ht in Ht'. rewrite Hb in Hb'. injection Ht' as <-. injection Hb' as <-.
  exists t, len, l, tr. rewrite <- Hl. split; [exact Hs|]. split; [exact Hlen|]. apply encodes_Frame. exact He.
Qed.

Lemma startup_prefix : forall r m r', RecvStartupMessage r = Done (Ok m) r' ->
  exists len kept dropped,
    concat (chunks r) = len ++ (kept ++ dropped) ++ concat (chunks r') /\
    length len = 4%nat /\ Frame m = NewStartupFrame kept.
Proof.
  intros r m r' H. unfold RecvStartupMessage in H. destruct (ReadStartupFrame r) as [|x r1] eqn:E; [discriminate|].
  injection H as H <-. destruct (ReadStartupFrame_inv _ _ _ E) as [_ [(fb & -> & F)|(e & -> & _)]]; [|discriminate H].
  cbn [res_bind] in H. destruct (startup_frame_parts _ _ _ F) as (len & body & Hf & Hlen & Hs & Hb).
  apply startup_sound in H. destruct H as (v & ps & b & l & tr & -> & Hb' & -> & He).
  rewrite Hb in Hb'. injection Hb' as ->.
  exists len, l, tr. split; [exact Hs|]. split; [exact Hlen|]. apply startup_encodes_Frame. exact He.
Qed.

(** every parser, called directly *)
Lemma own_parser_prefix : forall k f m, own_parser k f = Ok m ->
  exists b kept dropped, MessageBody f = Ok b /\ b = kept ++ dropped /\ MessageBody (Frame m) = Ok kept.
Proof.
  intros k f m H.
  assert (forall t, kind_sound (own_parser k) t ->
    exists b kept dropped, MessageBody f = Ok b /\ b = kept ++ dropped /\ MessageBody (Frame m) = Ok kept) as G.
  { intros t Hk. apply Hk in H. destruct H as (b & _ & Hb & l & tr & -> & He & _). exists (l ++ tr), l, tr.
    split; [exact Hb|]. split; [reflexivity|]. rewrite (encodes_Frame _ _ _ He). apply NewStandardFrame_body. }
  destruct k; cbn [own_parser] in *.
  1: { apply startup_sound in H. destruct H as (v & ps & b & l & tr & -> & Hb & -> & He).
       exists (l ++ tr), l, tr. split; [exact Hb|]. split; [reflexivity|]. rewrite (startup_encodes_Frame _ _ _ He). reflexivity. }
  all: first [ eapply G; first [ exact auth_sound | apply sound_BackendKeyData | apply sound_CommandComplete
             | apply sound_DataRow | apply sound_EmptyQuery | apply sound_ErrorResponse | apply sound_NoticeResponse
             | apply sound_Negotiate | apply sound_ParameterStatus | apply sound_Password | apply sound_Query
             | apply sound_ReadyForQuery | apply sound_RowDescription | apply sound_Terminate ] | idtac ].
  unfold ParseGenericMessage in H. destruct (MessageType f) as [t| |]; try discriminate H. cbn [res_bind] in H.
  destruct (MessageBody f) as [b| |]; try discriminate H. cbn [res_bind] in H. injection H as <-.
  exists b, b, []. rewrite app_nil_r. auto.
Qed.

(** * C21, C22 *)

Lemma sync_rejected : forall l rest r, sync_packet l -> stream r (l ++ rest) ->
  exists e r', RecvMessage r = Done (Err e) r'.
Proof. intros l rest r Hp H. destruct (recv_packet _ _ _ _ _ Hp H) as (r' & E & _). do 2 eexists. exact E. Qed.

Lemma be_value_2' a b : be_value [a; b] = 256 * Z_of_byte a + Z_of_byte b.
Proof. rewrite be_value_2. lia. Qed.

Lemma describe_not_forwarded : forall l rest r, describe_packet l -> Z.of_nat (length l) < 81927 ->
  stream r (l ++ rest) -> forall m r', RecvMessage r <> Done (Ok m) r'.
Proof.
  intros l rest r (kind & name & body & Hk & Hc & Hp) Hl H m r' E.
  destruct (recv_packet _ _ _ _ _ Hp H) as (r1 & E1 & _). rewrite E1 in E. injection E as E _.
  destruct (packet_frame _ _ _ Hp) as [-> _].
  apply dispatch_sound in E. destruct E as (t' & b' & Ht & Hb & l0 & tr & Hb' & He & _).
  rewrite NewStandardFrame_type in Ht. rewrite NewStandardFrame_body in Hb.
  injection Ht as <-. injection Hb as <-. pose proof (encodes_size _ _ _ He) as Hsz.
  inversion He as [ | | | | | | | | | |vs l1 l2 Hi Hs| | | | | | | | | | |t b Hu]; subst.
  - pose proof (int16_repr_length _ _ Hi) as H2. destruct l1 as [|a [|b [|? ?]]]; try discriminate H2.
    cbn [app] in Hb'. injection Hb' as -> Hb'.
    destruct Hi as (_ & Hr & Hv). rewrite be_value_2' in Hv.
    assert (80 <= Z_of_byte a) by (cbn in Hk; destruct Hk as [<-|[<-|[]]]; cbn; lia).
    pose proof (Z_of_byte_range b).
    assert (20480 <= Z.of_nat (length vs)) by (destruct (Z.ltb_spec (Z.of_nat (length vs)) 0); lia).
    cbn [app] in Hsz.
    pose proof (seq_size _ _ _ _ column_size Hs) as Hs2.
    assert (4 * Z.of_nat (length vs) <= Z.of_nat (length l2)) as Hcols.
    { clear - Hs. induction Hs as [|v vs lv l Hv Hs IH]; [cbn; lia|]. rewrite app_length. cbn [length].
      pose proof (column_size _ _ Hv). unfold size in *. destruct v; lia. }
    rewrite NewStandardFrame_bytes in Hl. cbn [length] in Hl. rewrite app_length, length_put32 in Hl. cbn [length] in Hl.
    rewrite Hb' in Hl. cbn [length] in Hl. rewrite app_length in Hl. lia.
  - apply Hu. cbn. tauto.
Qed.

Lemma describe_crashes : forall kind c zb z tail l rest r,
  In kind ["S"; "P"]%byte -> int32_repr z zb -> z < -1 ->
  packet "D" (kind :: c :: zb ++ tail) l -> stream r (l ++ rest) ->
  exists q r', RecvMessage r = Done (Panic q) r'.
Proof.
  intros kind c zb z tail l rest r Hk Hz Hlt Hp H. destruct (recv_packet _ _ _ _ _ Hp H) as (r' & E & _).
  assert (crashing "D" (kind :: c :: zb ++ tail)) as Hc.
  { right. split; [reflexivity|]. right.
    exists (wrap16 (be_value [kind; c])), [kind; c], [], [], z, zb, tail.
    pose proof (int16_repr_wrap [kind; c] eq_refl) as R.
    split; [reflexivity|]. split; [exact R|]. split; [constructor|]. split; [|split; [exact Hz|exact Hlt]].
    destruct R as (_ & Hr & Hv). rewrite be_value_2' in *. pose proof (Z_of_byte_range c).
    assert (80 <= Z_of_byte kind < 128) by (cbn in Hk; destruct Hk as [<-|[<-|[]]]; cbn; lia).
    change (8 * Z.of_nat 2 - 1) with 15 in Hr. change (8 * Z.of_nat 2) with 16 in Hv.
    change (2 ^ 15) with 32768 in Hr. change (2 ^ 16) with 65536 in Hv.
    destruct (wrap16 _ <? 0) eqn:E0; cbn [length]; lia. }
  apply (dispatch_panic _ _ _ (NewStandardFrame_type _ _) (NewStandardFrame_body _ _)) in Hc.
  destruct Hc as (q & Hq). exists q, r'. rewrite E, Hq. reflexivity.
Qed.

Lemma bytes_of_frame t b : Bytes (NewStandardFrame t b) =
  t :: put_uint32 (uwrap32 (wrap32 (Z.of_nat (length b) + 4))) ++ b.
Proof. reflexivity. Qed.

(** Execute with a row limit below 2^24 (0 = no limit): some of the row-limit bytes are dropped *)
Lemma execute_truncated : forall portal rows l rest r, 0 <= rows < 2 ^ 24 ->
  execute_packet portal rows l -> stream r (l ++ rest) ->
  exists m r', RecvMessage r = Done (Ok m) r' /\
    MessageBody (Frame m) = Ok (match portal with [] => [x00] | _ => portal ++ [x00; x00] end) /\
    SendMessage m <> l.
Proof.
  intros portal rows l rest r Hr (b1 & b2 & Hc & Hi & Hp) H.
  destruct (recv_packet _ _ _ _ _ Hp H) as (r' & E & _).
  destruct (packet_frame _ _ _ Hp) as [Hl _].
  pose proof (int32_repr_length _ _ Hi) as H4. destruct b2 as [|c0 [|c1 [|c2 [|c3 [|? ?]]]]]; try discriminate H4.
  assert (c0 = x00) as ->.
  { destruct Hi as (_ & Hr2 & Hv). apply Z_of_byte_inj. cbn in Hv. unfold be_value in Hv. cbn [fold_left] in Hv.
    pose proof (Z_of_byte_range c0). pose proof (Z_of_byte_range c1). pose proof (Z_of_byte_range c2). pose proof (Z_of_byte_range c3).
    change (Z_of_byte x00) with 0. change (2 ^ 24) with 16777216 in Hr. destruct (rows <? 0) eqn:E0; lia. }
  destruct Hc as [Hn ->].
  assert (exists m kept dropped, dispatch (NewStandardFrame "E" ((portal ++ [x00]) ++ [x00; c1; c2; c3])) = Ok m /\
    encodes m "E" kept /\ kept = (match portal with [] => [x00] | _ => portal ++ [x00; x00] end) /\
    (portal ++ [x00]) ++ [x00; c1; c2; c3] = kept ++ dropped /\ dropped <> []) as (m & kept & dropped & Hd & He & Hk & Hb & Hne).
  { destruct portal as [|c portal].
    - exists (ErrorResponse []), ([] ++ [x00]), [x00; c1; c2; c3].
      assert (encodes (ErrorResponse []) "E" ([] ++ [x00])) as He by (constructor; constructor).
      split; [|split; [exact He|split; [reflexivity|split; [reflexivity|discriminate]]]].
      apply (dispatch_complete _ _ _ [x00; c1; c2; c3] He); [exact (fun x => x)|intros []].
    - exists (ErrorResponse [Field c portal]), (((c :: portal ++ [x00]) ++ []) ++ [x00]), [c1; c2; c3].
      assert (encodes (ErrorResponse [Field c portal]) "E" (((c :: portal ++ [x00]) ++ []) ++ [x00])) as He.
      { constructor. constructor; [|constructor]. apply (mfield_intro (Field c portal)).
        - cbn. intros ->. apply Hn. left. reflexivity.
        - cbn. split; [|reflexivity]. intros Hi2. apply Hn. right. exact Hi2. }
      split; [|split; [exact He|]].
      + replace (((c :: portal) ++ [x00]) ++ [x00; c1; c2; c3])
          with ((((c :: portal ++ [x00]) ++ []) ++ [x00]) ++ [c1; c2; c3])
          by (rewrite app_nil_r; cbn [app]; rewrite <- !app_assoc; reflexivity).
        apply (dispatch_complete _ _ _ _ He); [exact (fun x => x)|intros []].
      + rewrite app_nil_r. split; [cbn [app]; rewrite <- app_assoc; reflexivity|].
        split; [cbn [app]; rewrite <- !app_assoc; reflexivity|discriminate]. }
  exists m, r'. rewrite E, Hd. split; [reflexivity|]. rewrite (encodes_Frame _ _ _ He).
  split; [rewrite NewStandardFrame_body, Hk; reflexivity|].
  unfold SendMessage. rewrite (encodes_Frame _ _ _ He), Hl. intros Heq.
  apply (f_equal (@length byte)) in Heq. rewrite !bytes_of_frame in Heq. cbn [length] in Heq.
  rewrite !(app_length (put_uint32 _)), !length_put32, Hb, app_length in Heq. destruct dropped; [congruence|]. cbn [length] in Heq. lia.
Qed.

Lemma auth_forwarded : forall m body l rest r, encodes m "R" body -> packet "R" body l -> stream r (l ++ rest) ->
  exists r', RecvMessage r = Done (Ok m) r' /\ stream r' rest /\ fin r' = fin r /\ SendMessage m = l.
Proof. intros m body l rest r He Hp H. eapply forward_exact; try eassumption. inversion He; subst; exact (fun x => x). Qed.

Lemma auth_rejected : forall code lc data l rest r, ~ In code [0; 2; 3; 5; 6; 7; 8; 9] ->
  int32_repr code lc -> packet "R" (lc ++ data) l -> stream r (l ++ rest) ->
  exists r', RecvMessage r = Done (Err ErrUnsupportedAuth) r'.
Proof.
  intros code lc data l rest r Hn Hi Hp H. destruct (recv_packet _ _ _ _ _ Hp H) as (r' & E & _). exists r'.
  rewrite E. f_equal.
  change (dispatch (NewStandardFrame "R" (lc ++ data))) with (ParseAuthenticationRequestMessage (NewStandardFrame "R" (lc ++ data))).
  refine (eq_trans (parse_typed_new _ _ _) _). unfold parse_auth_body, rd_bind at 1. rewrite (complete_int32 _ _ _ Hi).
  unfold authStatusCodeOk, authStatusCodeKerberosV5, authStatusCodeCleartextPassword, authStatusCodeMD5Password,
    authStatusCodeSCMCredential, authStatusCodeGSS, authStatusCodeGSSContinue, authStatusCodeSSPI.
  cbn [In] in Hn.
  repeat match goal with |- context [code =? ?k] => destruct (Z.eqb_spec code k); [exfalso; apply Hn; subst; tauto|] end.
  reflexivity.
Qed.

Lemma binary_response_rejected : forall body l rest r, nul_free body -> packet "p" body l -> stream r (l ++ rest) ->
  exists e r', RecvMessage r = Done (Err e) r'.
Proof.
  intros body l rest r Hn Hp H. destruct (recv_packet _ _ _ _ _ Hp H) as (r' & E & _). exists ErrNoTerminator, r'.
  rewrite E. f_equal.
  change (dispatch (NewStandardFrame "p" body)) with (ParsePasswordMessage (NewStandardFrame "p" body)).
  refine (eq_trans (parse_typed_new _ _ _) _). unfold rd_bind.
  destruct (ReadString body) as [x b'] eqn:Er. apply ReadString_inv in Er.
  destruct Er as [(s & ls & -> & -> & [_ ->])|(-> & _)]; [|reflexivity].
  exfalso. apply Hn. apply in_or_app. left. apply in_or_app. right. left. reflexivity.
Qed.

Lemma binary_response_truncated : forall s tail l rest r, nul_free s -> tail <> [] ->
  packet "p" (s ++ x00 :: tail) l -> stream r (l ++ rest) ->
  exists r', RecvMessage r = Done (Ok (Password s)) r' /\ stream r' rest /\
    MessageBody (Frame (Password s)) = Ok (s ++ [x00]) /\ SendMessage (Password s) <> l.
Proof.
  intros s tail l rest r Hn Ht Hp H. destruct (recv_packet _ _ _ _ _ Hp H) as (r' & E & H1 & _). exists r'.
  destruct (packet_frame _ _ _ Hp) as [Hl _].
  assert (encodes (Password s) "p" (s ++ [x00])) as He by (constructor; split; auto).
  assert (s ++ x00 :: tail = (s ++ [x00]) ++ tail) as Hb by (rewrite <- app_assoc; reflexivity).
  rewrite E, Hb, (dispatch_complete _ _ _ tail He); [|exact (fun x => x)|intros []].
  split; [reflexivity|]. split; [exact H1|]. split; [rewrite (encodes_Frame _ _ _ He); apply NewStandardFrame_body|].
  unfold SendMessage. rewrite (encodes_Frame _ _ _ He), Hl, Hb. intros Heq.
  apply (f_equal (@length byte)) in Heq. rewrite !bytes_of_frame in Heq. cbn [length] in Heq.
  rewrite !(app_length (put_uint32 _)), !length_put32, !app_length in Heq. destruct tail; [congruence|]. cbn [length] in Heq. lia.
Qed.

(** * C23, C24 *)

Lemma crash_exactly : forall r,
  (exists q r', RecvMessage r = Done (Panic q) r') <->
  (exists t len L body rest, concat (chunks r) = t :: len ++ body ++ rest /\ int32_repr L len /\
     Z.of_nat (length body) = announced_body L /\ crashing t body).
Proof.
  intros r. split.
  - intros (q & r' & H). unfold RecvMessage in H. destruct (ReadStandardFrame r) as [|x r1] eqn:E; [discriminate|].
    injection H as H <-. destruct (ReadStandardFrame_inv _ _ _ E) as [_ [(fb & -> & F)|(e & -> & _)]]; [|discriminate H].
    cbn [res_bind] in H. destruct (std_frame_parts _ _ _ F) as (t & len & body & Hf & Hlen & Hs & Ht & Hb & L & HL & Hbody).
    exists t, len, L, body, (concat (chunks r1)). split; [exact Hs|]. split; [exact HL|]. split; [exact Hbody|].
    apply (dispatch_panic _ _ _ Ht Hb). eauto.
  - intros (t & len & L & body & rest & Hs & HL & Hb & Hc).
    assert (frame_at 5 (concat (chunks r)) (t :: len ++ body) rest) as F.
    { exists [t], len, body, L. rewrite Hs. split; [cbn [app]; rewrite <- app_assoc; reflexivity|]. repeat split; try apply HL. exact Hb. }
    destruct (ReadStandardFrame_ok _ _ _ F) as (r' & E & _).
    destruct (std_frame_parts _ _ _ F) as (t' & len' & body' & Hf & Hlen & _ & Ht & Hbd & _).
    cbn in Hf. injection Hf as <- Hf.
    destruct (app_inv_len _ _ _ _ Hf) as [<- <-]; [rewrite (int32_repr_length _ _ HL); congruence|].
    apply (dispatch_panic _ _ _ Ht Hbd) in Hc. destruct Hc as (q & Hq). exists q, r'.
    unfold RecvMessage. rewrite E. cbn [res_bind]. rewrite Hq. reflexivity.
Qed.

Lemma recv_never_starves : forall r r', fin r <> Some OutOfFuel -> RecvMessage r <> Done (Err OutOfFuel) r'.
Proof.
  intros r r' Hf H. unfold RecvMessage in H. destruct (ReadStandardFrame r) as [|x r1] eqn:E; [discriminate|].
  injection H as H <-. destruct (ReadStandardFrame_inv _ _ _ E) as [_ [(fb & -> & F)|(e & -> & He & _)]].
  - exact (dispatch_ns _ H).
  - cbn in H. injection H as ->. congruence.
Qed.

Lemma startup_never_crashes : forall r,
  (forall q r', RecvStartupMessage r <> Done (Panic q) r') /\
  (fin r <> Some OutOfFuel -> forall r', RecvStartupMessage r <> Done (Err OutOfFuel) r') /\
  (forall m r', RecvStartupMessage r = Done (Ok m) r' -> exists v ps, m = StartupMessage v ps).
Proof.
  intros r. unfold RecvStartupMessage. destruct (ReadStartupFrame r) as [|x r1] eqn:E; [repeat split; discriminate|].
  destruct (ReadStartupFrame_inv _ _ _ E) as [_ [(fb & -> & F)|(e & -> & He & _)]]; cbn [res_bind].
  - destruct (startup_frame_parts _ _ _ F) as (len & body & _ & _ & _ & Hb). split; [|split].
    + intros q r' [= H _]. exact (startup_no_panic _ _ Hb q H).
    + intros _ r' [= H _]. unfold ParseStartupMessage in H. rewrite Hb in H. cbn [res_bind] in H. revert H.
      enough (never_starves parse_startup_body) as N by apply N.
      apply ns_bind; [apply ns_int32|]. intros v b. destruct (0 <? rb_len b); [|discriminate].
      unfold rd_bind. destruct (parse_params (S (length b)) b) as [x b'] eqn:Ep. apply parse_params_fuel in Ep; [|lia].
      destruct Ep as [Ep _]. destruct x; cbn in *; congruence.
    + intros m r' [= H _]. apply startup_sound in H. destruct H as (v & ps & _ & _ & _ & -> & _). eauto.
  - repeat split; try discriminate. intros Hf r' [= -> _]. congruence.
Qed.

(** * C25 *)
Lemma nulls_preserved : forall r vs r', RecvMessage r = Done (Ok (DataRow vs)) r' ->
  exists len count cols dropped,
    concat (chunks r) = "D"%byte :: len ++ (count ++ cols ++ dropped) ++ concat (chunks r') /\
    length len = 4%nat /\
    int16_repr (Z.of_nat (length vs)) count /\ seq_repr column_repr vs cols /\
    MessageBody (Frame (DataRow vs)) = Ok (count ++ cols).
Proof.
  intros r vs r' H. unfold RecvMessage in H. destruct (ReadStandardFrame r) as [|x r1] eqn:E; [discriminate|].
  injection H as H <-. destruct (ReadStandardFrame_inv _ _ _ E) as [_ [(fb & -> & F)|(e & -> & _)]]; [|discriminate H].
  cbn [res_bind] in H. destruct (std_frame_parts _ _ _ F) as (t & len & body & Hf & Hlen & Hs & Ht & Hb & _).
  apply dispatch_sound in H. destruct H as (t' & b' & Ht' & Hb' & l & tr & Hl & He & _).
  rewrite Ht in Ht'. rewrite Hb in Hb'. injection Ht' as <-. injection Hb' as <-.
  pose proof (encodes_Frame _ _ _ He) as HF. inversion He; subst.
  exists len, l1, l2, tr. rewrite HF. split; [rewrite Hs, <- !app_assoc; reflexivity|]. split; [exact Hlen|].
  split; [assumption|]. split; [assumption|]. apply NewStandardFrame_body.
Qed.

(** * C26 *)
Lemma get_parameter_first : forall ps name,
  (exists pre v post, ps = pre ++ Param name v :: post /\ (forall p, In p pre -> p_name p <> name) /\
     GetParameter ps name = v) \/
  ((forall p, In p ps -> p_name p <> name) /\ GetParameter ps name = []).
Proof.
  intros ps name. induction ps as [|p ps IH].
  - right. split; [intros p []|reflexivity].
  - cbn [GetParameter]. destruct (bytes_eqb_spec (p_name p) name) as [<-|Hne].
    + left. exists [], (p_value p), ps. destruct p. repeat split. intros p [].
    + destruct IH as [(pre & v & post & -> & Hpre & Hg)|[Hall Hg]].
      * left. exists (p :: pre), v, post. repeat split; [|exact Hg]. intros p' [<-|Hi]; auto.
      * right. split; [|exact Hg]. intros p' [<-|Hi]; auto.
Qed.

(** * C27 *)
Lemma startup_encodes_size v ps l : startup_encodes v ps l -> Z.of_nat (length l) = body_size (StartupMessage v ps).
Proof.
  intros [v' l' H | v' ps' l1 l2 Hne H1 H2]; cbn [body_size].
  - rewrite (int32_repr_length _ _ H). reflexivity.
  - destruct ps'; [congruence|]. rewrite !app_length, (int32_repr_length _ _ H1).
    apply (seq_size _ _ _ _ param_size) in H2. rewrite <- H2. cbn [length]. lia.
Qed.

Lemma size_nonneg s : 0 <= size s. Proof. unfold size. lia. Qed.

Lemma elements_size m : elements m <= body_size m.
Proof.
  destruct m; cbn [elements body_size]; try (unfold size; lia).
  - destruct params as [|p ps]; [cbn; lia|].
    pose proof (sum_length (fun p => size (p_name p) + 1 + (size (p_value p) + 1)) (p :: ps)
      ltac:(intros a; pose proof (size_nonneg (p_name a)); pose proof (size_nonneg (p_value a)); lia)). lia.
  - pose proof (sum_length (fun v => match v with None => 4 | Some s => 4 + size s end) values
      ltac:(intros [a|]; [pose proof (size_nonneg a)|]; lia)). lia.
  - pose proof (sum_length (fun f => 1 + (size (mf_value f) + 1)) fields ltac:(intros a; pose proof (size_nonneg (mf_value a)); lia)). lia.
  - pose proof (sum_length (fun f => 1 + (size (mf_value f) + 1)) fields ltac:(intros a; pose proof (size_nonneg (mf_value a)); lia)). lia.
  - pose proof (sum_length (fun o => size o + 1) options ltac:(intros a; pose proof (size_nonneg a); lia)). lia.
  - pose proof (sum_length (fun f => size (fd_name f) + 1 + 18) fields ltac:(intros a; pose proof (size_nonneg (fd_name a)); lia)). lia.
Qed.

Lemma decoded_no_larger : forall r m r',
  RecvMessage r = Done (Ok m) r' \/ RecvStartupMessage r = Done (Ok m) r' ->
  elements m <= body_size m /\
  body_size m + 4 + Z.of_nat (length (concat (chunks r'))) <= Z.of_nat (length (concat (chunks r))).
Proof.
  intros r m r' H. split; [apply elements_size|]. destruct H as [H|H].
  - unfold RecvMessage in H. destruct (ReadStandardFrame r) as [|x r1] eqn:E; [discriminate|].
    injection H as H <-. destruct (ReadStandardFrame_inv _ _ _ E) as [_ [(fb & -> & F)|(e & -> & _)]]; [|discriminate H].
    cbn [res_bind] in H. destruct (std_frame_parts _ _ _ F) as (t & len & body & Hf & Hlen & Hs & Ht & Hb & _).
    apply dispatch_sound in H. destruct H as (t' & b' & Ht' & Hb' & l & tr & Hl & He & _).
    rewrite Hb in Hb'. injection Hb' as <-. rewrite <- (encodes_size _ _ _ He), Hs. cbn [length].
    rewrite !app_length, Hl, app_length. lia.
  - unfold RecvStartupMessage in H. destruct (ReadStartupFrame r) as [|x r1] eqn:E; [discriminate|].
    injection H as H <-. destruct (ReadStartupFrame_inv _ _ _ E) as [_ [(fb & -> & F)|(e & -> & _)]]; [|discriminate H].
    cbn [res_bind] in H. destruct (startup_frame_parts _ _ _ F) as (len & body & Hf & Hlen & Hs & Hb).
    apply startup_sound in H. destruct H as (v & ps & b & l & tr & -> & Hb' & -> & He).
    rewrite Hb in Hb'. injection Hb' as ->. rewrite <- (startup_encodes_size _ _ _ He), Hs, !app_length. lia.
Qed.

Lemma negotiate_negative_crash : forall v n lv ln tail, int32_repr v lv -> int32_repr n ln -> n < 0 ->
  ParseNegotiateProtocolVersionMessage (NewStandardFrame "v" (lv ++ ln ++ tail)) = Panic PanicMakeSlice.
Proof.
  intros v n lv ln tail Hv Hn Hneg. refine (eq_trans (parse_typed_new _ _ _) _).
  unfold rd_bind at 1. rewrite (complete_int32 _ _ _ Hv). unfold rd_bind at 1. rewrite (complete_int32 _ _ _ Hn).
  unfold rd_bind at 1, rd_lift, make_slice. replace (n <? 0) with true by lia. reflexivity.
Qed.
