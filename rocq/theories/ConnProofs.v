(** Lemmas about Conn.v and the parsers of Messages.v, against SpecProtocol.v. *)
From Verif Require Import GoBase SpecWire SpecFrames SpecProtocol Conn BufferProofs FrameProofs MessageProofs.
From Coq Require Import ZifyBool ZifyNat ZifyN.
Ltac Zify.zify_post_hook ::= Z.div_mod_to_equations.

Arguments Z.pow : simpl never.
Arguments Z.add : simpl never.
Arguments Z.mul : simpl never.
Arguments Z.of_nat : simpl never.
Arguments Z.to_nat : simpl never.

(** * Representable messages have an encoding *)

Lemma seq_size {A} (R : A -> bytes -> Prop) (f : A -> Z) xs l :
  (forall a la, R a la -> Z.of_nat (length la) = f a) -> seq_repr R xs l -> Z.of_nat (length l) = sum f xs.
Proof.
  intros HR H. induction H as [|a xs la l Ha Hs IH]; [reflexivity|].
  rewrite app_length. cbn [sum fold_right]. fold (sum f xs). rewrite <- IH, <- (HR _ _ Ha). lia.
Qed.

Lemma column_size v l : column_repr v l ->
  Z.of_nat (length l) = match v with None => 4 | Some s => 4 + size s end.
Proof. intros [l' H|v' l' H]; rewrite ?app_length, (int32_repr_length _ _ H); unfold size; lia. Qed.
Lemma mfield_size f l : mfield_repr f l -> Z.of_nat (length l) = 1 + (size (mf_value f) + 1).
Proof. intros [f' l' _ H]. cbn [length]. rewrite (cstring_length _ _ H). unfold size. lia. Qed.
Lemma param_size p l : param_repr p l ->
  Z.of_nat (length l) = size (p_name p) + 1 + (size (p_value p) + 1).
Proof. intros [p' l1 l2 _ H1 H2]. rewrite app_length, (cstring_length _ _ H1), (cstring_length _ _ H2). unfold size. lia. Qed.
Lemma option_size o l : cstring_repr o l -> Z.of_nat (length l) = size o + 1.
Proof. intros H. rewrite (cstring_length _ _ H). unfold size. lia. Qed.
Lemma descriptor_size f l : descriptor_repr f l -> Z.of_nat (length l) = size (fd_name f) + 1 + 18.
Proof.
  intros [f' l1 l2 l3 l4 l5 l6 l7 H1 [H2 _] H3 [H4 _] H5 H6 H7].
  rewrite !app_length, (cstring_length _ _ H1), H2, (int16_repr_length _ _ H3), H4,
    (int16_repr_length _ _ H5), (int32_repr_length _ _ H6), (int16_repr_length _ _ H7). unfold size. lia.
Qed.

Lemma encodes_size m t l : encodes m t l -> Z.of_nat (length l) = body_size m.
Proof.
  intros H; destruct H; cbn [body_size]; rewrite ?app_length;
  repeat match goal with
  | H : int32_repr _ ?l |- _ => rewrite (int32_repr_length _ _ H); clear H
  | H : int16_repr _ ?l |- _ => rewrite (int16_repr_length _ _ H); clear H
  | H : cstring_repr _ ?l |- _ => rewrite (cstring_length _ _ H); clear H
  | H : seq_repr column_repr _ _ |- _ => apply (seq_size _ _ _ _ column_size) in H
  | H : seq_repr mfield_repr _ _ |- _ => apply (seq_size _ _ _ _ mfield_size) in H
  | H : seq_repr cstring_repr _ _ |- _ => apply (seq_size _ _ _ _ option_size) in H
  | H : seq_repr descriptor_repr _ _ |- _ => apply (seq_size _ _ _ _ descriptor_size) in H
  end; cbn [length]; try lia; unfold size in *; cbn [length]; lia.
Qed.

Lemma sum_nonneg {A} (f : A -> Z) xs : (forall a, 0 <= f a) -> 0 <= sum f xs.
Proof. intros H. induction xs as [|x xs IH]; cbn; [lia|]. specialize (H x). fold (sum f xs). lia. Qed.
Lemma sum_In {A} (f : A -> Z) xs x : (forall a, 0 <= f a) -> In x xs -> f x <= sum f xs.
Proof.
  intros H. induction xs as [|y xs IH]; cbn; [intros []|]. fold (sum f xs). intros [->|Hi].
  - pose proof (sum_nonneg f xs H). lia.
  - specialize (IH Hi). specialize (H y). lia.
Qed.
Lemma sum_length {A} (f : A -> Z) xs : (forall a, 1 <= f a) -> Z.of_nat (length xs) <= sum f xs.
Proof. intros H. induction xs as [|x xs IH]; cbn; [lia|]. fold (sum f xs). specialize (H x). lia. Qed.

Lemma in_int32_small z : 0 <= z < 2 ^ 31 -> in_int32 z.
Proof. unfold in_int32. change (2 ^ 31) with 2147483648. lia. Qed.
Lemma in_int16_small z : 0 <= z < 2 ^ 15 -> in_int16 z.
Proof. unfold in_int16. change (2 ^ 15) with 32768. lia. Qed.

Lemma column_ok v : 0 <= match v with None => 4 | Some s => 4 + size s end.
Proof. unfold size. destruct v; lia. Qed.

Lemma column_intro v : (match v with None => 4 | Some s => 4 + size s end) < 2 ^ 31 -> column_repr v (enc_value v).
Proof.
  destruct v as [v|]; intros H; cbn [enc_value].
  - unfold size in H. assert (in_int32 (Z.of_nat (length v))) as R by (apply in_int32_small; lia).
    rewrite (wrap32_id _ R). constructor. apply put32_repr. exact R.
  - constructor. apply put32_repr. unfold in_int32. change (2 ^ 31) with 2147483648. lia.
Qed.
Lemma mfield_intro' f : mfield_ok f -> mfield_repr f (enc_field f).
Proof. intros [H1 H2]. constructor; [exact H1|]. split; auto. Qed.
Lemma param_intro' p : param_ok p -> param_repr p (enc_param p).
Proof. intros (H1 & H2 & H3). constructor; [exact H1|split; auto|split; auto]. Qed.
Lemma descriptor_intro' f : descriptor_ok f -> descriptor_repr f (enc_descriptor f).
Proof.
  intros (H1 & H2 & H3 & H4 & H5 & H6 & H7).
  constructor; auto using put_oid_repr, put16_repr, put32_repr. split; auto.
Qed.

Lemma in_int32_lit z : (- 2 ^ 31 <=? z) && (z <? 2 ^ 31) = true -> in_int32 z.
Proof. unfold in_int32. lia. Qed.

Lemma representable_encodes m : standard m -> representable m -> exists t l, encodes m t l.
Proof.
  intros Hs [Hf Hb]. destruct m; cbn [standard fields_ok] in Hs, Hf; try contradiction.
  all: try (do 2 eexists; econstructor; apply put32_repr; apply in_int32_lit; reflexivity).
  - (* BackendKeyData *) destruct Hf. do 2 eexists. constructor; apply put32_repr; assumption.
  - do 2 eexists. constructor. split; [exact Hf|reflexivity].
  - (* DataRow *) cbn [body_size] in Hb. do 2 eexists. constructor.
    + apply put16_repr. apply in_int16_small. lia.
    + apply (seq_concat_intro _ enc_value). apply Forall_forall. intros v Hv. apply column_intro.
      pose proof (sum_In _ _ _ column_ok Hv). cbn beta in *. lia.
  - do 2 eexists. constructor. apply (seq_concat_intro _ enc_field). eapply Forall_impl; [|exact Hf]. exact mfield_intro'.
  - do 2 eexists. constructor. apply (seq_concat_intro _ enc_field). eapply Forall_impl; [|exact Hf]. exact mfield_intro'.
  - (* Negotiate *) destruct Hf as [Hv Ho]. cbn [body_size] in Hb. do 2 eexists. constructor.
    + apply put32_repr. exact Hv.
    + apply put32_repr. apply in_int32_small.
      pose proof (sum_length (fun o => size o + 1) options ltac:(intros; unfold size; lia)). lia.
    + apply (seq_concat_intro _ (fun o => o ++ [x00])). eapply Forall_impl; [|exact Ho]. intros o H. split; auto.
  - destruct Hf. do 2 eexists. constructor; split; auto.
  - do 2 eexists. constructor. split; [exact Hf|reflexivity].
  - do 2 eexists. constructor. split; [exact Hf|reflexivity].
  - destruct Hf as [Hl Hf]. do 2 eexists. constructor.
    + apply put16_repr. apply in_int16_small. lia.
    + apply (seq_concat_intro _ enc_descriptor). eapply Forall_impl; [|exact Hf]. exact descriptor_intro'.
  - do 2 eexists. constructor. exact Hs.
Qed.

(** * Parsers accept encodings *)

Lemma parse_typed_new T body b : parse_typed T body (NewStandardFrame T b) = fst (body b).
Proof.
  unfold parse_typed. rewrite NewStandardFrame_type, NewStandardFrame_body. cbn [res_bind].
  rewrite byte_eqb_refl. reflexivity.
Qed.

Lemma make_slice_ok n e : 0 <= n -> n * e <= 2 ^ 48 -> make_slice n e = Ok tt.
Proof.
  intros H1 H2. unfold make_slice. destruct ((n <? 0) || (2 ^ 48 <? n * e)) eqn:E; [|reflexivity].
  apply orb_true_iff in E. destruct E as [E|E]; apply Z.ltb_lt in E; lia.
Qed.

Lemma own_parser_complete m t l tr : encodes m t l -> (takes_all m -> tr = []) ->
  own_parser m (NewStandardFrame t (l ++ tr)) = Ok m.
Proof.
  intros H Htr. destruct H; cbn [own_parser takes_all] in *;
    try match type of Htr with True -> _ => specialize (Htr Coq.Init.Logic.I); subst tr; rewrite ?app_nil_r end.
  all: try (refine (eq_trans (parse_typed_new _ _ _) _)).
  all: rewrite <- ?app_assoc.
  - unfold parse_auth_body, rd_bind at 1. rewrite (complete_int32 _ _ _ H). reflexivity.
  - unfold parse_auth_body, rd_bind at 1. rewrite (complete_int32 _ _ _ H). reflexivity.
  - unfold parse_auth_body, rd_bind at 1. rewrite (complete_int32 _ _ _ H). reflexivity.
  - unfold parse_auth_body, rd_bind at 1. rewrite (complete_int32 _ _ _ H).
    cbn [Z.eqb Pos.eqb authStatusCodeOk authStatusCodeKerberosV5 authStatusCodeCleartextPassword authStatusCodeMD5Password].
    unfold rd_bind. change 4 with (Z.of_nat 4). rewrite (ReadBytes_app 4 [a; b; c; d] _ eq_refl). reflexivity.
  - unfold parse_auth_body, rd_bind at 1. rewrite (complete_int32 _ _ _ H). reflexivity.
  - unfold parse_auth_body, rd_bind at 1. rewrite (complete_int32 _ _ _ H). reflexivity.
  - unfold parse_auth_body, rd_bind at 1. rewrite (complete_int32 _ _ _ H).
    cbn [Z.eqb Pos.eqb authStatusCodeOk authStatusCodeKerberosV5 authStatusCodeCleartextPassword authStatusCodeMD5Password
         authStatusCodeSCMCredential authStatusCodeGSS authStatusCodeGSSContinue].
    unfold rd_bind, rb_len. rewrite <- (app_nil_r data) at 2. rewrite (ReadBytes_app _ data [] eq_refl). reflexivity.
  - unfold parse_auth_body, rd_bind at 1. rewrite (complete_int32 _ _ _ H). reflexivity.
  - unfold rd_bind. rewrite (complete_int32 _ _ _ H), (complete_int32 _ _ _ H0). reflexivity.
  - unfold rd_bind. rewrite (complete_string _ _ _ H). reflexivity.
  - unfold rd_bind at 1. rewrite (complete_int16 _ _ _ H). unfold rd_bind at 1, rd_lift.
    pose proof (int16_repr_range _ _ H) as R. unfold in_int16 in R. change (2 ^ 15) with 32768 in R.
    rewrite make_slice_ok by (change (2 ^ 48) with 281474976710656; lia).
    unfold rd_bind. rewrite Nat2Z.id, (parse_values_complete _ _ _ H0). reflexivity.
  - reflexivity.
  - unfold rd_bind. cbn [app]. rewrite (parse_fields_complete _ _ _ _ H); [reflexivity|].
    pose proof (seq_length_ge mfield_repr _ _ ltac:(intros ? ? [? ? ? ?]; cbn; lia) H).
    rewrite app_length. lia.
  - unfold rd_bind. cbn [app]. rewrite (parse_fields_complete _ _ _ _ H); [reflexivity|].
    pose proof (seq_length_ge mfield_repr _ _ ltac:(intros ? ? [? ? ? ?]; cbn; lia) H).
    rewrite app_length. lia.
  - unfold rd_bind at 1. rewrite (complete_int32 _ _ _ H). unfold rd_bind at 1. rewrite (complete_int32 _ _ _ H0).
    unfold rd_bind at 1, rd_lift.
    pose proof (int32_repr_range _ _ H0) as R. unfold in_int32 in R. change (2 ^ 31) with 2147483648 in R.
    rewrite make_slice_ok by (change (2 ^ 48) with 281474976710656; lia).
    unfold rd_bind. rewrite Nat2Z.id, (parse_options_complete _ _ _ H1). reflexivity.
  - unfold rd_bind. rewrite (complete_string _ _ _ H), (complete_string _ _ _ H0). reflexivity.
  - unfold rd_bind. rewrite (complete_string _ _ _ H). reflexivity.
  - unfold rd_bind. rewrite (complete_string _ _ _ H). reflexivity.
  - unfold rd_bind. cbn [app]. rewrite ReadByte_app. reflexivity.
  - unfold rd_bind at 1. rewrite (complete_int16 _ _ _ H). unfold rd_bind at 1, rd_lift.
    pose proof (int16_repr_range _ _ H) as R. unfold in_int16 in R. change (2 ^ 15) with 32768 in R.
    rewrite make_slice_ok by (change (2 ^ 48) with 281474976710656; lia).
    unfold rd_bind. rewrite Nat2Z.id, (parse_descriptors_complete _ _ _ H0). reflexivity.
  - reflexivity.
  - unfold ParseGenericMessage. rewrite NewStandardFrame_type, NewStandardFrame_body. reflexivity.
Qed.

(** the dispatcher picks the own parser of every standard message but NegotiateProtocolVersion *)
Lemma byte_eqb_unstructured t c : ~ structured_type t ->
  In c ["R"; "K"; "C"; "D"; "I"; "E"; "N"; "v"; "S"; "p"; "Q"; "Z"; "T"; "X"]%byte -> byte_eqb t c = false.
Proof. intros H Hc. apply byte_eqb_neq. intros ->. exact (H Hc). Qed.

Lemma dispatch_generic f t : MessageType f = Ok t -> ~ structured_type t -> dispatch f = ParseGenericMessage f.
Proof.
  intros Ht Hn. unfold dispatch. rewrite Ht. cbn [res_bind].
  unfold AuthenticationRequestMessageType, NegotiateProtocolVersionMessageType, BackendKeyDataMessageType,
    ParameterStatusMessageType, PasswordMessageType, ReadyForQueryMessageType, QueryMessageType,
    RowDescriptionMessageType, DataRowMessageType, CommandCompleteMessageType, EmptyQueryResponseMessageType,
    ErrorResponseMessageType, NoticeResponseMessageType, TerminateMessageType.
  rewrite !(byte_eqb_unstructured t) by (assumption || (cbn; tauto)). reflexivity.
Qed.

Lemma dispatch_own m t l b : encodes m t l -> ~ is_negotiate m ->
  dispatch (NewStandardFrame t b) = own_parser m (NewStandardFrame t b).
Proof.
  intros H Hn. destruct H; try reflexivity.
  - exfalso. apply Hn. exact I.
  - apply dispatch_generic with t; [reflexivity|assumption].
Qed.

Lemma dispatch_complete m t l tr : encodes m t l -> ~ is_negotiate m -> (takes_all m -> tr = []) ->
  dispatch (NewStandardFrame t (l ++ tr)) = Ok m.
Proof. intros H Hn Htr. rewrite (dispatch_own _ _ _ _ H Hn). apply own_parser_complete; assumption. Qed.

(** * Startup messages *)

Lemma startup_encodes_Frame v ps l : startup_encodes v ps l -> Frame (StartupMessage v ps) = NewStartupFrame l.
Proof.
  intros [v' l' H | v' ps' l1 l2 Hne H1 H2]; cbn [Frame].
  - rewrite (int32_repr_put _ _ H). reflexivity.
  - rewrite write_params_eq, <- (seq_concat _ _ _ _ param_enc H2), (int32_repr_put _ _ H1).
    destruct ps'; [congruence|]. unfold WriteByte, WriteInt32, WriteBytes. rewrite <- !app_assoc. reflexivity.
Qed.

Lemma parse_startup_complete v ps l tr : startup_encodes v ps l -> (ps = [] -> tr = []) ->
  ParseStartupMessage (NewStartupFrame (l ++ tr)) = Ok (StartupMessage v ps).
Proof.
  intros H Htr. unfold ParseStartupMessage. rewrite NewStartupFrame_body. cbn [res_bind].
  unfold parse_startup_body, rd_bind at 1. destruct H as [v' l' H | v' ps' l1 l2 Hne H1 H2].
  - rewrite (Htr eq_refl), (complete_int32 _ _ _ H). reflexivity.
  - rewrite <- !app_assoc, (complete_int32 _ _ _ H1).
    destruct (0 <? rb_len (l2 ++ [x00] ++ tr)) eqn:E.
    + unfold rd_bind. cbn [app]. rewrite (parse_params_complete _ _ _ _ H2); [reflexivity|].
      pose proof (seq_length_ge param_repr _ _ ltac:(intros ? ? [? ? ? ? [_ ->] ?]; rewrite !app_length; cbn; lia) H2).
      rewrite app_length. lia.
    + unfold rb_len in E. rewrite !app_length in E. cbn in E. lia.
Qed.

Lemma startup_representable v ps : representable (StartupMessage v ps) ->
  exists l, startup_encodes v ps l /\ Z.of_nat (length l) = body_size (StartupMessage v ps).
Proof.
  intros [[Hv Hps] _]. destruct ps as [|p ps].
  - eexists. split; [constructor; apply put32_repr; exact Hv | reflexivity].
  - assert (seq_repr param_repr (p :: ps) (concat (map enc_param (p :: ps)))) as S.
    { apply seq_concat_intro. eapply Forall_impl; [|exact Hps]. exact param_intro'. }
    eexists. split; [apply senc_params; [discriminate|apply put32_repr; exact Hv|exact S]|].
    rewrite !app_length, length_put32. apply (seq_size _ _ _ _ param_size) in S.
    cbn [body_size]. rewrite <- S. cbn [length]. lia.
Qed.

(** * Soundness: what is accepted is an encoding followed by dropped bytes *)

Definition parsed (t : byte) (b : bytes) (m : message) : Prop :=
  exists l tr, b = l ++ tr /\ encodes m t l /\ (takes_all m -> tr = []).

Lemma parse_typed_ok T body f m : parse_typed T body f = Ok m ->
  exists b b', MessageType f = Ok T /\ MessageBody f = Ok b /\ body b = (Ok m, b').
Proof.
  unfold parse_typed. destruct (MessageType f) as [t| |]; cbn [res_bind]; try discriminate.
  destruct (byte_eqb_spec t T) as [->|]; [|discriminate].
  destruct (MessageBody f) as [b| |]; cbn [res_bind]; try discriminate.
  destruct (body b) as [r b'] eqn:E. cbn [fst]. intros ->. eauto.
Qed.

Ltac sound_start H b tr :=
  let b' := fresh "b'" in
  apply parse_typed_ok in H; destruct H as (b & b' & Ht & Hb & H).

Lemma make_slice_inv n e : make_slice n e = Ok tt -> 0 <= n.
Proof. unfold make_slice. destruct (n <? 0) eqn:E; cbn; [discriminate|]. lia. Qed.

Lemma auth_sound f m : ParseAuthenticationRequestMessage f = Ok m ->
  exists b, MessageType f = Ok ("R")%byte /\ MessageBody f = Ok b /\ parsed "R" b m.
Proof.
  intros H. apply parse_typed_ok in H. destruct H as (b & b' & Ht & Hb & H). exists b.
  split; [exact Ht|]. split; [exact Hb|]. unfold parse_auth_body in H.
  apply rd_bind_ok in H. destruct H as (z & b1 & H1 & H). apply sound_int32 in H1. destruct H1 as (l1 & -> & R1).
  unfold authStatusCodeOk, authStatusCodeKerberosV5, authStatusCodeCleartextPassword, authStatusCodeMD5Password,
    authStatusCodeSCMCredential, authStatusCodeGSS, authStatusCodeGSSContinue, authStatusCodeSSPI in H.
  Ltac auth_simple H R1 l1 b1 := injection H as <- <-; exists l1, b1; split; [reflexivity|]; split; [constructor; exact R1 | intros []].
  destruct (Z.eqb_spec z 0) as [->|_]; [auth_simple H R1 l1 b1|].
  destruct (Z.eqb_spec z 2) as [->|_]; [auth_simple H R1 l1 b1|].
  destruct (Z.eqb_spec z 3) as [->|_]; [auth_simple H R1 l1 b1|].
  destruct (Z.eqb_spec z 5) as [->|_].
  { apply rd_bind_ok in H. destruct H as (s & b2 & H2 & H). apply sound_bytes in H2. destruct H2 as (l2 & -> & -> & Hs).
    destruct s as [|s0 [|s1 [|s2 [|s3 [|? ?]]]]]; try discriminate H.
    injection H as <- <-. exists (l1 ++ [s0; s1; s2; s3]), b2. rewrite <- app_assoc. split; [reflexivity|].
    split; [constructor; exact R1|intros []]. }
  destruct (Z.eqb_spec z 6) as [->|_]; [auth_simple H R1 l1 b1|].
  destruct (Z.eqb_spec z 7) as [->|_]; [auth_simple H R1 l1 b1|].
  destruct (Z.eqb_spec z 8) as [->|_].
  { apply rd_bind_ok in H. destruct H as (s & b2 & H2 & H). apply sound_bytes in H2. destruct H2 as (l2 & -> & -> & Hs).
    injection H as <- <-. exists (l1 ++ s), b2. rewrite <- app_assoc. split; [reflexivity|].
    split; [constructor; exact R1|]. intros _. unfold rb_len in Hs. rewrite app_length in Hs.
    apply length_zero_iff_nil. lia. }
  destruct (Z.eqb_spec z 9) as [->|_]; [auth_simple H R1 l1 b1|].
  discriminate H.
Qed.

Definition kind_sound (p : frame -> res message) (t : byte) : Prop :=
  forall f m, p f = Ok m -> exists b, MessageType f = Ok t /\ MessageBody f = Ok b /\ parsed t b m.

Lemma kind_intro T body : (forall b m b', body b = (Ok m, b') -> exists l, b = l ++ b' /\ encodes m T l /\ (takes_all m -> b' = [])) ->
  kind_sound (parse_typed T body) T.
Proof.
  intros H f m Hf. apply parse_typed_ok in Hf. destruct Hf as (b & b' & Ht & Hb & E).
  exists b. split; [exact Ht|]. split; [exact Hb|]. destruct (H _ _ _ E) as (l & -> & He & Hn). exists l, b'. auto.
Qed.

Lemma sound_BackendKeyData : kind_sound ParseBackendKeyDataMessage "K".
Proof.
  apply kind_intro. intros b m b' H.
  apply rd_bind_ok in H. destruct H as (z1 & b1 & H1 & H). apply sound_int32 in H1. destruct H1 as (l1 & -> & R1).
  apply rd_bind_ok in H. destruct H as (z2 & b2 & H2 & H). apply sound_int32 in H2. destruct H2 as (l2 & -> & R2).
  injection H as <- <-. exists (l1 ++ l2). rewrite <- app_assoc. split; [reflexivity|].
  split; [constructor; assumption|intros []].
Qed.
Lemma sound_CommandComplete : kind_sound ParseCommandCompleteMessage "C".
Proof.
  apply kind_intro. intros b m b' H.
  apply rd_bind_ok in H. destruct H as (z1 & b1 & H1 & H). apply sound_string in H1. destruct H1 as (l1 & -> & R1).
  injection H as <- <-. exists l1. split; [reflexivity|]. split; [constructor; assumption|intros []].
Qed.
Lemma sound_Password : kind_sound ParsePasswordMessage "p".
Proof.
  apply kind_intro. intros b m b' H.
  apply rd_bind_ok in H. destruct H as (z1 & b1 & H1 & H). apply sound_string in H1. destruct H1 as (l1 & -> & R1).
  injection H as <- <-. exists l1. split; [reflexivity|]. split; [constructor; assumption|intros []].
Qed.
Lemma sound_Query : kind_sound ParseQueryMessage "Q".
Proof.
  apply kind_intro. intros b m b' H.
  apply rd_bind_ok in H. destruct H as (z1 & b1 & H1 & H). apply sound_string in H1. destruct H1 as (l1 & -> & R1).
  injection H as <- <-. exists l1. split; [reflexivity|]. split; [constructor; assumption|intros []].
Qed.
Lemma sound_ParameterStatus : kind_sound ParseParameterStatusMessage "S".
Proof.
  apply kind_intro. intros b m b' H.
  apply rd_bind_ok in H. destruct H as (z1 & b1 & H1 & H). apply sound_string in H1. destruct H1 as (l1 & -> & R1).
  apply rd_bind_ok in H. destruct H as (z2 & b2 & H2 & H). apply sound_string in H2. destruct H2 as (l2 & -> & R2).
  injection H as <- <-. exists (l1 ++ l2). rewrite <- app_assoc. split; [reflexivity|].
  split; [constructor; assumption|intros []].
Qed.
Lemma sound_ReadyForQuery : kind_sound ParseReadyForQueryMessage "Z".
Proof.
  apply kind_intro. intros b m b' H.
  apply rd_bind_ok in H. destruct H as (z1 & b1 & H1 & H). apply sound_byte in H1. destruct H1 as (l1 & -> & ->).
  injection H as <- <-. exists [z1]. split; [reflexivity|]. split; [constructor; assumption|intros []].
Qed.
Lemma sound_DataRow : kind_sound ParseDataRowMessage "D".
Proof.
  apply kind_intro. intros b m b' H.
  apply rd_bind_ok in H. destruct H as (z1 & b1 & H1 & H). apply sound_int16 in H1. destruct H1 as (l1 & -> & R1).
  apply rd_bind_ok in H. destruct H as ([] & b2 & H2 & H). unfold rd_lift in H2. injection H2 as H2 <-.
  apply make_slice_inv in H2.
  apply rd_bind_ok in H. destruct H as (vs & b3 & H3 & H). apply parse_values_sound in H3.
  destruct H3 as (l2 & -> & Hl & R2). injection H as <- <-.
  exists (l1 ++ l2). rewrite <- app_assoc. split; [reflexivity|]. split; [|intros []].
  constructor; [|exact R2]. rewrite Hl, Z2Nat.id by exact H2. exact R1.
Qed.
Lemma sound_RowDescription : kind_sound ParseRowDescriptionMessage "T".
Proof.
  apply kind_intro. intros b m b' H.
  apply rd_bind_ok in H. destruct H as (z1 & b1 & H1 & H). apply sound_int16 in H1. destruct H1 as (l1 & -> & R1).
  apply rd_bind_ok in H. destruct H as ([] & b2 & H2 & H). unfold rd_lift in H2. injection H2 as H2 <-.
  apply make_slice_inv in H2.
  apply rd_bind_ok in H. destruct H as (vs & b3 & H3 & H). apply parse_descriptors_sound in H3.
  destruct H3 as (l2 & -> & Hl & R2). injection H as <- <-.
  exists (l1 ++ l2). rewrite <- app_assoc. split; [reflexivity|]. split; [|intros []].
  constructor; [|exact R2]. rewrite Hl, Z2Nat.id by exact H2. exact R1.
Qed.
Lemma sound_Negotiate : kind_sound ParseNegotiateProtocolVersionMessage "v".
Proof.
  apply kind_intro. intros b m b' H.
  apply rd_bind_ok in H. destruct H as (z0 & b0 & H0 & H). apply sound_int32 in H0. destruct H0 as (l0 & -> & R0).
  apply rd_bind_ok in H. destruct H as (z1 & b1 & H1 & H). apply sound_int32 in H1. destruct H1 as (l1 & -> & R1).
  apply rd_bind_ok in H. destruct H as ([] & b2 & H2 & H). unfold rd_lift in H2. injection H2 as H2 <-.
  apply make_slice_inv in H2.
  apply rd_bind_ok in H. destruct H as (vs & b3 & H3 & H). apply parse_options_sound in H3.
  destruct H3 as (l2 & -> & Hl & R2). injection H as <- <-.
  exists (l0 ++ l1 ++ l2). rewrite <- !app_assoc. split; [reflexivity|]. split; [|intros []].
  constructor; [exact R0| |exact R2]. rewrite Hl, Z2Nat.id by exact H2. exact R1.
Qed.
Lemma sound_ErrorResponse : kind_sound ParseErrorResponseMessage "E".
Proof.
  apply kind_intro. intros b m b' H.
  apply rd_bind_ok in H. destruct H as (vs & b3 & H3 & H). apply parse_fields_sound in H3.
  destruct H3 as (l2 & -> & l3 & -> & R2). injection H as <- <-.
  exists (l3 ++ [x00]). split; [reflexivity|]. split; [constructor; exact R2|intros []].
Qed.
Lemma sound_NoticeResponse : kind_sound ParseNoticeResponseMessage "N".
Proof.
  apply kind_intro. intros b m b' H.
  apply rd_bind_ok in H. destruct H as (vs & b3 & H3 & H). apply parse_fields_sound in H3.
  destruct H3 as (l2 & -> & l3 & -> & R2). injection H as <- <-.
  exists (l3 ++ [x00]). split; [reflexivity|]. split; [constructor; exact R2|intros []].
Qed.
Lemma sound_EmptyQuery : kind_sound ParseEmptyQueryResponseMessage "I".
Proof.
  apply kind_intro. intros b m b' H. unfold parse_empty, rb_len in H.
  destruct b as [|c b]; [|discriminate H]. injection H as <- <-. exists []. split; [reflexivity|].
  split; [constructor|reflexivity].
Qed.
Lemma sound_Terminate : kind_sound ParseTerminateMessage "X".
Proof.
  apply kind_intro. intros b m b' H. unfold parse_empty, rb_len in H.
  destruct b as [|c b]; [|discriminate H]. injection H as <- <-. exists []. split; [reflexivity|].
  split; [constructor|reflexivity].
Qed.

Lemma structured_dec t : structured_type t \/ ~ structured_type t.
Proof.
  unfold structured_type.
  destruct (in_dec (fun a b => reflect_dec _ _ (byte_eqb_spec a b)) t
    ["R"; "K"; "C"; "D"; "I"; "E"; "N"; "v"; "S"; "p"; "Q"; "Z"; "T"; "X"]%byte); auto.
Qed.

Lemma dispatch_sound f m : dispatch f = Ok m ->
  exists t b, MessageType f = Ok t /\ MessageBody f = Ok b /\ parsed t b m.
Proof.
  intros H. destruct (MessageType f) as [t| |] eqn:Ht; try (unfold dispatch in H; rewrite Ht in H; discriminate H).
  destruct (structured_dec t) as [Hs|Hs].
  - unfold dispatch in H. rewrite Ht in H. cbn [res_bind] in H.
    cbn in Hs. repeat (destruct Hs as [<-|Hs]; [cbn in H|]); try contradiction.
    all: match type of H with
      | ParseAuthenticationRequestMessage _ = _ => apply auth_sound in H
      | ParseBackendKeyDataMessage _ = _ => apply sound_BackendKeyData in H
      | ParseCommandCompleteMessage _ = _ => apply sound_CommandComplete in H
      | ParseDataRowMessage _ = _ => apply sound_DataRow in H
      | ParseEmptyQueryResponseMessage _ = _ => apply sound_EmptyQuery in H
      | ParseErrorResponseMessage _ = _ => apply sound_ErrorResponse in H
      | ParseNoticeResponseMessage _ = _ => apply sound_NoticeResponse in H
      | ParseParameterStatusMessage _ = _ => apply sound_ParameterStatus in H
      | ParsePasswordMessage _ = _ => apply sound_Password in H
      | ParseQueryMessage _ = _ => apply sound_Query in H
      | ParseReadyForQueryMessage _ = _ => apply sound_ReadyForQuery in H
      | ParseRowDescriptionMessage _ = _ => apply sound_RowDescription in H
      | ParseTerminateMessage _ = _ => apply sound_Terminate in H
      end; destruct H as (b & Ht' & Hb & Hp); rewrite Ht in Ht'; try discriminate Ht';
      do 2 eexists; (split; [reflexivity|]); (split; [exact Hb|exact Hp]).
  - rewrite (dispatch_generic f t Ht Hs) in H. unfold ParseGenericMessage in H. rewrite Ht in H. cbn [res_bind] in H.
    destruct (MessageBody f) as [b| |]; try discriminate H. cbn [res_bind] in H. injection H as <-.
    exists t, b. split; [reflexivity|]. split; [reflexivity|]. exists b, []. rewrite app_nil_r.
    split; [reflexivity|]. split; [constructor; exact Hs|reflexivity].
Qed.

(** startup *)
Lemma startup_sound f m : ParseStartupMessage f = Ok m ->
  exists v ps b l tr, m = StartupMessage v ps /\ MessageBody f = Ok b /\ b = l ++ tr /\ startup_encodes v ps l.
Proof.
  unfold ParseStartupMessage. destruct (MessageBody f) as [b| |]; cbn [res_bind]; try discriminate.
  intros H. destruct (parse_startup_body b) as [r b'] eqn:E. cbn in H. subst r.
  unfold parse_startup_body in E. apply rd_bind_ok in E. destruct E as (v & b1 & H1 & H).
  apply sound_int32 in H1. destruct H1 as (l1 & -> & R1).
  destruct (0 <? rb_len b1) eqn:Eb.
  - apply rd_bind_ok in H. destruct H as (ps & b2 & H2 & H). injection H as <- <-.
    apply parse_params_sound in H2. destruct H2 as (l2 & -> & l3 & -> & R3).
    exists v, ps, (l1 ++ (l3 ++ [x00]) ++ b2). destruct ps as [|p ps].
    + inversion R3; subst. exists l1, (([] ++ [x00]) ++ b2). repeat split. constructor. exact R1.
    + exists (l1 ++ l3 ++ [x00]), b2. rewrite <- !app_assoc. repeat split. constructor; [discriminate|exact R1|exact R3].
  - injection H as <- <-. exists v, [], (l1 ++ b1), l1, b1. repeat split. constructor. exact R1.
Qed.

(** * Panics *)

Definition never_panics {A} (p : rd A) : Prop := forall b q, fst (p b) <> Panic q.

Lemma np_int32 : never_panics ReadInt32.
Proof.
  intros b q. destruct (ReadInt32 b) as [r b'] eqn:E. apply ReadInt32_inv in E. cbn.
  destruct E as [(z & l & -> & _)|(-> & _)]; discriminate.
Qed.
Lemma np_int16 : never_panics ReadInt16.
Proof.
  intros b q. destruct (ReadInt16 b) as [r b'] eqn:E. apply ReadInt16_inv in E. cbn.
  destruct E as [(z & l & -> & _)|(-> & _)]; discriminate.
Qed.
Lemma np_string : never_panics ReadString.
Proof.
  intros b q. destruct (ReadString b) as [r b'] eqn:E. apply ReadString_inv in E. cbn.
  destruct E as [(z & l & -> & _)|(-> & _)]; discriminate.
Qed.
Lemma np_byte : never_panics ReadByte.
Proof.
  intros b q. destruct (ReadByte b) as [r b'] eqn:E. apply ReadByte_inv in E. cbn.
  destruct E as [(z & -> & _)|(-> & _)]; discriminate.
Qed.
Lemma np_ret {A} (a : A) : never_panics (rd_ret a).
Proof. intros b q. discriminate. Qed.
Lemma np_bind {A B} (m : rd A) (k : A -> rd B) : never_panics m -> (forall a, never_panics (k a)) -> never_panics (rd_bind m k).
Proof.
  intros Hm Hk b q. unfold rd_bind. specialize (Hm b). destruct (m b) as [[a|e|p] b'].
  - apply Hk.
  - discriminate.
  - exfalso. exact (Hm p eq_refl).
Qed.
Lemma np_descriptors n : never_panics (parse_descriptors n).
Proof.
  induction n as [|n IH]; [apply np_ret|]. cbn [parse_descriptors].
  repeat (apply np_bind; [first [apply np_string | apply np_int32 | apply np_int16 | exact IH] | intros ?]). apply np_ret.
Qed.

(** the body-level characterisation of panics of the two crashing parsers *)
Lemma bind_panic {A B} (m : rd A) (k : A -> rd B) b q :
  fst (rd_bind m k b) = Panic q <->
  fst (m b) = Panic q \/ exists a b1, m b = (Ok a, b1) /\ fst (k a b1) = Panic q.
Proof.
  unfold rd_bind. destruct (m b) as [[a|e|p] b1] eqn:E; cbn; split.
  - intros H. right. eauto.
  - intros [H|(a' & b' & [= <- <-] & H)]; [discriminate|exact H].
  - discriminate.
  - intros [H|(a' & b' & H & _)]; discriminate.
  - intros H. left. congruence.
  - intros [H|(a' & b' & H & _)]; [congruence|discriminate].
Qed.

Lemma parse_values_panic n b :
  (exists q, fst (parse_values n b) = Panic q) <->
  exists vs lv z lz rest, b = lv ++ lz ++ rest /\ seq_repr column_repr vs lv /\ (length vs < n)%nat /\
    int32_repr z lz /\ z < -1.
Proof.
  revert b. induction n as [|n IH]; intros b; split.
  - intros (q & H). discriminate H.
  - intros (vs & lv & z & lz & rest & _ & _ & H & _). lia.
  - intros (q & H). cbn [parse_values] in H. apply bind_panic in H. destruct H as [H|(z & b1 & H1 & H)].
    + exfalso. exact (np_int32 _ _ H).
    + apply sound_int32 in H1. destruct H1 as (l1 & -> & R1).
      destruct (Z.eqb_spec z (-1)) as [->|Hz].
      * apply bind_panic in H. destruct H as [H|(vs & b2 & _ & H)]; [|discriminate H].
        destruct (proj1 (IH b1) (ex_intro _ q H)) as (vs & lv & z & lz & rest & -> & S & Hl & R & Hz).
        exists (None :: vs), (l1 ++ lv), z, lz, rest. rewrite <- app_assoc. repeat split; try assumption; try apply R.
        -- constructor; [constructor; exact R1|exact S].
        -- cbn. lia.
      * apply bind_panic in H. destruct H as [H|(v & b2 & H2 & H)].
        -- destruct (ReadBytes z b1) as [r b'] eqn:E. apply ReadBytes_inv in E. cbn in H. subst r.
           destruct E as [(? & E & _)|[(E & _)|(E & _ & Hneg)]]; try discriminate E.
           exists [], [], z, l1, b1. split; [reflexivity|]. split; [constructor|]. split; [cbn; lia|]. split; [exact R1|lia].
        -- apply sound_bytes in H2. destruct H2 as (lv0 & -> & -> & Hv).
           apply bind_panic in H. destruct H as [H|(vs & b3 & _ & H)]; [|discriminate H].
           destruct (proj1 (IH b2) (ex_intro _ q H)) as (vs & lv & z' & lz & rest & -> & S & Hl & R & Hz').
           exists (Some v :: vs), ((l1 ++ v) ++ lv), z', lz, rest. rewrite <- !app_assoc. repeat split; try assumption; try apply R.
           ++ rewrite app_assoc. constructor; [constructor; rewrite Hv; exact R1|exact S].
           ++ cbn. lia.
  - intros (vs & lv & z & lz & rest & -> & S & Hl & R & Hz). cbn [parse_values].
    destruct S as [|v vs lv0 lv Hv S].
    + cbn [app]. exists PanicSliceBounds. apply bind_panic. right. exists z, rest. rewrite (complete_int32 _ _ _ R). split; [reflexivity|].
      destruct (Z.eqb_spec z (-1)); [lia|]. apply bind_panic. left. unfold ReadBytes, rb_len.
      destruct (_ <? z) eqn:?; [lia|]. destruct (z <? 0) eqn:?; [reflexivity|lia].
    + destruct (proj2 (IH (lv ++ lz ++ rest))) as (q & Hq).
      { exists vs, lv, z, lz, rest. cbn in Hl. repeat split; try assumption; try apply R. lia. }
      exists q. apply bind_panic. right. rewrite <- app_assoc. destruct Hv as [lv0 Hv|v lv0 Hv].
      * exists (-1), (lv ++ lz ++ rest). rewrite (complete_int32 _ _ _ Hv). split; [reflexivity|].
        cbn [Z.eqb Pos.eqb]. apply bind_panic. left. exact Hq.
      * rewrite <- app_assoc. exists (Z.of_nat (length v)), (v ++ lv ++ lz ++ rest). rewrite (complete_int32 _ _ _ Hv).
        split; [reflexivity|]. destruct (Z.eqb_spec (Z.of_nat (length v)) (-1)); [lia|].
        apply bind_panic. right. exists v, (lv ++ lz ++ rest). rewrite (ReadBytes_app _ _ _ eq_refl).
        split; [reflexivity|]. apply bind_panic. left. exact Hq.
Qed.

Lemma parse_typed_panic T body f : (exists q, parse_typed T body f = Panic q) ->
  (exists q, MessageType f = Panic q) \/ (exists q, MessageBody f = Panic q) \/
  exists b, MessageType f = Ok T /\ MessageBody f = Ok b /\ exists q, fst (body b) = Panic q.
Proof.
  intros (q & H). unfold parse_typed in H. destruct (MessageType f) as [t| |]; cbn [res_bind] in H.
  - destruct (byte_eqb_spec t T) as [Heq|]; [|discriminate H]. rewrite Heq.
    destruct (MessageBody f) as [b| |]; cbn [res_bind] in H; [|discriminate|eauto].
    right. right. eauto.
  - discriminate H.
  - eauto.
Qed.

Lemma no_panic_intro T body f t b : MessageType f = Ok t -> MessageBody f = Ok b -> never_panics body ->
  ~ exists q, parse_typed T body f = Panic q.
Proof.
  intros Ht Hb Hn H. apply parse_typed_panic in H. destruct H as [(q & H)|[(q & H)|(b' & _ & _ & q & H)]]; try congruence.
  exact (Hn _ _ H).
Qed.

Lemma np_auth : never_panics parse_auth_body.
Proof.
  apply np_bind; [apply np_int32|]. intros z.
  repeat match goal with |- never_panics (if ?c then _ else _) => destruct c end;
    try apply np_ret; try (intros b q; discriminate).
  - intros b q H. apply bind_panic in H. destruct (ReadBytes 4 b) as [r b'] eqn:E. apply ReadBytes_inv in E.
    destruct E as [(v & -> & _ & _ & Hv)|[(-> & _)|(_ & _ & E)]]; [| |lia].
    + destruct H as [H|(a & b1 & [= <- <-] & H)]; [discriminate H|].
      destruct v as [|? [|? [|? [|? [|? ?]]]]]; cbn in Hv; try lia; try discriminate H.
    + destruct H as [H|(a & b1 & H & _)]; discriminate H.
  - intros b q H. apply bind_panic in H. destruct (ReadBytes (rb_len b) b) as [r b'] eqn:E. apply ReadBytes_inv in E.
    destruct E as [(v & -> & _ & _ & Hv)|[(-> & _)|(_ & _ & E)]].
    + destruct H as [H|(a & b1 & _ & H)]; discriminate H.
    + destruct H as [H|(a & b1 & H & _)]; discriminate H.
    + unfold rb_len in E. lia.
Qed.
Lemma np_fields c : never_panics (fun b => (fs <- parse_fields (S (length b)) ;; rd_ret (c fs)) b : res message * bytes).
Proof.
  intros b q H. apply bind_panic in H. destruct H as [H|(a & b1 & _ & H)]; [|discriminate H].
  destruct (parse_fields (S (length b)) b) as [r b'] eqn:E. apply parse_fields_fuel in E; [|lia].
  cbn in H. destruct E as [_ E]. exact (E q H).
Qed.
Lemma np_empty m : never_panics (parse_empty m).
Proof. intros b q. unfold parse_empty. destruct (0 <? rb_len b); discriminate. Qed.

Lemma count_panic {A} (e : Z) (P : nat -> rd A) (k : A -> message) b :
  0 <= e <= 24 ->
  (exists q, fst ((n <- ReadInt16 ;; _ <- rd_lift (make_slice n e) ;; vs <- P (Z.to_nat n) ;; rd_ret (k vs)) b) = Panic q) <->
  negative_count b \/
  exists n l rest, b = l ++ rest /\ int16_repr n l /\ 0 <= n /\ exists q, fst (P (Z.to_nat n) rest) = Panic q.
Proof.
  intros He. split.
  - intros (q & H). apply bind_panic in H. destruct H as [H|(n & b1 & H1 & H)]; [exfalso; exact (np_int16 _ _ H)|].
    apply sound_int16 in H1. destruct H1 as (l & -> & R).
    destruct (n <? 0) eqn:En.
    + left. exists n, l, b1. repeat split; try apply R. lia.
    + right. exists n, l, b1. split; [reflexivity|]. split; [exact R|]. split; [lia|].
      apply bind_panic in H. pose proof (int16_repr_range _ _ R) as Rr. unfold in_int16 in Rr. change (2 ^ 15) with 32768 in Rr.
      unfold rd_lift in H. rewrite make_slice_ok in H by (change (2 ^ 48) with 281474976710656; nia).
      destruct H as [H|(u & b2 & [= <- <-] & H)]; [discriminate H|].
      apply bind_panic in H. destruct H as [H|(vs & b2 & _ & H)]; [eauto|discriminate H].
  - intros [(n & l & rest & -> & R & Hn)|(n & l & rest & -> & R & Hn & q & H)].
    + exists PanicMakeSlice. apply bind_panic. right. exists n, rest. rewrite (complete_int16 _ _ _ R). split; [reflexivity|].
      apply bind_panic. left. unfold rd_lift, make_slice. replace (n <? 0) with true by lia. reflexivity.
    + exists q. apply bind_panic. right. exists n, rest. rewrite (complete_int16 _ _ _ R). split; [reflexivity|].
      pose proof (int16_repr_range _ _ R) as Rr. unfold in_int16 in Rr. change (2 ^ 15) with 32768 in Rr.
      apply bind_panic. right. exists tt, rest. unfold rd_lift.
      rewrite make_slice_ok by (change (2 ^ 48) with 281474976710656; nia). split; [reflexivity|].
      apply bind_panic. left. exact H.
Qed.

Lemma row_panic b : (exists q, fst ((n <- ReadInt16 ;; _ <- rd_lift (make_slice n 24) ;;
    vs <- parse_values (Z.to_nat n) ;; rd_ret (DataRow vs)) b) = Panic q) <-> negative_count b \/ bad_column b.
Proof.
  rewrite count_panic by lia. split; (intros [H|H]; [left; exact H|]).
  - destruct H as (n & l & rest & -> & R & Hn & H). right. apply parse_values_panic in H.
    destruct H as (vs & lv & z & lz & rest' & -> & S & Hl & Rz & Hz).
    exists n, l, vs, lv, z, lz, rest'. repeat split; try assumption; try apply R; try apply Rz. lia.
  - destruct H as (n & l & vs & lv & z & lz & rest & -> & R & S & Hl & Rz & Hz). right.
    exists n, l, (lv ++ lz ++ rest). split; [reflexivity|]. split; [exact R|]. split; [lia|].
    apply parse_values_panic. exists vs, lv, z, lz, rest. repeat split; try assumption; try apply Rz. lia.
Qed.
Lemma rowdesc_panic b : (exists q, fst ((n <- ReadInt16 ;; _ <- rd_lift (make_slice n 8) ;;
    vs <- parse_descriptors (Z.to_nat n) ;; rd_ret (RowDescription vs)) b) = Panic q) <-> negative_count b.
Proof.
  rewrite count_panic by lia. split; [|auto]. intros [H|(n & l & rest & _ & _ & _ & q & H)]; [exact H|].
  exfalso. exact (np_descriptors _ _ _ H).
Qed.

Lemma dispatch_panic f t b : MessageType f = Ok t -> MessageBody f = Ok b ->
  (exists q, dispatch f = Panic q) <-> crashing t b.
Proof.
  intros Ht Hb. destruct (structured_dec t) as [Hs|Hs].
  - unfold dispatch. rewrite Ht. cbn [res_bind].
    cbn in Hs. repeat (destruct Hs as [<-|Hs]; [cbn -[parse_values parse_descriptors]|]); try contradiction.
    (* types that cannot crash *)
    all: try (split; [intros H; exfalso | intros [[? _]|[? _]]; discriminate]).
    all: try (revert H; eapply no_panic_intro; [exact Ht|exact Hb|]).
    all: repeat first [ apply np_auth | apply np_fields | apply np_empty | apply np_ret
                      | apply np_bind; [first [apply np_string | apply np_int32 | apply np_byte] | intros ?] ].
    + (* D *) split.
      * intros H. apply parse_typed_panic in H. destruct H as [(q & H)|[(q & H)|(b' & _ & Hb' & H)]]; try congruence.
        rewrite Hb in Hb'. injection Hb' as <-. apply row_panic in H. right. auto.
      * intros [[? _]|[_ H]]; [discriminate|]. apply row_panic in H. destruct H as (q & H). exists q.
        unfold ParseDataRowMessage, parse_typed. rewrite Ht, Hb. cbn [res_bind]. rewrite byte_eqb_refl. exact H.
    + (* T *) split.
      * intros H. apply parse_typed_panic in H. destruct H as [(q & H)|[(q & H)|(b' & _ & Hb' & H)]]; try congruence.
        rewrite Hb in Hb'. injection Hb' as <-. apply rowdesc_panic in H. left. auto.
      * intros [[_ H]|[? _]]; [|discriminate]. apply rowdesc_panic in H. destruct H as (q & H). exists q.
        unfold ParseRowDescriptionMessage, parse_typed. rewrite Ht, Hb. cbn [res_bind]. rewrite byte_eqb_refl. exact H.
  - rewrite (dispatch_generic _ _ Ht Hs). unfold ParseGenericMessage. rewrite Ht, Hb. cbn [res_bind]. split.
    + intros (q & H). discriminate H.
    + intros [[-> _]|[-> _]]; exfalso; apply Hs; cbn; tauto.
Qed.

Lemma startup_no_panic f b : MessageBody f = Ok b -> forall q, ParseStartupMessage f <> Panic q.
Proof.
  intros Hb q H. unfold ParseStartupMessage in H. rewrite Hb in H. cbn [res_bind] in H.
  unfold parse_startup_body in H. apply bind_panic in H. destruct H as [H|(v & b1 & _ & H)]; [exact (np_int32 _ _ H)|].
  destruct (0 <? rb_len b1); [|discriminate H].
  apply bind_panic in H. destruct H as [H|(ps & b2 & _ & H)]; [|discriminate H].
  destruct (parse_params (S (length b1)) b1) as [r b'] eqn:E. apply parse_params_fuel in E; [|lia].
  cbn in H. destruct E as [_ E]. exact (E q H).
Qed.

(** * Out of fuel never happens *)
Definition never_starves {A} (p : rd A) : Prop := forall b, fst (p b) <> Err OutOfFuel.

Lemma ns_int32 : never_starves ReadInt32.
Proof. intros b. destruct (ReadInt32 b) as [r b'] eqn:E. apply ReadInt32_inv in E. cbn. destruct E as [(z & l & -> & _)|(-> & _)]; discriminate. Qed.
Lemma ns_int16 : never_starves ReadInt16.
Proof. intros b. destruct (ReadInt16 b) as [r b'] eqn:E. apply ReadInt16_inv in E. cbn. destruct E as [(z & l & -> & _)|(-> & _)]; discriminate. Qed.
Lemma ns_string : never_starves ReadString.
Proof. intros b. destruct (ReadString b) as [r b'] eqn:E. apply ReadString_inv in E. cbn. destruct E as [(z & l & -> & _)|(-> & _)]; discriminate. Qed.
Lemma ns_byte : never_starves ReadByte.
Proof. intros b. destruct (ReadByte b) as [r b'] eqn:E. apply ReadByte_inv in E. cbn. destruct E as [(z & -> & _)|(-> & _)]; discriminate. Qed.
Lemma ns_bytes n : never_starves (ReadBytes n).
Proof. intros b. destruct (ReadBytes n b) as [r b'] eqn:E. apply ReadBytes_inv in E. cbn. destruct E as [(z & -> & _)|[(-> & _)|(-> & _)]]; discriminate. Qed.
Lemma ns_ret {A} (a : A) : never_starves (rd_ret a).
Proof. intros b. discriminate. Qed.
Lemma ns_make n e : never_starves (rd_lift (make_slice n e)).
Proof. intros b. unfold rd_lift, make_slice. destruct (_ || _); discriminate. Qed.
Lemma ns_bind {A B} (m : rd A) (k : A -> rd B) : never_starves m -> (forall a, never_starves (k a)) -> never_starves (rd_bind m k).
Proof.
  intros Hm Hk b. unfold rd_bind. specialize (Hm b). destruct (m b) as [[a|e|p] b']; [apply Hk| |discriminate].
  intros H. apply Hm. cbn in *. congruence.
Qed.
Ltac ns := repeat first
  [ apply ns_ret | apply ns_int32 | apply ns_int16 | apply ns_string | apply ns_byte | apply ns_bytes | apply ns_make
  | apply ns_bind; [ | intros ? ] | match goal with |- never_starves (if ?c then _ else _) => destruct c end
  | match goal with H : never_starves ?p |- never_starves ?p => exact H end ].
Lemma ns_values n : never_starves (parse_values n).
Proof. induction n as [|n IH]; cbn [parse_values]; ns. Qed.
Lemma ns_descriptors n : never_starves (parse_descriptors n).
Proof. induction n as [|n IH]; cbn [parse_descriptors]; ns. Qed.
Lemma ns_fields c : never_starves (fun b => (fs <- parse_fields (S (length b)) ;; rd_ret (c fs)) b : res message * bytes).
Proof.
  intros b. unfold rd_bind. destruct (parse_fields (S (length b)) b) as [r b'] eqn:E.
  apply parse_fields_fuel in E; [|lia]. destruct r as [a|e|p]; [discriminate| |discriminate]. cbn. destruct E as [E _].
  intros H. apply E. cbn in *. congruence.
Qed.
Lemma ns_empty m : never_starves (parse_empty m).
Proof. intros b. unfold parse_empty. destruct (0 <? rb_len b); discriminate. Qed.
Lemma ns_auth : never_starves parse_auth_body.
Proof.
  apply ns_bind; [apply ns_int32|]. intros z.
  repeat match goal with |- never_starves (if ?c then _ else _) => destruct c end;
    try apply ns_ret; try (intros b; discriminate).
  - apply ns_bind; [apply ns_bytes|]. intros [|? [|? [|? [|? [|? ?]]]]]; intros ?; discriminate.
  - intros b. revert b. enough (forall n, never_starves (data <- ReadBytes n ;; rd_ret (AuthenticationGSSContinue data))) as H
      by (intros b; apply H). intros n. ns.
Qed.

Lemma typed_ns T body f : never_starves body -> parse_typed T body f <> Err OutOfFuel.
Proof.
  intros H. unfold parse_typed.
  destruct f as [[|c f]|f]; cbn [MessageType res_bind]; try discriminate;
  (destruct (byte_eqb _ T); [|discriminate]); cbn [MessageBody];
  match goal with |- context [Nat.ltb ?a ?b] => destruct (Nat.ltb a b) end; cbn [res_bind]; try discriminate; apply H.
Qed.

Lemma dispatch_ns f : dispatch f <> Err OutOfFuel.
Proof.
  unfold dispatch. destruct (MessageType f) as [t|e|p] eqn:Ht; cbn [res_bind].
  - repeat match goal with |- (if ?c then _ else _) <> _ => destruct c end;
    try (apply typed_ns; first [ apply ns_auth | apply ns_fields | apply ns_empty | ns; first [apply ns_values | apply ns_descriptors] ]);
    try (apply typed_ns; solve [ns]).
    all: try (apply typed_ns; repeat first [apply ns_values | apply ns_descriptors | progress ns]).
    unfold ParseGenericMessage. rewrite Ht. cbn [res_bind].
    destruct f as [f|f]; cbn [MessageBody]; destruct (Nat.ltb _ _); discriminate.
  - destruct f as [[|? ?]|?]; discriminate Ht.
  - discriminate.
Qed.
