(** What becomes of every Execute, and of every Describe below 16 MB. *)
From Coq Require Import ZArith List Lia Bool Strings.Byte.
Import ListNotations.
From Verif Require Import GoBase SpecWire SpecFrames SpecProtocol Conn BufferProofs FrameProofs FrameFacts MessageProofs ConnProofs ConnFacts.
Local Open Scope Z_scope.

Lemma fields_step n c v rest : c <> x00 -> nul_free v -> parse_fields (S n) (c :: v ++ x00 :: rest) =
  match parse_fields n rest with (Ok fs, r) => (Ok (Field c v :: fs), r) | (Err e, r) => (Err e, r) | (Panic p, r) => (Panic p, r) end.
Proof.
  intros C V. cbn [parse_fields]. unfold rd_bind at 1. rewrite ReadByte_app. replace (byte_eqb c x00) with false by (destruct c; try reflexivity; congruence).
  unfold rd_bind at 1. replace (v ++ x00 :: rest) with ((v ++ [x00]) ++ rest) by (rewrite <- app_assoc; reflexivity).
  rewrite (ReadString_repr v (v ++ [x00])) by (split; [exact V|reflexivity]). unfold rd_bind. destruct (parse_fields n rest) as [[fs|e|p] r]; reflexivity.
Qed.
Lemma fields_end n rest : parse_fields (S n) (x00 :: rest) = (Ok [], rest).
Proof. cbn [parse_fields]. unfold rd_bind. rewrite ReadByte_app. reflexivity. Qed.
Lemma fields_nil n : parse_fields (S n) [] = (Err EOF, []).
Proof. reflexivity. Qed.
Lemma fields_open n c v : c <> x00 -> nul_free v -> exists e r, parse_fields (S n) (c :: v) = (Err e, r).
Proof.
  intros C V. cbn [parse_fields]. unfold rd_bind at 1. rewrite ReadByte_app. replace (byte_eqb c x00) with false by (destruct c; try reflexivity; congruence).
  unfold rd_bind at 1, ReadString. pose proof (index_byte_inv v x00) as I. destruct (index_byte v x00) as [i|]; [|eauto].
  exfalso. apply V. destruct I as (a & b & -> & _). apply in_or_app. right. left. reflexivity.
Qed.
Lemma dispatch_E body : dispatch (NewStandardFrame "E" body) = fst (rd_bind (parse_fields (S (length body))) (fun fs => rd_ret (ErrorResponse fs)) body).
Proof.
  unfold dispatch. rewrite NewStandardFrame_type. cbn [res_bind]. cbn - [parse_typed ParseErrorResponseMessage].
  unfold ParseErrorResponseMessage, parse_typed. rewrite NewStandardFrame_type, NewStandardFrame_body. reflexivity.
Qed.

Lemma byte_eqb_x00 c : Byte.eqb c x00 = true <-> c = x00.
Proof. split; [apply Byte.byte_dec_bl|intros ->; reflexivity]. Qed.
(** a message refused *)
Definition refused (x : res message) : Prop := exists e, x = Err e.

Lemma execute_dispatch portal c0 c1 c2 c3 : nul_free portal ->
  match execute_fate portal c0 c1 c2 c3 with
  | Some kept => exists m, dispatch (NewStandardFrame "E" ((portal ++ [x00]) ++ [c0; c1; c2; c3])) = Ok m /\ encodes m "E" kept
  | None => refused (dispatch (NewStandardFrame "E" ((portal ++ [x00]) ++ [c0; c1; c2; c3])))
  end.
Proof.
  intros N. rewrite dispatch_E. unfold rd_bind. destruct portal as [|p portal].
  - cbn [execute_fate app]. rewrite fields_end. cbn. exists (ErrorResponse []). split; [reflexivity|]. change [x00] with ([] ++ [x00]). constructor. constructor.
  - assert (p <> x00) as P by (intros ->; apply N; left; reflexivity). assert (nul_free portal) as N' by (intros I; apply N; right; exact I).
    replace (((p :: portal) ++ [x00]) ++ [c0; c1; c2; c3]) with (p :: portal ++ x00 :: [c0; c1; c2; c3]) by (cbn [app]; rewrite <- app_assoc; reflexivity).
    replace (length (p :: portal ++ x00 :: [c0; c1; c2; c3])) with (S (S (S (S (S (S (length portal))))))) by (cbn; rewrite app_length; cbn; lia).
    generalize (length portal). intros k. rewrite fields_step by assumption. cbn [execute_fate].
    assert (mfield_repr (Field p portal) (p :: portal ++ [x00])) as F1 by (constructor; [exact P|split; [exact N'|reflexivity]]).
    destruct (Byte.eqb c0 x00) eqn:E0.
    { apply byte_eqb_x00 in E0 as ->. rewrite fields_end. cbn. exists (ErrorResponse [Field p portal]). split; [reflexivity|].
      replace (p :: portal ++ [x00; x00]) with (((p :: portal ++ [x00]) ++ []) ++ [x00]) by (cbn; rewrite app_nil_r, <- app_assoc; reflexivity).
      constructor. constructor; [exact F1|constructor]. }
    assert (c0 <> x00) as C0 by (intros ->; discriminate).
    destruct (Byte.eqb c1 x00) eqn:E1.
    { apply byte_eqb_x00 in E1 as ->. change [c0; x00; c2; c3] with (c0 :: [] ++ x00 :: [c2; c3]). rewrite fields_step by (auto; intros []). cbn [andb negb].
      assert (mfield_repr (Field c0 []) (c0 :: [x00])) as F2 by (constructor; [exact C0|split; [intros []|reflexivity]]).
      destruct (Byte.eqb c2 x00) eqn:E2; cbn [andb].
      - apply byte_eqb_x00 in E2 as ->. rewrite fields_end. cbn. exists (ErrorResponse [Field p portal; Field c0 []]). split; [reflexivity|].
        replace (p :: portal ++ [x00; c0; x00; x00]) with (((p :: portal ++ [x00]) ++ (c0 :: [x00]) ++ []) ++ [x00]) by (cbn; rewrite <- !app_assoc; reflexivity).
        constructor. constructor; [exact F1|]. constructor; [exact F2|constructor].
      - assert (c2 <> x00) as C2 by (intros ->; discriminate). destruct (Byte.eqb c3 x00) eqn:E3.
        + apply byte_eqb_x00 in E3 as ->. change [c2; x00] with (c2 :: [] ++ x00 :: []). rewrite fields_step by (auto; intros []). rewrite fields_nil. cbn. eexists. reflexivity.
        + destruct (fields_open (S (S (S (S k)))) c2 [c3] C2) as (e & r & ->). { intros [->|[]]. discriminate. } cbn. eexists. reflexivity. }
    assert (c1 <> x00) as C1 by (intros ->; discriminate).
    destruct (Byte.eqb c2 x00) eqn:E2; cbn [andb negb].
    { apply byte_eqb_x00 in E2 as ->. change [c0; c1; x00; c3] with (c0 :: [c1] ++ x00 :: [c3]). assert (nul_free [c1]) as N1 by (intros [->|[]]; congruence). rewrite fields_step by assumption.
      assert (mfield_repr (Field c0 [c1]) (c0 :: [c1] ++ [x00])) as F2 by (constructor; [exact C0|split; [exact N1|reflexivity]]).
      destruct (Byte.eqb c3 x00) eqn:E3.
      - apply byte_eqb_x00 in E3 as ->. rewrite fields_end. cbn. exists (ErrorResponse [Field p portal; Field c0 [c1]]). split; [reflexivity|].
        replace (p :: portal ++ [x00; c0; c1; x00; x00]) with (((p :: portal ++ [x00]) ++ (c0 :: [c1] ++ [x00]) ++ []) ++ [x00]) by (cbn; rewrite <- !app_assoc; reflexivity).
        constructor. constructor; [exact F1|]. constructor; [exact F2|constructor].
      - destruct (fields_open (S (S (S (S k)))) c3 []) as (e & r & ->). { intros ->. discriminate. } { intros []. } cbn. eexists. reflexivity. }
    assert (c2 <> x00) as C2 by (intros ->; discriminate). destruct (Byte.eqb c3 x00) eqn:E3.
    + apply byte_eqb_x00 in E3 as ->. change [c0; c1; c2; x00] with (c0 :: [c1; c2] ++ x00 :: []). rewrite fields_step; [|exact C0|intros [->|[->|[]]]; congruence]. rewrite fields_nil. cbn. eexists. reflexivity.
    + destruct (fields_open (S (S (S (S (S k))))) c0 [c1; c2; c3] C0) as (e & r & ->). { intros [->|[->|[->|[]]]]; congruence || discriminate. } cbn. eexists. reflexivity.
Qed.

Lemma frame_packet t b : Z.of_nat (length b) + 4 < 2 ^ 31 -> packet t b (Bytes (NewStandardFrame t b)).
Proof.
  intros H. exists (put_uint32 (uwrap32 (wrap32 (Z.of_nat (length b) + 4)))). split; [|apply NewStandardFrame_bytes].
  rewrite wrap32_id by (unfold in_int32; lia). apply put32_repr. unfold in_int32. lia.
Qed.
Lemma packet_body t b b' l : packet t b l -> packet t b' l -> b = b'.
Proof.
  intros (n & R & ->) (n' & R' & E). injection E as E. apply int32_repr_length in R, R'.
  destruct n as [|? [|? [|? [|? [|? ?]]]]]; try discriminate R. destruct n' as [|? [|? [|? [|? [|? ?]]]]]; try discriminate R'. cbn in E. congruence.
Qed.

Lemma execute_exact : forall portal rows c0 c1 c2 c3 l rest r, nul_free portal -> int32_repr rows [c0; c1; c2; c3] ->
  packet "E" ((portal ++ [x00]) ++ [c0; c1; c2; c3]) l -> stream r (l ++ rest) ->
  match execute_fate portal c0 c1 c2 c3 with
  | Some kept => exists m r', RecvMessage r = Done (Ok m) r' /\ packet "E" kept (SendMessage m)
  | None => exists e r', RecvMessage r = Done (Err e) r'
  end.
Proof.
  intros portal rows c0 c1 c2 c3 l rest r N _ Hp H. destruct (recv_packet _ _ _ _ _ Hp H) as (r' & E & _). pose proof (execute_dispatch portal c0 c1 c2 c3 N) as D.
  destruct (execute_fate portal c0 c1 c2 c3) as [kept|] eqn:F.
  - destruct D as (m & D & He). exists m, r'. rewrite E, D. split; [reflexivity|]. unfold SendMessage. rewrite (encodes_Frame _ _ _ He).
    apply frame_packet. destruct (packet_frame _ _ _ Hp) as [_ L]. assert (length kept <= length ((portal ++ [x00]) ++ [c0; c1; c2; c3]))%nat as K.
    { unfold execute_fate in F. destruct portal; [injection F as <-; cbn; lia|]. destruct (Byte.eqb c0 x00); [injection F as <-; cbn [app length]; rewrite ?app_length; cbn; lia|].
      destruct (Byte.eqb c1 x00 && Byte.eqb c2 x00); [injection F as <-; cbn [app length]; rewrite ?app_length; cbn; lia|].
      destruct (negb (Byte.eqb c1 x00) && Byte.eqb c2 x00 && Byte.eqb c3 x00); [|discriminate]. injection F as <-. cbn [app length]. rewrite !app_length. cbn. lia. }
    lia.
  - destruct D as (e & D). exists e, r'. rewrite E, D. reflexivity.
Qed.

Lemma execute_verbatim : forall portal c0 c1 c2 c3 l rest r, nul_free portal ->
  packet "E" ((portal ++ [x00]) ++ [c0; c1; c2; c3]) l -> stream r (l ++ rest) ->
  (exists m r', RecvMessage r = Done (Ok m) r' /\ SendMessage m = l) <-> portal <> [] /\ c0 <> x00 /\ c1 <> x00 /\ c2 = x00 /\ c3 = x00.
Proof.
  intros portal c0 c1 c2 c3 l rest r N Hp H. pose proof (execute_exact portal _ c0 c1 c2 c3 l rest r N (int32_repr_wrap [c0; c1; c2; c3] eq_refl) Hp H) as X. split.
  - intros (m & r' & E & S). unfold execute_fate in X.
    assert (forall kept, (exists m r', RecvMessage r = Done (Ok m) r' /\ packet "E" kept (SendMessage m)) -> kept = (portal ++ [x00]) ++ [c0; c1; c2; c3]) as K.
    { intros kept (m' & r'' & E' & P). rewrite E in E'. injection E' as <- <-. rewrite S in P. exact (packet_body _ _ _ _ P Hp). }
    destruct portal as [|p portal]; [apply K in X; discriminate|]. destruct (Byte.eqb c0 x00) eqn:E0.
    { apply K in X. apply (f_equal (@length byte)) in X. cbn [app length] in X. rewrite !app_length in X. cbn in X. lia. }
    destruct (Byte.eqb c1 x00) eqn:E1, (Byte.eqb c2 x00) eqn:E2, (Byte.eqb c3 x00) eqn:E3; cbn [andb negb] in X.
    all: try (destruct X as (e & r'' & X); rewrite E in X; discriminate).
    1,2: apply K in X; apply (f_equal (@length byte)) in X; cbn [app length] in X; rewrite !app_length in X; cbn in X; lia.
    apply byte_eqb_x00 in E2, E3. split; [discriminate|]. repeat split; auto; intros ->; discriminate.
  - intros (P & C0 & C1 & -> & ->). unfold execute_fate in X. destruct portal as [|p portal]; [congruence|].
    replace (Byte.eqb c0 x00) with false in X by (symmetry; apply Bool.not_true_iff_false; rewrite byte_eqb_x00; exact C0).
    replace (Byte.eqb c1 x00) with false in X by (symmetry; apply Bool.not_true_iff_false; rewrite byte_eqb_x00; exact C1). cbn [andb negb Byte.eqb] in X.
    change (Byte.eqb x00 x00) with true in X. cbn [andb] in X. destruct X as (m & r' & E & Q). exists m, r'. split; [exact E|].
    replace ((p :: portal) ++ [x00; c0; c1; x00; x00]) with (((p :: portal) ++ [x00]) ++ [c0; c1; x00; x00]) in Q by (cbn [app]; rewrite <- app_assoc; reflexivity).
    destruct (packet_frame _ _ _ Q) as [-> _]. destruct (packet_frame _ _ _ Hp) as [-> _]. reflexivity.
Qed.

(** the columns read from a name cannot include its terminator *)
Lemma columns_name vs cols : seq_repr column_repr vs cols -> forall s, nul_free s -> cols = s ++ [x00] -> Z.of_nat (length cols) < 2 ^ 24 -> False.
Proof.
  induction 1 as [|v vs l cols Hv Hs IH]; intros s N E L; [destruct s; discriminate|].
  assert (forall z b, int32_repr z b -> exists a1 a2 a3 a4, b = [a1; a2; a3; a4] /\ (a1 = x00 \/ 2 ^ 24 <= be_value b)) as B.
  { intros z b R. pose proof (int32_repr_length _ _ R) as R4. destruct b as [|a1 [|a2 [|a3 [|a4 [|? ?]]]]]; try discriminate R4. exists a1, a2, a3, a4. split; [reflexivity|].
    destruct (Byte.eqb a1 x00) eqn:Z; [left; apply byte_eqb_x00; exact Z|right]. unfold be_value. cbn [fold_left].
    pose proof (Z_of_byte_range a1). pose proof (Z_of_byte_range a2). pose proof (Z_of_byte_range a3). pose proof (Z_of_byte_range a4).
    assert (Z_of_byte a1 <> 0) by (intros Q; assert (a1 = x00) by (apply Z_of_byte_inj; exact Q); subst; discriminate). change (2 ^ 24) with 16777216. lia. }
  destruct s as [|a s].
  - apply (f_equal (@length byte)) in E. cbn in E. rewrite app_length in E. inversion Hv as [l' R|v' l' R]; subst; apply int32_repr_length in R; rewrite ?app_length in E; lia.
  - assert (a <> x00) as A by (intros ->; apply N; left; reflexivity). inversion Hv as [l' R|v' l' R]; subst; destruct (B _ _ R) as (a1 & a2 & a3 & a4 & -> & D); cbn [app] in E; injection E as -> E; destruct D as [D|D]; try congruence.
    + destruct s as [|b1 [|b2 [|b3 s]]]; cbn [app] in E; try discriminate E.
      * injection E as -> -> -> Ec. destruct R as (_ & _ & R). cbn in R. unfold be_value in R. cbn [fold_left] in R.
        pose proof (Z_of_byte_range a). pose proof (Z_of_byte_range b1). pose proof (Z_of_byte_range b2). change (Z_of_byte x00) with 0 in R. change (2 ^ 32) with 4294967296 in R. lia.
      * injection E as -> -> -> Ec. apply (IH s); [intros I; apply N; right; right; right; right; exact I|exact Ec|]. rewrite app_length in L. lia.
    + destruct R as (_ & _ & R). rewrite !app_length in L. replace (Z.of_nat (length v') <? 0) with false in R by (symmetry; apply Z.ltb_ge; lia). lia.
Qed.
Lemma encodes_row m b : encodes m "D" b -> exists vs l1 l2, b = l1 ++ l2 /\ int16_repr (Z.of_nat (length vs)) l1 /\ seq_repr column_repr vs l2.
Proof.
  intros He. inversion He as [ | | | | | | | | | |vs l1 l2 Hi Hs| | | | | | | | | | |t b' Hu]; subst; [eauto 6|]. exfalso. apply Hu. cbn. tauto.
Qed.
Lemma describe_never_verbatim : forall l rest r, describe_packet l -> Z.of_nat (length l) < 2 ^ 24 ->
  stream r (l ++ rest) -> forall m r', RecvMessage r = Done (Ok m) r' -> SendMessage m <> l.
Proof.
  intros l rest r (kind & name & body & Hk & (N & ->) & Hp) Hl H m r' E S.
  destruct (recv_packet _ _ _ _ _ Hp H) as (r1 & E1 & _). rewrite E1 in E. injection E as E _. destruct (packet_frame _ _ _ Hp) as [Hf _].
  apply dispatch_sound in E. destruct E as (t' & b' & Ht & Hb & l0 & tr & Hb' & He & _).
  rewrite NewStandardFrame_type in Ht. rewrite NewStandardFrame_body in Hb. injection Ht as <-. injection Hb as <-.
  assert (l0 = kind :: name ++ [x00]) as Q.
  { unfold SendMessage in S. rewrite (encodes_Frame _ _ _ He), Hf in S. rewrite !bytes_of_frame in S. apply (f_equal (@length byte)) in S. cbn [length] in S. rewrite !(app_length (put_uint32 _)), !length_put32 in S.
    rewrite Hb' in S. rewrite app_length in S. destruct tr; [now rewrite app_nil_r in Hb'|]. cbn [length] in S. lia. }
  destruct (encodes_row _ _ He) as (vs & l1 & l2 & Q2 & Hi & Hs). rewrite Q2 in Q. clear Q2. rewrite Hf in Hl.
  pose proof (int16_repr_length _ _ Hi) as R2. destruct l1 as [|a [|b [|? ?]]]; try discriminate R2. cbn [app] in Q. injection Q as -> Q.
  destruct name as [|c name]; cbn [app] in Q.
  - injection Q as -> ->. inversion Hs as [Ev El|v vs' lv lc Hv Hs' Ev El].
    + subst vs. destruct Hi as (_ & _ & Hv). rewrite be_value_2' in Hv. cbn in Hk. destruct Hk as [<-|[<-|[]]]; vm_compute in Hv; discriminate.
    + destruct Hv as [l' R|v' l' R]; apply int32_repr_length in R; destruct l' as [|? ?]; try discriminate R; discriminate El.
  - injection Q as -> Q. apply (columns_name _ _ Hs name); [intros I; apply N; right; exact I|exact Q|]. rewrite NewStandardFrame_bytes in Hl. cbn [length] in Hl. rewrite app_length, length_put32 in Hl. cbn [length app] in Hl. rewrite <- Q in Hl. lia.
Qed.
