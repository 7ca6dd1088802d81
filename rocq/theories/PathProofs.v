(** filepath.Clean, Dir and Join: the cleaned path leads to the same place. *)
From Coq Require Import Strings.Byte.
From Verif Require Import GoBase BufferProofs NetUrl NetUrlProofs Kingpin SpecArgs ArgsProofs.

Definition start (cwd : list bytes) (p : bytes) : list bytes := match p with c :: _ => if byte_eqb c "/" then [] else cwd | [] => cwd end.
Lemma components_split p : components p (split p).
Proof.
  induction p as [|x p IH]; [apply (co_last []); intros []|]. cbn [split]. destruct (byte_eqb_spec x "/") as [->|N]; [apply (co_more [] p (split p)); [intros []|exact IH]|].
  destruct IH as [c C|c p l C H].
  - apply co_last. intros [->|I]; [congruence|tauto].
  - apply (co_more (x :: c) p l); [intros [->|I]; [congruence|tauto]|exact H].
Qed.
Lemma split_components p l : components p l -> split p = l.
Proof. induction 1 as [c C|c p l C _ IH]; [now apply split_none|]. now rewrite split_some, IH. Qed.
Lemma leads_spec cwd p place : leads_to cwd p place <-> place = fold_left go_to (split p) (start cwd p).
Proof. split; [intros (l & C & ->); now rewrite (split_components p l C)|intros ->; exists (split p); split; [apply components_split|reflexivity]]. Qed.
Lemma split_no_slash p : Forall (fun c => ~ In "/"%byte c) (split p).
Proof. pose proof (components_split p) as C. induction C; constructor; auto. Qed.

(** what filepath.Clean keeps: neither empty nor "." *)
Definition kept (c : bytes) : Prop := c <> [] /\ c <> str "." /\ ~ In "/"%byte c.
Lemma go_name place c : kept c -> c <> str ".." -> go_to place c = c :: place.
Proof. intros (A & B & _) C. unfold go_to. destruct (bytes_eqb_spec c []); [congruence|]. destruct (bytes_eqb_spec c (str ".")); [congruence|]. destruct (bytes_eqb_spec c (str "..")); [congruence|]. reflexivity. Qed.
Lemma clean_loop_spec rooted parts : forall out st, Forall kept out -> Forall (fun c => ~ In "/"%byte c) parts -> (rooted = true -> st = []) ->
  fold_left go_to (clean_loop rooted out parts) st = fold_left go_to (rev out ++ parts) st /\ Forall kept (clean_loop rooted out parts).
Proof.
  induction parts as [|p r IH]; intros out st K N R; cbn [clean_loop]; [rewrite app_nil_r; split; [reflexivity|now apply Forall_rev]|]. apply Forall_cons_iff in N. destruct N as [Np N].
  rewrite fold_left_app. cbn [fold_left]. unfold go_to at 3. destruct (bytes_eqb_spec p []) as [->|N1]; [cbn [orb]; rewrite <- fold_left_app; now apply IH|]. destruct (bytes_eqb_spec p (str ".")) as [->|N2]; [cbn [orb]; rewrite <- fold_left_app; now apply IH|]. cbn [orb].
  destruct (bytes_eqb_spec p (str "..")) as [->|N3].
  - assert (kept (str "..")) as KD by (split; [discriminate|split; [discriminate|exact Np]]). destruct out as [|o out].
    + destruct rooted; [rewrite (R eq_refl); exact (IH [] [] (Forall_nil _) N (fun _ => eq_refl))|]. destruct (IH [str ".."] st (Forall_cons _ KD (Forall_nil _)) N R) as [E F]. split; [exact E|exact F].
    + apply Forall_cons_iff in K. destruct K as [Ko K]. destruct (bytes_eqb_spec o (str "..")) as [->|No].
      * destruct (IH (str ".." :: str ".." :: out) st) as [E F]; [repeat constructor; auto; apply KD|exact N|exact R|]. split; [|exact F]. rewrite E. cbn [rev]. rewrite !fold_left_app. reflexivity.
      * destruct (IH out st K N R) as [E F]. split; [|exact F]. rewrite E. cbn [rev]. rewrite !fold_left_app. cbn [fold_left]. now rewrite (go_name _ o Ko No).
  - assert (kept p) as KP by (split; [exact N1|split; [exact N2|exact Np]]). destruct (IH (p :: out) st (Forall_cons _ KP K) N R) as [E F]. split; [|exact F]. rewrite E. cbn [rev]. rewrite !fold_left_app. cbn [fold_left]. now rewrite (go_name _ p KP N3).
Qed.
Lemma split_join l : l <> [] -> Forall kept l -> split (join l) = l.
Proof.
  intros N K. induction l as [|a l IH]; [congruence|]. apply Forall_cons_iff in K. destruct K as [(_ & _ & A) K]. destruct l as [|b l]; [now apply split_none|]. change (join (a :: b :: l)) with (a ++ "/"%byte :: join (b :: l)). rewrite split_some by exact A. rewrite IH; [reflexivity|discriminate|exact K].
Qed.
Lemma join_relative l : l <> [] -> Forall kept l -> exists c r, join l = c :: r /\ c <> "/"%byte.
Proof.
  intros N K. destruct l as [|a l]; [congruence|]. apply Forall_cons_iff in K. destruct K as [(A & _ & B) _]. destruct a as [|c a]; [congruence|]. assert (c <> "/"%byte) as C by (intros ->; apply B; now left).
  destruct l; [exists c, a|exists c, (a ++ "/"%byte :: join (l :: l0))]; auto.
Qed.
Lemma rooted_start cwd p : has_prefix (str "/") p = true /\ start cwd p = [] \/ has_prefix (str "/") p = false /\ start cwd p = cwd.
Proof.
  destruct p as [|c p]; [right; split; reflexivity|]. cbn [start]. destruct (byte_eqb_spec c "/") as [->|N]; [left; split; reflexivity|right]. split; [|reflexivity].
  destruct (has_prefix (str "/") (c :: p)) eqn:E; [|reflexivity]. apply has_prefix_spec in E. destruct E as (r & E). change (c :: p = "/"%byte :: r) in E. congruence.
Qed.
Lemma Clean_leads cwd p : fold_left go_to (split (Clean p)) (start cwd (Clean p)) = fold_left go_to (split p) (start cwd p).
Proof.
  rewrite (Clean_unfold p). destruct (rooted_start cwd p) as [[E ->]|[E ->]]; rewrite E.
  - destruct (clean_loop_spec true (split p) [] [] (Forall_nil _) (split_no_slash p) (fun _ => eq_refl)) as [H K]. cbn [rev app] in H. rewrite <- H. unfold clean_of. destruct (clean_loop true [] (split p)) as [|a l] eqn:L; [reflexivity|].
    rewrite <- L in *. change (str "/" ++ join (clean_loop true [] (split p))) with ("/"%byte :: join (clean_loop true [] (split p))). cbn [split start]. rewrite !byte_eqb_refl. cbn [fold_left]. change (go_to [] []) with (@nil bytes). rewrite split_join; [reflexivity|rewrite L; discriminate|exact K].
  - destruct (clean_loop_spec false (split p) [] cwd (Forall_nil _) (split_no_slash p)) as [H K]; [discriminate|]. cbn [rev app] in H. rewrite <- H. unfold clean_of. destruct (clean_loop false [] (split p)) as [|a l] eqn:L; [reflexivity|].
    rewrite <- L in *. cbn [app]. rewrite split_join; [|rewrite L; discriminate|exact K]. destruct (join_relative (clean_loop false [] (split p))) as (c & r & -> & C); [rewrite L; discriminate|exact K|]. cbn [start]. destruct (byte_eqb_spec c "/"); [congruence|]. reflexivity.
Qed.
Lemma split_app p q : split (p ++ "/"%byte :: q) = split p ++ split q.
Proof.
  induction p as [|x p IH]; [reflexivity|]. cbn [app split]. destruct (byte_eqb x "/"); [now rewrite IH|]. rewrite IH. destruct (split p) as [|a l] eqn:E; [|reflexivity].
  destruct p as [|y p]; cbn in E; [discriminate|]. destruct (byte_eqb y "/"); [discriminate|]. destruct (split p); discriminate.
Qed.
Lemma Clean_nonempty p : Clean p <> [].
Proof.
  rewrite Clean_unfold. destruct (clean_loop_spec (has_prefix (str "/") p) (split p) [] [] (Forall_nil _) (split_no_slash p) (fun _ => eq_refl)) as [_ K]. unfold clean_of.
  destruct (clean_loop _ [] (split p)) as [|a l] eqn:L; [destruct (has_prefix (str "/") p); discriminate|]. rewrite <- L in *. destruct (join_relative (clean_loop (has_prefix (str "/") p) [] (split p))) as (c & r & -> & _); [rewrite L; discriminate|exact K|]. destruct (has_prefix (str "/") p); discriminate.
Qed.
Lemma default_leads cwd argv0 d place : directory_part argv0 d -> leads_to cwd d place -> leads_to cwd (default_path argv0) (str "gevulot.toml" :: place).
Proof.
  intros D L. apply leads_spec in L. apply leads_spec. unfold default_path. rewrite Clean_leads, split_app, fold_left_app. assert (Dir argv0 = Clean d) as E.
  { unfold Dir. destruct D as [[N ->]|(a & b & -> & N & ->)]; [now rewrite (proj2 (cut_last_none "/" argv0) N)|]. now rewrite (proj2 (cut_last_some "/" (a ++ "/"%byte :: b) a b) (conj eq_refl N)). }
  rewrite E. assert (start cwd (Clean d ++ "/"%byte :: str "gevulot.toml") = start cwd (Clean d)) as -> by (pose proof (Clean_nonempty d); destruct (Clean d); [congruence|reflexivity]).
  rewrite Clean_leads, <- L. reflexivity.
Qed.
