(** A session's own actions, and that there are only boundedly many of them without the peers. *)
From Verif Require Import SessionAlone SessionEnd.
From Verif Require Import FrameProofs SessionFacts.
Require Import Lia.

(** What the proxy does of its own accord for a session: everything but what depends on the peers
    (arrival, end of a connection, acceptance of what is written), net.Dial and the configuration. *)
Definition self (l : label) : Prop :=
  match l with LStart | LClose _ _ | LRecv _ | LIn _ | LSelect _ | LProc | LTake _ => True | _ => False end.

Definition stage (p : spc) : nat :=
  match p with
  | SIdle => 19 | SEntry => 18 | SRecv => 17 | SGet (WDatabase _ _) => 16 | SGet (WHost _) => 15 | SGet (WPort _ _) => 14
  | SDial _ _ => 13 | SDeny _ => 12 | SSend _ => 12 | SWait => 11 | SDefer _ => 0 | SDone _ => 0
  end%nat.
Definition krank (p : kpc) : nat :=
  match p with KIdle => 0 | K0 => 9 | K1 => 8 | K2 => 7 | K3 _ => 6 | K4 _ => 5 | K5 _ => 4 | K6 _ => 3 | K7 _ => 2 | KRet _ => 1 end%nat.
Definition srank (x : state) : nat := (work x + stage (start_pc x) + krank (close_pc x 0%nat))%nat.

Lemma startup_size r x r' : RecvStartupMessage r = Done x r' -> (length (concat (chunks r')) <= length (concat (chunks r)))%nat.
Proof.
  unfold RecvStartupMessage. destruct (ReadStartupFrame r) as [|y r1] eqn:E; [discriminate|]. intros H. injection H as _ <-.
  destruct (ReadStartupFrame_inv _ _ _ E) as (Hf & [(f & -> & (tag & len & body & L & -> & _))|(e & -> & _ & _ & ->)]); [rewrite app_length; lia|cbn; lia].
Qed.
Lemma work_alt x y : (forall d, unread_weight (conns y d) <= unread_weight (conns x d))%nat -> (forall d, in_pc y d = in_pc x d) -> (forall d, out_pc y d = out_pc x d) ->
  proc_pc y = proc_pc x -> (forall d, queue (chan_in y d) = queue (chan_in x d)) -> (forall d, queue (chan_out y d) = queue (chan_out x d)) ->
  crashed x = None -> (work y + match crashed y with None => 0 | Some _ => 1 end <= work x)%nat.
Proof.
  intros H1 H2 H3 H4 H5 H6 H7. unfold work, side_weight. rewrite !H2, !H3, H4, !H5, !H6, H7. pose proof (H1 Client). pose proof (H1 DB). destruct (crashed y); lia.
Qed.
(** the actions of Start and Close *)
Lemma control_work x l y : step x l = Some y -> match l with LCallStart | LStart | LConfig _ _ | LClose _ _ => True | _ => False end ->
  (work y + match crashed y with None => 0 | Some _ => 1 end <= work x)%nat.
Proof.
  intros H L. dstep H; try contradiction; apply work_alt; cbn; auto; intros d; unfold supd; try destruct (side_eqb d _) eqn:?Ed; auto.
  all: try (destruct d; discriminate).
  all: sides; try discriminate; try reflexivity; cbn.
  all: try match goal with E : recv_on RecvStartupMessage ?c = Done _ _ |- _ => unfold recv_on in E; destruct (is_open c); [apply startup_size in E|injection E as _ <-] end.
  all: match goal with E : conns _ _ = _ |- _ => rewrite E; cbn; lia end.
Qed.
Lemma close_drop x r y : step x (LClose 0 r) = Some y -> (srank y < srank x)%nat.
Proof.
  intros H. pose proof (control_work _ _ _ H I) as W. unfold srank.
  assert (stage (start_pc y) + krank (close_pc y 0%nat) + match crashed y with None => 1 | Some _ => 0 end <= stage (start_pc x) + krank (close_pc x 0%nat))%nat; [|destruct (crashed y); lia].
  clear W. dstep H; cbn; repeat match goal with E : start_pc _ = _ |- _ => rewrite E | E : close_pc _ _ = _ |- _ => rewrite E | E : crashed _ = _ |- _ => rewrite E end; cbn; lia.
Qed.
(** each of its own actions brings it nearer to having none left *)
Lemma self_drop x l y : alone x -> step x l = Some y -> self l -> (srank y < srank x)%nat.
Proof.
  intros [A _] H L. destruct l; try contradiction.
  - pose proof (control_work _ _ _ H I) as W. unfold srank. assert (stage (start_pc y) + krank (close_pc y 0%nat) + match crashed y with None => 1 | Some _ => 0 end <= stage (start_pc x) + krank (close_pc x 0%nat))%nat; [|destruct (crashed y); lia].
    clear W. dstep H; cbn; repeat match goal with E : start_pc _ = _ |- _ => rewrite E | E : crashed _ = _ |- _ => rewrite E end; cbn; lia.
  - destruct t as [|t]; [eapply close_drop, H|unfold step in H; destruct (crashed x); [discriminate|]; unfold go_close in H; rewrite A in H; discriminate].
  - pose proof (work_step _ _ _ H eq_refl). unfold srank. assert (start_pc y = start_pc x /\ close_pc y 0%nat = close_pc x 0%nat) as [-> ->]; [|lia]. dstep H; split; reflexivity.
  - pose proof (work_step _ _ _ H eq_refl). unfold srank. assert (start_pc y = start_pc x /\ close_pc y 0%nat = close_pc x 0%nat) as [-> ->]; [|lia]. dstep H; split; reflexivity.
  - pose proof (work_step _ _ _ H eq_refl). unfold srank. assert (start_pc y = start_pc x /\ close_pc y 0%nat = close_pc x 0%nat) as [-> ->]; [|lia]. dstep H; split; reflexivity.
  - pose proof (work_step _ _ _ H eq_refl). unfold srank. assert (start_pc y = start_pc x /\ close_pc y 0%nat = close_pc x 0%nat) as [-> ->]; [|lia]. dstep H; split; reflexivity.
  - pose proof (work_step _ _ _ H eq_refl). unfold srank. assert (start_pc y = start_pc x /\ close_pc y 0%nat = close_pc x 0%nat) as [-> ->]; [|lia]. dstep H; split; reflexivity.
Qed.
Lemma config_drop x E r y : step x (LConfig E r) = Some y -> (srank y < srank x)%nat.
Proof.
  intros H. pose proof (control_work _ _ _ H I) as W. unfold srank.
  assert (stage (start_pc y) + krank (close_pc y 0%nat) + match crashed y with None => 1 | Some _ => 0 end <= stage (start_pc x) + krank (close_pc x 0%nat))%nat; [|destruct (crashed y); lia].
  clear W. dstep H; cbn; repeat match goal with E : start_pc _ = _ |- _ => rewrite E | E : crashed _ = _ |- _ => rewrite E end; cbn; try destruct w; cbn; lia.
Qed.
Lemma begin_drop x x1 y : alone x -> step x LCallStart = Some x1 -> step x1 LStart = Some y -> (srank y <= srank x)%nat.
Proof.
  intros A H1 H2. pose proof (control_work _ _ _ H1 I) as W1. pose proof (control_work _ _ _ H2 I) as W2. destruct (begin_step _ _ _ A H1 H2) as (B1 & B2 & _).
  assert (close_pc y 0%nat = close_pc x 0%nat) as K by (dstep H1; dstep H2; try reflexivity; discriminate).
  unfold srank. rewrite B1, B2, K. cbn [stage]. lia.
Qed.
(** It may yet ask for the configuration. *)
Definition wants (x : state) : bool :=
  match start_pc x, cached x, crashed x with SIdle, None, None | SEntry, None, None | SRecv, None, None | SDeny _, None, None | SGet _, None, None => true | _, _, _ => false end.
Lemma self_wants x l y : step x l = Some y -> self l -> wants y = true -> wants x = true.
Proof.
  intros H L. unfold wants. dstep H; try contradiction; cbn.
  all: repeat match goal with E : start_pc _ = _ |- _ => rewrite E | E : crashed _ = _ |- _ => rewrite E | E : cached _ = _ |- _ => rewrite E end; auto; try discriminate.
  all: try (destruct (cached x); solve [auto|intros; discriminate]).
  all: destruct (start_pc x); try solve [auto|intros; discriminate].
  all: destruct (cached x); solve [auto|intros; discriminate].
Qed.
Lemma config_wants x E r y : step x (LConfig E r) = Some y -> wants y = false.
Proof.
  intros H. unfold wants. dstep H; cbn; repeat match goal with E : start_pc _ = _ |- _ => rewrite E | E : crashed _ = _ |- _ => rewrite E end; auto.
  all: destruct (cached x); reflexivity.
Qed.
