(** C98: the debugging dump of a buffer. *)
From Coq Require Import NArith String.
From Verif Require Import InspectProofs.
Local Open Scope list_scope.

(** Inspect prints the length in decimal, then the bytes as a table of 16 columns with offsets. *)
Theorem C98_inspect_format : forall b, exists n dump,
  Inspect b = text "buffer length: " ++ n ++ [x0a] ++ dump /\ n <> [] /\ decimal_repr (length b) n 0 /\ dump_repr 0 b dump.
Proof. intros b. exists (decimal (length b)), (Dump b). destruct (decimal_ok (length b)) as [D N]. split; [reflexivity|]. split; [exact N|]. split; [exact D|apply Dump_ok]. Qed.
Print Assumptions C98_inspect_format.
(** It hides nothing: the bytes can be read off the text. *)
Theorem C98_inspect_faithful : forall a b, Inspect a = Inspect b -> a = b.
Proof. exact Inspect_inj. Qed.
Print Assumptions C98_inspect_faithful.
(** A text in that format determines the bytes. *)
Theorem C98_format_unambiguous : forall off a b l, dump_repr off a l -> dump_repr off b l -> a = b.
Proof. intros off a b l A B. exact (dump_inj _ _ _ A _ B). Qed.
Print Assumptions C98_format_unambiguous.
(** Whatever is in the buffer, the text is printable. *)
Theorem C98_inspect_printable : forall b, Forall printable (Inspect b).
Proof. exact Inspect_printable. Qed.
Print Assumptions C98_inspect_printable.
Example C98_instance : Inspect (text "SELECT 'caf" ++ [xc3; xa9; x27; x3b; x00; x1b; x5b]) =
  text "buffer length: 18" ++ [x0a] ++
  text "00000000  53 45 4c 45 43 54 20 27  63 61 66 c3 a9 27 3b 00  |SELECT 'caf..';.|" ++ [x0a] ++
  text "00000010  1b 5b                                             |.[|" ++ [x0a].
Proof. vm_compute. reflexivity. Qed.
Example C98_instance_empty : Inspect [] = text "buffer length: 0" ++ [x0a].
Proof. reflexivity. Qed.
