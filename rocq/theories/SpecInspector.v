(** Independent vocabulary for the inspector. *)
From Verif Require Export Inspector.

(** The rows that could be scanned, in order. *)
Fixpoint good (rs : list (res (Z * bytes * bytes))) : list (Z * Table) :=
  match rs with [] => [] | Ok (o, n, sc) :: rs' => (o, MkTable sc n) :: good rs' | _ :: rs' => good rs' end.
(** The first row that could not be scanned. *)
Fixpoint first_bad (rs : list (res (Z * bytes * bytes))) : option error :=
  match rs with [] => None | Err e :: _ => Some e | Panic _ :: _ => None | Ok _ :: rs' => first_bad rs' end.
Definition no_panic (rs : list (res (Z * bytes * bytes))) : Prop := forall p, ~ In (Panic p) rs.
(** The last row for an OID. *)
Definition last_for (k : Z) (l : list (Z * Table)) : option Table :=
  match rev (filter (fun e => fst e =? k) l) with [] => None | e :: _ => Some (snd e) end.
Definition count (p : effect -> bool) (fx : list effect) : nat := length (filter p fx).
Definition is_close (f : effect) : bool := match f with RowsClose => true | _ => false end.
Definition is_dbclose (f : effect) : bool := match f with DbClose => true | _ => false end.
Definition is_open (f : effect) : bool := match f with DbOpen => true | _ => false end.
(** How many rows are looked at: up to and including the first that cannot be scanned. *)
Fixpoint looked_at (rs : list (res (Z * bytes * bytes))) : nat :=
  match rs with [] => 0 | Ok _ :: rs' => S (looked_at rs') | _ :: _ => 1 end.
Definition all_scan (rs : list (res (Z * bytes * bytes))) : bool := forallb (fun r => match r with Ok _ => true | _ => false end) rs.
