(** Model of pkg/pgmeta/inspector.go.  database/sql is an input: the results of Open, Ping, Query,
    of every Scan and of the iteration as a whole.  Handles are opaque; effects on them are recorded. *)
From Verif Require Export GoBase.

(** inspector.go:13-16 *)
Record Table := MkTable { Schema : bytes; Name : bytes }.

(** What is done to the database handle and to the rows, oldest first. *)
Inductive effect := DbOpen | DbPing | DbClose | DbQuery | RowsNext | RowsScan | RowsClose.

(** inspector.go:25-42.  [Ok h]: the handle inside the returned Inspector. The wrapping of the
    ping error (fmt.Errorf with %w) keeps the error it wraps; the text is not modelled. *)
Definition Inspect {handle} (open : res handle) (ping : option error) : list effect * res handle :=
  match open with
  | Panic p => ([DbOpen], Panic p)
  | Err e => ([DbOpen], Err e)
  | Ok db => match ping with
             | Some e => ([DbOpen; DbPing; DbClose], Err e)
             | None => ([DbOpen; DbPing], Ok db)
             end
  end.

(** inspector.go:45-52: QueryRow(...).Scan(&name); both results are returned as they are. *)
Definition DatabaseName (scan : res bytes) : res (bytes * option error) :=
  match scan with
  | Ok name => Ok (name, None)
  | Err e => Ok ([], Some e)
  | Panic p => Panic p
  end.

(** A result set: what Scan gives for each row (oid, relname, nspname) in the order of the SELECT
    list, and what rows.Err() would say once Next returned false. *)
Record rows := Rows { r_rows : list (res (Z * bytes * bytes)); r_err : option error }.

(** A Go map from OIDs: insertion replaces. *)
Definition oidmap := list (Z * Table).
(** [m[k] = t], inspector.go:86 *)
Fixpoint insert (m : oidmap) (k : Z) (t : Table) : oidmap :=
  match m with
  | [] => [(k, t)]
  | (k', t') :: m' => if k' =? k then (k, t) :: m' else (k', t') :: insert m' k t
  end.
(** [m[k]] *)
Fixpoint lookup (m : oidmap) (k : Z) : option Table :=
  match m with [] => None | (k', t) :: m' => if k' =? k then Some t else lookup m' k end.

(** inspector.go:75-89 *)
Fixpoint scan_rows (rs : list (res (Z * bytes * bytes))) (m : oidmap) : list effect * res oidmap :=
  match rs with
  | [] => ([RowsNext], Ok m)
  | Ok (oid, name, schema) :: rs' =>
      let (fx, r) := scan_rows rs' (insert m oid (MkTable schema name)) in (RowsNext :: RowsScan :: fx, r)
  | Err e :: _ => ([RowsNext; RowsScan], Err e)
  | Panic p :: _ => ([RowsNext; RowsScan], Panic p)
  end.

(** inspector.go:55-90.  rows.Err() is not consulted. *)
Definition OIDTableMapping (query : res rows) : list effect * res oidmap :=
  match query with
  | Panic p => ([DbQuery], Panic p)
  | Err e => ([DbQuery], Err e)
  | Ok rs => let (fx, r) := scan_rows (r_rows rs) [] in (DbQuery :: fx ++ [RowsClose], r)
  end.

(** inspector.go:93-95 *)
Definition Close (close : option error) : list effect * option error := ([DbClose], close).
