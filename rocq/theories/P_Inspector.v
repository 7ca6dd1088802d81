(** Properties C74, C75: the database inspector (pkg/pgmeta/inspector.go), for every behaviour of
    database/sql. *)
From Verif Require Import Inspector SpecInspector InspectorProofs.

(** * C74 The OID mapping *)

(** A mapping returned holds exactly the rows delivered, the last row per OID winning, one entry
    per OID, name and schema not swapped. *)
Theorem C74_mapping_is_the_rows : forall rs m, snd (OIDTableMapping (Ok rs)) = Ok m ->
  (forall k, lookup m k = last_for k (good (r_rows rs))) /\ NoDup (map fst m).
Proof.
  intros rs m H. unfold OIDTableMapping in H. destruct (scan_rows (r_rows rs) []) as [fx r] eqn:E. cbn in H.
  assert (snd (scan_rows (r_rows rs) []) = Ok m) as X by (rewrite E; exact H).
  apply scan_ok in X. destruct X as (_ & B & C). split; [|apply C; constructor].
  intros k. rewrite B. destruct (last_for k (good (r_rows rs))); reflexivity.
Qed.
Print Assumptions C74_mapping_is_the_rows.

(** A failing query or a row that cannot be scanned is reported, with its error. *)
Theorem C74_failures_reported : 
  (forall e, snd (OIDTableMapping (Err e)) = Err e) /\
  forall rs, no_panic (r_rows rs) ->
    (forall e, snd (OIDTableMapping (Ok rs)) = Err e <-> first_bad (r_rows rs) = Some e) /\
    ((exists m, snd (OIDTableMapping (Ok rs)) = Ok m) <-> first_bad (r_rows rs) = None).
Proof.
  split; [reflexivity|]. intros rs H. destruct (scan_verdict (r_rows rs) [] H) as [A B].
  unfold OIDTableMapping. destruct (scan_rows (r_rows rs) []). split; assumption.
Qed.
Print Assumptions C74_failures_reported.

(** The rows are closed exactly once, last, on every path that opened them; never otherwise. *)
Theorem C74_rows_closed : 
  (forall rs, exists fx, fst (OIDTableMapping (Ok rs)) = fx ++ [RowsClose] /\ count is_close fx = 0%nat) /\
  (forall q, (forall rs, q <> Ok rs) -> count is_close (fst (OIDTableMapping q)) = 0%nat).
Proof.
  split.
  - intros rs. unfold OIDTableMapping. pose proof (scan_no_close (r_rows rs) []) as X. destruct (scan_rows (r_rows rs) []) as [fx r]. cbn in *.
    exists (DbQuery :: fx). split; [reflexivity|exact X].
  - intros [rs|e|p] H; [destruct (H rs eq_refl)|reflexivity|reflexivity].
Qed.
Print Assumptions C74_rows_closed.

(** Every call to database/sql: the query, then Next and Scan per row up to the first row that cannot be
    scanned, a last Next if there is none, and Close; a query that failed is all there is. *)
Theorem C74_calls : 
  (forall rs, fst (OIDTableMapping (Ok rs)) =
     [DbQuery] ++ concat (repeat [RowsNext; RowsScan] (looked_at (r_rows rs))) ++
     (if all_scan (r_rows rs) then [RowsNext] else []) ++ [RowsClose]) /\
  (forall q, (forall rs, q <> Ok rs) -> fst (OIDTableMapping q) = [DbQuery]).
Proof.
  split.
  - intros rs. unfold OIDTableMapping. pose proof (scan_trace (r_rows rs) []) as X. destruct (scan_rows (r_rows rs) []) as [fx r]. cbn in *.
    rewrite X, <- app_assoc. reflexivity.
  - intros [rs|e|p] H; [destruct (H rs eq_refl)|reflexivity|reflexivity].
Qed.
Print Assumptions C74_calls.

(** An iteration that breaks off is not reported: whatever rows.Err() says, the result is the same.
    So a connection lost half-way yields the partial mapping as a success. *)
Theorem C74_iteration_failure_ignored : forall rs e1 e2, OIDTableMapping (Ok (Rows rs e1)) = OIDTableMapping (Ok (Rows rs e2)).
Proof. reflexivity. Qed.
Print Assumptions C74_iteration_failure_ignored.
Theorem C74_iteration_failure_reported_refuted : exists rs e m, r_err rs = Some e /\
  snd (OIDTableMapping (Ok rs)) = Ok m /\ m <> [].
Proof.
  exists (Rows [Ok (1, str "t", str "public")] (Some (ErrExternal 1))), (ErrExternal 1). eexists.
  split; [reflexivity|]. split; [vm_compute; reflexivity|]. discriminate.
Qed.
Print Assumptions C74_iteration_failure_reported_refuted.

Example C74_instance : OIDTableMapping (Ok (Rows [Ok (1, str "t", str "a"); Ok (2, str "u", str "a"); Ok (1, str "v", str "b")] None)) =
    ([DbQuery; RowsNext; RowsScan; RowsNext; RowsScan; RowsNext; RowsScan; RowsNext; RowsClose],
     Ok [(1, MkTable (str "b") (str "v")); (2, MkTable (str "a") (str "u"))]) /\
  OIDTableMapping (Ok (Rows [Ok (1, str "t", str "a"); Err EOF; Ok (1, str "v", str "b")] None)) =
    ([DbQuery; RowsNext; RowsScan; RowsNext; RowsScan; RowsClose], Err EOF).
Proof. vm_compute. auto. Qed.

(** * C75 Inspect never leaks or returns a dead handle *)

Theorem C75_inspect : forall (handle : Type) (open : res handle) (ping : option error),
  (forall h, snd (Inspect open ping) = Ok h <-> open = Ok h /\ ping = None) /\
  (forall e, open = Err e -> snd (Inspect open ping) = Err e) /\
  (forall h e, open = Ok h -> ping = Some e -> snd (Inspect open ping) = Err e).
Proof.
  intros H open ping. unfold Inspect. destruct open as [h|e|p], ping as [x|]; cbn; repeat split; intros; intuition congruence.
Qed.
Print Assumptions C75_inspect.

(** A handle opened is either returned or closed, never both; it is pinged before it is returned. *)
Theorem C75_no_leak : forall (handle : Type) (h : handle) (ping : option error),
  let (fx, r) := Inspect (Ok h) ping in
  count is_open fx = 1%nat /\
  match r with
  | Ok _ => count is_dbclose fx = 0%nat /\ In DbPing fx
  | _ => count is_dbclose fx = 1%nat /\ last fx DbOpen = DbClose
  end.
Proof. intros H h [e|]; cbn; auto. Qed.
Print Assumptions C75_no_leak.

(** Nothing to close when opening failed. *)
Theorem C75_failed_open_closes_nothing : forall (handle : Type) (e : error) (ping : option error),
  fst (Inspect (handle := handle) (Err e) ping) = [DbOpen].
Proof. reflexivity. Qed.
Print Assumptions C75_failed_open_closes_nothing.

(** Every call to database/sql, in all cases; Close closes the handle, once, and says how that went. *)
Theorem C75_calls : forall (handle : Type),
  (forall (open : res handle) ping, (forall h, open <> Ok h) -> fst (Inspect open ping) = [DbOpen]) /\
  (forall (h : handle) e, fst (Inspect (Ok h) (Some e)) = [DbOpen; DbPing; DbClose]) /\
  (forall (h : handle), fst (Inspect (Ok h) None) = [DbOpen; DbPing]) /\
  (forall c, Close c = ([DbClose], c)).
Proof.
  intros H. split; [|repeat split]. intros [h|e|p] ping X; [destruct (X h eq_refl)|reflexivity|reflexivity].
Qed.
Print Assumptions C75_calls.

Example C75_instance : Inspect (Ok 7%nat) (Some EOF) = ([DbOpen; DbPing; DbClose], Err EOF) /\ Inspect (Ok 7%nat) None = ([DbOpen; DbPing], Ok 7%nat).
Proof. split; reflexivity. Qed.
