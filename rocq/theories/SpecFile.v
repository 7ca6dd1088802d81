(** Executions of the whole program in which the configuration file is text. *)
From Coq Require Import Permutation.
From Verif Require Import SpecSystem NetUrl SpecDsn Toml SpecToml.
From Verif Require SpecUri Session.

(** The text [t] is a document that means [cfg] and nothing else. *)
Definition names (t : bytes) (cfg : config) : Prop :=
  exists l, document t l /\ NoDup (map fst l) /\ well_typed l /\ unambiguous l /\ says l cfg.
(** A file with the text [s] can be read as [x]; None: it is refused. *)
Definition reads_as (s : bytes) (x : option config) : Prop :=
  exists order, map_order order /\
    match readServerConfig order (Ok s) with Some (Ok c) => x = Some c | Some _ => x = None | None => False end.
(** What reading gives while the file is missing, or holds a text of [T] as far as it has been written. *)
Definition partly (T : bytes -> Prop) (x : option config) : Prop := x = None \/ exists s rest, T (s ++ rest) /\ reads_as s x.
(** What reading gives while the file is missing or holds a text of [T]. *)
Definition wholly (T : bytes -> Prop) (x : option config) : Prop := x = None \/ exists s, T s /\ reads_as s x.
(** From first to last what reading the file would give is of the kind [P]. *)
Definition file_is (P : option config -> Prop) (f : option config) (ls : list label) : Prop :=
  P f /\ forall x ops, In (YWatcher (FileWatcher.LFile x ops)) ls -> P x.
(** Connection strings are parsed by Go's url.Parse, before 1.17 or since; any operating system user, any map order. *)
Definition go_urls (legacy : bool) (ls : list label) : Prop :=
  forall t E, In (YGot t E) ls -> Session.env_parse E = url_Parse legacy /\ iteration_order (Session.env_order E).
(** [p] are the settings the connection string [conn] gives, for some operating system user. *)
Definition conn_settings (legacy : bool) (conn : bytes) (p : Dsn.params) : Prop :=
  exists u os, SpecUri.uri legacy conn u /\ (Dsn.u_scheme u = str "postgres" \/ Dsn.u_scheme u = str "postgresql") /\
    forall k v, p k = Some v <-> setting os u k v.
