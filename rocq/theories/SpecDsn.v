(** Independent specification of connection settings: a declarative table per key. *)
From Verif Require Import GoBase Dsn.   (* for the types [url], [userinfo], [params] only *)
From Coq Require Import Permutation.

(** [first_value pairs k]: the first value given to [k] in the query string *)
Inductive first_value : list (bytes * bytes) -> bytes -> bytes -> Prop :=
| fv_here k v rest : first_value ((k, v) :: rest) k v
| fv_later k v k' v' rest : k <> k' -> first_value rest k v -> first_value ((k', v') :: rest) k v.
Definition in_query (pairs : list (bytes * bytes)) (k : bytes) : Prop := exists v, In (k, v) pairs.

(** [path_database path db]: [path] is any number of slashes followed by [db] *)
Definition path_database (path db : bytes) : Prop :=
  exists n, path = repeat "/"%byte n ++ db /\ (forall rest, db <> "/"%byte :: rest).

(** The user named by the authority part or, without one, the operating system's *)
Definition base_user (os_user : option bytes) (u : url) : option bytes :=
  match u_user u with Some ui => Some (ui_username ui) | None => os_user end.

(** [setting os_user u k v]: the URL [u] says that setting [k] is [v] *)
Inductive setting (os_user : option bytes) (u : url) : bytes -> bytes -> Prop :=
| s_query k v : first_value (u_pairs u) k v -> setting os_user u k v
| s_host : ~ in_query (u_pairs u) (str "host") -> u_hostname u <> [] ->
    setting os_user u (str "host") (u_hostname u)
| s_host_default : ~ in_query (u_pairs u) (str "host") -> u_hostname u = [] ->
    setting os_user u (str "host") (str "localhost")
| s_port : ~ in_query (u_pairs u) (str "port") -> u_port u <> [] ->
    setting os_user u (str "port") (u_port u)
| s_port_default : ~ in_query (u_pairs u) (str "port") -> u_port u = [] ->
    setting os_user u (str "port") (str "5432")
| s_user v : ~ in_query (u_pairs u) (str "user") -> base_user os_user u = Some v ->
    setting os_user u (str "user") v
| s_password ui v : ~ in_query (u_pairs u) (str "password") -> u_user u = Some ui ->
    ui_password ui = Some v -> setting os_user u (str "password") v
| s_database db : ~ in_query (u_pairs u) (str "database") -> path_database (u_path u) db -> db <> [] ->
    setting os_user u (str "database") db
| s_database_default : ~ in_query (u_pairs u) (str "database") -> path_database (u_path u) [] ->
    setting os_user u (str "database") (match base_user os_user u with Some v => v | None => [] end).

(** any iteration order over a Go map *)
Definition iteration_order (order : list (bytes * list bytes) -> list (bytes * list bytes)) : Prop :=
  forall m, Permutation m (order m).
