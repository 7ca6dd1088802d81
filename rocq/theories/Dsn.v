(** Model of pkg/pg/dsn.go.
    External: [url.Parse] (with the accessors Username, Password, Hostname, Port and the decoding of
    the query string into key/value pairs) and [user.Current]; their results are inputs. *)
From Verif Require Export GoBase.

(** *url.Userinfo: username and, if one was set, password *)
Record userinfo := Userinfo { ui_username : bytes; ui_password : option bytes }.

(** The components of a parsed *url.URL that dsn.go looks at.  [u_pairs] are the decoded key=value
    pairs of the query string, left to right (pairs that do not decode are dropped by url.Query). *)
Record url := URL {
  u_scheme : bytes;
  u_user : option userinfo;       (* nil without userinfo *)
  u_hostname : bytes;
  u_port : bytes;
  u_path : bytes;
  u_pairs : list (bytes * bytes)
}.

(** net/url ParseQuery: [m[key] = append(m[key], value)] for each pair; a map[string][]string. *)
Fixpoint values_add (m : list (bytes * list bytes)) (k v : bytes) : list (bytes * list bytes) :=
  match m with
  | [] => [(k, [v])]
  | (k', vs) :: m' => if bytes_eqb k k' then (k', vs ++ [v]) :: m' else (k', vs) :: values_add m' k v
  end.
(** net/url [URL.Query], called at dsn.go:56 *)
Definition url_Query (pairs : list (bytes * bytes)) : list (bytes * list bytes) :=
  fold_left (fun m p => values_add m (fst p) (snd p)) pairs [].

(** dsn.go:11 [ConnectionParams], a map[string]string: absent keys are [None]. *)
Definition params := bytes -> option bytes.
(** dsn.go:11, the empty map *)
Definition empty_params : params := fun _ => None.
(** dsn.go:11, [m[k] = v] *)
Definition set (m : params) (k v : bytes) : params := fun k' => if bytes_eqb k k' then Some v else m k'.
(** [m[k]]: the zero value for an absent key *)
Definition get (m : params) (k : bytes) : bytes := match m k with Some v => v | None => [] end.

(** strings.TrimLeft(s, "/") *)
Fixpoint trim_slashes (s : bytes) : bytes :=
  match s with
  | c :: s' => if byte_eqb c "/" then trim_slashes s' else s
  | [] => []
  end.

(** dsn.go:64-77 [defaultConnectionSettings]; [os_user] is the outcome of user.Current(). *)
Definition defaultConnectionSettings (os_user : option bytes) : params :=
  let settings := set (set empty_params (str "host") (str "localhost")) (str "port") (str "5432") in
  match os_user with
  | Some u => set (set settings (str "user") u) (str "database") u
  | None => settings
  end.

(** dsn.go:56-58: the range over url.Query() in some order; [v[0]] would panic on an empty slice. *)
Fixpoint apply_query (m : params) (entries : list (bytes * list bytes)) : res params :=
  match entries with
  | [] => Ok m
  | (k, vs) :: rest =>
      match vs with
      | [] => Panic PanicIndex
      | v :: _ => apply_query (set m k v) rest
      end
  end.

(** dsn.go:27-54: everything between the scheme check and the query parameters *)
Definition authority_settings (os_user : option bytes) (u : url) : params :=
  let settings := defaultConnectionSettings os_user in
  (* dsn.go:30-36 *)
  let settings := match u_user u with
    | Some ui =>
        let settings := set settings (str "user") (ui_username ui) in
        match ui_password ui with Some p => set settings (str "password") p | None => settings end
    | None => settings
    end in
  (* dsn.go:39-41 *)
  let settings := match u_hostname u with [] => settings | host => set settings (str "host") host end in
  (* dsn.go:44-46 *)
  let settings := match u_port u with [] => settings | port => set settings (str "port") port end in
  (* dsn.go:49-54 *)
  match trim_slashes (u_path u) with
  | [] => set settings (str "database") (get settings (str "user"))
  | database => set settings (str "database") database
  end.

(** dsn.go:15-61 [ParseDatabaseURI].  [parse] is url.Parse, [os_user] user.Current(), [entries] the
    entries of url.Query() in the order the [range] visits them: any permutation of
    [url_Query (u_pairs u)]. *)
Definition ParseDatabaseURI (parse : bytes -> res url) (os_user : option bytes)
    (order : list (bytes * list bytes) -> list (bytes * list bytes)) (connString : bytes) : res params :=
  res_bind (parse connString) (fun u =>
  if negb (bytes_eqb (u_scheme u) (str "postgres")) && negb (bytes_eqb (u_scheme u) (str "postgresql"))
  then Err ErrInvalidURI
  else apply_query (authority_settings os_user u) (order (url_Query (u_pairs u)))).
