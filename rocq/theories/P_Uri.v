(** Properties C109-C111: database URIs as text (pkg/pg/dsn.go with net/url's Parse).
    [legacy]: is the toolchain older than Go 1.17 (a semicolon separates pairs of the query)?  [os] the OS user
    if known, [order] the iteration order of Go maps. *)
From Verif Require Import GoBase BufferProofs NetUrl NetUrlProofs SpecUri SpecDsn UriProofs Session SpecSession.
Require Import Lia.

(** * C109 Which connection strings are accepted, and what they mean *)

(** url.Parse returns a URL with a scheme exactly for the strings of the grammar, with the components it names. *)
Theorem C109_grammar : forall legacy s u, url_Parse legacy s = Ok u /\ u_scheme u <> [] <-> uri legacy s u.
Proof. exact url_Parse_exact. Qed.
Print Assumptions C109_grammar.
(** A connection string is accepted exactly if it is a URI of the grammar with the scheme postgres or postgresql. *)
Theorem C109_accepted : forall legacy os order conn, iteration_order order ->
  ((exists m, ParseDatabaseURI (url_Parse legacy) os order conn = Ok m) <->
   exists u, uri legacy conn u /\ (u_scheme u = str "postgres" \/ u_scheme u = str "postgresql")).
Proof. exact accepts. Qed.
Print Assumptions C109_accepted.
(** The settings are those its components say. *)
Theorem C109_settings : forall legacy os order conn u m, iteration_order order -> uri legacy conn u -> ParseDatabaseURI (url_Parse legacy) os order conn = Ok m ->
  (u_scheme u = str "postgres" \/ u_scheme u = str "postgresql") /\ forall k v, m k = Some v <-> setting os u k v.
Proof. exact settings. Qed.
Print Assumptions C109_settings.
(** No text makes ParseDatabaseURI panic. *)
Theorem C109_no_panic : forall legacy os order conn p, iteration_order order -> ParseDatabaseURI (url_Parse legacy) os order conn <> Panic p.
Proof. exact no_panic. Qed.
Print Assumptions C109_no_panic.
(** an IPv6 address with a zone, escapes, a plus, a fragment, capitals *)
Definition odd_uri : bytes := str "PostgreSQL://bob%40x:p%3Ass@w@[fe80::1%25eth0]:5433/a%2Fb?application_name=my+app&x&=y&bad=%zz#%41".
Example C109_instance : uri true odd_uri
  (URL (str "postgresql") (Some (Userinfo (str "bob@x") (Some (str "p:ss@w")))) (str "fe80::1%eth0") (str "5433") (str "/a/b")
     [(str "application_name", str "my app"); (str "x", []); ([], str "y")]).
Proof. apply C109_grammar. split; [vm_compute; reflexivity|discriminate]. Qed.

(** * C110 Every setting can be written *)

(** With every byte of them escaped, any user, password, database and parameters can be given, for any named or
    bracketed host and any port; they are read back as they are, parameters first. *)
Theorem C110_writable : forall legacy os order user password ht host port database pairs, iteration_order order -> host_written ht host -> port <> [] -> Forall digit port ->
  database <> [] -> (forall d, database <> "/"%byte :: d) ->
  exists m, ParseDatabaseURI (url_Parse legacy) os order (written user password ht port database pairs) = Ok m /\
    forall k v, m k = Some v <-> first_value pairs k v \/ ~ in_query pairs k /\ says user password host port database k v.
Proof. exact writable. Qed.
Print Assumptions C110_writable.
(** The address a session then dials is the host and port as they are written. *)
Theorem C110_address : forall legacy os order user password ht host port database pairs m, iteration_order order -> host_written ht host -> port <> [] -> Forall digit port ->
  database <> [] -> (forall d, database <> "/"%byte :: d) -> ~ in_query pairs (str "host") -> ~ in_query pairs (str "port") -> ht = host \/ In ":"%byte host ->
  parse_uri (DsnEnv (url_Parse legacy) os order) (written user password ht port database pairs) = Ok m -> address m = ht ++ ":"%byte :: port.
Proof. exact address_written. Qed.
Print Assumptions C110_address.
(** A database whose name begins with a slash can only be named by a parameter. *)
Theorem C110_slash_refuted : forall legacy os order conn u m, iteration_order order -> uri legacy conn u -> ParseDatabaseURI (url_Parse legacy) os order conn = Ok m ->
  (forall d, os <> Some ("/"%byte :: d)) -> (forall ui d, u_user u = Some ui -> ui_username ui <> "/"%byte :: d) -> ~ in_query (u_pairs u) (str "database") ->
  forall d, m (str "database") <> Some ("/"%byte :: d).
Proof.
  intros legacy os order conn u m O U P NO NU NQ d E. destruct (settings _ _ _ _ _ _ O U P) as [_ S]. apply S in E.
  inversion E as [k0 v0 X|X Y|X Y|X Y|X Y|v0 X Y|ui v0 X Y Z|db X Y Z|X Y Z]; subst; try discriminate.
  - apply NQ. clear - X. remember (u_pairs u) as l. clear Heql. remember (str "database") as k. clear Heqk. revert X. generalize ("/"%byte :: d). intros v X.
    induction X as [k v rest|k v k' v' rest N X IH]; [exists v; now left|destruct IH as (w & I); exists w; now right].
  - destruct Y as (n & _ & H). eapply H; reflexivity.
  - unfold base_user in *. destruct (u_user u) as [ui|].
    + eapply NU; [reflexivity|eassumption].
    + destruct os as [o|]; [|discriminate]. eapply NO. f_equal. eassumption.
Qed.
Print Assumptions C110_slash_refuted.
Example C110_instance :
  written (str "b:b") (str "p@/?#") (str "[::1]") (str "5432") (str "a b") [(str "k", str "&")] =
    str "postgresql://%62%3A%62:%70%40%2F%3F%23@[::1]:5432/%61%20%62?%6B=%26" /\
  match parse_uri (DsnEnv (url_Parse true) None (fun l => l)) (written (str "b:b") (str "p@/?#") (str "[::1]") (str "5432") (str "a b") [(str "k", str "&")]) with
  | Ok m => m (str "user") = Some (str "b:b") /\ m (str "password") = Some (str "p@/?#") /\ m (str "database") = Some (str "a b") /\ m (str "k") = Some (str "&") /\ address m = str "[::1]:5432"
  | _ => False
  end.
Proof. split; [reflexivity|]. vm_compute. repeat split. Qed.

(** * C111 What is read otherwise than it looks *)

(** user:password with an unescaped slash, question mark or hash sign in the password: if it is accepted at all,
    the user name is the host, the password up to that sign the port, and there is no user. *)
Theorem C111_password_cut : forall legacy sch n p1 x rest u, ~ In ":"%byte sch -> Forall clean n -> Forall clean p1 -> delimiter x ->
  uri legacy (sch ++ ":"%byte :: "/"%byte :: "/"%byte :: (n ++ ":"%byte :: p1) ++ x :: rest) u ->
  u_user u = None /\ host_text n (u_hostname u) /\ u_port u = p1 /\ Forall digit p1.
Proof. exact password_cut. Qed.
Print Assumptions C111_password_cut.
(** And it is accepted if the password begins with digits and a slash. *)
Theorem C111_password_read_refuted : forall legacy os order n d rest, iteration_order order -> n <> [] -> Forall (fun c => host_char c /\ c <> ":"%byte /\ c <> "["%byte) n -> d <> [] -> Forall digit d ->
  rest <> [] -> (forall r, rest <> "/"%byte :: r) -> Forall (fun c => c <> "%"%byte /\ c <> "?"%byte /\ c <> "#"%byte /\ ~ control c) rest ->
  exists m, ParseDatabaseURI (url_Parse legacy) os order (str "postgres://" ++ n ++ ":"%byte :: d ++ "/"%byte :: rest) = Ok m /\
    m (str "host") = Some n /\ m (str "port") = Some d /\ m (str "database") = Some rest /\ m (str "user") = os /\ m (str "password") = None.
Proof. exact misread. Qed.
Print Assumptions C111_password_read_refuted.
(** Without the two slashes nothing that follows the colon counts: all settings are the defaults. *)
Theorem C111_opaque_refused_refuted : forall legacy os order s, iteration_order order -> (forall s', s <> "/"%byte :: s') -> Forall (fun c => c <> "?"%byte /\ c <> "#"%byte /\ ~ control c) s ->
  exists m, ParseDatabaseURI (url_Parse legacy) os order (str "postgres:" ++ s) = Ok m /\
    m (str "host") = Some (str "localhost") /\ m (str "port") = Some (str "5432") /\ m (str "user") = os /\
    m (str "database") = Some (match os with Some o => o | None => [] end) /\ m (str "password") = None.
Proof. exact opaque. Qed.
Print Assumptions C111_opaque_refused_refuted.
(** The host part never names a socket directory, which PostgreSQL's documentation allows. *)
Theorem C111_socket_host_refuted : forall legacy s u, uri legacy s u -> ~ In "/"%byte (u_hostname u).
Proof. exact host_no_slash. Qed.
Print Assumptions C111_socket_host_refuted.
(** bob's password 1/secret; no slashes; the socket directory and the two hosts of PostgreSQL's documentation *)
Example C111_instance :
  url_Parse true (str "postgres://bob:1/secret@db.internal/app") = Ok (URL (str "postgres") None (str "bob") (str "1") (str "/secret@db.internal/app") []) /\
  url_Parse true (str "postgres://bob:se/cret@db.internal/app") = Err (ErrExternal 1) /\
  url_Parse true (str "postgres:bob:secret@db.internal/app") = Ok (URL (str "postgres") None [] [] [] []) /\
  url_Parse true (str "postgresql://%2Fvar%2Flib%2Fpostgresql/dbname") = Err (ErrExternal 1) /\
  url_Parse true (str "postgresql://host1:123,host2:456/somedb") = Ok (URL (str "postgresql") None (str "host1:123,host2") (str "456") (str "/somedb") []).
Proof. repeat split; vm_compute; reflexivity. Qed.
