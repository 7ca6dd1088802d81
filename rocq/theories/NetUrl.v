(** Model of the part of the standard library's net/url that dsn.go:16 and dsn.go:24-56 rely on: [url.Parse],
    [Userinfo], [URL.Hostname], [URL.Port] and [URL.Query], as in the Go 1.13 that /repo/go.mod:3 asks for
    (net/url/url.go; its source is not in /repo).  [Dsn.ParseDatabaseURI] takes the result of url.Parse as
    an input; [url_Parse] below is the input Go provides.

    Simplifications: the errors of net/url are one error, [ErrExternal 1] (dsn.go:18-20 only hands it on);
    the fields Opaque, RawPath, ForceQuery, RawQuery and Fragment, which dsn.go does not look at, are not
    kept; url.Query's decoding of the query string is done while parsing. *)
From Verif Require Export GoBase Dsn.

(** an error of net/url: url.Error, EscapeError, InvalidHostError (dsn.go:18-20) *)
Definition url_error {A} : res A := Err (ErrExternal 1).

(** [lo <= c && c <= hi] (used by getscheme, unescape, validUserinfo below dsn.go:16) *)
Definition between (lo hi : Z) (c : byte) : bool := (lo <=? Z_of_byte c) && (Z_of_byte c <=? hi).
(** ['a' <= c && c <= 'z' || 'A' <= c && c <= 'Z'] (url.Parse, dsn.go:16) *)
Definition is_letter (c : byte) : bool := between 97 122 c || between 65 90 c.
(** ['0' <= c && c <= '9'] (url.Parse, dsn.go:16) *)
Definition is_digit (c : byte) : bool := between 48 57 c.
(** [switch c { case ... }]: is [c] one of the characters of [l]? (url.Parse, dsn.go:16) *)
Definition one_of (l : bytes) (c : byte) : bool := existsb (byte_eqb c) l.

(** strings.Index(s, c) and cutting there: what is before and after the first [c] (net/url split, dsn.go:16) *)
Fixpoint cut (c : byte) (s : bytes) : option (bytes * bytes) :=
  match s with
  | [] => None
  | x :: s' => if byte_eqb x c then Some ([], s')
               else match cut c s' with Some (a, b) => Some (x :: a, b) | None => None end
  end.
(** strings.LastIndex(s, c) and cutting there (parseAuthority, parseHost, splitHostPort; dsn.go:16, 39, 44) *)
Fixpoint cut_last (c : byte) (s : bytes) : option (bytes * bytes) :=
  match s with
  | [] => None
  | x :: s' => match cut_last c s' with
               | Some (a, b) => Some (x :: a, b)
               | None => if byte_eqb x c then Some ([], s') else None
               end
  end.
(** strings.HasPrefix (url.Parse, dsn.go:16) *)
Fixpoint has_prefix (p s : bytes) : bool :=
  match p, s with
  | [], _ => true
  | x :: p', y :: s' => byte_eqb x y && has_prefix p' s'
  | _, _ => false
  end.
(** strings.Index(s, "%25") and cutting before it (parseHost, dsn.go:16) *)
Fixpoint cut_zone (s : bytes) : option (bytes * bytes) :=
  if has_prefix (str "%25") s then Some ([], s)
  else match s with
       | [] => None
       | x :: s' => match cut_zone s' with Some (a, b) => Some (x :: a, b) | None => None end
       end.

(** unhex, with ishex: the value of a hexadecimal digit (url.Parse, dsn.go:16) *)
Definition unhex (c : byte) : option Z :=
  if is_digit c then Some (Z_of_byte c - 48)
  else if between 97 102 c then Some (Z_of_byte c - 87)
  else if between 65 70 c then Some (Z_of_byte c - 55)
  else None.

(** type encoding: what is being unescaped (url.Parse, dsn.go:16; url.Query, dsn.go:56) *)
Inductive encoding := encodePath | encodeHost | encodeZone | encodeUserPassword | encodeQueryComponent | encodeFragment.
(** shouldEscape(c, encodeHost) and shouldEscape(c, encodeZone), which agree (url.Parse, dsn.go:16) *)
Definition shouldEscape (c : byte) : bool :=
  negb (is_letter c || is_digit c || one_of (str "!$&'()*+,;=:[]<>""") c || one_of (str "-_.~") c).

(** what unescape's first loop requires of the escape [%hl], whose byte is [v] (url.Parse, dsn.go:16) *)
Definition escape_ok (mode : encoding) (high : Z) (v : byte) : bool :=
  match mode with
  | encodeHost => negb (high <? 8) || byte_eqb v "%"
  | encodeZone => byte_eqb v "%" || byte_eqb v " " || negb (shouldEscape v)
  | _ => true
  end.
(** what unescape's first loop requires of any other character (url.Parse, dsn.go:16) *)
Definition char_ok (mode : encoding) (c : byte) : bool :=
  match mode with
  | encodeHost | encodeZone => negb ((Z_of_byte c <? 128) && shouldEscape c)
  | _ => true
  end.
(** unescape(s, mode): the check of the first loop and the copying of the second in one pass (url.Parse,
    dsn.go:16; url.Query, dsn.go:56) *)
Fixpoint unescape (mode : encoding) (s : bytes) : res bytes :=
  match s with
  | [] => Ok []
  | c :: s' =>
      if byte_eqb c "%" then
        match s' with
        | h :: l :: s'' =>
            match unhex h, unhex l with
            | Some vh, Some vl =>
                let v := byte_of_Z (vh * 16 + vl) in
                if escape_ok mode vh v then res_map (cons v) (unescape mode s'') else url_error
            | _, _ => url_error
            end
        | _ => url_error
        end
      else if byte_eqb c "+" then
        res_map (cons (match mode with encodeQueryComponent => " "%byte | _ => "+"%byte end)) (unescape mode s')
      else if char_ok mode c then res_map (cons c) (unescape mode s') else url_error
  end.

(** getscheme: None if there is no scheme; [first] is [i == 0] (url.Parse, dsn.go:16) *)
Fixpoint getscheme (first : bool) (s : bytes) : res (option (bytes * bytes)) :=
  match s with
  | [] => Ok None
  | c :: s' =>
      if is_letter c || is_digit c || one_of (str "+-.") c then
        if first && negb (is_letter c) then Ok None
        else res_map (fun r => match r with Some (a, b) => Some (c :: a, b) | None => None end) (getscheme false s')
      else if byte_eqb c ":" then if first then url_error else Ok (Some ([], s'))
      else Ok None
  end.
(** strings.ToLower on a scheme (url.Parse, dsn.go:16) *)
Definition lower (s : bytes) : bytes := map (fun c => if between 65 90 c then byte_of_Z (Z_of_byte c + 32) else c) s.

(** stringContainsCTLByte (url.Parse, dsn.go:16) *)
Definition is_control (c : byte) : bool := (Z_of_byte c <? 32) || (Z_of_byte c =? 127).

(** validOptionalPort (parseHost and splitHostPort; dsn.go:16, 39, 44) *)
Definition validOptionalPort (s : bytes) : bool :=
  match s with [] => true | c :: s' => byte_eqb c ":" && forallb is_digit s' end.

(** parseHost (url.Parse, dsn.go:16) *)
Definition parseHost (host : bytes) : res bytes :=
  if has_prefix (str "[") host then
    match cut_last "]" host with
    | None => url_error
    | Some (inside, colonPort) =>
        if negb (validOptionalPort colonPort) then url_error
        else match cut_zone inside with
             | Some (host1, zone) =>
                 res_bind (unescape encodeHost host1) (fun h1 =>
                 res_bind (unescape encodeZone zone) (fun h2 =>
                 res_bind (unescape encodeHost ("]"%byte :: colonPort)) (fun h3 => Ok (h1 ++ h2 ++ h3))))
             | None => unescape encodeHost host
             end
    end
  else match cut_last ":" host with
       | Some (_, port) => if negb (validOptionalPort (":"%byte :: port)) then url_error else unescape encodeHost host
       | None => unescape encodeHost host
       end.

(** validUserinfo (url.Parse, dsn.go:16) *)
Definition validUserinfo (s : bytes) : bool :=
  forallb (fun c => is_letter c || is_digit c || one_of (str "-._:~!$&'()*+,;=%@") c) s.

(** parseAuthority (url.Parse, dsn.go:16) *)
Definition parseAuthority (authority : bytes) : res (option userinfo * bytes) :=
  match cut_last "@" authority with
  | None => res_bind (parseHost authority) (fun host => Ok (None, host))
  | Some (ui, hp) =>
      res_bind (parseHost hp) (fun host =>
      if negb (validUserinfo ui) then url_error
      else match cut ":" ui with
           | None => res_bind (unescape encodeUserPassword ui) (fun name => Ok (Some (Userinfo name None), host))
           | Some (n, p) =>
               res_bind (unescape encodeUserPassword n) (fun name =>
               res_bind (unescape encodeUserPassword p) (fun pw => Ok (Some (Userinfo name (Some pw)), host)))
           end)
  end.

(** splitHostPort: URL.Hostname() (dsn.go:39) and URL.Port() (dsn.go:44) *)
Definition splitHostPort (hostport : bytes) : bytes * bytes :=
  let '(host, port) :=
    match cut_last ":" hostport with
    | Some (h, p) => if validOptionalPort (":"%byte :: p) then (h, p) else (hostport, [])
    | None => (hostport, [])
    end in
  (match host with
   | c :: h' => if byte_eqb c "[" && byte_eqb (last host x00) "]" then removelast h' else host
   | [] => []
   end, port).

(** strings.IndexAny in a loop: the pieces between separators (url.Query, dsn.go:56) *)
Fixpoint segments (sep : byte -> bool) (s : bytes) : list bytes :=
  match s with
  | [] => [[]]
  | c :: s' =>
      if sep c then [] :: segments sep s'
      else match segments sep s' with seg :: rest => (c :: seg) :: rest | [] => [[c]] end
  end.
(** parseQuery's loop body: the pair of one piece, if it has one (url.Query, dsn.go:56).  [legacy]: before
    Go 1.17 a semicolon separates pairs; since then a piece with a semicolon is dropped. *)
Definition query_pair (legacy : bool) (seg : bytes) : list (bytes * bytes) :=
  if negb legacy && one_of seg ";" then []
  else match seg with
  | [] => []
  | _ =>
      let '(k, v) := match cut "=" seg with Some kv => kv | None => (seg, []) end in
      match unescape encodeQueryComponent k, unescape encodeQueryComponent v with
      | Ok k', Ok v' => [(k', v')]
      | _, _ => []
      end
  end.
(** parseQuery (url.Query, dsn.go:56) *)
Definition parseQuery (legacy : bool) (query : bytes) : list (bytes * bytes) :=
  concat (map (query_pair legacy) (segments (fun c => byte_eqb c "&" || legacy && byte_eqb c ";") query)).

(** split(s, "?", true), with the special case of a single trailing question mark (url.Parse, dsn.go:16) *)
Definition split_query (rest : bytes) : bytes * bytes :=
  if byte_eqb (last rest x00) "?" && (length (filter (byte_eqb "?") rest) =? 1)%nat then (removelast rest, [])
  else match cut "?" rest with Some (r, q) => (r, q) | None => (rest, []) end.

(** parse(rawurl, false) (url.Parse, dsn.go:16) *)
Definition parse (legacy : bool) (rawurl : bytes) : res url :=
  if existsb is_control rawurl then url_error
  else if bytes_eqb rawurl (str "*") then Ok (URL [] None [] [] (str "*") [])
  else
  res_bind (getscheme true rawurl) (fun sr =>
  let '(scheme, rest) := match sr with Some (a, b) => (lower a, b) | None => ([], rawurl) end in
  let '(rest, query) := split_query rest in
  let pairs := parseQuery legacy query in
  let no_scheme := match scheme with [] => true | _ => false end in
  if negb (has_prefix (str "/") rest) && negb no_scheme then Ok (URL scheme None [] [] [] pairs)
  else if negb (has_prefix (str "/") rest) &&
          match cut ":" rest with Some (seg, _) => negb (one_of seg "/") | None => false end then url_error
  else if (negb no_scheme || negb (has_prefix (str "///") rest)) && has_prefix (str "//") rest then
    let rest := skipn 2 rest in
    let '(authority, rest) := match cut "/" rest with Some (a, b) => (a, "/"%byte :: b) | None => (rest, []) end in
    res_bind (parseAuthority authority) (fun uh =>
    res_bind (unescape encodePath rest) (fun path =>
    let '(hostname, port) := splitHostPort (snd uh) in
    Ok (URL scheme (fst uh) hostname port path pairs)))
  else res_bind (unescape encodePath rest) (fun path => Ok (URL scheme None [] [] path pairs))).

(** url.Parse (dsn.go:16) *)
Definition url_Parse (legacy : bool) (rawurl : bytes) : res url :=
  match cut "#" rawurl with
  | None => parse legacy rawurl
  | Some (u, frag) =>
      res_bind (parse legacy u) (fun url =>
      match frag with [] => Ok url | _ => res_bind (unescape encodeFragment frag) (fun _ => Ok url) end)
  end.
