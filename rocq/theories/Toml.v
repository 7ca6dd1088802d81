(** Model of pkg/cli/read_server_config.go:12-29 as a function of the text of the configuration file, with the
    part of github.com/BurntSushi/toml v0.3.1 (/repo/go.mod:6; its source is not in /repo) that the
    configuration described in README.md:56-83 needs: comments, bare and quoted keys, basic and literal strings,
    booleans and decimal integers at the top level (lex.go, parse.go, and MetaData.unify of decode.go).
    Tables, arrays, inline tables, dates, floats, signed or underscored integers and multi-line strings are
    [Outside]: the model says nothing about texts that contain them.

    Simplifications: the lexer takes one byte at a time (it treats all bytes from 128 on alike wherever it
    decodes a rune); an ill-formed escape is found when the string ends, not when it is read (an error in
    either case, and the rest of the text is not looked at after an error); the errors of toml are one error,
    [ErrExternal 2]; filepath.Abs and ioutil.ReadFile are inputs. *)
From Coq Require Import Strings.Byte Permutation.
From Verif Require Export GoBase Config.
From Verif Require Import NetUrl.   (* character classes: between, is_letter, is_digit, unhex *)

(** what a key may be set to (parser.value; read_server_config.go:23) *)
Inductive value := VString (s : bytes) | VBool (b : bool) | VInt (n : Z).
(** parser.mapping, in the order of the definitions (read_server_config.go:23) *)
Notation table := (list (bytes * value)).

(** isWhitespace (lex.go, below read_server_config.go:23) *)
Definition isWhitespace (c : byte) : bool := byte_eqb c x09 || byte_eqb c " ".
(** isNL: a carriage return ends a line by itself (lex.go, below read_server_config.go:23) *)
Definition isNL (c : byte) : bool := byte_eqb c x0a || byte_eqb c x0d.
(** isBareKeyChar (lex.go, below read_server_config.go:23) *)
Definition isBareKeyChar (c : byte) : bool := is_letter c || is_digit c || byte_eqb c "_" || byte_eqb c "-".

(** utf8.DecodeRuneInString outside ASCII: the length of the sequence [s] begins with, 0 if it begins with none
    (parser.replaceEscapes, below read_server_config.go:23) *)
Definition rune_width (s : bytes) : nat :=
  match s with
  | a :: b :: r =>
      if between 194 223 a then if between 128 191 b then 2%nat else 0%nat
      else match r with
      | c :: r' =>
          if between 224 239 a then
            if (if Z_of_byte a =? 224 then between 160 191 b else if Z_of_byte a =? 237 then between 128 159 b else between 128 191 b) &&
               between 128 191 c then 3%nat else 0%nat
          else match r' with
          | d :: _ =>
              if between 240 244 a &&
                 (if Z_of_byte a =? 240 then between 144 191 b else if Z_of_byte a =? 244 then between 128 143 b else between 128 191 b) &&
                 between 128 191 c && between 128 191 d then 4%nat else 0%nat
          | [] => 0%nat
          end
      | [] => 0%nat
      end
  | _ => 0%nat
  end.
(** utf8.ValidRune (parser.asciiEscapeToUnicode, below read_server_config.go:23) *)
Definition ValidRune (n : Z) : bool := (n <? 55296) || ((57343 <? n) && (n <=? 1114111)).
(** string([]rune{n}) (parser.replaceEscapes, below read_server_config.go:23) *)
Definition encode_rune (n : Z) : bytes :=
  if n <? 128 then [byte_of_Z n]
  else if n <? 2048 then [byte_of_Z (192 + n / 64); byte_of_Z (128 + n mod 64)]
  else if n <? 65536 then [byte_of_Z (224 + n / 4096); byte_of_Z (128 + n / 64 mod 64); byte_of_Z (128 + n mod 64)]
  else [byte_of_Z (240 + n / 262144); byte_of_Z (128 + n / 4096 mod 64); byte_of_Z (128 + n / 64 mod 64); byte_of_Z (128 + n mod 64)].
(** string([]rune{utf8.RuneError}) (parser.replaceEscapes, below read_server_config.go:23) *)
Definition rune_error : bytes := [xef; xbf; xbd].

(** the escapes of one character (parser.replaceEscapes, below read_server_config.go:23) *)
Definition escaped (c : byte) : option byte :=
  if byte_eqb c "b" then Some x08 else if byte_eqb c "t" then Some x09 else if byte_eqb c "n" then Some x0a
  else if byte_eqb c "f" then Some x0c else if byte_eqb c "r" then Some x0d
  else if byte_eqb c """" then Some """"%byte else if byte_eqb c "\" then Some "\"%byte else None.
(** strconv.ParseUint(s, 16, 32) (parser.asciiEscapeToUnicode, below read_server_config.go:23) *)
Fixpoint hexadecimal (n : Z) (s : bytes) : option Z :=
  match s with
  | [] => Some n
  | c :: r => match unhex c with Some v => hexadecimal (16 * n + v) r | None => None end
  end.
(** parser.asciiEscapeToUnicode (below read_server_config.go:23) *)
Definition asciiEscapeToUnicode (s : bytes) : option bytes :=
  match hexadecimal 0 s with
  | Some n => if ValidRune n then Some (encode_rune n) else None
  | None => None
  end.
(** parser.replaceEscapes; [n] bytes of the current rune are still to be copied (below
    read_server_config.go:23) *)
Fixpoint replaceEscapes (n : nat) (s : bytes) : option bytes :=
  match s with
  | [] => Some []
  | c :: r =>
      match n with
      | S n' => option_map (cons c) (replaceEscapes n' r)
      | O =>
          if byte_eqb c "\" then
            match r with
            | [] => None
            | e :: r1 =>
                match escaped e with
                | Some b => option_map (cons b) (replaceEscapes 0 r1)
                | None =>
                    match r1 with
                    | a1 :: a2 :: a3 :: a4 :: r2 =>
                        if byte_eqb e "u" then
                          match asciiEscapeToUnicode [a1; a2; a3; a4] with
                          | Some u => option_map (app u) (replaceEscapes 0 r2)
                          | None => None
                          end
                        else if byte_eqb e "U" then
                          match r2 with
                          | a5 :: a6 :: a7 :: a8 :: r3 =>
                              match asciiEscapeToUnicode [a1; a2; a3; a4; a5; a6; a7; a8] with
                              | Some u => option_map (app u) (replaceEscapes 0 r3)
                              | None => None
                              end
                          | _ => None
                          end
                        else None
                    | _ => None
                    end
                end
            end
          else if Z_of_byte c <? 128 then option_map (cons c) (replaceEscapes 0 r)
          else match rune_width s with
               | O => option_map (app rune_error) (replaceEscapes 0 r)
               | S w => option_map (cons c) (replaceEscapes w r)
               end
      end
  end.

(** what a string being read is: a key, or the value of one (lexKeyStart and lexValue; read_server_config.go:23) *)
Inductive target := TKey | TValue (k : bytes).
(** the state functions of the lexer, with the text of the item being read (lex.go, below
    read_server_config.go:23) *)
Inductive mode :=
| Top                                        (* lexTop *)
| Comment                                    (* lexComment, then lexTop *)
| BareKey (k : bytes)                        (* lexBareKey *)
| KeyEnd (k : bytes)                         (* lexKeyEnd *)
| Value (k : bytes)                          (* lexValue *)
| Quote1 (q : byte) (g : target)             (* lexValue after a quotation mark *)
| Quote2 (q : byte) (g : target)             (* lexValue after two *)
| Basic (g : target) (raw : bytes) (esc : bool)  (* lexString; [esc]: lexStringEscape *)
| Raw (g : target) (raw : bytes)             (* lexRawString *)
| InBool (k w : bytes)                       (* lexBool *)
| InInt (k w : bytes)                        (* lexNumberOrDate *)
| TopEnd.                                    (* lexTopEnd *)
(** lexer and parser on the way, at the end of the text, or stopped by an error (parse; read_server_config.go:23) *)
Inductive lexed := Going (m : mode) (l : table) | Ended (l : table) | Failed | Outside.

(** parser.setValue: a key may be set once (below read_server_config.go:23) *)
Definition define (l : table) (k : bytes) (v : value) : lexed :=
  if existsb (fun p => bytes_eqb (fst p) k) l then Failed else Going TopEnd (l ++ [(k, v)]).
(** lexTopEnd; a NUL is taken for the end of the text (below read_server_config.go:23) *)
Definition top_end (l : table) (c : byte) : lexed :=
  if byte_eqb c "#" then Going Comment l
  else if isWhitespace c then Going TopEnd l
  else if isNL c then Going Top l
  else if byte_eqb c x00 then Ended l
  else Failed.
(** the item has ended in front of [c] (below read_server_config.go:23) *)
Definition close_item (x : lexed) (c : byte) : lexed :=
  match x with Going TopEnd l => top_end l c | _ => x end.
(** lexKeyEnd (below read_server_config.go:23) *)
Definition key_end (l : table) (k : bytes) (c : byte) : lexed :=
  if byte_eqb c "=" then Going (Value k) l else if isWhitespace c then Going (KeyEnd k) l else Failed.
(** lexBareKey (below read_server_config.go:23) *)
Definition bare_key (l : table) (k : bytes) (c : byte) : lexed :=
  if isBareKeyChar c then Going (BareKey (k ++ [c])) l
  else if isWhitespace c || byte_eqb c "=" then key_end l k c
  else Failed.
(** a quotation mark, basic or literal (lex.go, below read_server_config.go:23) *)
Definition isQuote (c : byte) : bool := byte_eqb c """" || byte_eqb c "'".
(** lexTop and lexKeyStart (below read_server_config.go:23) *)
Definition top (l : table) (c : byte) : lexed :=
  if isWhitespace c || isNL c then Going Top l
  else if byte_eqb c "#" then Going Comment l
  else if byte_eqb c "[" then Outside
  else if byte_eqb c x00 then Failed
  else if byte_eqb c "=" then Failed
  else if isQuote c then Going (Quote1 c TKey) l
  else bare_key l [] c.
(** lexValue (below read_server_config.go:23) *)
Definition on_value (l : table) (k : bytes) (c : byte) : lexed :=
  if isWhitespace c then Going (Value k) l
  else if is_digit c then Going (InInt k [c]) l
  else if byte_eqb c "[" || byte_eqb c "{" || byte_eqb c "+" || byte_eqb c "-" then Outside
  else if isQuote c then Going (Quote1 c (TValue k)) l
  else if is_letter c then Going (InBool k [c]) l
  else Failed.
(** a string has been read (lexKeyEnd or parser.setValue; below read_server_config.go:23) *)
Definition string_done (l : table) (g : target) (s : bytes) : lexed :=
  match g with TKey => Going (KeyEnd s) l | TValue k => define l k (VString s) end.
(** lexString and lexStringEscape (below read_server_config.go:23) *)
Definition basic (l : table) (g : target) (raw : bytes) (esc : bool) (c : byte) : lexed :=
  if byte_eqb c x00 || isNL c then Failed
  else if esc then Going (Basic g (raw ++ [c]) false) l
  else if byte_eqb c "\" then Going (Basic g (raw ++ [c]) true) l
  else if byte_eqb c """" then match replaceEscapes 0 raw with Some s => string_done l g s | None => Failed end
  else Going (Basic g (raw ++ [c]) false) l.
(** lexRawString (below read_server_config.go:23) *)
Definition literal (l : table) (g : target) (raw : bytes) (c : byte) : lexed :=
  if byte_eqb c x00 || isNL c then Failed
  else if byte_eqb c "'" then string_done l g raw
  else Going (Raw g (raw ++ [c])) l.
(** the rest of lexBool: [w] has been read (below read_server_config.go:23) *)
Definition bool_done (l : table) (k w : bytes) : lexed :=
  if bytes_eqb w (str "true") then define l k (VBool true)
  else if bytes_eqb w (str "false") then define l k (VBool false)
  else Failed.
(** strconv.ParseInt(w, 10, 64) on digits (parser.value, below read_server_config.go:23) *)
Definition decimal (w : bytes) : Z := fold_left (fun n c => 10 * n + (Z_of_byte c - 48)) w 0.
(** the integer [w] has been read (below read_server_config.go:23) *)
Definition int_done (l : table) (k w : bytes) : lexed :=
  if decimal w <? 2 ^ 63 then define l k (VInt (decimal w)) else Failed.

(** lexer and parser take the next byte (parse; read_server_config.go:23) *)
Definition feed (x : lexed) (c : byte) : lexed :=
  match x with
  | Going m l =>
      match m with
      | Top => top l c
      | Comment => if isNL c then Going Top l else if byte_eqb c x00 then Failed else Going Comment l
      | BareKey k => bare_key l k c
      | KeyEnd k => key_end l k c
      | Value k => on_value l k c
      | Quote1 q g => if byte_eqb c q then Going (Quote2 q g) l
                      else if byte_eqb q """" then basic l g [] false c else literal l g [] c
      | Quote2 q g => if byte_eqb c q then Outside
                      else match g with TKey => key_end l [] c | TValue k => close_item (define l k (VString [])) c end
      | Basic g raw esc => basic l g raw esc c
      | Raw g raw => literal l g raw c
      | InBool k w => if is_letter c then Going (InBool k (w ++ [c])) l else close_item (bool_done l k w) c
      | InInt k w =>
          if is_digit c then Going (InInt k (w ++ [c])) l
          else if byte_eqb c "-" || byte_eqb c "_" || byte_eqb c "." || byte_eqb c "e" || byte_eqb c "E" then Outside
          else close_item (int_done l k w) c
      | TopEnd => top_end l c
      end
  | _ => x
  end.
(** the text ends (parse; read_server_config.go:23) *)
Definition at_end (x : lexed) : lexed :=
  match x with
  | Going m l =>
      match m with
      | Top | Comment | TopEnd => Ended l
      | Quote2 _ (TValue k) => match define l k (VString []) with Going _ l' => Ended l' | y => y end
      | InBool k w => match bool_done l k w with Going _ l' => Ended l' | y => y end
      | InInt k w => match int_done l k w with Going _ l' => Ended l' | y => y end
      | _ => Failed
      end
  | _ => x
  end.
(** parse (read_server_config.go:23) *)
Definition parse (text : bytes) : lexed := at_end (fold_left feed text (Going Top [])).

(** strings.EqualFold with an ASCII name: letters in either case, and the long s (U+017F) is an s too
    (MetaData.unifyStruct, below read_server_config.go:23) *)
Fixpoint fold_case (s : bytes) : bytes :=
  match s with
  | [] => []
  | c :: r =>
      let c' := if between 65 90 c then byte_of_Z (Z_of_byte c + 32) else c in
      match r with
      | d :: r' => if byte_eqb c xc5 && byte_eqb d xbf then "s"%byte :: fold_case r' else c' :: fold_case r
      | [] => [c']
      end
  end.
(** the fields of Config (config.go:5-11) *)
Inductive field := FListen | FDatabaseURL.
(** MetaData.unifyStruct: the field a key is for (config.go:7, 10) *)
Definition field_of (k : bytes) : option field :=
  if bytes_eqb (fold_case k) (str "listen") then Some FListen
  else if bytes_eqb (fold_case k) (str "database-url") then Some FDatabaseURL
  else None.
(** MetaData.unifyString (config.go:7, 10) *)
Definition set_field (r : res config) (p : bytes * value) : res config :=
  match r with
  | Ok cfg =>
      match field_of (fst p), snd p with
      | None, _ => Ok cfg
      | Some FListen, VString s => Ok (Config s (DatabaseURL cfg))
      | Some FDatabaseURL, VString s => Ok (Config (Listen cfg) s)
      | Some _, _ => Err (ErrExternal 2)
      end
  | _ => r
  end.
(** an iteration order of Go maps: the loop of unifyStruct takes the keys in any order (read_server_config.go:23) *)
Definition map_order (order : table -> table) : Prop := forall l, Permutation (order l) l.
(** toml.Decode into &server.Config{}; None: outside the model (read_server_config.go:22-23) *)
Definition Decode (order : table -> table) (text : bytes) : option (res config) :=
  match parse text with
  | Ended l => Some (fold_left set_field (order l) (Ok (Config [] [])))
  | Failed => Some (Err (ErrExternal 2))
  | _ => None
  end.
(** read_server_config.go:12-29; [file]: the result of filepath.Abs and ioutil.ReadFile *)
Definition readServerConfig (order : table -> table) (file : res bytes) : option (res config) :=
  match file with
  | Ok text => Decode order text
  | Err e => Some (Err e)
  | Panic p => Some (Panic p)
  end.
