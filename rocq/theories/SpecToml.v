(** Independent specification of configuration files as text: a grammar that says which texts are documents
    and what they set, put together from their parts (after TOML 0.5, restricted to comments, keys, strings,
    booleans and decimal integers at the top level, and as lenient as the library is: see the notes at the
    rules), and what a document means as a configuration. *)
From Verif Require Import GoBase Config.
From Verif Require SpecUri.   (* the digits *)
From Verif Require Import Toml.   (* for the type [value] only *)

(** space and tab *)
Definition blank (c : byte) : Prop := c = " "%byte \/ c = x09.
(** a line ends with a line feed, and lenient: with a carriage return *)
Definition newline (c : byte) : Prop := c = x0a \/ c = x0d.
(** what comments and strings consist of: everything on the line; lenient: control characters too *)
Definition printable (c : byte) : Prop := ~ newline c /\ c <> x00.

(** ** Unicode *)

(** code points that are characters *)
Definition character (n : Z) : Prop := 0 <= n < 55296 \/ 57343 < n <= 1114111.
(** [utf8 n s]: [s] is the UTF-8 encoding of [n] *)
Inductive utf8 : Z -> bytes -> Prop :=
| utf8_1 n a : 0 <= n < 128 -> Z_of_byte a = n -> utf8 n [a]
| utf8_2 n a b : 128 <= n < 2048 -> Z_of_byte a = 192 + n / 64 -> Z_of_byte b = 128 + n mod 64 -> utf8 n [a; b]
| utf8_3 n a b c : 2048 <= n < 65536 -> Z_of_byte a = 224 + n / 4096 -> Z_of_byte b = 128 + n / 64 mod 64 ->
    Z_of_byte c = 128 + n mod 64 -> utf8 n [a; b; c]
| utf8_4 n a b c d : 65536 <= n <= 1114111 -> Z_of_byte a = 240 + n / 262144 -> Z_of_byte b = 128 + n / 4096 mod 64 ->
    Z_of_byte c = 128 + n / 64 mod 64 -> Z_of_byte d = 128 + n mod 64 -> utf8 n [a; b; c; d].

(** ** Strings *)

(** a backslash and one of these characters *)
Inductive short_escape : byte -> Z -> Prop :=
| esc_b : short_escape "b" 8 | esc_t : short_escape "t" 9 | esc_n : short_escape "n" 10 | esc_f : short_escape "f" 12
| esc_r : short_escape "r" 13 | esc_quote : short_escape """" 34 | esc_backslash : short_escape "\" 92.
(** the number hexadecimal digits stand for *)
Inductive hex_number : bytes -> Z -> Prop :=
| hex_none : hex_number [] 0
| hex_more s n c v : hex_number s n -> SpecUri.hex_digit c v -> hex_number (s ++ [c]) (16 * n + v).

(** [basic_text s t]: between double quotation marks [s] stands for [t].  Lenient: a byte that is not part of a
    character stands for U+FFFD. *)
Inductive basic_text : bytes -> bytes -> Prop :=
| bt_end : basic_text [] []
| bt_ascii c s t : printable c -> Z_of_byte c < 128 -> c <> """"%byte -> c <> "\"%byte -> basic_text s t -> basic_text (c :: s) (c :: t)
| bt_char n u s t : 128 <= n -> character n -> utf8 n u -> basic_text s t -> basic_text (u ++ s) (u ++ t)
| bt_junk c s t : 128 <= Z_of_byte c -> (forall n u r, character n -> utf8 n u -> c :: s <> u ++ r) -> basic_text s t ->
    basic_text (c :: s) ([xef; xbf; xbd] ++ t)
| bt_escape e n u s t : short_escape e n -> utf8 n u -> basic_text s t -> basic_text ("\"%byte :: e :: s) (u ++ t)
| bt_short d n u s t : length d = 4%nat -> hex_number d n -> character n -> utf8 n u -> basic_text s t ->
    basic_text ("\"%byte :: "u"%byte :: d ++ s) (u ++ t)
| bt_long d n u s t : length d = 8%nat -> hex_number d n -> character n -> utf8 n u -> basic_text s t ->
    basic_text ("\"%byte :: "U"%byte :: d ++ s) (u ++ t).

(** [quoted s t]: [s] is a string and stands for [t] *)
Inductive quoted : bytes -> bytes -> Prop :=
| q_basic s t : basic_text s t -> quoted (""""%byte :: s ++ [""""%byte]) t
| q_literal t : Forall printable t -> ~ In "'"%byte t -> quoted ("'"%byte :: t ++ ["'"%byte]) t.

(** ** Documents *)

Definition bare (c : byte) : Prop := SpecUri.letter c \/ SpecUri.digit c \/ c = "_"%byte \/ c = "-"%byte.
Inductive key : bytes -> bytes -> Prop :=
| key_bare k : k <> [] -> Forall bare k -> key k k
| key_quoted s k : quoted s k -> key s k.
(** the number decimal digits stand for *)
Inductive number : bytes -> Z -> Prop :=
| number_none : number [] 0
| number_more s n c : number s n -> SpecUri.digit c -> number (s ++ [c]) (10 * n + (Z_of_byte c - 48)).
(** lenient: leading zeros *)
Inductive val : bytes -> value -> Prop :=
| val_string s t : quoted s t -> val s (VString t)
| val_true : val (str "true") (VBool true)
| val_false : val (str "false") (VBool false)
| val_int s n : s <> [] -> number s n -> n < 2 ^ 63 -> val s (VInt n).

(** the text is at its end or at the end of a line *)
Definition line_end (s : bytes) : Prop := s = [] \/ exists c s', newline c /\ s = c :: s'.
(** [document s l]: [s] sets the keys of [l], in this order; [rest_of_line s l]: likewise, after a value *)
Inductive document : bytes -> list (bytes * value) -> Prop :=
| doc_end : document [] []
| doc_space c s l : blank c \/ newline c -> document s l -> document (c :: s) l
| doc_comment x s l : Forall printable x -> line_end s -> document s l -> document ("#"%byte :: x ++ s) l
| doc_set ks k b b' vs v s l : key ks k -> Forall blank b -> Forall blank b' -> val vs v -> rest_of_line s l ->
    document (ks ++ b ++ "="%byte :: b' ++ vs ++ s) ((k, v) :: l)
with rest_of_line : bytes -> list (bytes * value) -> Prop :=
| rol_end : rest_of_line [] []
| rol_space c s l : blank c -> rest_of_line s l -> rest_of_line (c :: s) l
| rol_newline c s l : newline c -> document s l -> rest_of_line (c :: s) l
| rol_comment x s l : Forall printable x -> line_end s -> document s l -> rest_of_line ("#"%byte :: x ++ s) l
| rol_nul s : rest_of_line (x00 :: s) [].   (* lenient: whatever follows a NUL is not looked at *)

(** ** Meaning *)

(** [same_name k n]: the key [k] is the name [n], in capitals or not; lenient: the long s (U+017F) is an s *)
Inductive same_name : bytes -> bytes -> Prop :=
| sn_end : same_name [] []
| sn_same c k n : same_name k n -> same_name (c :: k) (c :: n)
| sn_capital c c' k n : 65 <= Z_of_byte c <= 90 -> Z_of_byte c' = Z_of_byte c + 32 -> same_name k n -> same_name (c :: k) (c' :: n)
| sn_long_s k n : same_name k n -> same_name (xc5 :: xbf :: k) ("s"%byte :: n).
(** [l] sets the field called [n] to [v] *)
Definition sets (l : list (bytes * value)) (n : bytes) (v : value) : Prop := exists k, In (k, v) l /\ same_name k n.
(** the value [s] of the field called [n] is one that [l] sets it to, or it is empty and [l] does not set it *)
Definition field_value (l : list (bytes * value)) (n s : bytes) : Prop :=
  sets l n (VString s) \/ s = [] /\ forall v, ~ sets l n v.
(** the two fields (README.md) *)
Definition listen : bytes := str "listen".
Definition database_url : bytes := str "database-url".
(** both are set to strings, if at all *)
Definition well_typed (l : list (bytes * value)) : Prop :=
  forall n v, n = listen \/ n = database_url -> sets l n v -> exists s, v = VString s.
(** [cfg] is what the keys of [l] say *)
Definition says (l : list (bytes * value)) (cfg : config) : Prop :=
  field_value l listen (Listen cfg) /\ field_value l database_url (DatabaseURL cfg).
(** neither field is set under two names *)
Definition unambiguous (l : list (bytes * value)) : Prop :=
  forall n k k' v v', n = listen \/ n = database_url -> In (k, v) l -> In (k', v') l -> same_name k n -> same_name k' n -> k = k'.
