(** The grammar of JSON scripts (RFC 8259, restricted to what texted accepts), relating
    text directly to programs.  Used to state C62; nothing here is used by the model. *)
From Coq Require Import ZArith NArith List Bool Strings.Byte.
From Verif Require Import Base Float Ext Utf8 Strconv Values.
Import ListNotations.
Open Scope Z_scope.

Definition dquote : byte := """"%byte.
Definition backslash : byte := "\"%byte.

(** white space *)
Definition white (w : str) : Prop := Forall (fun c => In c [x20; x09; x0a; x0d]) w.

(** ** Strings *)

(** [hex_value c n]: the hexadecimal digit [c] stands for [n] *)
Definition hex_value (c : byte) (n : N) : Prop :=
  nth_error (bs "0123456789abcdef") (N.to_nat n) = Some c \/ nth_error (bs "0123456789ABCDEF") (N.to_nat n) = Some c.
(** four of them *)
Definition hex4 (h : str) (n : N) : Prop :=
  exists a b c d na nb nc nd, h = [a; b; c; d] /\ hex_value a na /\ hex_value b nb /\ hex_value c nc /\ hex_value d nd /\
    n = (4096 * na + 256 * nb + 16 * nc + nd)%N.
Definition high_surrogate (n : N) : Prop := (55296 <= n <= 56319)%N.
Definition low_surrogate (n : N) : Prop := (56320 <= n <= 57343)%N.
(** the escape sequences of one letter *)
Definition letter_escapes : list (byte * byte) :=
  [(dquote, dquote); (backslash, backslash); ("/"%byte, "/"%byte); ("b"%byte, x08); ("f"%byte, x0c); ("n"%byte, x0a); ("r"%byte, x0d); ("t"%byte, x09)].

(** [body t s]: the text [t] between two quotes stands for the string [s] *)
Inductive body : str -> str -> Prop :=
| body_end : body [] []
| body_ascii c t s : (32 <= byteN c < 128)%N -> c <> dquote -> c <> backslash -> body t s -> body (c :: t) (c :: s)
| body_char r t s : valid_rune r = true -> (128 <= r)%N -> body t s -> body (encode_rune r ++ t) (encode_rune r ++ s)
    (* a byte that does not begin a well-formed character is replaced by U+FFFD *)
| body_bad c t s : (128 <= byteN c)%N -> (forall r u, valid_rune r = true -> c :: t <> encode_rune r ++ u) ->
    body t s -> body (c :: t) (encode_rune rune_error ++ s)
| body_letter e c t s : In (e, c) letter_escapes -> body t s -> body (backslash :: e :: t) (c :: s)
| body_u h n t s : hex4 h n -> ~ high_surrogate n -> ~ low_surrogate n -> body t s ->
    body (backslash :: "u"%byte :: h ++ t) (encode_rune n ++ s)
| body_pair h n h' n' t s : hex4 h n -> hex4 h' n' -> high_surrogate n -> low_surrogate n' -> body t s ->
    body (backslash :: "u"%byte :: h ++ backslash :: "u"%byte :: h' ++ t) (encode_rune ((n - 55296) * 1024 + (n' - 56320) + 65536)%N ++ s)
    (* half a pair is replaced by U+FFFD *)
| body_lone h n t s : hex4 h n -> high_surrogate n \/ low_surrogate n ->
    (forall h' n' u, high_surrogate n -> hex4 h' n' -> low_surrogate n' -> t <> backslash :: "u"%byte :: h' ++ u) ->
    body t s -> body (backslash :: "u"%byte :: h ++ t) (encode_rune rune_error ++ s).

(** ** Numbers *)
Definition digits1 (s : str) : Prop := s <> [] /\ Forall (fun c => In c (bs "0123456789")) s.
Definition whole_part (s : str) : Prop := s = bs "0" \/ (exists c t, s = c :: t /\ c <> "0"%byte /\ digits1 s).
Definition number_text (t : str) : Prop := exists sign ip fp ep, t = sign ++ ip ++ fp ++ ep /\
  (sign = [] \/ sign = bs "-") /\ whole_part ip /\
  (fp = [] \/ exists ds, fp = "."%byte :: ds /\ digits1 ds) /\
  (ep = [] \/ exists e sg ds, ep = e :: sg ++ ds /\ In e (bs "eE") /\ (sg = [] \/ sg = bs "+" \/ sg = bs "-") /\ digits1 ds).

(** ** Values and programs *)

(** [json_arg d t v]: the text [t], with at most [d] arrays inside each other, stands for the
    argument [v]: strings, numbers, and arrays, whose first element is the function name *)
Inductive json_arg : Z -> str -> value -> Prop :=
| ja_string d t s : body t s -> json_arg d (dquote :: t ++ [dquote]) (VStr s)
| ja_number d t f : number_text t -> parse_float t = Some f -> json_arg d t (VNum f)
| ja_empty d w : 1 <= d -> white w -> json_arg d ("["%byte :: w ++ ["]"%byte]) (VList [])
| ja_call d w1 t name w2 args vs : 1 <= d -> white w1 -> body t name -> white w2 -> json_args (d - 1) args vs ->
    json_arg d ("["%byte :: w1 ++ dquote :: t ++ dquote :: w2 ++ args ++ ["]"%byte]) (VList (VSym name :: vs))
with json_args : Z -> str -> list value -> Prop :=
| jas_none d : json_args d [] []
| jas_more d w1 t v w2 rest vs : white w1 -> json_arg d t v -> white w2 -> json_args d rest vs ->
    json_args d (","%byte :: w1 ++ t ++ w2 ++ rest) (v :: vs).

(** a script is an array of calls (or of empty arrays), or null *)
Inductive json_script : str -> list value -> Prop :=
| js_null w1 w2 : white w1 -> white w2 -> json_script (w1 ++ bs "null" ++ w2) []
| js_empty w1 w w2 : white w1 -> white w -> white w2 -> json_script (w1 ++ "["%byte :: w ++ "]"%byte :: w2) []
| js_calls w1 items w2 p : white w1 -> white w2 -> p <> [] -> json_args 9999 (","%byte :: items) p -> Forall (fun v => exists l, v = VList l) p ->
    json_script (w1 ++ "["%byte :: items ++ "]"%byte :: w2) p.

(** ** Streams: values one after the other, read by texted parse *)

(** a number ends where no number continues *)
Definition number_ends (t rest : str) : Prop := forall c u v, rest = c :: u -> ~ number_text (t ++ c :: v).
(** [json_top t rest v]: before [rest], [t] stands for the instruction [v] *)
Inductive json_top : str -> str -> value -> Prop :=
| jtop_call t rest l : json_arg 10000 t (VList l) -> json_top t rest (VList l)
| jtop_name t rest s : body t s -> json_top (dquote :: t ++ [dquote]) rest (VSym s)
| jtop_number t rest f : number_text t -> parse_float t = Some f -> number_ends t rest -> json_top t rest (VNum f).
Inductive json_values : str -> list value -> Prop :=
| jv_end w : white w -> json_values w []
| jv_more w t rest v p : white w -> json_top t rest v -> json_values rest p -> json_values (w ++ t ++ rest) (v :: p).
