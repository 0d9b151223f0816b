(** Vocabulary for scripts as text: which values can be written and read back. *)
From Coq Require Import ZArith NArith List Bool Strings.Byte.
From Verif Require Import Base Float Ext Utf8 Strconv Values Buffer Spec Parser.
Import ListNotations.
Open Scope Z_scope.

(** a character that can stand in a symbol: any Unicode scalar value except white space,
    the double quote, parentheses and the semicolon *)
Definition symbol_rune (r : rune) : Prop :=
  valid_rune r = true /\ ~ In r [34; 40; 41; 59]%N /\ is_space r = false.
(** a name that is read back as a symbol: non-empty, of such characters, and not a number
    (as "12", "0x1p4", "inf" and "nan" are) *)
Definition token_symbol (n : str) : Prop :=
  exists rs, rs <> [] /\ Forall symbol_rune rs /\ n = flat_map encode_rune rs /\ parse_float n = None.

(** [all_atoms P v]: every symbol, string and number in [v] satisfies [P] *)
Fixpoint all_atoms (P : value -> Prop) (v : value) : Prop :=
  match v with
  | VList l => (fix go l := match l with [] => True | x :: l' => all_atoms P x /\ go l' end) l
  | _ => P v
  end.
Definition writable_atom (v : value) : Prop :=
  match v with
  | VSym n => token_symbol n
  | VStr _ => True
  | VNum f => f64_valid f = true
  | VList _ => False
  end.
(** strings and float64 numbers are arbitrary; symbols can be read back *)
Definition writable (v : value) : Prop := all_atoms writable_atom v.

(** ** Script text *)

(** parse one part, then the other; the first error wins *)
Definition pseq (a b : presult (list value)) : presult (list value) :=
  match a, b with
  | POk x, POk y => POk (x ++ y)
  | POk _, e => e
  | e, _ => e
  end.

(** the text of a string literal between its quotes: a backslash takes the next byte along *)
Inductive literal_body : str -> Prop :=
| lb_nil : literal_body []
| lb_plain c s : c <> """"%byte -> c <> "\"%byte -> literal_body s -> literal_body (c :: s)
| lb_escape c s : literal_body s -> literal_body ("\"%byte :: c :: s).

(** [outside ok s ps]: every literal opened in [s] is closed; the bytes outside literals
    satisfy [ok]; [ps] lists the parentheses outside literals (true = opening) *)
Inductive outside (ok : byte -> Prop) : str -> list bool -> Prop :=
| out_nil : outside ok [] []
| out_open s ps : outside ok s ps -> outside ok ("("%byte :: s) (true :: ps)
| out_close s ps : outside ok s ps -> outside ok (")"%byte :: s) (false :: ps)
| out_plain c s ps : c <> """"%byte -> c <> "("%byte -> c <> ")"%byte -> ok c ->
    outside ok s ps -> outside ok (c :: s) ps
| out_literal b s ps : literal_body b -> outside ok s ps ->
    outside ok (""""%byte :: b ++ """"%byte :: s) ps.
(** the text ends outside string literals *)
Definition closed (s : str) : Prop := exists ps, outside (fun _ => True) s ps.
(** one command: no semicolon outside string literals *)
Definition command_text (s : str) (ps : list bool) : Prop := outside (fun c => c <> ";"%byte) s ps.

(** well-nested parentheses *)
Inductive nested : list bool -> Prop :=
| ne_nil : nested []
| ne_pair a b : nested a -> nested b -> nested (true :: a ++ false :: b).

(** blanks inside a line *)
Definition blanks (s : str) : Prop := Forall (fun c => c = " "%byte \/ c = x09) s.
(** a line a script can contain: no newline, fewer than 65536 bytes *)
Definition fits_line (s : str) : Prop := no_newline s /\ zlen s < 65536.

(** ** JSON *)

(** well-formed UTF-8: the encoding of a sequence of Unicode scalar values *)
Definition utf8_text (s : str) : Prop := exists rs, Forall (fun r => valid_rune r = true) rs /\ s = flat_map encode_rune rs.

(** [canonical v]: an argument in the sense of the JSON form: no symbols except at the head of
    non-empty lists *)
Inductive canonical : value -> Prop :=
| can_str s : canonical (VStr s)
| can_num f : canonical (VNum f)
| can_nil : canonical (VList [])
| can_call n args : Forall canonical args -> canonical (VList (VSym n :: args)).
(** [json_image v w]: what a value becomes on its way through JSON: symbols turn into strings,
    except that the head of a list, symbol or string, turns into a symbol *)
Inductive json_image : value -> value -> Prop :=
| ji_sym n : json_image (VSym n) (VStr n)
| ji_str s : json_image (VStr s) (VStr s)
| ji_num f : json_image (VNum f) (VNum f)
| ji_nil : json_image (VList []) (VList [])
| ji_call h n args args' : h = VSym n \/ h = VStr n -> Forall2 json_image args args' ->
    json_image (VList (h :: args)) (VList (VSym n :: args')).

(** what JSON text can carry: UTF-8 names and strings, finite numbers *)
Definition json_atom (v : value) : Prop :=
  match v with
  | VSym n => utf8_text n
  | VStr s => utf8_text s
  | VNum f => f64_valid f = true /\ match f with S754_zero _ | S754_finite _ _ _ => True | _ => False end
  | VList _ => False
  end.
(** nesting depth of lists *)
Fixpoint list_depth (v : value) : Z :=
  match v with
  | VList l => 1 + (fix go l := match l with [] => 0 | x :: l' => Z.max (list_depth x) (go l') end) l
  | _ => 0
  end.
