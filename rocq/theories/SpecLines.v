(** The grammar of scripts in shell and s-expression form, relating text to programs.
    Used to state C63; nothing here is used by the model. *)
From Coq Require Import ZArith NArith List Bool Strings.Byte.
From Verif Require Import Base Float Ext Utf8 Strconv Values Spec SpecJson.
Import ListNotations.
Open Scope Z_scope.

(** ** Characters *)

(** [chars s l]: the text [s] read character by character; a byte that does not begin a
    well-formed character counts as U+FFFD *)
Inductive chars : str -> list rune -> Prop :=
| chars_end : chars [] []
| chars_good r t l : valid_rune r = true -> chars t l -> chars (encode_rune r ++ t) (r :: l)
| chars_bad c t l : (forall r u, valid_rune r = true -> c :: t <> encode_rune r ++ u) -> chars t l -> chars (c :: t) (rune_error :: l).
Definition text (l : list rune) : str := flat_map encode_rune l.

Definition c_quote : rune := 34%N.
Definition c_backslash : rune := 92%N.
Definition c_open : rune := 40%N.
Definition c_close : rune := 41%N.
Definition c_semicolon : rune := 59%N.
(** what separates words: space, tab, newline, carriage return *)
Definition separators : list rune := [32; 9; 10; 13]%N.
(** what is trimmed: Unicode white space *)
Definition white_space : list rune :=
  [9; 10; 11; 12; 13; 32; 133; 160; 5760; 8192; 8193; 8194; 8195; 8196; 8197; 8198; 8199; 8200; 8201; 8202; 8232; 8233; 8239; 8287; 12288]%N.

(** ** Words *)

(** between two quotes, a backslash takes the next character along *)
Inductive between_quotes : list rune -> Prop :=
| bq_end : between_quotes []
| bq_char c l : c <> c_quote -> c <> c_backslash -> between_quotes l -> between_quotes (c :: l)
| bq_escape c l : between_quotes l -> between_quotes (c_backslash :: c :: l).
(** text in which every quote is closed and no character of [stop] stands outside quotes *)
Inductive pieces (stop : list rune) : list rune -> Prop :=
| pc_end : pieces stop []
| pc_char c l : c <> c_quote -> ~ In c stop -> pieces stop l -> pieces stop (c :: l)
| pc_quoted b l : between_quotes b -> pieces stop l -> pieces stop (c_quote :: b ++ c_quote :: l).
Definition breaks : list rune := c_open :: c_close :: separators.
Definition word (w : list rune) : Prop := w <> [] /\ pieces breaks w.

Inductive tok := Open | Close | Word (w : list rune).
(** [tokens l ts]: the text [l] consists of the tokens [ts]; words go as far as possible *)
Inductive tokens : list rune -> list tok -> Prop :=
| tk_end : tokens [] []
| tk_separator c l ts : In c separators -> tokens l ts -> tokens (c :: l) ts
| tk_open l ts : tokens l ts -> tokens (c_open :: l) (Open :: ts)
| tk_close l ts : tokens l ts -> tokens (c_close :: l) (Close :: ts)
| tk_word w l ts : word w -> (l = [] \/ exists c u, l = c :: u /\ In c breaks) -> tokens l ts -> tokens (w ++ l) (Word w :: ts).

(** ** What a word means *)

(** hexadecimal and octal numerals *)
Inductive hexs : str -> N -> Prop :=
| hexs_end : hexs [] 0
| hexs_more h n c d : hexs h n -> hex_value c d -> hexs (h ++ [c]) (16 * n + d).
Definition octal3 (h : str) (n : N) : Prop := exists a b c na nb nc, h = [a; b; c] /\
  nth_error (bs "01234567") (N.to_nat na) = Some a /\ nth_error (bs "01234567") (N.to_nat nb) = Some b /\ nth_error (bs "01234567") (N.to_nat nc) = Some c /\
  n = (64 * na + 8 * nb + nc)%N.
Definition go_escapes : list (byte * byte) :=
  [("a"%byte, x07); ("b"%byte, x08); ("f"%byte, x0c); ("n"%byte, x0a); ("r"%byte, x0d); ("t"%byte, x09); ("v"%byte, x0b); (backslash, backslash); (dquote, dquote)].
(** [literal t s]: between quotes, [t] stands for the string [s] (Go's interpreted string literals) *)
Inductive literal : str -> str -> Prop :=
| lt_end : literal [] []
| lt_char r t s : valid_rune r = true -> ~ In r [34; 92; 10]%N -> literal t s -> literal (encode_rune r ++ t) (encode_rune r ++ s)
| lt_bad c t s : (forall r u, valid_rune r = true -> c :: t <> encode_rune r ++ u) -> literal t s -> literal (c :: t) (encode_rune rune_error ++ s)
| lt_letter e c t s : In (e, c) go_escapes -> literal t s -> literal (backslash :: e :: t) (c :: s)
| lt_byte h n t s : hexs h n -> length h = 2%nat -> literal t s -> literal (backslash :: "x"%byte :: h ++ t) (byte_of_N n :: s)
| lt_u h n t s : hexs h n -> length h = 4%nat -> valid_rune n = true -> literal t s -> literal (backslash :: "u"%byte :: h ++ t) (encode_rune n ++ s)
| lt_U h n t s : hexs h n -> length h = 8%nat -> valid_rune n = true -> literal t s -> literal (backslash :: "U"%byte :: h ++ t) (encode_rune n ++ s)
| lt_octal h n t s : octal3 h n -> (n <= 255)%N -> literal t s -> literal (backslash :: h ++ t) (byte_of_N n :: s).

(** a word beginning and ending with quotes is a string; any other is a number, if it reads as one, else a symbol *)
Inductive atom : str -> value -> Prop :=
| at_string t s : literal t s -> atom (dquote :: t ++ [dquote]) (VStr s)
| at_number t f : t <> [dquote] -> (forall b, t <> dquote :: b ++ [dquote]) -> parse_float t = Some f -> atom t (VNum f)
| at_symbol t : t <> [dquote] -> (forall b, t <> dquote :: b ++ [dquote]) -> parse_float t = None -> atom t (VSym t).

(** ** Expressions *)
Inductive expr : list tok -> value -> Prop :=
| ex_word w v : atom (text w) v -> expr [Word w] v
| ex_list ts vs : exprs ts vs -> expr (Open :: ts ++ [Close]) (VList vs)
with exprs : list tok -> list value -> Prop :=
| exs_end : exprs [] []
| exs_more ts v us vs : expr ts v -> exprs us vs -> exprs (ts ++ us) (v :: vs).

(** ** Commands, lines, scripts *)

(** a command: a parenthesised list, after which anything may follow, or words and lists *)
Inductive command : list rune -> value -> Prop :=
| cmd_list l ts rest v : tokens (c_open :: l) (ts ++ rest) -> expr ts v -> command (c_open :: l) v
| cmd_words l ts vs : l <> [] -> (forall u, l <> c_open :: u) -> tokens l ts -> exprs ts vs -> command l (VList vs).
(** a command with white space around it, or nothing but white space *)
Inductive part : list rune -> list value -> Prop :=
| part_empty a : Forall (fun c => In c white_space) a -> part a []
| part_command a m b v : Forall (fun c => In c white_space) a -> Forall (fun c => In c white_space) b ->
    (forall c u, m = c :: u -> ~ In c white_space) -> (forall c u, m = u ++ [c] -> ~ In c white_space) ->
    command m v -> part (a ++ m ++ b) [v].
(** commands are separated by semicolons outside quotes *)
Inductive line : list rune -> list value -> Prop :=
| line_one l p : pieces [c_semicolon] l -> part l p -> line l p
| line_more l p m q : pieces [c_semicolon] l -> part l p -> line m q -> line (l ++ c_semicolon :: m) (p ++ q).
(** a script: lines of fewer than 65536 bytes *)
Inductive script : str -> list value -> Prop :=
| script_one l cs p : ~ In nl l -> zlen l < 65536 -> chars l cs -> line cs p -> script l p
| script_more l cs p s q : ~ In nl l -> zlen l < 65536 -> chars l cs -> line cs p -> script s q -> script (l ++ nl :: s) (p ++ q).

(** a single expression: a list, after which anything may follow, or all of the text as one word *)
Inductive sexp : list rune -> list value -> Prop :=
| sexp_empty a : Forall (fun c => In c white_space) a -> sexp a []
| sexp_list a m b v : Forall (fun c => In c white_space) a -> Forall (fun c => In c white_space) b ->
    (forall c u, m = u ++ [c] -> ~ In c white_space) -> command (c_open :: m) v -> sexp (a ++ c_open :: m ++ b) [v]
| sexp_atom a m b v : Forall (fun c => In c white_space) a -> Forall (fun c => In c white_space) b -> m <> [] ->
    (forall c u, m = c :: u -> ~ In c white_space /\ c <> c_open) -> (forall c u, m = u ++ [c] -> ~ In c white_space) ->
    atom (text m) v -> sexp (a ++ m ++ b) [v].
