(** Why a text is not a script: what is wrong with it first, and what is said about it.
    Used to state C74; nothing here is used by the model. *)
From Coq Require Import ZArith NArith List Bool Strings.Byte.
From Verif Require Import Base Float Ext Utf8 Strconv Values Spec SpecJson SpecLines.
Import ListNotations.
Open Scope Z_scope.

(** a quote that is never closed; no character of [stop] stands outside quotes before it *)
Definition left_open (stop l : list rune) : Prop := exists a b, l = a ++ c_quote :: b /\ pieces stop a /\
  (between_quotes b \/ exists b', b = b' ++ [c_backslash] /\ between_quotes b').

(** a word in quotes that stands for no string *)
Inductive bad_word : str -> str -> Prop :=
| bw_lone : bad_word [dquote] (bs "invalid string literal: " ++ [dquote])
| bw_literal b : (forall s, ~ literal b s) -> bad_word (dquote :: b ++ [dquote]) (bs "invalid string literal " ++ (dquote :: b ++ [dquote]) ++ bs ": invalid syntax").

(** [bad_list ts e]: after an opening parenthesis, complete expressions are followed by the
    end, by a bad word, or by another bad list *)
Inductive bad_list : list tok -> str -> Prop :=
| bl_end ts vs : exprs ts vs -> bad_list ts (bs "unterminated list")
| bl_word ts vs w us e : exprs ts vs -> bad_word (text w) e -> bad_list (ts ++ Word w :: us) e
| bl_list ts vs us e : exprs ts vs -> bad_list us e -> bad_list (ts ++ Open :: us) e.
(** outside parentheses, a closing one is wrong too *)
Inductive bad_words : list tok -> str -> Prop :=
| bo_close ts vs us : exprs ts vs -> bad_words (ts ++ Close :: us) (bs "unexpected closing parenthesis in shell-like syntax")
| bo_word ts vs w us e : exprs ts vs -> bad_word (text w) e -> bad_words (ts ++ Word w :: us) e
| bo_list ts vs us e : exprs ts vs -> bad_list us e -> bad_words (ts ++ Open :: us) e.

Inductive bad_command : list rune -> str -> Prop :=
| bc_list l ts e : tokens (c_open :: l) (Open :: ts) -> bad_list ts e -> bad_command (c_open :: l) e
| bc_words l ts e : (forall u, l <> c_open :: u) -> tokens l ts -> bad_words ts e -> bad_command l e.
Inductive bad_part : list rune -> str -> Prop :=
| bp_command a m b e : Forall (fun c => In c white_space) a -> Forall (fun c => In c white_space) b ->
    (forall c u, m = c :: u -> ~ In c white_space) -> (forall c u, m = u ++ [c] -> ~ In c white_space) ->
    bad_command m e -> bad_part (a ++ m ++ b) e.
(** the first part of a line that is not a command *)
Inductive bad_line : list rune -> str -> Prop :=
| bn_open l : left_open [c_semicolon] l -> bad_line l (bs "unterminated string literal")
| bn_last l e : pieces [c_semicolon] l -> bad_part l e -> bad_line l e
| bn_first l e m : pieces [c_semicolon] l -> bad_part l e -> bad_line (l ++ c_semicolon :: m) e
| bn_later l p m e : pieces [c_semicolon] l -> part l p -> bad_line m e -> bad_line (l ++ c_semicolon :: m) e.
(** the first line that is wrong *)
Inductive bad_first : str -> str -> Prop :=
| bf_long l : 65536 <= zlen l -> bad_first l (bs "reading input: bufio.Scanner: token too long")
| bf_line l cs e : zlen l < 65536 -> chars l cs -> bad_line cs e -> bad_first l e.
Inductive bad_script : str -> str -> Prop :=
| br_last l e : ~ In nl l -> bad_first l e -> bad_script l e
| br_first l e s : ~ In nl l -> bad_first l e -> bad_script (l ++ nl :: s) e
| br_later l cs p s e : ~ In nl l -> zlen l < 65536 -> chars l cs -> line cs p -> bad_script s e -> bad_script (l ++ nl :: s) e.

(** a text that is no single expression *)
Inductive bad_sexp : list rune -> str -> Prop :=
| bx_open a m b : Forall (fun c => In c white_space) a -> Forall (fun c => In c white_space) b -> (forall c u, m = u ++ [c] -> ~ In c white_space) ->
    left_open [] (c_open :: m) -> bad_sexp (a ++ c_open :: m ++ b) (bs "unterminated string literal")
| bx_list a m b e : Forall (fun c => In c white_space) a -> Forall (fun c => In c white_space) b -> (forall c u, m = u ++ [c] -> ~ In c white_space) ->
    bad_command (c_open :: m) e -> bad_sexp (a ++ c_open :: m ++ b) e
| bx_word a m b e : Forall (fun c => In c white_space) a -> Forall (fun c => In c white_space) b ->
    (forall c u, m = c :: u -> ~ In c white_space /\ c <> c_open) -> (forall c u, m = u ++ [c] -> ~ In c white_space) ->
    bad_word (text m) e -> bad_sexp (a ++ m ++ b) e.
