(** Vocabulary for the bytes and the texts of a program. *)
From Coq Require Import ZArith NArith List Bool Strings.Byte.
From Verif Require Import Base Float Ext Utf8 Values Buffer Spec SpecText.
Import ListNotations.

(** the string [s] is written somewhere in the expression *)
Inductive literal (s : str) : value -> Prop :=
| lit_here : literal s (VStr s)
| lit_inside l a : In a l -> literal s a -> literal s (VList l).

(** replacing the matches of a regular expression yields only bytes of the text and of the
    replacement (documented: the replacement is expanded with parts of the text) *)
Definition replaces_with_parts (E : Ext) : Prop := forall p s r c,
  In c (re_replace_all E p s r) -> In c s \/ In c r.

(** the Unicode tables turn no character outside ASCII into an ASCII character that is not a letter *)
Definition letter (n : N) : Prop := (65 <= n <= 90 \/ 97 <= n <= 122)%N.
Definition case_tables (E : Ext) : Prop := forall r, (128 <= r)%N ->
  (128 <= uc_upper E r \/ letter (uc_upper E r))%N /\ (128 <= uc_lower E r \/ letter (uc_lower E r))%N.

(** a byte of the buffer or of a string of the program *)
Definition available (program : list value) (b : buffer) (c : byte) : Prop :=
  In c (content b) \/ exists e s, In e program /\ literal s e /\ In c s.

(** ** Whole characters *)

(** [p] is a position between two characters of the (well-formed UTF-8) text *)
Definition char_pos (s : str) (p : Z) : Prop :=
  exists u v, s = u ++ v /\ utf8_text u /\ utf8_text v /\ p = (zlen u + 1)%Z.
(** the engine matches whole characters: Go's regexp package reads the text rune by rune *)
Definition matches_characters (E : Ext) : Prop := forall p s, utf8_text s ->
  (forall i j, re_find E p s = Some (i, j) -> char_pos s (i + 1) /\ char_pos s (j + 1)) /\
  (forall i j, In (i, j) (re_find_all E p s) -> char_pos s (i + 1) /\ char_pos s (j + 1)).

(** expressions that change nothing and whose values consist of whole characters *)
Inductive plain : value -> Prop :=
| plain_number f : plain (VNum f)
| plain_text s : utf8_text s -> plain (VStr s)
| plain_query n args : In n queries ->
    ~ In n ["buffer-substring"; "substring"; "replace-regexp-in-string"]%string ->
    Forall plain args -> plain (VList (VSym (bs n) :: args)).

(** [careful_step m k i m' k']: what is known of the last match and the mark before and after the
    instruction [i]: [true] means that they are on whole characters of the present text *)
Inductive careful_step : bool -> bool -> value -> bool -> bool -> Prop :=
| st_plain m k e : plain e -> careful_step m k e m k
| st_move m k n args : In n ["goto-line"; "beginning-of-buffer"; "end-of-buffer"; "end-of-line"; "forward-word"; "backward-word"; "mark-word"]%string ->
    Forall plain args -> careful_step m k (VList (VSym (bs n) :: args)) m k
| st_search m k n args : In n ["search-forward"; "search-backward"; "re-search-forward"; "re-search-backward"]%string ->
    Forall plain args -> careful_step m k (VList (VSym (bs n) :: args)) true k
| st_mark m k n args : In n ["set-mark"; "mark-line"; "mark-whole-buffer"]%string ->
    Forall plain args -> careful_step m k (VList (VSym (bs n) :: args)) m true
| st_swap m args : Forall plain args -> careful_step m true (VList (VSym (bs "exchange-point-and-mark") :: args)) m true
| st_edit m k n args : In n ["insert"; "kill-word"; "delete-line"]%string ->
    Forall plain args -> careful_step m k (VList (VSym (bs n) :: args)) false false
| st_replace k args : Forall plain args -> careful_step true k (VList (VSym (bs "replace-match") :: args)) false false
| st_region m n args : In n ["delete-region"; "replace-region"]%string ->
    Forall plain args -> careful_step m true (VList (VSym (bs n) :: args)) false false.
(** a program that uses the last match only after a search, and the mark only after setting
    it, with no change of the text in between *)
Inductive careful : bool -> bool -> list value -> Prop :=
| careful_nil m k : careful m k []
| careful_cons m k i m' k' p : careful_step m k i m' k' -> careful m' k' p -> careful m k (i :: p).
