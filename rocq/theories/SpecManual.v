(** The reference manual of the 50 commands: for every command, every list of arguments and
    every state of the editor, what comes of the call.  Used to state C78 and C79; nothing
    here is used by the model, and nothing of the model is used here except the data types.

    A state may have its point outside the text: some commands move it there.  [early] is
    in front of the text, [late] behind it.  The smallest 64-bit integer counts as behind,
    because taking one from it gives the largest. *)
From Coq Require Import ZArith NArith QArith List Bool Strings.Byte.
From Verif Require Import Base Float Ext Utf8 Values Buffer Spec SpecNumber SpecLines.
Import ListNotations.
Open Scope Z_scope.

(** ** States and values of the machine *)
Definition machine (b : buffer) : Prop :=
  fits (content b) /\ int_ok (point b) /\ int_ok (mark b) /\ int_ok (last_start b) /\ int_ok (last_end b).
Definition held (args : list value) : Prop := forall s, In (VStr s) args -> fits s.

(** [w] is what 64-bit arithmetic makes of the integer [z] *)
Definition carry (z w : Z) : Prop := int_ok w /\ exists k, z = w + k * 2 ^ 64.
(** [v] is the integer [z] as a float64 number *)
Definition number (z : Z) (v : value) : Prop := exists f, v = VNum f /\ f64_valid f = true /\
  rounds (z <? 0) (inject_Z (Z.abs z)) (Some f).

(** ** Places *)
Definition early (b : buffer) : Prop := min_int < point b < 1.
Definition late (b : buffer) : Prop := zlen (content b) + 1 < point b \/ point b = min_int.
(** point stands between [before] and [after] *)
Definition between (b : buffer) (before after : str) : Prop := splits b (point b) before after.
(** point stands there, or outside the text and that is its nearer end *)
Definition around (b : buffer) (before after : str) : Prop :=
  between b before after \/ content b = before ++ after /\ (early b /\ before = [] \/ late b /\ after = []).
(** the same for commands that treat only a late point as if it stood at the end *)
Definition up_to (b : buffer) (before after : str) : Prop :=
  between b before after \/ content b = before ++ after /\ late b /\ after = [].
(** the smallest integer counts as the largest *)
Definition position (n p : Z) : Prop := n = min_int /\ p = max_int \/ n <> min_int /\ p = n.
(** [t] is the text between mark and point, [u] before it and [v] after it *)
Definition selected (b : buffer) (u t v : str) : Prop := exists a z,
  position (Z.min (mark b) (point b)) a /\ position (Z.max (mark b) (point b)) z /\
  piece (content b) a z t /\ content b = u ++ t ++ v /\ (t <> [] -> zlen u + 1 = clamp 1 (zlen (content b) + 1) a).
(** [s] is [u], the word text [w] and [v]; the word is as long as possible to either side *)
Definition ends_outside_word (u : str) : Prop := forall t c, u = t ++ [c] -> ~ word_byte c.
Definition starts_outside_word (v : str) : Prop := forall c t, v = c :: t -> ~ word_byte c.

(** ** Outcomes *)
Definition fine (b : buffer) : outcome value := Done (VStr []) b.
(** the text becomes [t], or there is no memory for it *)
Definition becomes (b : buffer) (t : str) (p : Z) (o : outcome value) : Prop :=
  fits t /\ o = fine (with_text b t p) \/ ~ fits t /\ o = OutOfMemory.
(** the value is the text [t], or there is no memory for it *)
Definition gives (b : buffer) (t : str) (o : outcome value) : Prop :=
  fits t /\ o = Done (VStr t) b \/ ~ fits t /\ o = OutOfMemory.
Definition yes_if (P : Prop) (b : buffer) (o : outcome value) : Prop :=
  P /\ o = Done (VSym (bs "t")) b \/ ~ P /\ o = Done (VSym (bs "nil")) b.

(** ** Case *)
Definition case_of (letter : byte -> byte -> Prop) (table : N -> N) (r r' : rune) : Prop :=
  (r < 128 /\ exists c d, byteN c = r /\ byteN d = r' /\ letter c d)%N \/ (128 <= r /\ r' = table r)%N.

Delimit Scope string_scope with string.
Local Open Scope string_scope.

(** ** Arguments that are refused *)
(** [refused name args msg]: the command cannot take these arguments and says so *)
Definition says (name what : String.string) (msg : str) : Prop := msg = bs name ++ bs " expects " ++ bs what.
Definition counts (name what : String.string) (args : list value) (msg : str) : Prop :=
  exists k, int_text k (zlen args) /\ msg = bs name ++ bs " expects " ++ bs what ++ bs ", got " ++ k.
Arguments says name%string_scope what%string_scope msg.
Arguments counts name%string_scope what%string_scope args msg.

(** the commands that share a signature *)
Definition taking (s : signature) (name : String.string) : Prop := In (name, s) signatures.
Arguments taking s name%string_scope.
Inductive refused : String.string -> list value -> str -> Prop :=
| no_argument name args msg : taking NoArgs name -> args <> [] -> counts name "0 arguments" args msg -> refused name args msg
| one_text name v msg : taking AString name -> ~ has_kind KString v -> says name "a string argument" msg -> refused name [v] msg
| one_text_count name args msg : taking AString name -> zlen args <> 1 -> counts name "1 argument" args msg -> refused name args msg
| one_number name v msg : taking ANumber name -> ~ has_kind KNumber v -> says name "a number argument" msg -> refused name [v] msg
| one_number_count name args msg : taking ANumber name -> zlen args <> 1 -> counts name "1 argument" args msg -> refused name args msg
| at_most name v msg : taking OptNumber name -> ~ has_kind KNumber v -> says name "a number argument" msg -> refused name [v] msg
| at_most_count name args msg : taking OptNumber name -> 1 < zlen args -> counts name "at most 1 argument" args msg -> refused name args msg
| buffer_substring_kind v w msg : ~ (has_kind KNumber v /\ has_kind KNumber w) -> says "buffer-substring" "number arguments" msg ->
    refused "buffer-substring" [v; w] msg
| buffer_substring_count args msg : zlen args <> 2 -> counts "buffer-substring" "2 arguments" args msg -> refused "buffer-substring" args msg
| substring_first v w rest msg : zlen rest <= 1 -> ~ has_kind KString v -> says "substring" "a string as first argument" msg ->
    refused "substring" (v :: w :: rest) msg
| substring_second v w rest msg : zlen rest <= 1 -> has_kind KString v -> ~ has_kind KNumber w ->
    says "substring" "a number as second argument" msg -> refused "substring" (v :: w :: rest) msg
| substring_third v w x msg : has_kind KString v -> has_kind KNumber w -> ~ has_kind KNumber x ->
    says "substring" "a number as third argument" msg -> refused "substring" [v; w; x] msg
| substring_count args msg : zlen args < 2 \/ 3 < zlen args -> counts "substring" "2 or 3 arguments" args msg -> refused "substring" args msg
| string_match_kind v w msg : ~ (has_kind KString v /\ has_kind KString w) -> says "string-match" "string arguments" msg ->
    refused "string-match" [v; w] msg
| string_match_count args msg : zlen args <> 2 -> counts "string-match" "2 arguments" args msg -> refused "string-match" args msg
| replace_regexp_kind v w x msg : ~ (has_kind KString v /\ has_kind KString w /\ has_kind KString x) ->
    says "replace-regexp-in-string" "string arguments" msg -> refused "replace-regexp-in-string" [v; w; x] msg
| replace_regexp_count args msg : zlen args <> 3 -> counts "replace-regexp-in-string" "3 arguments" args msg ->
    refused "replace-regexp-in-string" args msg.

(** ** The commands *)
Inductive manual (E : Ext) : String.string -> list value -> buffer -> outcome value -> Prop :=
| m_refused name args msg b : refused name args msg -> manual E name args b (Fail msg b)

(* numbers about the buffer *)
| m_point b v : number (point b) v -> manual E "point" [] b (Done v b)
| m_mark b v : number (mark b) v -> manual E "mark" [] b (Done v b)
| m_point_min b v : number 1 v -> manual E "point-min" [] b (Done v b)
| m_point_max b v : number (zlen (content b) + 1) v -> manual E "point-max" [] b (Done v b)
| m_buffer_size b v : number (zlen (content b)) v -> manual E "buffer-size" [] b (Done v b)
| m_region_beginning b v : number (Z.min (mark b) (point b)) v -> manual E "region-beginning" [] b (Done v b)
| m_region_end b v : number (Z.max (mark b) (point b)) v -> manual E "region-end" [] b (Done v b)
| m_line_number b before after v : around b before after -> number (newlines before + 1) v ->
    manual E "line-number-at-pos" [] b (Done v b)
| m_column b u line c after v : between b (u ++ line) (c :: after) -> c <> nl -> whole_lines u -> no_newline line ->
    number (zlen line + 1) v -> manual E "current-column" [] b (Done v b)
| m_column_newline b before after v : between b before (nl :: after) -> number 0 v -> manual E "current-column" [] b (Done v b)
| m_column_end b u line v : up_to b (u ++ line) [] -> whole_lines u -> no_newline line -> number (zlen line) v ->
    manual E "current-column" [] b (Done v b)
| m_column_early b v : early b -> number 0 v -> manual E "current-column" [] b (Done v b)

(* moving *)
| m_goto_char b f n : int_arg E f n -> manual E "goto-char" [VNum f] b (fine (at_point b (clamp 1 (zlen (content b) + 1) n)))
| m_goto_line b f n u rest : int_arg E f n -> content b = u ++ rest -> whole_lines u ->
    newlines u + 1 = clamp 1 (newlines (content b) + 1) n -> manual E "goto-line" [VNum f] b (fine (at_point b (zlen u + 1)))
| m_beginning_of_buffer b : manual E "beginning-of-buffer" [] b (fine (at_point b 1))
| m_end_of_buffer b : manual E "end-of-buffer" [] b (fine (at_point b (zlen (content b) + 1)))
| m_beginning_of_line b u line after : up_to b (u ++ line) after -> whole_lines u -> no_newline line -> line <> [] \/ after <> [] ->
    manual E "beginning-of-line" [] b (fine (at_point b (zlen u + 1)))
| m_beginning_of_last_line b u line : up_to b (u ++ line ++ [nl]) [] -> whole_lines u -> no_newline line ->
    manual E "beginning-of-line" [] b (fine (at_point b (zlen u + 1)))
| m_beginning_of_no_line b : up_to b [] [] -> manual E "beginning-of-line" [] b (fine (at_point b 0))
| m_beginning_of_line_early b : early b -> manual E "beginning-of-line" [] b (fine (at_point b 1))
| m_end_of_line b before line rest : around b before (line ++ rest) -> no_newline line -> rest = [] \/ starts_with_newline rest ->
    manual E "end-of-line" [] b (fine (at_point b (zlen before + zlen line + 1)))
| m_forward_char b args n p : count_arg E args n -> carry (point b + n) p ->
    manual E "forward-char" args b (fine (at_point b (clamp 1 (zlen (content b) + 1) p)))
| m_backward_char b args n p : count_arg E args n -> carry (point b - n) p ->
    manual E "backward-char" args b (fine (at_point b (Z.max 1 p)))
| m_forward_word b args n before after moved rest : count_arg E args n -> between b before after ->
    passes_words (Z.to_nat n) after moved rest -> manual E "forward-word" args b (fine (at_point b (point b + zlen moved)))
| m_forward_word_stays b args n : count_arg E args n -> late b \/ early b /\ n <= 0 -> manual E "forward-word" args b (fine b)
| m_forward_word_crash b args n : count_arg E args n -> early b -> 0 < n -> manual E "forward-word" args b Panic
| m_backward_word b args n before after moved rest : count_arg E args n -> between b before after ->
    passes_words_back (Z.to_nat n) before rest moved -> manual E "backward-word" args b (fine (at_point b (zlen rest + 1)))
| m_backward_word_stays b args n : count_arg E args n -> early b \/ late b /\ n <= 0 -> manual E "backward-word" args b (fine b)
| m_backward_word_crash b args n : count_arg E args n -> late b -> 0 < n -> manual E "backward-word" args b Panic

(* mark *)
| m_set_mark b : manual E "set-mark" [] b (fine (with_mark b (point b)))
| m_set_mark_command b : manual E "set-mark-command" [] b (fine (with_mark b (point b)))
| m_set_mark_command_at b f n : int_arg E f n -> manual E "set-mark-command" [VNum f] b (fine (with_mark b n))
| m_exchange b : manual E "exchange-point-and-mark" [] b (fine (with_mark (at_point b (mark b)) (point b)))
| m_mark_whole_buffer b : manual E "mark-whole-buffer" [] b (fine (with_mark (at_point b (zlen (content b) + 1)) 1))
| m_mark_word b u w1 w2 v : between b (u ++ w1) (w2 ++ v) -> w2 ++ v <> [] -> all_word w1 -> all_word w2 ->
    ends_outside_word u -> starts_outside_word v ->
    manual E "mark-word" [] b (fine (with_mark (at_point b (point b + zlen w2)) (zlen u + 1)))
| m_mark_no_word b : around b (content b) [] \/ early b -> manual E "mark-word" [] b (fine b)
| m_mark_line b args n u line after moved rest : count_arg E args n -> between b (u ++ line) after ->
    whole_lines u -> no_newline line -> passes_lines (Z.to_nat n) after moved rest ->
    manual E "mark-line" args b (fine (with_mark (at_point b (point b + zlen moved)) (zlen u + 1)))
| m_mark_line_early b args n : count_arg E args n -> early b -> n <= 0 -> manual E "mark-line" args b (fine (with_mark b (point b)))
| m_mark_line_crash b args n : count_arg E args n -> late b \/ early b /\ 0 < n -> manual E "mark-line" args b Panic

(* searching *)
| m_search_forward b s before u v : around b before (u ++ s ++ v) -> u ++ s ++ v <> [] ->
    (forall i, 0 <= i < zlen u -> ~ occurs_at (u ++ s ++ v) s i) ->
    manual E "search-forward" [VStr s] b
      (fine (with_match b (zlen (before ++ u ++ s) + 1) s (zlen (before ++ u) + 1) (zlen (before ++ u ++ s) + 1)))
| m_search_forward_fails b s before after : around b before after -> after = [] \/ (forall i, ~ occurs_at after s i) ->
    manual E "search-forward" [VStr s] b (Fail (bs "search failed") b)
| m_search_backward b s u v after : up_to b (u ++ s ++ v) after -> (forall i, zlen u < i -> ~ occurs_at (u ++ s ++ v) s i) ->
    manual E "search-backward" [VStr s] b (fine (with_match b (zlen (u ++ s) + 1) s (zlen u + 1) (zlen (u ++ s) + 1)))
| m_search_backward_fails b s before after : up_to b before after -> (forall i, ~ occurs_at before s i) ->
    manual E "search-backward" [VStr s] b (Fail (bs "search failed") b)
| m_search_backward_early b s : early b -> manual E "search-backward" [VStr s] b (Fail (bs "search failed") b)
| m_re_search_forward b p before u t v : around b before (u ++ t ++ v) -> u ++ t ++ v <> [] -> re_error E p = None ->
    re_find E p (u ++ t ++ v) = Some (zlen u, zlen (u ++ t)) ->
    manual E "re-search-forward" [VStr p] b
      (fine (with_match b (zlen (before ++ u ++ t) + 1) t (zlen (before ++ u) + 1) (zlen (before ++ u ++ t) + 1)))
| m_re_search_forward_fails b p before after : around b before after -> after = [] \/ re_error E p = None /\ re_find E p after = None ->
    manual E "re-search-forward" [VStr p] b (Fail (bs "search failed") b)
| m_re_search_forward_invalid b p before after msg : around b before after -> after <> [] -> re_error E p = Some msg ->
    manual E "re-search-forward" [VStr p] b (Fail (bs "invalid regexp: " ++ msg) b)
| m_re_search_backward b p u t v after ms : up_to b (u ++ t ++ v) after -> re_error E p = None ->
    re_find_all E p (u ++ t ++ v) = (ms ++ [(zlen u, zlen (u ++ t))])%list ->
    manual E "re-search-backward" [VStr p] b (fine (with_match b (zlen (u ++ t) + 1) t (zlen u + 1) (zlen (u ++ t) + 1)))
| m_re_search_backward_fails b p before after : up_to b before after -> re_error E p = None -> re_find_all E p before = [] ->
    manual E "re-search-backward" [VStr p] b (Fail (bs "search failed") b)
| m_re_search_backward_invalid b p before after msg : up_to b before after -> re_error E p = Some msg ->
    manual E "re-search-backward" [VStr p] b (Fail (bs "invalid regexp: " ++ msg) b)
| m_re_search_backward_early b p : early b -> manual E "re-search-backward" [VStr p] b (Fail (bs "search failed") b)
| m_looking_at b p before after o : between b before after -> after <> [] -> re_error E p = None ->
    yes_if (exists j, re_find E p after = Some (0, j)) b o -> manual E "looking-at" [VStr p] b o
| m_looking_at_literal b p before after msg o : between b before after -> after <> [] -> re_error E p = Some msg ->
    yes_if (exists v, after = p ++ v)%list b o -> manual E "looking-at" [VStr p] b o
| m_looking_at_nothing b p : around b (content b) [] \/ early b -> manual E "looking-at" [VStr p] b (Done (VSym (bs "nil")) b)
| m_looking_back b p before after o : between b before after -> before <> [] -> re_error E p = None ->
    yes_if (exists i, re_find E p before = Some (i, zlen before)) b o -> manual E "looking-back" [VStr p] b o
| m_looking_back_literal b p before after msg o : between b before after -> before <> [] -> re_error E p = Some msg ->
    yes_if (exists u, before = u ++ p)%list b o -> manual E "looking-back" [VStr p] b o
| m_looking_back_nothing b p : early b \/ point b = 1 -> manual E "looking-back" [VStr p] b (Done (VSym (bs "nil")) b)
| m_looking_back_late b p msg : late b -> point b <> min_int -> re_error E p = Some msg -> point b <= zlen p ->
    manual E "looking-back" [VStr p] b (Done (VSym (bs "nil")) b)
| m_looking_back_crash b p : late b -> re_error E p = None \/ point b = min_int \/ zlen p < point b ->
    manual E "looking-back" [VStr p] b Panic

(* editing *)
| m_insert b s before after o : between b before after -> becomes b (before ++ s ++ after) (point b + zlen s) o ->
    manual E "insert" [VStr s] b o
| m_insert_front b s p o : point b < 1 -> carry (point b + zlen s) p -> becomes b (s ++ content b) p o -> manual E "insert" [VStr s] b o
| m_insert_back b s p o : zlen (content b) + 1 < point b -> carry (point b + zlen s) p -> becomes b (content b ++ s) p o ->
    manual E "insert" [VStr s] b o
| m_replace_match b r u t v o : last_match b <> [] -> content b = u ++ t ++ v -> t <> [] ->
    last_start b = zlen u + 1 -> last_end b = zlen (u ++ t) + 1 -> becomes b (u ++ r ++ v) (zlen (u ++ r) + 1) o ->
    manual E "replace-match" [VStr r] b o
| m_replace_no_match b r : last_match b = [] -> manual E "replace-match" [VStr r] b (Fail (bs "no previous search") b)
| m_replace_lost_match b r : last_match b <> [] -> ~ (1 <= last_start b < last_end b /\ last_end b <= zlen (content b) + 1) ->
    manual E "replace-match" [VStr r] b (Fail (bs "invalid search match positions") b)
| m_delete_region b u t v : selected b u t v -> t <> [] -> manual E "delete-region" [] b (fine (with_text b (u ++ v) (zlen u + 1)))
| m_delete_nothing b u v : selected b u [] v -> manual E "delete-region" [] b (fine b)
| m_replace_region b r u t v o : selected b u t v -> t <> [] -> becomes b (u ++ r ++ v) (zlen (u ++ r) + 1) o ->
    manual E "replace-region" [VStr r] b o
| m_replace_nothing b r u v : selected b u [] v -> manual E "replace-region" [VStr r] b (fine b)
| m_delete_char b args n before gone rest : count_arg E args n -> between b before (gone ++ rest) -> gone ++ rest <> [] ->
    0 <= n -> point b - 1 + n <= max_int -> zlen gone = Z.min n (zlen (gone ++ rest)) ->
    manual E "delete-char" args b (fine (with_text b (before ++ rest) (point b)))
| m_delete_char_doubles b args n u w after o : count_arg E args n -> between b (u ++ w) after -> after <> [] -> n < 0 ->
    zlen w = - n -> becomes b (u ++ w ++ w ++ after) (point b) o -> manual E "delete-char" args b o
| m_delete_char_crash b args n before after : count_arg E args n -> between b before after -> after <> [] ->
    point b - 1 + n < 0 \/ max_int < point b - 1 + n -> manual E "delete-char" args b Panic
| m_delete_no_char b args n : count_arg E args n -> point b < 1 \/ zlen (content b) < point b -> manual E "delete-char" args b (fine b)
| m_delete_backward_char b args n rest gone after : count_arg E args n -> between b (rest ++ gone) after -> 0 <= n ->
    zlen gone = Z.min n (zlen (rest ++ gone)) ->
    manual E "delete-backward-char" args b (fine (with_text b (rest ++ after) (zlen rest + 1)))
| m_delete_backward_all b args n before after : count_arg E args n -> between b before after -> before <> [] ->
    max_int < zlen before - n -> manual E "delete-backward-char" args b (fine (with_text b after 1))
| m_delete_backward_stays b args n before after : count_arg E args n -> between b before after -> n < 0 ->
    zlen before - n <= max_int \/ before = [] -> manual E "delete-backward-char" args b (fine b)
| m_delete_backward_early b args n : count_arg E args n -> early b -> manual E "delete-backward-char" args b (fine b)
| m_delete_backward_late b args n e : count_arg E args n -> late b -> carry (point b - 1) e -> n <= 0 -> e - n <= max_int ->
    manual E "delete-backward-char" args b (fine b)
| m_delete_backward_crash b args n e : count_arg E args n -> late b -> carry (point b - 1) e -> 0 < n \/ max_int < e - n ->
    manual E "delete-backward-char" args b Panic
| m_kill_word b args n before after moved rest : count_arg E args n -> between b before after ->
    passes_words (Z.to_nat n) after moved rest -> manual E "kill-word" args b (fine (with_text b (before ++ rest) (point b)))
| m_kill_word_crash b args n : count_arg E args n -> early b \/ late b -> manual E "kill-word" args b Panic
| m_backward_kill_word b args n before after rest moved : count_arg E args n -> between b before after ->
    passes_words_back (Z.to_nat n) before rest moved ->
    manual E "backward-kill-word" args b (fine (with_text b (rest ++ tl after) (zlen rest + 1)))
| m_backward_kill_word_crash b args n : count_arg E args n -> early b \/ late b -> manual E "backward-kill-word" args b Panic
| m_delete_line b args n u line after moved rest : count_arg E args n -> between b (u ++ line) after ->
    whole_lines u -> no_newline line -> passes_lines (Z.to_nat n) after moved rest ->
    manual E "delete-line" args b (fine (with_text b (u ++ rest) (zlen u + 1)))
| m_delete_line_crash b args n : count_arg E args n -> early b \/ late b -> manual E "delete-line" args b Panic
| m_kill_line b args before c line rest : count_arg E args 1 -> between b before (c :: line ++ rest) ->
    no_newline line -> rest = [] \/ starts_with_newline rest ->
    manual E "kill-line" args b (fine (with_text b (before ++ c :: rest) (point b)))
| m_kill_lines b args n before after moved rest : count_arg E args n -> n <> 1 -> between b before after -> after <> [] ->
    passes_lines (Z.to_nat n) after moved rest -> manual E "kill-line" args b (fine (with_text b (before ++ rest) (point b)))
| m_kill_no_line b args n : count_arg E args n -> around b (content b) [] \/ early b -> manual E "kill-line" args b (fine b)

(* texts *)
| m_length s b v : number (zlen s) v -> manual E "length" [VStr s] b (Done v b)
| m_concat ss b o : gives b (concat ss) o -> manual E "concat" (map VStr ss) b o
| m_concat_kind ss v rest k b : fits (concat ss) -> ~ has_kind KString v -> int_text k (zlen ss + 1) ->
    manual E "concat" (map VStr ss ++ v :: rest) b (Fail (bs "concat expects string arguments, got non-string at position " ++ k) b)
| m_concat_kind_memory ss v rest b : ~ fits (concat ss) -> ~ has_kind KString v ->
    manual E "concat" (map VStr ss ++ v :: rest) b OutOfMemory
| m_substring s f g n m a z t b : int_arg E f n -> int_arg E g m -> position n a -> position m z -> piece s a z t ->
    manual E "substring" [VStr s; VNum f; VNum g] b (Done (VStr t) b)
| m_substring_rest s f n a t b : int_arg E f n -> position n a -> piece s a (zlen s + 1) t ->
    manual E "substring" [VStr s; VNum f] b (Done (VStr t) b)
| m_buffer_substring f g n m a z t b : int_arg E f n -> int_arg E g m -> position n a ->
    m = -1 /\ z = zlen (content b) + 1 \/ m <> -1 /\ position m z -> piece (content b) a z t ->
    manual E "buffer-substring" [VNum f; VNum g] b (Done (VStr t) b)
| m_upcase s l l' b o : chars s l -> Forall2 (case_of upper_of (uc_upper E)) l l' -> gives b (SpecLines.text l') o ->
    manual E "upcase" [VStr s] b o
| m_downcase s l l' b o : chars s l -> Forall2 (case_of lower_of (uc_lower E)) l l' -> gives b (SpecLines.text l') o ->
    manual E "downcase" [VStr s] b o
| m_capitalize c s r l l' b o : case_of upper_of (uc_upper E) (byteN c) r -> chars s l ->
    Forall2 (case_of lower_of (uc_lower E)) l l' -> gives b (SpecLines.text (r :: l')) o -> manual E "capitalize" [VStr (c :: s)] b o
| m_capitalize_nothing b : manual E "capitalize" [VStr []] b (Done (VStr []) b)
| m_string_match p s i j b v : re_error E p = None -> re_find E p s = Some (i, j) -> number i v ->
    manual E "string-match" [VStr p; VStr s] b (Done v b)
| m_string_match_none p s b : re_error E p = None -> re_find E p s = None ->
    manual E "string-match" [VStr p; VStr s] b (Done (VSym (bs "nil")) b)
| m_string_match_literal p s msg u v b x : re_error E p = Some msg -> s = u ++ p ++ v ->
    (forall i, 0 <= i < zlen u -> ~ occurs_at s p i) -> number (zlen u) x -> manual E "string-match" [VStr p; VStr s] b (Done x b)
| m_string_match_literal_none p s msg b : re_error E p = Some msg -> (forall i, ~ occurs_at s p i) ->
    manual E "string-match" [VStr p; VStr s] b (Done (VSym (bs "nil")) b)
| m_replace_regexp p r s b o : re_error E p = None -> gives b (re_replace_all E p s r) o ->
    manual E "replace-regexp-in-string" [VStr p; VStr r; VStr s] b o
| m_replace_regexp_invalid p r s msg b : re_error E p = Some msg ->
    manual E "replace-regexp-in-string" [VStr p; VStr r; VStr s] b (Fail (bs "invalid regexp: " ++ msg) b).

Arguments manual E name%string_scope args b o : rename.
Local Close Scope string_scope.
