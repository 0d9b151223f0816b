(** Symbolic execution of the built-ins. *)
From Coq Require Import ZArith NArith List Bool Lia Strings.Byte ZifyBool.
From Verif Require Import Base Float Ext Utf8 Strconv Values Buffer Builtins Eval Spec Proofs_Base Proofs_Loops.
Import ListNotations.
Open Scope Z_scope.

(** ** looking up each built-in *)
Lemma call_insert E : call E "insert" = b_insert.
Proof. reflexivity. Qed.
Lemma call_goto_char E : call E "goto-char" = b_goto_char E.
Proof. reflexivity. Qed.
Lemma call_goto_line E : call E "goto-line" = b_goto_line E.
Proof. reflexivity. Qed.
Lemma call_search_forward E : call E "search-forward" = b_search_forward.
Proof. reflexivity. Qed.
Lemma call_search_backward E : call E "search-backward" = b_search_backward.
Proof. reflexivity. Qed.
Lemma call_re_search_forward E : call E "re-search-forward" = b_re_search_forward E.
Proof. reflexivity. Qed.
Lemma call_end_of_buffer E : call E "end-of-buffer" = b_end_of_buffer.
Proof. reflexivity. Qed.
Lemma call_set_mark E : call E "set-mark" = b_set_mark.
Proof. reflexivity. Qed.
Lemma call_mark E : call E "mark" = b_mark.
Proof. reflexivity. Qed.
Lemma call_point E : call E "point" = b_point.
Proof. reflexivity. Qed.
Lemma call_line_number_at_pos E : call E "line-number-at-pos" = b_line_number_at_pos.
Proof. reflexivity. Qed.
Lemma call_replace_match E : call E "replace-match" = b_replace_match.
Proof. reflexivity. Qed.
Lemma call_delete_region E : call E "delete-region" = b_delete_region.
Proof. reflexivity. Qed.
Lemma call_buffer_substring E : call E "buffer-substring" = b_buffer_substring E.
Proof. reflexivity. Qed.
Lemma call_mark_word E : call E "mark-word" = b_mark_word.
Proof. reflexivity. Qed.
Lemma call_replace_region E : call E "replace-region" = b_replace_region.
Proof. reflexivity. Qed.
Lemma call_region_beginning E : call E "region-beginning" = b_region_beginning.
Proof. reflexivity. Qed.
Lemma call_region_end E : call E "region-end" = b_region_end.
Proof. reflexivity. Qed.
Lemma call_forward_char E : call E "forward-char" = b_forward_char E.
Proof. reflexivity. Qed.
Lemma call_length E : call E "length" = b_length.
Proof. reflexivity. Qed.
Lemma call_substring E : call E "substring" = b_substring E.
Proof. reflexivity. Qed.
Lemma call_string_match E : call E "string-match" = b_string_match E.
Proof. reflexivity. Qed.
Lemma call_backward_char E : call E "backward-char" = b_backward_char E.
Proof. reflexivity. Qed.
Lemma call_beginning_of_buffer E : call E "beginning-of-buffer" = b_beginning_of_buffer.
Proof. reflexivity. Qed.
Lemma call_beginning_of_line E : call E "beginning-of-line" = b_beginning_of_line.
Proof. reflexivity. Qed.
Lemma call_end_of_line E : call E "end-of-line" = b_end_of_line.
Proof. reflexivity. Qed.
Lemma call_buffer_size E : call E "buffer-size" = b_buffer_size.
Proof. reflexivity. Qed.
Lemma call_point_max E : call E "point-max" = b_point_max.
Proof. reflexivity. Qed.
Lemma call_point_min E : call E "point-min" = b_point_min.
Proof. reflexivity. Qed.
Lemma call_current_column E : call E "current-column" = b_current_column.
Proof. reflexivity. Qed.
Lemma call_upcase E : call E "upcase" = b_upcase E.
Proof. reflexivity. Qed.
Lemma call_downcase E : call E "downcase" = b_downcase E.
Proof. reflexivity. Qed.
Lemma call_capitalize E : call E "capitalize" = b_capitalize E.
Proof. reflexivity. Qed.
Lemma call_concat E : call E "concat" = b_concat.
Proof. reflexivity. Qed.
Lemma call_set_mark_command E : call E "set-mark-command" = b_set_mark_command E.
Proof. reflexivity. Qed.
Lemma call_exchange_point_and_mark E : call E "exchange-point-and-mark" = b_exchange_point_and_mark.
Proof. reflexivity. Qed.
Lemma call_mark_whole_buffer E : call E "mark-whole-buffer" = b_mark_whole_buffer.
Proof. reflexivity. Qed.
Lemma call_delete_char E : call E "delete-char" = b_delete_char E.
Proof. reflexivity. Qed.
Lemma call_delete_backward_char E : call E "delete-backward-char" = b_delete_backward_char E.
Proof. reflexivity. Qed.
Lemma call_forward_word E : call E "forward-word" = b_forward_word E.
Proof. reflexivity. Qed.
Lemma call_backward_word E : call E "backward-word" = b_backward_word E.
Proof. reflexivity. Qed.
Lemma call_looking_at E : call E "looking-at" = b_looking_at E.
Proof. reflexivity. Qed.
Lemma call_looking_back E : call E "looking-back" = b_looking_back E.
Proof. reflexivity. Qed.
Lemma call_mark_line E : call E "mark-line" = b_mark_line E.
Proof. reflexivity. Qed.
Lemma call_delete_line E : call E "delete-line" = b_delete_line E.
Proof. reflexivity. Qed.
Lemma call_kill_line E : call E "kill-line" = b_kill_line E.
Proof. reflexivity. Qed.
Lemma call_kill_word E : call E "kill-word" = b_kill_word E.
Proof. reflexivity. Qed.
Lemma call_backward_kill_word E : call E "backward-kill-word" = b_backward_kill_word E.
Proof. reflexivity. Qed.
Lemma call_re_search_backward E : call E "re-search-backward" = b_re_search_backward E.
Proof. reflexivity. Qed.
Lemma call_replace_regexp_in_string E : call E "replace-regexp-in-string" = b_replace_regexp_in_string E.
Proof. reflexivity. Qed.

(** unfold [call E "name"] *)
Ltac call :=
  first [
    rewrite call_insert |
    rewrite call_goto_char |
    rewrite call_goto_line |
    rewrite call_search_forward |
    rewrite call_search_backward |
    rewrite call_re_search_forward |
    rewrite call_end_of_buffer |
    rewrite call_set_mark |
    rewrite call_mark |
    rewrite call_point |
    rewrite call_line_number_at_pos |
    rewrite call_replace_match |
    rewrite call_delete_region |
    rewrite call_buffer_substring |
    rewrite call_mark_word |
    rewrite call_replace_region |
    rewrite call_region_beginning |
    rewrite call_region_end |
    rewrite call_forward_char |
    rewrite call_length |
    rewrite call_substring |
    rewrite call_string_match |
    rewrite call_backward_char |
    rewrite call_beginning_of_buffer |
    rewrite call_beginning_of_line |
    rewrite call_end_of_line |
    rewrite call_buffer_size |
    rewrite call_point_max |
    rewrite call_point_min |
    rewrite call_current_column |
    rewrite call_upcase |
    rewrite call_downcase |
    rewrite call_capitalize |
    rewrite call_concat |
    rewrite call_set_mark_command |
    rewrite call_exchange_point_and_mark |
    rewrite call_mark_whole_buffer |
    rewrite call_delete_char |
    rewrite call_delete_backward_char |
    rewrite call_forward_word |
    rewrite call_backward_word |
    rewrite call_looking_at |
    rewrite call_looking_back |
    rewrite call_mark_line |
    rewrite call_delete_line |
    rewrite call_kill_line |
    rewrite call_kill_word |
    rewrite call_backward_kill_word |
    rewrite call_re_search_backward |
    rewrite call_replace_regexp_in_string ].

(** every entry of the default environment *)
Lemma default_env_in E n f : default_env E n = Some f -> In (n, f) (default_functions E).
Proof.
  unfold default_env. induction (default_functions E) as [|[k x] l IH]; cbn; [discriminate|].
  destruct (str_eqb n k) eqn:H.
  - intros X. injection X as ->. apply str_eqb_eq in H. subst. auto.
  - auto.
Qed.

(** unfold a built-in into matches on slices and tests *)
Ltac exe :=
  cbv beta iota zeta delta [
    bind ret fail panic diverge get_content get_point get_mark set_point set_mark set_search get_search
    set_content alloc slice_m slice_to slice_from index_m buf_insert
    no_args one_string one_number opt_count got wants
    content point mark last_match last_start last_end
    at_point with_text with_mark with_match
    b_backward_char b_backward_kill_word b_backward_word b_beginning_of_buffer b_beginning_of_line b_buffer_size b_buffer_substring b_capitalize b_concat b_current_column b_delete_backward_char b_delete_char b_delete_line b_delete_region b_downcase b_end_of_buffer b_end_of_line b_exchange_point_and_mark b_forward_char b_forward_word b_goto_char b_goto_line b_insert b_kill_line b_kill_word b_length b_line_number_at_pos b_looking_at b_looking_back b_mark b_mark_line b_mark_whole_buffer b_mark_word b_point b_point_max b_point_min b_re_search_backward b_re_search_forward b_region_beginning b_region_end b_replace_match b_replace_regexp_in_string b_replace_region b_search_backward b_search_forward b_set_mark b_set_mark_command b_string_match b_substring b_upcase substring_of region_bounds ].

(** a test whose outcome follows by arithmetic *)
Ltac ifs :=
  repeat match goal with
         | |- context [if ?c then _ else _] =>
           first [ replace c with true by (symmetry; ints; zl) | replace c with false by (symmetry; ints; zl) ]
         end.

Lemma opt_count_arg E nm args n k : count_arg E args n -> opt_count E nm args k = k n.
Proof.
  intros [[-> ->]|(f & -> & H)]; cbn; auto. now rewrite (int_arg_to_int E f n).
Qed.
Lemma one_number_arg E nm f n k : int_arg E f n -> one_number E nm [VNum f] k = k n.
Proof. intros H. cbn. now rewrite (int_arg_to_int E f n). Qed.

(** resolve the count argument *)
Ltac count :=
  match goal with
  | H : count_arg ?E ?args ?n |- _ => rewrite (opt_count_arg _ _ args n _ H)
  | H : int_arg ?E ?f ?n |- _ => rewrite (one_number_arg _ _ f n _ H)
  end.
Lemma slice_app3 u t v i : i = zlen u + zlen t -> slice (u ++ t ++ v) 0 i = Some (u ++ t).
Proof. intros. rewrite app_assoc. apply slice_pre. zl. Qed.
Lemma slice_app3_suf u t v i j : i = zlen u + zlen t -> j = zlen (u ++ t ++ v) -> slice (u ++ t ++ v) i j = Some v.
Proof. intros. rewrite app_assoc in *. apply slice_suf; zl. Qed.
(** slices of an appended text *)
Ltac slices :=
  repeat match goal with
         | |- context [slice (?u ++ ?v) 0 ?i] => rewrite (slice_pre u v i) by zl
         | |- context [slice (?u ++ ?v) ?i ?j] => rewrite (slice_suf u v i j) by zl
         | |- context [slice (?u ++ ?t ++ ?v) 0 ?i] => rewrite (slice_app3 u t v i) by zl
         | |- context [slice (?u ++ ?t ++ ?v) ?i ?j] => rewrite (slice_mid u t v i j) by zl
         | |- context [slice (?u ++ ?t ++ ?v) ?i ?j] => rewrite (slice_app3_suf u t v i j) by zl
         end.

Ltac finish := repeat (f_equal; try (ints; zl)).
