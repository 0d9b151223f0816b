(** Lemmas for C78, continued: every entry of the manual is right. *)
From Coq Require Import ZArith NArith QArith List Bool Lia Strings.Byte ZifyBool.
From Verif Require Import Proofs_Round.
From Verif Require Import Base Float Ext Utf8 Strconv Values Buffer Builtins Eval Spec SpecNumber SpecLines SpecManual
  Proofs_Base Proofs_Loops Proofs_Exec Proofs_Float Proofs_Numeral Proofs_Utf8  Proofs_Unique Proofs_Safe
  Prop_Edit Prop_Lines Prop_Strings Prop_Regexp Prop_Numbers Prop_Words Prop_Calls Proofs_Manual Proofs_Manual2 Proofs_Manual3.
Import ListNotations.
Open Scope Z_scope.

Lemma number_of z v : number z v -> -1 <= z <= max_alloc + 1 \/ int_ok z -> v = VInt z.
Proof. intros N [B|B]; apply number_VInt; auto using small_abs, int_abs. Qed.
Lemma s_set_mark_command_at E b f n : int_arg E f n -> call E "set-mark-command" [VNum f] b = fine (with_mark b n).
Proof. intros A. call. unfold b_set_mark_command. rewrite (int_arg_to_int E f n) by auto. reflexivity. Qed.
Lemma s_replace_regexp E re r s b o : re_error E re = None -> gives b (re_replace_all E re s r) o ->
  call E "replace-regexp-in-string" [VStr re; VStr r; VStr s] b = o.
Proof.
  intros V X. apply gives_fun in X. subst o. call. unfold b_replace_regexp_in_string. rewrite V. unfold bind, alloc. memory. reflexivity.
Qed.
Lemma s_replace_regexp_invalid E re r s msg b : re_error E re = Some msg ->
  call E "replace-regexp-in-string" [VStr re; VStr r; VStr s] b = Fail (bs "invalid regexp: " ++ msg) b.
Proof. intros V. call. unfold b_replace_regexp_in_string. rewrite V. reflexivity. Qed.
Lemma s_goto_char E b f n : machine b -> int_arg E f n -> call E "goto-char" [VNum f] b = fine (at_point b (clamp 1 (zlen (content b) + 1) n)).
Proof. intros (F & _) A. now apply goto_char_clamps. Qed.

Lemma manual_right E name args b o : manual E name args b o -> ext_ok E -> machine b -> held args -> call E name args b = o.
Proof.
  intros H. destruct H; intros EO MA HE;
  try match goal with |- context [VStr ?s] => assert (fits s) by (apply HE; cbn [In]; auto) end.
  - now apply refused_right.
  - rewrite (number_of _ _ H); [reflexivity|right; apply MA].
  - rewrite (number_of _ _ H); [reflexivity|right; apply MA].
  - rewrite (number_of _ _ H); [reflexivity|left; easy].
  - rewrite (number_of _ _ H); [reflexivity|left; destruct MA as (F & _); pose proof (zlen_nonneg (content b)); facts; lia].
  - rewrite (number_of _ _ H); [reflexivity|left; destruct MA as (F & _); pose proof (zlen_nonneg (content b)); facts; lia].
  - rewrite (number_of _ _ H); [apply region_bounds_reported|]. right. destruct MA as (F & P & K & _). facts. lia.
  - rewrite (number_of _ _ H); [apply region_bounds_reported|]. right. destruct MA as (F & P & K & _). facts. lia.
  - now apply (s_line_number E b before after).
  - now apply (s_column E b u line c after).
  - now apply (s_column_newline E b before after).
  - now apply (s_column_end E b u line).
  - now apply s_column_early.
  - now apply s_goto_char.
  - apply (goto_line_moves E b f n u rest); auto. apply MA.
  - reflexivity.
  - reflexivity.
  - now apply (s_beginning_of_line E b u line after).
  - now apply (s_beginning_of_last_line E b u line).
  - now apply s_beginning_of_no_line.
  - now apply s_beginning_of_line_early.
  - now apply (s_end_of_line E b before line rest).
  - now apply (s_forward_char E b args n).
  - now apply (s_backward_char E b args n).
  - apply (forward_word_moves E b args n before after moved rest); auto. apply MA.
  - now apply (s_forward_word_stays E b args n).
  - now apply (s_forward_word_crash E b args n).
  - apply (backward_word_moves E b args n before after rest moved); auto. apply MA.
  - now apply (s_backward_word_stays E b args n).
  - now apply (s_backward_word_crash E b args n).
  - reflexivity.
  - reflexivity.
  - now apply s_set_mark_command_at.
  - reflexivity.
  - reflexivity.
  - apply (mark_word_selects E b u w1 w2 v); auto. apply MA.
  - now apply s_mark_no_word.
  - apply (mark_line_selects E b args n u line after moved rest); auto. apply MA.
  - now apply (s_mark_line_early E b args n).
  - now apply (s_mark_line_crash E b args n).
  - now apply (s_search_forward E b s before u v).
  - now apply (s_search_forward_fails E b s before after).
  - now apply (s_search_backward E b s u v after).
  - now apply (s_search_backward_fails E b s before after).
  - now apply s_search_backward_early.
  - now apply (s_re_search_forward E b p before u t v).
  - now apply (s_re_search_forward_fails E b p before after).
  - now apply (s_re_search_forward_invalid E b p before after).
  - now apply (s_re_search_backward E b p u t v after ms).
  - now apply (s_re_search_backward_fails E b p before after).
  - now apply (s_re_search_backward_invalid E b p before after).
  - now apply s_re_search_backward_early.
  - now apply (s_looking_at E b p before after).
  - now apply (s_looking_at_literal E b p before after msg).
  - now apply s_looking_at_nothing.
  - now apply (s_looking_back E b p before after).
  - now apply (s_looking_back_literal E b p before after msg).
  - now apply s_looking_back_nothing.
  - now apply (s_looking_back_late E b p msg).
  - now apply s_looking_back_crash.
  - now apply (s_insert E b s before after).
  - now apply (s_insert_front E b s p).
  - now apply (s_insert_back E b s p).
  - now apply (s_replace_match E b r u t v).
  - now apply replace_match_without_match.
  - now apply s_replace_lost_match.
  - now apply (s_delete_region E b u t v).
  - now apply (s_delete_nothing E b u v).
  - now apply (s_replace_region E b r u t v).
  - now apply (s_replace_nothing E b r u v).
  - now apply (s_delete_char E b args n before gone rest).
  - now apply (s_delete_char_doubles E b args n u w after).
  - now apply (s_delete_char_crash E b args n before after).
  - now apply (s_delete_no_char E b args n).
  - now apply (s_delete_backward_char E b args n rest gone after).
  - now apply (s_delete_backward_all E b args n before after).
  - now apply (s_delete_backward_stays E b args n before after).
  - now apply (s_delete_backward_early E b args n).
  - now apply (s_delete_backward_late E b args n e).
  - now apply (s_delete_backward_crash E b args n e).
  - apply (kill_word_kills E b args n before after moved rest); auto. apply MA.
  - now apply (s_kill_word_crash E b args n).
  - apply (backward_kill_word_kills E b args n before after rest moved); auto. apply MA.
  - now apply (s_backward_kill_word_crash E b args n).
  - apply (delete_line_deletes E b args n u line after moved rest); auto. apply MA.
  - now apply (s_delete_line_crash E b args n).
  - apply (kill_line_one E b args before c line rest); auto. apply MA.
  - now apply (s_kill_lines E b args n before after moved rest).
  - now apply (s_kill_no_line E b args n).
  - rewrite (number_of _ _ H); [reflexivity|left; pose proof (zlen_nonneg s); facts; lia].
  - now apply s_concat.
  - now apply s_concat_kind.
  - now apply s_concat_kind_memory.
  - now apply (s_substring E s f g n m a z t).
  - now apply (s_substring_rest E s f n a t).
  - now apply (s_buffer_substring E f g n m a z t).
  - now apply (s_upcase E s l l').
  - now apply (s_downcase E s l l').
  - now apply (s_capitalize E c s r l l').
  - reflexivity.
  - assert (fits s) by (apply HE; cbn [In]; auto). now apply (s_string_match E p s i j).
  - now apply s_string_match_none.
  - assert (fits s) by (apply HE; cbn [In]; auto). now apply (s_string_match_literal E p s msg u v).
  - now apply (s_string_match_literal_none E p s msg).
  - now apply s_replace_regexp.
  - now apply s_replace_regexp_invalid.
Qed.
