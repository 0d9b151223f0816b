(** Lemmas for C78, continued: every call has an entry in the manual. *)
From Coq Require Import ZArith NArith QArith List Bool Lia Strings.Byte ZifyBool.
From Verif Require Import Proofs_Round.
From Verif Require Import Base Float Ext Utf8 Strconv Values Buffer Builtins Eval Spec SpecNumber SpecLines SpecManual
  Proofs_Base Proofs_Loops Proofs_Exec Proofs_Float Proofs_Numeral Proofs_Utf8  Proofs_Unique Proofs_Safe Proofs_Chars
  Prop_Edit Prop_Lines Prop_Strings Prop_Regexp Prop_Numbers Prop_Words Prop_Calls Proofs_Manual Proofs_Manual2 Proofs_Manual3 Proofs_Manual4.
Import ListNotations.
Open Scope Z_scope.

(** ** Arguments *)
Lemma counts_ex name what args : exists msg, counts name what args msg.
Proof. exists (bs name ++ bs " expects " ++ bs what ++ bs ", got " ++ itoa (zlen args)), (itoa (zlen args)). split; auto using itoa_text. Qed.
Lemma says_ex name what : exists msg, says name what msg.
Proof. eexists. reflexivity. Qed.
Arguments counts_ex name%string_scope what%string_scope args.
Arguments says_ex name%string_scope what%string_scope.
Lemma args_none name args : taking NoArgs name -> args = [] \/ exists msg, refused name args msg.
Proof.
  intros T. destruct args as [|v args]; auto. right. destruct (counts_ex name "0 arguments" (v :: args)) as [msg C].
  exists msg. apply no_argument; auto. discriminate.
Qed.
Lemma kind_dec k v : has_kind k v \/ ~ has_kind k v.
Proof. destruct k, v; cbn; auto. Qed.
Lemma kind_string v : has_kind KString v -> exists s, v = VStr s.
Proof. destruct v; cbn; try tauto. eauto. Qed.
Lemma kind_number v : has_kind KNumber v -> exists f, v = VNum f.
Proof. destruct v; cbn; try tauto. eauto. Qed.
Lemma args_text name args : taking AString name -> (exists s, args = [VStr s]) \/ exists msg, refused name args msg.
Proof.
  intros T. destruct (Z.eq_dec (zlen args) 1) as [L|L].
  - apply zlen_one in L as [v ->]. destruct (kind_dec KString v) as [K|K].
    + apply kind_string in K as [s ->]. eauto.
    + right. destruct (says_ex name "a string argument") as [msg C]. exists msg. now apply one_text.
  - right. destruct (counts_ex name "1 argument" args) as [msg C]. exists msg. now apply one_text_count.
Qed.
Lemma args_number name args : taking ANumber name -> (exists f, args = [VNum f]) \/ exists msg, refused name args msg.
Proof.
  intros T. destruct (Z.eq_dec (zlen args) 1) as [L|L].
  - apply zlen_one in L as [v ->]. destruct (kind_dec KNumber v) as [K|K].
    + apply kind_number in K as [s ->]. eauto.
    + right. destruct (says_ex name "a number argument") as [msg C]. exists msg. now apply one_number.
  - right. destruct (counts_ex name "1 argument" args) as [msg C]. exists msg. now apply one_number_count.
Qed.
Lemma args_count E name args : taking OptNumber name -> (exists n, count_arg E args n) \/ exists msg, refused name args msg.
Proof.
  intros T. destruct args as [|v [|w args]].
  - left. exists 1. now left.
  - destruct (kind_dec KNumber v) as [K|K].
    + apply kind_number in K as [f ->]. left. exists (f_to_int E f). right. exists f. split; auto using int_arg_exists.
    + right. destruct (says_ex name "a number argument") as [msg C]. exists msg. now apply at_most.
  - right. destruct (counts_ex name "at most 1 argument" (v :: w :: args)) as [msg C]. exists msg. apply at_most_count; auto. zl.
Qed.

(** ** Things that always exist *)
Lemma becomes_ex b t p : exists o, becomes b t p o.
Proof.
  unfold becomes, fits. destruct (Z_le_gt_dec (zlen t) max_alloc); [exists (fine (with_text b t p)); auto|exists OutOfMemory; right; split; auto; lia].
Qed.
Lemma gives_ex b t : exists o, gives b t o.
Proof.
  unfold gives, fits. destruct (Z_le_gt_dec (zlen t) max_alloc); [exists (Done (VStr t) b); auto|exists OutOfMemory; right; split; auto; lia].
Qed.
Lemma carry_ex z : exists w, carry z w.
Proof. eauto using wrap_carry. Qed.
Lemma position_ex n : exists p, position n p.
Proof. destruct (Z.eq_dec n min_int); [exists max_int; now left|exists n; now right]. Qed.
Lemma words_back_ex n s : exists rest moved, passes_words_back n s rest moved.
Proof.
  destruct (passes_words_total n (rev s)) as (m & r & H). exists (rev r), (rev m). unfold passes_words_back. now rewrite !rev_involutive.
Qed.
Lemma selected_ex b : exists u t v, selected b u t v.
Proof.
  destruct (position_ex (Z.min (mark b) (point b))) as [a A]. destruct (position_ex (Z.max (mark b) (point b))) as [z Z1].
  destruct (piece_exists (content b) a z) as [t P]. pose proof P as (u & v & C & U & _).
  exists u, t, v, a, z. auto.
Qed.

(** ** Entries *)
Definition entry (E : Ext) (name : String.string) (args : list value) (b : buffer) : Prop := exists o, manual E name args b o.
Arguments entry E name%string_scope args b.
Lemma refused_entry E name args b : (exists msg, refused name args msg) -> entry E name args b.
Proof. intros [msg R]. exists (Fail msg b). now apply m_refused. Qed.
Ltac num z := destruct (VInt_number z) as (?f & ?V & ?N & ?R); [try (apply small_abs; facts; zl; fail); auto using int_abs|].
Lemma number_ex z : -1 <= z <= max_alloc + 1 \/ int_ok z -> exists v, number z v.
Proof. intros [B|B]; exists (VInt z); apply VInt_number; auto using small_abs, int_abs. Qed.
Ltac ans := intros; eexists; econstructor; eauto; fail.

Lemma e_point E b : machine b -> entry E "point" [] b.
Proof. intros M. destruct (number_ex (point b)) as [v V]; [right; apply M|]. ans. Qed.
Lemma e_mark E b : machine b -> entry E "mark" [] b.
Proof. intros M. destruct (number_ex (mark b)) as [v V]; [right; apply M|]. ans. Qed.
Lemma e_point_min E b : machine b -> entry E "point-min" [] b.
Proof. intros M. destruct (number_ex 1) as [v V]; [now left|]. ans. Qed.
Lemma e_point_max E b : machine b -> entry E "point-max" [] b.
Proof. intros (F & _). destruct (number_ex (zlen (content b) + 1)) as [v V]; [left; facts; zl|]. ans. Qed.
Lemma e_buffer_size E b : machine b -> entry E "buffer-size" [] b.
Proof. intros (F & _). destruct (number_ex (zlen (content b))) as [v V]; [left; facts; zl|]. ans. Qed.
Lemma e_region_beginning E b : machine b -> entry E "region-beginning" [] b.
Proof. intros (F & P & K & _). destruct (number_ex (Z.min (mark b) (point b))) as [v V]; [right; facts; lia|]. ans. Qed.
Lemma e_region_end E b : machine b -> entry E "region-end" [] b.
Proof. intros (F & P & K & _). destruct (number_ex (Z.max (mark b) (point b))) as [v V]; [right; facts; lia|]. ans. Qed.
Lemma around_content b x y : around b x y -> content b = x ++ y.
Proof. intros [[C _]|[C _]]; auto. Qed.
Lemma up_to_content b x y : up_to b x y -> content b = x ++ y.
Proof. intros [[C _]|[C _]]; auto. Qed.
Lemma e_line_number E b : machine b -> entry E "line-number-at-pos" [] b.
Proof.
  intros M. destruct (around_ex b M) as (x & y & A). pose proof (around_content _ _ _ A) as C.
  destruct (number_ex (newlines x + 1)) as [v V]; [|ans]. left. pose proof (newlines_le x). destruct M as (F & _). rewrite C in F. facts. zl.
Qed.
Lemma e_column E b : machine b -> entry E "current-column" [] b.
Proof.
  intros M. destruct (number_ex 0) as [v0 V0]; [now left|]. destruct (place_cases b M) as [H|[H|(x & y & B)]]; [ans| |].
  - destruct (last_newline (content b)) as (u & l & C & U & L). destruct (number_ex (zlen l)) as [v V].
    { left. destruct M as (F & _). rewrite C in F. facts. zl. }
    exists (Done v b). apply (m_column_end E b u l); auto. right. rewrite app_nil_r. auto.
  - destruct (last_newline x) as (u & l & -> & U & L). pose proof B as [C _]. destruct (number_ex (zlen l)) as [v V].
    { left. destruct M as (F & _). rewrite C in F. facts. zl. }
    destruct y as [|c y].
    + exists (Done v b). apply (m_column_end E b u l); auto. now left.
    + destruct (Byte.byte_eq_dec c nl) as [->|N]; [ans|]. destruct (number_ex (zlen l + 1)) as [w W].
      { left. destruct M as (F & _). rewrite C in F. facts. zl. }
      exists (Done w b). now apply (m_column E b u l c y).
Qed.
Lemma e_goto_char E f b : entry E "goto-char" [VNum f] b.
Proof. eexists. apply m_goto_char. apply int_arg_exists. Qed.
Lemma e_goto_line E f b : entry E "goto-line" [VNum f] b.
Proof.
  pose proof (newlines_le (content b)). set (n := f_to_int E f).
  destruct (line_start_exists (content b) (clamp 1 (newlines (content b) + 1) n - 1)) as (u & v & C & U & K); [unfold clamp; lia|].
  eexists. apply (m_goto_line E b f n u v); auto; [apply int_arg_exists|lia].
Qed.
Lemma e_beginning_of_line E b : machine b -> entry E "beginning-of-line" [] b.
Proof.
  intros M. destruct (up_to_ex b M) as [H|(x & y & A)]; [ans|]. destruct (last_newline x) as (u & l & -> & U & L).
  destruct y as [|c y].
  - destruct l as [|c l].
    + rewrite app_nil_r in A. destruct U as [-> |[t ->]]; [ans|]. destruct (last_newline t) as (u' & l' & -> & U' & L').
      rewrite <- app_assoc in A. ans.
    + eexists. apply (m_beginning_of_line E b u (c :: l) []); auto. left. discriminate.
  - eexists. apply (m_beginning_of_line E b u l (c :: y)); auto. right. discriminate.
Qed.
Lemma e_end_of_line E b : machine b -> entry E "end-of-line" [] b.
Proof. intros M. destruct (around_ex b M) as (x & y & A). destruct (first_newline y) as (l & r & -> & L & R). ans. Qed.
Lemma e_forward_char E args n b : count_arg E args n -> entry E "forward-char" args b.
Proof. intros A. destruct (carry_ex (point b + n)) as [w W]. ans. Qed.
Lemma e_backward_char E args n b : count_arg E args n -> entry E "backward-char" args b.
Proof. intros A. destruct (carry_ex (point b - n)) as [w W]. ans. Qed.
Lemma e_forward_word E args n b : machine b -> count_arg E args n -> entry E "forward-word" args b.
Proof.
  intros M A. destruct (place_cases b M) as [H|[H|(x & y & B)]].
  - destruct (Z_lt_le_dec 0 n); [ans|]. eexists. apply (m_forward_word_stays E b args n); auto.
  - eexists. apply (m_forward_word_stays E b args n); auto.
  - destruct (passes_words_total (Z.to_nat n) y) as (m & r & P). ans.
Qed.
Lemma e_backward_word E args n b : machine b -> count_arg E args n -> entry E "backward-word" args b.
Proof.
  intros M A. destruct (place_cases b M) as [H|[H|(x & y & B)]].
  - eexists. apply (m_backward_word_stays E b args n); auto.
  - destruct (Z_lt_le_dec 0 n); [ans|]. eexists. apply (m_backward_word_stays E b args n); auto.
  - destruct (words_back_ex (Z.to_nat n) x) as (m & r & P). ans.
Qed.
Lemma e_set_mark_command E args n b : count_arg E args n -> entry E "set-mark-command" args b.
Proof. intros [[-> _]|(f & -> & A)]; ans. Qed.
Lemma word_dec c : word_byte c \/ ~ word_byte c.
Proof. unfold word_byte. destruct (in_dec Byte.byte_eq_dec c (bs "abcdefghijklmnopqrstuvwxyzABCDEFGHIJKLMNOPQRSTUVWXYZ0123456789")); auto. Qed.
Lemma word_front s : exists w v, s = w ++ v /\ all_word w /\ starts_outside_word v.
Proof.
  induction s as [|c s (w & v & -> & W & V)]; [exists [], []; repeat split; [constructor|intros ? ?; discriminate]|].
  destruct (word_dec c) as [D|D].
  - exists (c :: w), v. repeat split; auto. now constructor.
  - exists [], (c :: w ++ v). repeat split; [constructor|]. intros d t Q. now injection Q as <- _.
Qed.
Lemma word_back s : exists u w, s = u ++ w /\ all_word w /\ ends_outside_word u.
Proof.
  induction s as [|c s (u & w & -> & W & U)] using rev_ind.
  - exists [], []. repeat split; [constructor|]. intros t c Q. now destruct t.
  - destruct (word_dec c) as [D|D].
    + exists u, (w ++ [c]). rewrite app_assoc. repeat split; auto. apply Forall_app. split; auto.
    + exists ((u ++ w) ++ [c]), []. rewrite app_nil_r. repeat split; [constructor|]. intros t d Q. apply app_inj_tail in Q as [_ <-]. exact D.
Qed.
Lemma between_end b x : between b x [] -> around b (content b) [].
Proof. intros [C P]. rewrite app_nil_r in C. left. split; [now rewrite app_nil_r|]. now rewrite C. Qed.
Lemma late_end b : late b -> around b (content b) [].
Proof. right. rewrite app_nil_r. auto. Qed.
Lemma e_mark_word E b : machine b -> entry E "mark-word" [] b.
Proof.
  intros M. destruct (place_cases b M) as [H|[H|(x & y & B)]].
  - eexists. apply m_mark_no_word. auto.
  - eexists. apply m_mark_no_word. auto using late_end.
  - destruct y as [|c y]; [eexists; apply m_mark_no_word; eauto using between_end|].
    destruct (word_front (c :: y)) as (w2 & v & Q & W2 & V). destruct (word_back x) as (u & w1 & -> & W1 & U). rewrite Q in B.
    eexists. apply (m_mark_word E b u w1 w2 v); auto. rewrite <- Q. discriminate.
Qed.
Lemma e_mark_line E args n b : machine b -> count_arg E args n -> entry E "mark-line" args b.
Proof.
  intros M A. destruct (place_cases b M) as [H|[H|(x & y & B)]].
  - destruct (Z_lt_le_dec 0 n); [|ans]. eexists. apply (m_mark_line_crash E b args n); auto.
  - eexists. apply (m_mark_line_crash E b args n); auto.
  - destruct (last_newline x) as (u & l & -> & U & L). destruct (passes_lines_total (Z.to_nat n) y) as (m & r & P). ans.
Qed.
Lemma e_search_forward E s b : machine b -> entry E "search-forward" [VStr s] b.
Proof.
  intros M. destruct (around_ex b M) as (x & y & A). destruct y as [|c y].
  - eexists. apply (m_search_forward_fails E b s x []); auto.
  - destruct (first_occurrence_exists (c :: y) s) as [(u & v & Q & O)|O].
    + rewrite Q in A, O. eexists. apply (m_search_forward E b s x u v); auto. rewrite <- Q. discriminate.
    + eexists. apply (m_search_forward_fails E b s x (c :: y)); auto.
Qed.
Lemma e_search_backward E s b : machine b -> entry E "search-backward" [VStr s] b.
Proof.
  intros M. destruct (up_to_ex b M) as [H|(x & y & A)]; [ans|].
  destruct (last_occurrence_exists x s) as [(u & v & -> & O)|O]; [ans|ans].
Qed.
Lemma e_re_search_forward E re b : ext_ok E -> machine b -> entry E "re-search-forward" [VStr re] b.
Proof.
  intros X M. destruct (around_ex b M) as (x & y & A). destruct y as [|c y].
  - eexists. apply (m_re_search_forward_fails E b re x []); auto.
  - destruct (re_error E re) as [msg|] eqn:V.
    + eexists. apply (m_re_search_forward_invalid E b re x (c :: y) msg); auto. discriminate.
    + destruct (re_find E re (c :: y)) as [m|] eqn:R.
      * destruct (matched_exists _ _ (ok_find E X _ _ _ R)) as (u & t & v & Q & ->). rewrite Q in A, R.
        eexists. apply (m_re_search_forward E b re x u t v); auto; [rewrite <- Q; discriminate|]. rewrite R. repeat f_equal. zl.
      * eexists. apply (m_re_search_forward_fails E b re x (c :: y)); auto.
Qed.
Lemma e_re_search_backward E re b : ext_ok E -> machine b -> entry E "re-search-backward" [VStr re] b.
Proof.
  intros X M. destruct (up_to_ex b M) as [H|(x & y & A)]; [ans|]. destruct (re_error E re) as [msg|] eqn:V; [ans|].
  destruct (re_find_all E re x) as [|m0 ms0] eqn:R; [ans|]. assert (m0 :: ms0 <> []) as N by discriminate.
  destruct (exists_last N) as (ms & m & Q). rewrite Q in R.
  destruct (matched_exists x m) as (u & t & v & -> & ->). { apply (ok_find_all E X re). rewrite R. apply in_or_app. cbn. auto. }
  eexists. apply (m_re_search_backward E b re u t v y ms); auto. rewrite R. repeat f_equal. zl.
Qed.
Lemma e_looking_at E re b : ext_ok E -> machine b -> entry E "looking-at" [VStr re] b.
Proof.
  intros X M. destruct (place_cases b M) as [H|[H|(x & y & B)]].
  - eexists. apply m_looking_at_nothing. auto.
  - eexists. apply m_looking_at_nothing. auto using late_end.
  - destruct y as [|c y]; [eexists; apply m_looking_at_nothing; eauto using between_end|].
    assert (N : c :: y <> []) by discriminate. destruct (re_error E re) as [msg|] eqn:V.
    + destruct (looking_at_literal E b re x _ msg (proj1 M) B N V) as [[_ R]|[_ R]];
        eexists; apply (m_looking_at_literal E b re x (c :: y) msg); auto; [left|right]; split; eauto.
    + destruct (looking_at_answers E b re x _ X (proj1 M) B N V) as [[_ (t & v & R & _)]|[_ R]];
        eexists; apply (m_looking_at E b re x (c :: y)); auto; [left|right]; split; eauto. intros [j J]. now apply (R j).
Qed.
Lemma e_looking_back E re b : ext_ok E -> machine b -> entry E "looking-back" [VStr re] b.
Proof.
  intros X M. destruct (place_cases b M) as [H|[H|(x & y & B)]].
  - eexists. apply m_looking_back_nothing. auto.
  - destruct (re_error E re) as [msg|] eqn:V; [|eexists; apply m_looking_back_crash; auto].
    destruct (Z.eq_dec (point b) min_int); [eexists; apply m_looking_back_crash; auto|].
    destruct (Z_lt_le_dec (zlen re) (point b)); [eexists; apply m_looking_back_crash; auto|ans].
  - destruct x as [|c x]; [eexists; apply m_looking_back_nothing; destruct B; auto|].
    assert (N : c :: x <> []) by discriminate. destruct (re_error E re) as [msg|] eqn:V.
    + destruct (looking_back_literal E b re _ y msg (proj1 M) B N V) as [[_ R]|[_ R]];
        eexists; apply (m_looking_back_literal E b re (c :: x) y msg); auto; [left|right]; split; eauto.
    + destruct (looking_back_answers E b re _ y X (proj1 M) B N V) as [[_ (t & v & _ & R)]|[_ R]];
        eexists; apply (m_looking_back E b re (c :: x) y); auto; [left|right]; split; eauto. intros [j J]. now apply (R j).
Qed.
Lemma e_insert E s b : machine b -> entry E "insert" [VStr s] b.
Proof.
  intros M. destruct (Z_lt_le_dec (point b) 1) as [L|L]; [|destruct (Z_lt_le_dec (zlen (content b) + 1) (point b)) as [R|R]].
  - destruct (carry_ex (point b + zlen s)) as [w W]. destruct (becomes_ex b (s ++ content b) w) as [o O]. exists o. now apply (m_insert_front E b s w).
  - destruct (carry_ex (point b + zlen s)) as [w W]. destruct (becomes_ex b (content b ++ s) w) as [o O]. exists o. now apply (m_insert_back E b s w).
  - destruct (split_at (content b) (point b - 1)) as (x & y & C & Q); [lia|].
    destruct (becomes_ex b (x ++ s ++ y) (point b + zlen s)) as [o O]. exists o. apply (m_insert E b s x y); auto. split; auto. lia.
Qed.
Lemma e_replace_match E r b : machine b -> entry E "replace-match" [VStr r] b.
Proof.
  intros M. destruct (last_match b) as [|c lm] eqn:L; [ans|]. assert (N : last_match b <> []) by (rewrite L; discriminate).
  destruct (Z_lt_le_dec (last_start b) 1); [eexists; apply m_replace_lost_match; auto; lia|].
  destruct (Z_lt_le_dec (last_start b) (last_end b)); [|eexists; apply m_replace_lost_match; auto; lia].
  destruct (Z_lt_le_dec (zlen (content b) + 1) (last_end b)); [eexists; apply m_replace_lost_match; auto; lia|].
  destruct (split_at2 (content b) (last_start b - 1) (last_end b - 1)) as (u & t & v & C & U & T); [lia|lia|].
  destruct (becomes_ex b (u ++ r ++ v) (zlen (u ++ r) + 1)) as [o O]. exists o. apply (m_replace_match E b r u t v); auto; try zl.
  intros ->. rewrite zlen_nil in T. lia.
Qed.
Lemma e_delete_region E b : entry E "delete-region" [] b.
Proof.
  destruct (selected_ex b) as (u & t & v & H). destruct t as [|c t]; [ans|]. eexists. apply (m_delete_region E b u (c :: t) v); auto. discriminate.
Qed.
Lemma e_replace_region E r b : entry E "replace-region" [VStr r] b.
Proof.
  destruct (selected_ex b) as (u & t & v & H). destruct t as [|c t]; [ans|].
  destruct (becomes_ex b (u ++ r ++ v) (zlen (u ++ r) + 1)) as [o O]. exists o. apply (m_replace_region E b r u (c :: t) v); auto. discriminate.
Qed.
Lemma e_delete_char E args n b : machine b -> count_arg E args n -> entry E "delete-char" args b.
Proof.
  intros M A. destruct (Z_lt_le_dec (point b) 1); [eexists; apply (m_delete_no_char E b args n); auto|].
  destruct (Z_lt_le_dec (zlen (content b)) (point b)); [eexists; apply (m_delete_no_char E b args n); auto|].
  destruct (split_at (content b) (point b - 1)) as (x & y & C & Q); [lia|]. assert (B : between b x y) by (split; auto; lia).
  assert (N : y <> []). { intros ->. rewrite app_nil_r in C. rewrite C in *. lia. }
  destruct (Z_lt_le_dec (point b - 1 + n) 0); [eexists; apply (m_delete_char_crash E b args n x y); auto|].
  destruct (Z_lt_le_dec max_int (point b - 1 + n)); [eexists; apply (m_delete_char_crash E b args n x y); auto|].
  destruct (Z_lt_le_dec n 0).
  - destruct (split_at x (zlen x + n)) as (u & w & -> & L); [lia|].
    destruct (becomes_ex b (u ++ w ++ w ++ y) (point b)) as [o O]. exists o. apply (m_delete_char_doubles E b args n u w y); auto. revert L. zl.
  - destruct (split_at y (Z.min n (zlen y))) as (g & r & -> & L); [zl|].
    eexists. apply (m_delete_char E b args n x g r); auto.
Qed.
Lemma e_delete_backward_char E args n b : machine b -> count_arg E args n -> entry E "delete-backward-char" args b.
Proof.
  intros M A. destruct (place_cases b M) as [H|[H|(x & y & B)]]; [ans| |].
  - destruct (carry_ex (point b - 1)) as [e C]. destruct (Z_lt_le_dec 0 n); [eexists; apply (m_delete_backward_crash E b args n e); auto|].
    destruct (Z_lt_le_dec max_int (e - n)); [eexists; apply (m_delete_backward_crash E b args n e); auto|ans].
  - destruct (Z_lt_le_dec n 0).
    + destruct (list_eq_dec Byte.byte_eq_dec x []) as [N|N]; [eexists; apply (m_delete_backward_stays E b args n x y); auto|].
      destruct (Z_lt_le_dec max_int (zlen x - n)); [ans|eexists; apply (m_delete_backward_stays E b args n x y); auto].
    + destruct (split_at x (zlen x - Z.min n (zlen x))) as (r & g & -> & L); [zl|].
      eexists. apply (m_delete_backward_char E b args n r g y); auto. revert L. zl.
Qed.
Lemma e_kill_word E args n b : machine b -> count_arg E args n -> entry E "kill-word" args b.
Proof.
  intros M A. destruct (place_cases b M) as [H|[H|(x & y & B)]]; try (eexists; apply (m_kill_word_crash E b args n); auto; fail).
  destruct (passes_words_total (Z.to_nat n) y) as (m & r & P). ans.
Qed.
Lemma e_backward_kill_word E args n b : machine b -> count_arg E args n -> entry E "backward-kill-word" args b.
Proof.
  intros M A. destruct (place_cases b M) as [H|[H|(x & y & B)]]; try (eexists; apply (m_backward_kill_word_crash E b args n); auto; fail).
  destruct (words_back_ex (Z.to_nat n) x) as (m & r & P). ans.
Qed.
Lemma e_delete_line E args n b : machine b -> count_arg E args n -> entry E "delete-line" args b.
Proof.
  intros M A. destruct (place_cases b M) as [H|[H|(x & y & B)]]; try (eexists; apply (m_delete_line_crash E b args n); auto; fail).
  destruct (last_newline x) as (u & l & -> & U & L). destruct (passes_lines_total (Z.to_nat n) y) as (m & r & P). ans.
Qed.
Lemma e_kill_line E args n b : machine b -> count_arg E args n -> entry E "kill-line" args b.
Proof.
  intros M A. destruct (place_cases b M) as [H|[H|(x & y & B)]].
  - eexists. apply (m_kill_no_line E b args n); auto.
  - eexists. apply (m_kill_no_line E b args n); auto using late_end.
  - destruct y as [|c y]; [eexists; apply (m_kill_no_line E b args n); eauto using between_end|].
    destruct (Z.eq_dec n 1) as [->|N].
    + destruct (first_newline y) as (l & r & -> & L & R). ans.
    + destruct (passes_lines_total (Z.to_nat n) (c :: y)) as (m & r & P). eexists. apply (m_kill_lines E b args n x (c :: y) m r); auto. discriminate.
Qed.
Lemma e_length E s b : fits s -> entry E "length" [VStr s] b.
Proof. intros F. destruct (number_ex (zlen s)) as [v V]; [left; facts; zl|]. ans. Qed.
Lemma strings_dec args : (exists ss, args = map VStr ss) \/ exists ss v rest, args = map VStr ss ++ v :: rest /\ ~ has_kind KString v.
Proof.
  induction args as [|v args IH]; [left; now exists []|]. destruct (kind_dec KString v) as [K|K].
  - apply kind_string in K as [s ->]. destruct IH as [[ss ->]|(ss & w & rest & -> & N)].
    + left. now exists (s :: ss).
    + right. exists (s :: ss), w, rest. auto.
  - right. exists [], v, args. auto.
Qed.
Lemma e_concat E args b : entry E "concat" args b.
Proof.
  destruct (strings_dec args) as [[ss ->]|(ss & v & rest & -> & N)].
  - destruct (gives_ex b (concat ss)) as [o O]. exists o. now apply m_concat.
  - destruct (Z_le_gt_dec (zlen (concat ss)) max_alloc).
    + eexists. apply m_concat_kind; auto. apply itoa_text.
    + eexists. apply m_concat_kind_memory; auto.
Qed.
Lemma e_substring E args b : entry E "substring" args b.
Proof.
  destruct args as [|v [|w rest]].
  1,2: apply refused_entry; match goal with |- exists _, refused _ ?a _ => destruct (counts_ex "substring" "2 or 3 arguments" a) as [msg C] end;
    exists msg; apply substring_count; auto; left; zl.
  destruct (Z_lt_le_dec 1 (zlen rest)) as [L|L].
  - apply refused_entry. destruct (counts_ex "substring" "2 or 3 arguments" (v :: w :: rest)) as [msg C]. exists msg. apply substring_count; auto. right. zl.
  - destruct (kind_dec KString v) as [K|K].
    2:{ apply refused_entry. destruct (says_ex "substring" "a string as first argument") as [msg C]. exists msg. now apply substring_first. }
    destruct (kind_dec KNumber w) as [K2|K2].
    2:{ apply refused_entry. destruct (says_ex "substring" "a number as second argument") as [msg C]. exists msg. now apply substring_second. }
    destruct (kind_string _ K) as [s ->]. destruct (kind_number _ K2) as [f ->]. destruct (position_ex (f_to_int E f)) as [a A].
    destruct rest as [|x [|y rest]]; [| |exfalso; revert L; zl].
    + destruct (piece_exists s a (zlen s + 1)) as [t T]. eexists. apply (m_substring_rest E s f (f_to_int E f) a t); auto using int_arg_exists.
    + destruct (kind_dec KNumber x) as [K3|K3].
      2:{ apply refused_entry. destruct (says_ex "substring" "a number as third argument") as [msg C]. exists msg. now apply substring_third. }
      destruct (kind_number _ K3) as [g ->]. destruct (position_ex (f_to_int E g)) as [z Z1]. destruct (piece_exists s a z) as [t T].
      eexists. apply (m_substring E s f g (f_to_int E f) (f_to_int E g) a z t); auto using int_arg_exists.
Qed.
Lemma zlen_two {A} (l : list A) : zlen l = 2 -> exists x y, l = [x; y].
Proof. destruct l as [|x [|y [|w l]]]; intros H; try (exfalso; revert H; zl; fail). eauto. Qed.
Lemma zlen_three {A} (l : list A) : zlen l = 3 -> exists x y z, l = [x; y; z].
Proof. destruct l as [|x [|y [|w [|k l]]]]; intros H; try (exfalso; revert H; zl; fail). eauto. Qed.
Lemma e_buffer_substring E args b : entry E "buffer-substring" args b.
Proof.
  destruct (Z.eq_dec (zlen args) 2) as [L|L].
  2:{ apply refused_entry. destruct (counts_ex "buffer-substring" "2 arguments" args) as [msg C]. exists msg. now apply buffer_substring_count. }
  apply zlen_two in L as (v & w & ->).
  assert (D : has_kind KNumber v /\ has_kind KNumber w \/ ~ (has_kind KNumber v /\ has_kind KNumber w)).
  { destruct (kind_dec KNumber v), (kind_dec KNumber w); tauto. }
  destruct D as [[K K2]|D].
  2:{ apply refused_entry. destruct (says_ex "buffer-substring" "number arguments") as [msg C]. exists msg. now apply buffer_substring_kind. }
  destruct (kind_number _ K) as [f ->]. destruct (kind_number _ K2) as [g ->]. destruct (position_ex (f_to_int E f)) as [a A].
  assert (exists z, f_to_int E g = -1 /\ z = zlen (content b) + 1 \/ f_to_int E g <> -1 /\ position (f_to_int E g) z) as [z Z1].
  { destruct (Z.eq_dec (f_to_int E g) (-1)) as [Q|Q]; [eauto|]. destruct (position_ex (f_to_int E g)) as [z Z1]. eauto. }
  destruct (piece_exists (content b) a z) as [t T].
  eexists. apply (m_buffer_substring E f g (f_to_int E f) (f_to_int E g) a z t); auto using int_arg_exists.
Qed.
Lemma upper_ex E l : exists l', Forall2 (case_of upper_of (uc_upper E)) l l'.
Proof. eexists. apply (Forall2_map_iff _ _ (case_upper E)). reflexivity. Qed.
Lemma lower_ex E l : exists l', Forall2 (case_of lower_of (uc_lower E)) l l'.
Proof. eexists. apply (Forall2_map_iff _ _ (case_lower E)). reflexivity. Qed.
Lemma e_upcase E s b : entry E "upcase" [VStr s] b.
Proof.
  destruct (chars_exist s) as [l L]. destruct (upper_ex E l) as [l' L']. destruct (gives_ex b (SpecLines.text l')) as [o O].
  exists o. now apply (m_upcase E s l l').
Qed.
Lemma e_downcase E s b : entry E "downcase" [VStr s] b.
Proof.
  destruct (chars_exist s) as [l L]. destruct (lower_ex E l) as [l' L']. destruct (gives_ex b (SpecLines.text l')) as [o O].
  exists o. now apply (m_downcase E s l l').
Qed.
Lemma e_capitalize E s b : entry E "capitalize" [VStr s] b.
Proof.
  destruct s as [|c s]; [ans|]. destruct (chars_exist s) as [l L]. destruct (lower_ex E l) as [l' L'].
  assert (R : case_of upper_of (uc_upper E) (byteN c) (rune_upper E (byteN c))) by now apply case_upper.
  destruct (gives_ex b (SpecLines.text (rune_upper E (byteN c) :: l'))) as [o O]. exists o. now apply (m_capitalize E c s (rune_upper E (byteN c)) l l').
Qed.
Lemma e_string_match E args b : ext_ok E -> held args -> entry E "string-match" args b.
Proof.
  intros X HE. destruct (Z.eq_dec (zlen args) 2) as [L|L].
  2:{ apply refused_entry. destruct (counts_ex "string-match" "2 arguments" args) as [msg C]. exists msg. now apply string_match_count. }
  apply zlen_two in L as (v & w & ->).
  assert (D : has_kind KString v /\ has_kind KString w \/ ~ (has_kind KString v /\ has_kind KString w)).
  { destruct (kind_dec KString v), (kind_dec KString w); tauto. }
  destruct D as [[K K2]|D].
  2:{ apply refused_entry. destruct (says_ex "string-match" "string arguments") as [msg C]. exists msg. now apply string_match_kind. }
  destruct (kind_string _ K) as [p ->]. destruct (kind_string _ K2) as [s ->]. assert (F : fits s) by (apply HE; cbn; auto).
  destruct (re_error E p) as [msg|] eqn:V.
  - destruct (first_occurrence_exists s p) as [(u & w & Q & O)|O].
    + destruct (number_ex (zlen u)) as [x N]; [left; rewrite Q in F; facts; zl|]. eexists. now apply (m_string_match_literal E p s msg u w b x).
    + ans.
  - destruct (re_find E p s) as [[i j]|] eqn:R; [|ans]. destruct (re_find_bound E p s i j X R).
    destruct (number_ex i) as [x N]; [left; facts; zl|]. ans.
Qed.
Lemma e_replace_regexp E args b : entry E "replace-regexp-in-string" args b.
Proof.
  destruct (Z.eq_dec (zlen args) 3) as [L|L].
  2:{ apply refused_entry. destruct (counts_ex "replace-regexp-in-string" "3 arguments" args) as [msg C]. exists msg. now apply replace_regexp_count. }
  apply zlen_three in L as (v & w & x & ->).
  assert (D : has_kind KString v /\ has_kind KString w /\ has_kind KString x \/ ~ (has_kind KString v /\ has_kind KString w /\ has_kind KString x)).
  { destruct (kind_dec KString v), (kind_dec KString w), (kind_dec KString x); tauto. }
  destruct D as [(K & K2 & K3)|D].
  2:{ apply refused_entry. destruct (says_ex "replace-regexp-in-string" "string arguments") as [msg C]. exists msg. now apply replace_regexp_kind. }
  destruct (kind_string _ K) as [p ->]. destruct (kind_string _ K2) as [r ->]. destruct (kind_string _ K3) as [s ->].
  destruct (re_error E p) as [msg|] eqn:V; [ans|]. destruct (gives_ex b (re_replace_all E p s r)) as [o O]. exists o. now apply m_replace_regexp.
Qed.

(** ** Every call has an entry *)
Lemma manual_total E name args b : ext_ok E -> machine b -> held args -> (exists s, In (name, s) signatures) -> entry E name args b.
Proof.
  intros X M HE [s T].
  assert (N0 : s = NoArgs -> args = [] \/ exists msg, refused name args msg) by (intros ->; now apply args_none).
  assert (N1 : s = AString -> (exists t, args = [VStr t]) \/ exists msg, refused name args msg) by (intros ->; now apply args_text).
  assert (N2 : s = ANumber -> (exists f, args = [VNum f]) \/ exists msg, refused name args msg) by (intros ->; now apply args_number).
  assert (N3 : s = OptNumber -> (exists n, count_arg E args n) \/ exists msg, refused name args msg) by (intros ->; now apply args_count).
  unfold signatures in T. cbn [In] in T.
  repeat match type of T with _ \/ _ => destruct T as [T|T] end; try contradiction; injection T as <- <-;
  first [ specialize (N0 eq_refl); clear N1 N2 N3; destruct N0 as [-> |R]; [|now apply refused_entry]
        | specialize (N1 eq_refl); clear N0 N2 N3; destruct N1 as [[t ->]|R]; [|now apply refused_entry];
          assert (F : fits t) by (apply HE; cbn; auto)
        | specialize (N2 eq_refl); clear N1 N0 N3; destruct N2 as [[f ->]|R]; [|now apply refused_entry]
        | specialize (N3 eq_refl); clear N1 N2 N0; destruct N3 as [[n A]|R]; [|now apply refused_entry]
        | clear N0 N1 N2 N3 ];
  first [ apply e_insert | apply e_goto_char | apply e_goto_line | apply e_search_forward | apply e_search_backward
        | apply e_re_search_forward | apply e_re_search_backward | apply e_beginning_of_line | apply e_end_of_line
        | apply (e_set_mark_command E args n) | apply e_mark | apply e_point | apply e_point_min | apply e_point_max | apply e_buffer_size
        | apply e_line_number | apply e_column | apply e_replace_match | apply e_delete_region | apply e_replace_region
        | apply e_region_beginning | apply e_region_end | apply e_buffer_substring | apply e_mark_word
        | apply (e_forward_char E args n) | apply (e_backward_char E args n) | apply (e_forward_word E args n) | apply (e_backward_word E args n)
        | apply (e_delete_char E args n) | apply (e_delete_backward_char E args n) | apply (e_kill_word E args n)
        | apply (e_backward_kill_word E args n) | apply (e_mark_line E args n) | apply (e_delete_line E args n) | apply (e_kill_line E args n)
        | apply e_length | apply e_upcase | apply e_downcase | apply e_capitalize | apply e_substring | apply e_concat
        | apply e_string_match | apply e_replace_regexp | apply e_looking_at | apply e_looking_back
        | eexists; constructor; fail ]; auto.
Qed.
