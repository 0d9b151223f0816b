(** Lemmas for C78: every entry of the reference manual is what the command does. *)
From Coq Require Import ZArith NArith QArith List Bool Lia Strings.Byte ZifyBool.
From Verif Require Import Proofs_Round.
From Verif Require Import Base Float Ext Utf8 Strconv Values Buffer Builtins Eval Spec SpecNumber SpecLines SpecManual
  Proofs_Base Proofs_Loops Proofs_Exec Proofs_Float Proofs_Numeral Proofs_Utf8  Proofs_Unique Proofs_Safe
  Prop_Edit Prop_Lines Prop_Strings Prop_Regexp Prop_Numbers Prop_Words Prop_Calls.
Import ListNotations.
Open Scope Z_scope.

(** ** Numbers *)
Lemma number_VInt z v : Z.abs z < 2 ^ 1000 -> number z v -> v = VInt z.
Proof.
  intros B (f & -> & V & R). unfold VInt. f_equal.
  assert (X : Some f = Some (f_of_Z z)); [|congruence].
  eapply rounding_unique; [exact R|now apply integer_nearest| |].
  - intros g G. now injection G as <-.
  - intros g G. injection G as <-. apply f_of_Z_valid.
Qed.
Lemma VInt_number z : Z.abs z < 2 ^ 1000 -> number z (VInt z).
Proof. intros B. exists (f_of_Z z). split; auto. split; [apply f_of_Z_valid|now apply integer_nearest]. Qed.
Lemma big_1000 : 2 ^ 64 < 2 ^ 1000.
Proof. apply Z.pow_lt_mono_r; lia. Qed.
Lemma fits_abs s : fits s -> Z.abs (zlen s + 1) < 2 ^ 1000.
Proof. pose proof big_1000. pose proof (zlen_nonneg s). unfold fits, max_alloc. lia. Qed.
Lemma int_abs z : int_ok z -> Z.abs z < 2 ^ 1000.
Proof. pose proof big_1000. unfold int_ok, min_int, max_int, two63. lia. Qed.
Lemma small_abs z : -1 <= z <= max_alloc + 1 -> Z.abs z < 2 ^ 1000.
Proof. pose proof big_1000. unfold max_alloc. lia. Qed.

Lemma carry_wrap z w : carry z w -> w = wrap z.
Proof.
  intros [I [k ->]]. change (2 ^ 64) with two64. rewrite <- (wrap_id w I) at 1. unfold wrap.
  replace (w + k * two64 + two63) with (w + two63 + k * two64) by lia. now rewrite Z.mod_add by (unfold two64; lia).
Qed.
Lemma wrap_carry z : carry z (wrap z).
Proof.
  split; [apply wrap_ok|]. exists ((z + two63) / two64). change (2 ^ 64) with two64. unfold wrap.
  pose proof (Z.div_mod (z + two63) two64 ltac:(unfold two64; lia)). lia.
Qed.

(** ** Places *)
Lemma between_good b x y : machine b -> between b x y -> good b.
Proof. intros (F & P & M & _) [C Q]. split; auto. split; auto. rewrite C, Q. split; zl. Qed.
Lemma early_wrap b : machine b -> early b -> wrap (point b - 1) = point b - 1 /\ point b - 1 < 0.
Proof. intros (F & P & _) H. unfold early in H. split; [apply wrap_id; unfold int_ok, min_int, max_int, two63 in *|]; lia. Qed.
Lemma late_wrap b : machine b -> late b -> zlen (content b) < wrap (point b - 1) <= max_int /\ wrap (wrap (point b - 1) + 1) = point b.
Proof.
  intros (F & P & _) H. pose proof (zlen_nonneg (content b)).
  assert (X : zlen (content b) < wrap (point b - 1) <= max_int).
  { destruct H as [H|H].
    - rewrite wrap_id; unfold fits, int_ok, min_int, max_int, max_alloc, two63 in *; lia.
    - rewrite H. change (wrap (min_int - 1)) with max_int. unfold fits, max_alloc, max_int, two63 in *. lia. }
  split; [exact X|]. destruct H as [H|H].
  - rewrite (wrap_id (point b - 1)), Z.sub_add; [now apply wrap_id|]. unfold int_ok, fits, min_int, max_int, max_alloc, two63 in *. lia.
  - rewrite H. reflexivity.
Qed.
Lemma place_cases b : machine b -> early b \/ late b \/ exists x y, between b x y.
Proof.
  intros M. destruct (Z_lt_le_dec (point b) 1) as [L|L].
  - destruct (Z.eq_dec (point b) min_int) as [Q|Q]; [right; left; now right|left].
    destruct M as (_ & P & _). unfold early, int_ok in *. lia.
  - destruct (Z_lt_le_dec (zlen (content b) + 1) (point b)) as [R|R]; [right; left; now left|].
    right. right. destruct (split_at (content b) (point b - 1)) as (x & y & C & Q); [lia|]. exists x, y. split; auto. lia.
Qed.
Lemma around_ex b : machine b -> exists x y, around b x y.
Proof.
  intros M. destruct (place_cases b M) as [H|[H|(x & y & H)]].
  - exists [], (content b). right. auto.
  - exists (content b), []. right. rewrite app_nil_r. auto.
  - exists x, y. now left.
Qed.
Lemma up_to_ex b : machine b -> early b \/ exists x y, up_to b x y.
Proof.
  intros M. destruct (place_cases b M) as [H|[H|(x & y & H)]]; auto; right.
  - exists (content b), []. right. rewrite app_nil_r. auto.
  - exists x, y. now left.
Qed.

(** open a state with its point outside the text *)
Ltac fields := cbn [content point mark last_match last_start last_end] in *.
Ltac args := try match goal with H : count_arg ?E ?args ?n |- _ => rewrite (opt_count_arg _ _ args n _ H); pose proof (count_arg_ok _ _ _ H) end.
Ltac open_cmd := call; try unfold b_forward_char, b_backward_char, b_forward_word, b_backward_word, b_mark_line, b_delete_char,
  b_delete_backward_char, b_kill_word, b_backward_kill_word, b_delete_line, b_kill_line; args.
Ltac at_late := match goal with M : machine ?b, H : late ?b |- _ =>
  let L := fresh "L" in let W := fresh "W" in let e := fresh "e" in let Q := fresh "Q" in
  pose proof (late_wrap b M H) as [L W]; destruct M as (?F & ?P & ?K & ?LS & ?LE);
  open_cmd; destruct b as [c pt mk lm ls le]; fields; exe; remember (wrap (pt - 1)) as e eqn:Q end.
Ltac at_early := match goal with M : machine ?b, H : early ?b |- _ =>
  let L := fresh "L" in let W := fresh "W" in
  pose proof (early_wrap b M H) as [W L]; destruct M as (?F & ?P & ?K & ?LS & ?LE);
  open_cmd; destruct b as [c pt mk lm ls le]; fields; exe; rewrite ?W end.
Ltac facts := unfold fits, int_ok, min_int, max_int, two63, two64, max_alloc in *.

Lemma slice_zero c : slice c 0 0 = Some [].
Proof. now apply (slice_pre [] c 0). Qed.
Lemma slice_all c : slice c 0 (zlen c) = Some c.
Proof. rewrite <- (app_nil_r c) at 1. now apply slice_pre. Qed.
Lemma slice_out s i j : i < 0 \/ zlen s < j \/ j < i -> slice s i j = None.
Proof. intros H. apply slice_none. lia. Qed.
Lemma newlines_le s : 0 <= newlines s <= zlen s.
Proof. unfold newlines, zlen. pose proof (count_occ_bound Byte.byte_eq_dec nl s). lia. Qed.

(** ** The commands *)
Lemma s_line_number E b before after v : machine b -> around b before after -> number (newlines before + 1) v ->
  call E "line-number-at-pos" [] b = Done v b.
Proof.
  intros M A N. assert (X : v = VInt (newlines before + 1)).
  { apply number_VInt; auto. apply small_abs. assert (exists y, content b = before ++ y) as [y C].
    { destruct A as [[C _]|[C _]]; eauto. }
    destruct M as (F & _). rewrite C in F. unfold fits in F. revert F. autorewrite with zlen.
    pose proof (newlines_le before). pose proof (zlen_nonneg y). lia. }
  subst v. destruct A as [A|[C [[H ->]|[H ->]]]].
  - apply (line_number_counts_newlines E b before after); auto. apply M.
  - cbn [app] in C. subst after. at_early. change (newlines []) with 0. ifs. rewrite slice_zero. reflexivity.
  - rewrite app_nil_r in C. at_late. subst before. ifs. rewrite slice_all. now rewrite count_nl_newlines, Z.add_comm.
Qed.
Lemma s_column E b u line c after v : machine b -> between b (u ++ line) (c :: after) -> c <> nl -> whole_lines u -> no_newline line ->
  number (zlen line + 1) v -> call E "current-column" [] b = Done v b.
Proof.
  intros M B C U L N. rewrite (column_at_byte E b u line c after); auto; [|apply M]. f_equal. symmetry. apply number_VInt; auto.
  destruct M as (F & _), B as [B _]. rewrite B in F. apply small_abs. unfold fits in F. zl.
Qed.
Lemma s_column_newline E b before after v : machine b -> between b before (nl :: after) -> number 0 v -> call E "current-column" [] b = Done v b.
Proof.
  intros M B N. rewrite (column_at_newline E b before after); auto; [|apply M]. f_equal. symmetry. apply number_VInt; auto. now apply small_abs.
Qed.
Lemma s_column_end E b u line v : machine b -> up_to b (u ++ line) [] -> whole_lines u -> no_newline line -> number (zlen line) v ->
  call E "current-column" [] b = Done v b.
Proof.
  intros M B U L N. assert (v = VInt (zlen line)) as ->.
  { apply number_VInt; auto. destruct M as (F & _). apply small_abs. destruct B as [[B _]|[B _]]; rewrite B in F; unfold fits in F; zl. }
  destruct B as [B|(C & H & _)]; [apply (column_at_end E b u line); auto; apply M|].
  rewrite <- app_assoc in C. at_late. subst c. pose proof (zlen_nonneg (u ++ line ++ [])). ifs.
  replace (zlen (u ++ line ++ []) - 1) with (zlen u + zlen line - 1) by zl.
  rewrite column_loop_run; auto. unfold loop_fuel. rewrite !app_length. lia.
Qed.
Lemma s_column_early E b v : machine b -> early b -> number 0 v -> call E "current-column" [] b = Done v b.
Proof. intros M H N. rewrite (number_VInt 0 v (small_abs 0 ltac:(easy)) N). at_early. ifs. reflexivity. Qed.
Lemma s_beginning_of_line E b u line after : machine b -> up_to b (u ++ line) after -> whole_lines u -> no_newline line -> line <> [] \/ after <> [] ->
  call E "beginning-of-line" [] b = fine (at_point b (zlen u + 1)).
Proof.
  intros M B U L N. destruct B as [B|(C & H & ->)]; [apply (beginning_of_line_moves E b u line after); auto; apply M|].
  destruct N as [N|N]; [|congruence]. destruct (exists_last N) as (t & x & ->). rewrite app_nil_r in C.
  at_late. subst c. ifs.
  replace (zlen (u ++ t ++ [x]) - 1) with (zlen u + zlen t) by zl.
  rewrite (scan_bwd_line u t [x]); auto. intros X. apply L. apply in_or_app. now left.
Qed.
Lemma s_beginning_of_last_line E b u line : machine b -> up_to b (u ++ line ++ [nl]) [] -> whole_lines u -> no_newline line ->
  call E "beginning-of-line" [] b = fine (at_point b (zlen u + 1)).
Proof.
  intros M B U L. destruct B as [B|(C & H & _)].
  - destruct B as [C P]. rewrite app_nil_r in C. apply (beginning_of_line_after_final_newline E b u line); auto; [apply M|]. now rewrite C.
  - rewrite app_nil_r in C. at_late. subst c. pose proof (zlen_nonneg (u ++ line ++ [nl])). ifs.
    replace (zlen (u ++ line ++ [nl]) - 1) with (zlen u + zlen line) by zl. rewrite scan_bwd_line; auto.
Qed.
Lemma s_beginning_of_no_line E b : machine b -> up_to b [] [] -> call E "beginning-of-line" [] b = fine (at_point b 0).
Proof.
  intros M [[C P]|(C & H & _)]; cbn [app] in C.
  - apply beginning_of_line_on_empty; auto; [rewrite P; zl|apply M].
  - at_late. subst c. change (zlen []) with 0 in *. ifs. reflexivity.
Qed.
Lemma s_beginning_of_line_early E b : machine b -> early b -> call E "beginning-of-line" [] b = fine (at_point b 1).
Proof. intros M H. at_early. ifs. reflexivity. Qed.
Lemma s_end_of_line E b before line rest : machine b -> around b before (line ++ rest) -> no_newline line -> rest = [] \/ starts_with_newline rest ->
  call E "end-of-line" [] b = fine (at_point b (zlen before + zlen line + 1)).
Proof.
  intros M A L R. destruct A as [A|(C & [[H ->]|[H N]])].
  - replace (zlen before + zlen line + 1) with (point b + zlen line) by (destruct A as [_ ->]; lia).
    apply (end_of_line_moves E b before line rest); auto. apply M.
  - cbn [app] in C. destruct (line ++ rest) as [|x y] eqn:X.
    + apply app_eq_nil in X as [-> ->]. at_early. subst c. change (zlen []) with 0. ifs. reflexivity.
    + at_early. subst c. pose proof (zlen_nonneg y). ifs. rewrite <- X.
      change (line ++ rest) with ([] ++ line ++ rest). change 0 with (zlen (@nil byte)). rewrite scan_fwd_line; auto.
  - apply app_eq_nil in N as [-> ->]. rewrite app_nil_r in C. at_late. subst c. pose proof (zlen_nonneg before). ifs. rewrite zlen_nil, Z.add_0_r. reflexivity.
Qed.
Lemma s_forward_char E b args n p : machine b -> count_arg E args n -> carry (point b + n) p ->
  call E "forward-char" args b = fine (at_point b (clamp 1 (zlen (content b) + 1) p)).
Proof.
  intros M A C. rewrite (carry_wrap _ _ C). destruct M as (F & _). open_cmd. destruct b as [c q m lm ls le]. fields. exe.
  pose proof (zlen_nonneg c). destruct (wrap (q + n) <? 1) eqn:X; [|destruct (zlen c + 1 <? wrap (q + n)) eqn:Y]; unfold fine, clamp; finish.
Qed.
Lemma s_backward_char E b args n p : machine b -> count_arg E args n -> carry (point b - n) p ->
  call E "backward-char" args b = fine (at_point b (Z.max 1 p)).
Proof.
  intros M A C. rewrite (carry_wrap _ _ C). open_cmd. destruct b as [c q m lm ls le]. fields. exe.
  destruct (wrap (q - n) <? 1) eqn:X; unfold fine; finish.
Qed.

Lemma fwd_words_stay c count pos b : zlen c <= pos \/ count <= 0 -> fwd_words (loop_fuel c) c count 0 pos b = Done pos b.
Proof. intros H. unfold loop_fuel. cbn [fwd_words]. destruct ((0 <? count) && (pos <? zlen c)) eqn:X; [lia|reflexivity]. Qed.
Lemma fwd_words_crash c count pos b : pos < 0 -> 0 < count -> fwd_words (loop_fuel c) c count 0 pos b = Panic.
Proof.
  intros H N. unfold loop_fuel at 1. cbn [fwd_words]. pose proof (zlen_nonneg c). replace ((0 <? count) && (pos <? zlen c)) with true by lia.
  apply bind_panic. now apply scan_fwd_neg.
Qed.
Lemma bwd_words_stay c count pos b : pos <= 0 \/ count <= 0 -> bwd_words (loop_fuel c) c count 0 pos b = Done pos b.
Proof. intros H. unfold loop_fuel. cbn [bwd_words]. destruct ((0 <? count) && (0 <? pos)) eqn:X; [lia|reflexivity]. Qed.
Lemma bwd_words_crash c count pos b : zlen c < pos -> 0 < count -> bwd_words (loop_fuel c) c count 0 pos b = Panic.
Proof.
  intros H N. unfold loop_fuel at 1. cbn [bwd_words]. pose proof (zlen_nonneg c). replace ((0 <? count) && (0 <? pos)) with true by lia.
  apply bind_panic. now apply scan_bwd_beyond.
Qed.
Lemma s_forward_word_stays E b args n : machine b -> count_arg E args n -> late b \/ early b /\ n <= 0 -> call E "forward-word" args b = fine b.
Proof.
  intros M A [H|[H N]].
  - at_late. rewrite fwd_words_stay by lia. rewrite W. reflexivity.
  - at_early. rewrite fwd_words_stay by lia. unfold fine. rewrite Z.sub_add. rewrite wrap_id by auto. reflexivity.
Qed.
Lemma s_forward_word_crash E b args n : machine b -> count_arg E args n -> early b -> 0 < n -> call E "forward-word" args b = Panic.
Proof. intros M A H N. at_early. now rewrite fwd_words_crash by lia. Qed.
Lemma s_backward_word_stays E b args n : machine b -> count_arg E args n -> early b \/ late b /\ n <= 0 -> call E "backward-word" args b = fine b.
Proof.
  intros M A [H|[H N]].
  - at_early. rewrite bwd_words_stay by lia. rewrite Z.sub_add. rewrite wrap_id by auto. reflexivity.
  - at_late. rewrite bwd_words_stay by lia. rewrite W. reflexivity.
Qed.
Lemma s_backward_word_crash E b args n : machine b -> count_arg E args n -> late b -> 0 < n -> call E "backward-word" args b = Panic.
Proof. intros M A H N. at_late. now rewrite bwd_words_crash by lia. Qed.

Lemma s_mark_no_word E b : machine b -> around b (content b) [] \/ early b -> call E "mark-word" [] b = fine b.
Proof.
  intros M [[[C P]|(C & [[H X]|[H _]])]|H].
  - apply mark_word_at_end; auto. apply M.
  - at_early. ifs. reflexivity.
  - at_late. ifs. reflexivity.
  - at_early. ifs. reflexivity.
Qed.
Lemma s_mark_line_early E b args n : machine b -> count_arg E args n -> early b -> n <= 0 -> call E "mark-line" args b = fine (with_mark b (point b)).
Proof.
  intros M A H N. at_early. rewrite scan_bwd_low by lia. rewrite line_steps_nonpos by auto. unfold ret.
  rewrite Z.sub_add, !wrap_id by auto. reflexivity.
Qed.
Lemma line_steps_crash c n pos b : pos < 0 -> 0 < n -> line_steps c n pos b = Panic.
Proof.
  intros H N. rewrite line_steps_steps. replace (Z.to_nat n) with (S (Z.to_nat (n - 1))) by lia. cbn [steps].
  apply bind_panic. unfold line_step. apply bind_panic. now apply scan_fwd_neg.
Qed.
Lemma s_mark_line_crash E b args n : machine b -> count_arg E args n -> late b \/ early b /\ 0 < n -> call E "mark-line" args b = Panic.
Proof.
  intros M A [H|[H N]].
  - at_late. now rewrite scan_bwd_beyond by lia.
  - at_early. rewrite scan_bwd_low by lia. now rewrite line_steps_crash by lia.
Qed.

(** searches from outside the text are searches from its nearer end *)
Definition back (b : buffer) (o : outcome value) : outcome value := match o with Fail e _ => Fail e b | _ => o end.
Ltac cases := repeat match goal with |- context [match ?x with _ => _ end] =>
  lazymatch x with context [match _ with _ => _ end] => fail | _ => destruct x end; try reflexivity end.
Lemma early_search E b s : machine b -> early b -> call E "search-forward" [VStr s] b = back b (call E "search-forward" [VStr s] (at_point b 1)).
Proof. intros M H. at_early. change (wrap (1 - 1)) with 0. replace (pt - 1 <? 0) with true by lia. cbn [Z.ltb Z.compare]. cases. Qed.
Lemma early_re_search E b s : machine b -> early b -> call E "re-search-forward" [VStr s] b = back b (call E "re-search-forward" [VStr s] (at_point b 1)).
Proof. intros M H. at_early. change (wrap (1 - 1)) with 0. replace (pt - 1 <? 0) with true by lia. cbn [Z.ltb Z.compare]. cases. Qed.
Lemma late_search_backward E b s : machine b -> late b ->
  call E "search-backward" [VStr s] b = back b (call E "search-backward" [VStr s] (at_point b (zlen (content b) + 1))).
Proof.
  intros M H. at_late. pose proof (zlen_nonneg c). rewrite (wrap_id (zlen c + 1 - 1)) by (facts; lia).
  replace (zlen c <? e) with true by lia. replace (zlen c <? zlen c + 1 - 1) with false by lia. replace (zlen c + 1 - 1) with (zlen c) by lia. cases.
Qed.
Lemma late_re_search_backward E b s : machine b -> late b ->
  call E "re-search-backward" [VStr s] b = back b (call E "re-search-backward" [VStr s] (at_point b (zlen (content b) + 1))).
Proof.
  intros M H. at_late. pose proof (zlen_nonneg c). rewrite (wrap_id (zlen c + 1 - 1)) by (facts; lia).
  replace (zlen c <? e) with true by lia. replace (zlen c <? zlen c + 1 - 1) with false by lia. replace (zlen c + 1 - 1) with (zlen c) by lia. cases.
Qed.
Lemma at_start b : splits (at_point b 1) (point (at_point b 1)) [] (content (at_point b 1)).
Proof. split; reflexivity. Qed.
Lemma at_end b : splits (at_point b (zlen (content b) + 1)) (point (at_point b (zlen (content b) + 1))) (content b) [].
Proof. split; [symmetry; apply app_nil_r|reflexivity]. Qed.
Ltac late_fails := match goal with M : machine ?b, H : late ?b |- _ => at_late; match goal with |- context [zlen ?c] => pose proof (zlen_nonneg c) end; ifs; reflexivity end.
Ltac same := unfold fine, with_match, at_point; fields; repeat (f_equal; try (autorewrite with zlen in *; lia)).

Lemma s_search_forward E b s before u v : machine b -> around b before (u ++ s ++ v) -> u ++ s ++ v <> [] ->
  (forall i, 0 <= i < zlen u -> ~ occurs_at (u ++ s ++ v) s i) ->
  call E "search-forward" [VStr s] b
  = fine (with_match b (zlen (before ++ u ++ s) + 1) s (zlen (before ++ u) + 1) (zlen (before ++ u ++ s) + 1)).
Proof.
  intros M A N O. destruct A as [A|(C & [[H ->]|[H X]])]; [| |congruence].
  - rewrite (search_forward_finds_first E b s before u v); auto; [|apply M]. destruct A as [_ ->]. same.
  - cbn [app] in C. rewrite early_search by auto. rewrite (search_forward_finds_first E (at_point b 1) s [] u v); auto.
    + cbn [back]. same.
    + apply M.
    + split; auto.
Qed.
Lemma s_search_forward_fails E b s before after : machine b -> around b before after -> after = [] \/ (forall i, ~ occurs_at after s i) ->
  call E "search-forward" [VStr s] b = Fail (bs "search failed") b.
Proof.
  intros M A N. destruct A as [A|(C & [[H ->]|[H ->]])].
  - apply (search_forward_fails E b s before after); auto. apply M.
  - cbn [app] in C. rewrite early_search by auto. rewrite (search_forward_fails E (at_point b 1) s [] after); auto; [apply M|split; auto].
  - late_fails.
Qed.
Lemma s_search_backward E b s u v after : machine b -> up_to b (u ++ s ++ v) after -> (forall i, zlen u < i -> ~ occurs_at (u ++ s ++ v) s i) ->
  call E "search-backward" [VStr s] b = fine (with_match b (zlen (u ++ s) + 1) s (zlen u + 1) (zlen (u ++ s) + 1)).
Proof.
  intros M A O. destruct A as [A|(C & H & ->)].
  - rewrite (search_backward_finds_last E b s u v after); auto; [|apply M]. same.
  - rewrite app_nil_r in C. rewrite late_search_backward by auto. rewrite (search_backward_finds_last E _ s u v []); auto.
    + cbn [back]. same.
    + apply M.
    + rewrite <- C. apply at_end.
Qed.
Lemma s_search_backward_fails E b s before after : machine b -> up_to b before after -> (forall i, ~ occurs_at before s i) ->
  call E "search-backward" [VStr s] b = Fail (bs "search failed") b.
Proof.
  intros M A O. destruct A as [A|(C & H & ->)].
  - apply (search_backward_fails E b s before after); auto. apply M.
  - rewrite app_nil_r in C. rewrite late_search_backward by auto. rewrite (search_backward_fails E _ s before []); auto; [apply M|].
    rewrite <- C. apply at_end.
Qed.
Lemma s_search_backward_early E b s : machine b -> early b -> call E "search-backward" [VStr s] b = Fail (bs "search failed") b.
Proof. intros M H. at_early. pose proof (zlen_nonneg c). ifs. reflexivity. Qed.
Lemma s_re_search_forward E b p before u t v : machine b -> around b before (u ++ t ++ v) -> u ++ t ++ v <> [] -> re_error E p = None ->
  re_find E p (u ++ t ++ v) = Some (zlen u, zlen (u ++ t)) ->
  call E "re-search-forward" [VStr p] b
  = fine (with_match b (zlen (before ++ u ++ t) + 1) t (zlen (before ++ u) + 1) (zlen (before ++ u ++ t) + 1)).
Proof.
  intros M A N V R. assert (T : matched (u ++ t ++ v) (zlen u, zlen (u ++ t)) u t v) by (split; [auto|f_equal; zl]).
  destruct A as [A|(C & [[H ->]|[H X]])]; [| |congruence].
  - rewrite (re_search_forward_finds E b p before _ _ u t v (proj1 M) A N V R T). destruct A as [_ ->]. same.
  - cbn [app] in C. rewrite early_re_search by auto.
    rewrite (re_search_forward_finds E (at_point b 1) p [] (u ++ t ++ v) (zlen u, zlen (u ++ t)) u t v); auto.
    + cbn [back]. same.
    + apply M.
    + split; auto.
Qed.
Lemma s_re_search_forward_fails E b p before after : machine b -> around b before after -> after = [] \/ re_error E p = None /\ re_find E p after = None ->
  call E "re-search-forward" [VStr p] b = Fail (bs "search failed") b.
Proof.
  intros M A N. destruct A as [A|(C & [[H ->]|[H ->]])].
  - destruct (re_search_forward_fails E b p before after (proj1 M) A) as (F1 & F2 & F3).
    destruct after as [|a after]; [auto|]. destruct N as [N|[N1 N2]]; [discriminate|]. apply F3; auto. discriminate.
  - cbn [app] in C. rewrite early_re_search by auto.
    destruct (re_search_forward_fails E (at_point b 1) p [] after) as (F1 & F2 & F3); [apply M|split; auto|].
    destruct after as [|a after]; [now rewrite F1|]. destruct N as [N|[N1 N2]]; [discriminate|]. rewrite F3; auto. discriminate.
  - late_fails.
Qed.
Lemma s_re_search_forward_invalid E b p before after msg : machine b -> around b before after -> after <> [] -> re_error E p = Some msg ->
  call E "re-search-forward" [VStr p] b = Fail (bs "invalid regexp: " ++ msg) b.
Proof.
  intros M A N X. destruct A as [A|(C & [[H ->]|[H ->]])]; [| |congruence].
  - now apply (re_search_forward_fails E b p before after (proj1 M) A).
  - cbn [app] in C. rewrite early_re_search by auto.
    destruct (re_search_forward_fails E (at_point b 1) p [] after) as (F1 & F2 & F3); [apply M|split; auto|]. now rewrite (F2 N msg X).
Qed.
Lemma s_re_search_backward E b p u t v after ms : machine b -> up_to b (u ++ t ++ v) after -> re_error E p = None ->
  re_find_all E p (u ++ t ++ v) = ms ++ [(zlen u, zlen (u ++ t))] ->
  call E "re-search-backward" [VStr p] b = fine (with_match b (zlen (u ++ t) + 1) t (zlen u + 1) (zlen (u ++ t) + 1)).
Proof.
  intros M A V R. assert (T : matched (u ++ t ++ v) (zlen u, zlen (u ++ t)) u t v) by (split; [auto|f_equal; zl]).
  destruct A as [A|(C & H & ->)].
  - rewrite (re_search_backward_finds E b p _ after ms _ u t v (proj1 M) A V R T). same.
  - rewrite app_nil_r in C. rewrite late_re_search_backward by auto.
    rewrite (re_search_backward_finds E (at_point b (zlen (content b) + 1)) p (u ++ t ++ v) [] ms _ u t v (proj1 M) ltac:(rewrite <- C; apply at_end) V R T).
    cbn [back]. same.
Qed.
Lemma s_re_search_backward_fails E b p before after : machine b -> up_to b before after -> re_error E p = None -> re_find_all E p before = [] ->
  call E "re-search-backward" [VStr p] b = Fail (bs "search failed") b.
Proof.
  intros M A V R. destruct A as [A|(C & H & ->)].
  - now apply (re_search_backward_fails E b p before after (proj1 M) A).
  - rewrite app_nil_r in C. rewrite late_re_search_backward by auto.
    destruct (re_search_backward_fails E (at_point b (zlen (content b) + 1)) p before [] (proj1 M) ltac:(rewrite <- C; apply at_end)) as [_ F]. now rewrite F.
Qed.
Lemma s_re_search_backward_invalid E b p before after msg : machine b -> up_to b before after -> re_error E p = Some msg ->
  call E "re-search-backward" [VStr p] b = Fail (bs "invalid regexp: " ++ msg) b.
Proof.
  intros M A R. destruct A as [A|(C & H & ->)].
  - now apply (re_search_backward_fails E b p before after (proj1 M) A).
  - rewrite app_nil_r in C. rewrite late_re_search_backward by auto.
    destruct (re_search_backward_fails E (at_point b (zlen (content b) + 1)) p before [] (proj1 M) ltac:(rewrite <- C; apply at_end)) as [F _]. now rewrite (F msg R).
Qed.
Lemma s_re_search_backward_early E b p : machine b -> early b -> call E "re-search-backward" [VStr p] b = Fail (bs "search failed") b.
Proof. intros M H. at_early. pose proof (zlen_nonneg c). ifs. reflexivity. Qed.
