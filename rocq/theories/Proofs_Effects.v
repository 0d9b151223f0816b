(** What running a command can change, and that its loops end. *)
From Coq Require Import ZArith NArith List Bool Lia Strings.Byte ZifyBool.
From Verif Require Import Base Float Ext Utf8 Strconv Values Buffer Builtins Eval Spec
  Proofs_Base Proofs_Loops Proofs_Exec.
Import ListNotations.
Open Scope Z_scope.

Lemma Z_iter_ind {A} (P : A -> Prop) f x n : P x -> (forall y, P y -> P (f y)) -> P (Z.iter n f x).
Proof. intros Hx Hf. destruct n as [|p|p]; cbn [Z.iter]; auto. now apply Pos.iter_invariant. Qed.

(** ** relations kept by successful runs; failures; divergence *)
Definition keeps {A} (R : buffer -> buffer -> Prop) (m : M A) : Prop :=
  forall b a b', m b = Done a b' -> R b b'.
(** a failing run leaves the buffer as it was *)
Definition clean {A} (m : M A) : Prop := forall b e b', m b = Fail e b' -> b' = b.
Definition never_fails {A} (m : M A) : Prop := forall b e b', m b <> Fail e b'.
Definition ends {A} (m : M A) : Prop := forall b, m b <> Diverge.

Section Keeps.
Variable R : buffer -> buffer -> Prop.
Hypothesis Rrefl : forall b, R b b.
Hypothesis Rtrans : forall a b c, R a b -> R b c -> R a c.

Lemma keeps_ret {A} (a : A) : keeps R (ret a).
Proof. intros b x b' H. injection H as _ <-. auto. Qed.
Lemma keeps_fail {A} e : keeps R (@fail A e).
Proof. discriminate. Qed.
Lemma keeps_panic {A} : keeps R (@panic A).
Proof. discriminate. Qed.
Lemma keeps_diverge {A} : keeps R (@diverge A).
Proof. discriminate. Qed.
Lemma keeps_bind {A B} (m : M A) (k : A -> M B) : keeps R m -> (forall a, keeps R (k a)) -> keeps R (bind m k).
Proof.
  intros Hm Hk b a b' H. unfold bind in H. destruct (m b) as [x b1|e b1| | |] eqn:E; try discriminate.
  eapply Rtrans; [eapply Hm; eauto | eapply Hk; eauto].
Qed.
Lemma keeps_get_content : keeps R get_content.
Proof. intros b x b' H. injection H as _ <-. auto. Qed.
Lemma keeps_get_point : keeps R get_point.
Proof. intros b x b' H. injection H as _ <-. auto. Qed.
Lemma keeps_get_mark : keeps R get_mark.
Proof. intros b x b' H. injection H as _ <-. auto. Qed.
Lemma keeps_get_search : keeps R get_search.
Proof. intros b x b' H. injection H as _ <-. auto. Qed.
Lemma keeps_alloc s : keeps R (alloc s).
Proof. intros b x b' H. unfold alloc in H. destruct (max_alloc <? zlen s); [discriminate|]. injection H as _ <-. auto. Qed.
Lemma keeps_slice s i j : keeps R (slice_m s i j).
Proof. unfold slice_m. destruct (slice s i j); [apply keeps_ret|apply keeps_panic]. Qed.
Lemma keeps_index s i : keeps R (index_m s i).
Proof. unfold index_m. destruct (index s i); [apply keeps_ret|apply keeps_panic]. Qed.
Lemma keeps_scan_fwd c p : forall fuel pos, keeps R (scan_fwd fuel c p pos).
Proof.
  induction fuel as [|f IH]; intros pos; cbn [scan_fwd]; [apply keeps_diverge|].
  destruct (pos <? zlen c); [|apply keeps_ret]. apply keeps_bind; [apply keeps_index|]. intros ch.
  destruct (p ch); [apply IH|apply keeps_ret].
Qed.
Lemma keeps_scan_bwd c p : forall fuel pos, keeps R (scan_bwd fuel c p pos).
Proof.
  induction fuel as [|f IH]; intros pos; cbn [scan_bwd]; [apply keeps_diverge|].
  destruct (0 <? pos); [|apply keeps_ret]. apply keeps_bind; [apply keeps_index|]. intros ch.
  destruct (p ch); [apply IH|apply keeps_ret].
Qed.
Lemma keeps_column c : forall fuel i col, keeps R (column_loop fuel c i col).
Proof.
  induction fuel as [|f IH]; intros i col; cbn [column_loop]; [apply keeps_diverge|].
  destruct (0 <=? i); [|apply keeps_ret]. apply keeps_bind; [apply keeps_index|]. intros ch.
  destruct (negb (is_nl ch)); [apply IH|apply keeps_ret].
Qed.
Lemma keeps_fwd_words c n : forall fuel i pos, keeps R (fwd_words fuel c n i pos).
Proof.
  induction fuel as [|f IH]; intros i pos; cbn [fwd_words]; [apply keeps_diverge|].
  destruct ((i <? n) && (pos <? zlen c)); [|apply keeps_ret].
  apply keeps_bind; [apply keeps_scan_fwd|]. intros p1. apply keeps_bind; [apply keeps_scan_fwd|]. intros p2. apply IH.
Qed.
Lemma keeps_bwd_words c n : forall fuel i pos, keeps R (bwd_words fuel c n i pos).
Proof.
  induction fuel as [|f IH]; intros i pos; cbn [bwd_words]; [apply keeps_diverge|].
  destruct ((i <? n) && (0 <? pos)); [|apply keeps_ret].
  apply keeps_bind; [apply keeps_scan_bwd|]. intros p1. apply keeps_bind; [apply keeps_scan_bwd|]. intros p2. apply IH.
Qed.
Lemma keeps_line_step c pos : keeps R (line_step c pos).
Proof.
  unfold line_step. apply keeps_bind; [apply keeps_scan_fwd|]. intros q.
  destruct (q <? zlen c); [|apply keeps_ret]. apply keeps_bind; [apply keeps_index|]. intros ch. apply keeps_ret.
Qed.
Lemma keeps_line_steps c n pos : keeps R (line_steps c n pos).
Proof.
  unfold line_steps. apply Z_iter_ind.
  - apply keeps_ret.
  - intros m Hm. apply keeps_bind; auto. intros q. apply keeps_line_step.
Qed.
Lemma keeps_concat : forall args i acc, keeps R (concat_loop args i acc).
Proof.
  induction args as [|[n|s|f|l] args IH]; intros i acc; cbn [concat_loop]; try apply keeps_fail; [apply keeps_ret|].
  apply keeps_bind; [apply keeps_alloc|]. intros a. apply IH.
Qed.
Lemma keeps_set_point p : (forall b p, R b (at_point b p)) -> keeps R (set_point p).
Proof. intros H b x b' E. injection E as _ <-. apply H. Qed.
Lemma keeps_set_mark p : (forall b p, R b (with_mark b p)) -> keeps R (set_mark p).
Proof. intros H b x b' E. injection E as _ <-. apply H. Qed.
Lemma keeps_set_search m s e : (forall b m s e, R b (with_match b (point b) m s e)) -> keeps R (set_search m s e).
Proof. intros H b x b' E. injection E as _ <-. apply H. Qed.
Lemma keeps_set_content s : (forall b s, R b (with_text b s (point b))) -> keeps R (set_content s).
Proof.
  intros H b x b' E. unfold set_content, bind, alloc in E. destruct (max_alloc <? zlen s); [discriminate|].
  injection E as _ <-. apply H.
Qed.
End Keeps.

(** ** which errors a run can report; clean failures *)
Definition fails {A} (P : str -> Prop) (m : M A) : Prop := forall b e b', m b = Fail e b' -> P e.

Section Fails.
Variable P : str -> Prop.
Lemma fails_ret {A} (a : A) : fails P (ret a).
Proof. discriminate. Qed.
Lemma fails_panic {A} : fails P (@panic A).
Proof. discriminate. Qed.
Lemma fails_diverge {A} : fails P (@diverge A).
Proof. discriminate. Qed.
Lemma fails_fail {A} e : P e -> fails P (@fail A e).
Proof. intros H b x b' E. injection E as <- _. auto. Qed.
Lemma fails_bind {A B} (m : M A) (k : A -> M B) : fails P m -> (forall a, fails P (k a)) -> fails P (bind m k).
Proof.
  intros Hm Hk b e b' H. unfold bind in H. destruct (m b) as [x b1|e1 b1| | |] eqn:E; try discriminate.
  - eapply Hk; eauto.
  - injection H as -> ->. eapply Hm; eauto.
Qed.
Lemma fails_get_content : fails P get_content.
Proof. discriminate. Qed.
Lemma fails_get_point : fails P get_point.
Proof. discriminate. Qed.
Lemma fails_get_mark : fails P get_mark.
Proof. discriminate. Qed.
Lemma fails_get_search : fails P get_search.
Proof. discriminate. Qed.
Lemma fails_set_point p : fails P (set_point p).
Proof. discriminate. Qed.
Lemma fails_set_mark p : fails P (set_mark p).
Proof. discriminate. Qed.
Lemma fails_set_search m s e : fails P (set_search m s e).
Proof. discriminate. Qed.
Lemma fails_alloc s : fails P (alloc s).
Proof. intros b e b' H. unfold alloc in H. destruct (max_alloc <? zlen s); discriminate. Qed.
Lemma fails_set_content s : fails P (set_content s).
Proof. unfold set_content. apply fails_bind; [apply fails_alloc|discriminate]. Qed.
Lemma fails_slice s i j : fails P (slice_m s i j).
Proof. unfold slice_m. destruct (slice s i j); discriminate. Qed.
Lemma fails_index s i : fails P (index_m s i).
Proof. unfold index_m. destruct (index s i); discriminate. Qed.
Lemma fails_scan_fwd c p : forall fuel pos, fails P (scan_fwd fuel c p pos).
Proof.
  induction fuel as [|f IH]; intros pos; cbn [scan_fwd]; [apply fails_diverge|].
  destruct (pos <? zlen c); [|apply fails_ret]. apply fails_bind; [apply fails_index|]. intros ch.
  destruct (p ch); [apply IH|apply fails_ret].
Qed.
Lemma fails_scan_bwd c p : forall fuel pos, fails P (scan_bwd fuel c p pos).
Proof.
  induction fuel as [|f IH]; intros pos; cbn [scan_bwd]; [apply fails_diverge|].
  destruct (0 <? pos); [|apply fails_ret]. apply fails_bind; [apply fails_index|]. intros ch.
  destruct (p ch); [apply IH|apply fails_ret].
Qed.
Lemma fails_column c : forall fuel i col, fails P (column_loop fuel c i col).
Proof.
  induction fuel as [|f IH]; intros i col; cbn [column_loop]; [apply fails_diverge|].
  destruct (0 <=? i); [|apply fails_ret]. apply fails_bind; [apply fails_index|]. intros ch.
  destruct (negb (is_nl ch)); [apply IH|apply fails_ret].
Qed.
Lemma fails_fwd_words c n : forall fuel i pos, fails P (fwd_words fuel c n i pos).
Proof.
  induction fuel as [|f IH]; intros i pos; cbn [fwd_words]; [apply fails_diverge|].
  destruct ((i <? n) && (pos <? zlen c)); [|apply fails_ret].
  apply fails_bind; [apply fails_scan_fwd|]. intros p1. apply fails_bind; [apply fails_scan_fwd|]. intros p2. apply IH.
Qed.
Lemma fails_bwd_words c n : forall fuel i pos, fails P (bwd_words fuel c n i pos).
Proof.
  induction fuel as [|f IH]; intros i pos; cbn [bwd_words]; [apply fails_diverge|].
  destruct ((i <? n) && (0 <? pos)); [|apply fails_ret].
  apply fails_bind; [apply fails_scan_bwd|]. intros p1. apply fails_bind; [apply fails_scan_bwd|]. intros p2. apply IH.
Qed.
Lemma fails_line_step c pos : fails P (line_step c pos).
Proof.
  unfold line_step. apply fails_bind; [apply fails_scan_fwd|]. intros q.
  destruct (q <? zlen c); [|apply fails_ret]. apply fails_bind; [apply fails_index|]. intros ch. apply fails_ret.
Qed.
Lemma fails_line_steps c n pos : fails P (line_steps c n pos).
Proof.
  unfold line_steps. apply Z_iter_ind.
  - apply fails_ret.
  - intros m Hm. apply fails_bind; auto. intros q. apply fails_line_step.
Qed.
End Fails.

Lemma clean_fail {A} e : clean (@fail A e).
Proof. intros b x b' E. now injection E as _ <-. Qed.
Lemma clean_never {A} (m : M A) : fails (fun _ => False) m -> clean m.
Proof. intros H b e b' E. destruct (H _ _ _ E). Qed.
Lemma clean_bind {A B} (m : M A) (k : A -> M B) :
  keeps eq m -> clean m -> (forall a, clean (k a)) -> clean (bind m k).
Proof.
  intros Hm Hc Hk b e b' H. unfold bind in H. destruct (m b) as [x b1|e1 b1| | |] eqn:E; try discriminate.
  - apply Hm in E. subst b1. eapply Hk; eauto.
  - injection H as -> ->. eapply Hc; eauto.
Qed.
Lemma clean_concat : forall args i acc, clean (concat_loop args i acc).
Proof.
  induction args as [|[n|s|f|l] args IH]; intros i acc; cbn [concat_loop]; try apply clean_fail.
  - apply clean_never, fails_ret.
  - apply clean_bind; [apply keeps_alloc; congruence|apply clean_never, fails_alloc|auto].
Qed.

(** ** termination *)
Lemma ends_ret {A} (a : A) : ends (ret a).
Proof. discriminate. Qed.
Lemma ends_panic {A} : ends (@panic A).
Proof. discriminate. Qed.
Lemma ends_fail {A} e : ends (@fail A e).
Proof. discriminate. Qed.
Lemma ends_bind {A B} (m : M A) (k : A -> M B) : ends m -> (forall a, ends (k a)) -> ends (bind m k).
Proof.
  intros Hm Hk b H. unfold bind in H. specialize (Hm b). destruct (m b) as [x b1|e1 b1| | |]; try discriminate.
  - exact (Hk x b1 H).
  - auto.
Qed.
Lemma ends_get_content : ends get_content.
Proof. discriminate. Qed.
Lemma ends_get_point : ends get_point.
Proof. discriminate. Qed.
Lemma ends_get_mark : ends get_mark.
Proof. discriminate. Qed.
Lemma ends_get_search : ends get_search.
Proof. discriminate. Qed.
Lemma ends_set_point p : ends (set_point p).
Proof. discriminate. Qed.
Lemma ends_set_mark p : ends (set_mark p).
Proof. discriminate. Qed.
Lemma ends_set_search m s e : ends (set_search m s e).
Proof. discriminate. Qed.
Lemma ends_alloc s : ends (alloc s).
Proof. intros b H. unfold alloc in H. destruct (max_alloc <? zlen s); discriminate. Qed.
Lemma ends_set_content s : ends (set_content s).
Proof. unfold set_content. apply ends_bind; [apply ends_alloc|discriminate]. Qed.
Lemma ends_slice s i j : ends (slice_m s i j).
Proof. unfold slice_m. destruct (slice s i j); discriminate. Qed.
Lemma ends_index s i : ends (index_m s i).
Proof. unfold index_m. destruct (index s i); discriminate. Qed.
Lemma ends_scan_fwd c p pos : ends (scan_fwd (loop_fuel c) c p pos).
Proof.
  intros b. destruct (Z_lt_ge_dec pos 0); [rewrite scan_fwd_neg by lia; discriminate|].
  destruct (Z_le_gt_dec (zlen c) pos); [rewrite scan_fwd_beyond by lia; discriminate|].
  destruct (split_at c pos) as (u & v & -> & ->); [lia|].
  destruct (scan_fwd_spec p u v b) as (v1 & v2 & _ & _ & _ & ->). discriminate.
Qed.
Lemma ends_scan_bwd c p pos : ends (scan_bwd (loop_fuel c) c p pos).
Proof.
  intros b. destruct (Z_lt_ge_dec (zlen c) pos); [rewrite scan_bwd_beyond by lia; discriminate|].
  destruct (Z_le_gt_dec pos 0); [rewrite scan_bwd_low by lia; discriminate|].
  destruct (split_at c pos) as (u & v & -> & ->); [lia|].
  destruct (scan_bwd_spec p u v b) as (v1 & v2 & _ & _ & _ & ->). discriminate.
Qed.
Lemma ends_column c i col : ends (column_loop (loop_fuel c) c i col).
Proof.
  assert (H : forall fuel i col b, (i < zlen c -> (Z.to_nat (i + 1) < fuel)%nat) -> (0 < fuel)%nat ->
            column_loop fuel c i col b <> Diverge).
  { induction fuel as [|f IH]; intros i' col' b Hf H0; [lia|]. cbn [column_loop].
    destruct (0 <=? i') eqn:Hi; [|discriminate]. unfold index_m.
    destruct (index c i') as [ch|] eqn:Hx; [|discriminate]. unfold bind, ret.
    destruct (negb (is_nl ch)); [|discriminate].
    assert (i' < zlen c) by (destruct (Z_lt_ge_dec i' (zlen c)); auto; rewrite (proj2 (index_none c i')) in Hx by lia; discriminate).
    apply IH; lia. }
  intros b. apply H; unfold loop_fuel, zlen; lia.
Qed.
Lemma ends_fwd_words c n i pos : 0 <= i -> ends (fwd_words (loop_fuel c) c n i pos).
Proof.
  intros Hi b. destruct (Z_lt_ge_dec pos 0).
  { unfold loop_fuel. cbn [fwd_words]. destruct ((i <? n) && (pos <? zlen c)); [|discriminate].
    rewrite (bind_panic _ _ _ (scan_fwd_neg c _ pos b ltac:(lia))). discriminate. }
  destruct (Z_le_gt_dec (zlen c) pos).
  { unfold loop_fuel. cbn [fwd_words]. replace (pos <? zlen c) with false by lia. rewrite andb_false_r. discriminate. }
  destruct (split_at c pos) as (u & v & -> & ->); [lia|].
  destruct (fwd_words_spec (loop_fuel (u ++ v)) u v n i b) as (m & r & _ & _ & ->); auto; [|discriminate].
  rewrite loop_fuel_app. lia.
Qed.
Lemma ends_bwd_words c n i pos : 0 <= i -> ends (bwd_words (loop_fuel c) c n i pos).
Proof.
  intros Hi b. destruct (Z_lt_ge_dec (zlen c) pos).
  { unfold loop_fuel. cbn [bwd_words]. destruct ((i <? n) && (0 <? pos)); [|discriminate].
    rewrite (bind_panic _ _ _ (scan_bwd_beyond c _ pos b ltac:(lia))). discriminate. }
  destruct (Z_le_gt_dec pos 0).
  { unfold loop_fuel. cbn [bwd_words]. replace (0 <? pos) with false by lia. rewrite andb_false_r. discriminate. }
  destruct (split_at c pos) as (u & v & -> & ->); [lia|].
  destruct (bwd_words_spec (loop_fuel (u ++ v)) u v n i b) as (m & r & _ & _ & ->); auto; [|discriminate].
  rewrite loop_fuel_app. lia.
Qed.
Lemma ends_line_step c pos : ends (line_step c pos).
Proof.
  unfold line_step. apply ends_bind; [apply ends_scan_fwd|]. intros q.
  destruct (q <? zlen c); [|apply ends_ret]. apply ends_bind; [apply ends_index|]. intros ch. apply ends_ret.
Qed.
Lemma ends_line_steps c n pos : ends (line_steps c n pos).
Proof.
  unfold line_steps. apply Z_iter_ind.
  - apply ends_ret.
  - intros m Hm. apply ends_bind; auto. intros q. apply ends_line_step.
Qed.
Lemma ends_concat : forall args i acc, ends (concat_loop args i acc).
Proof.
  induction args as [|[n|s|f|l] args IH]; intros i acc; cbn [concat_loop]; try apply ends_fail; [apply ends_ret|].
  apply ends_bind; [apply ends_alloc|]. intros a. apply IH.
Qed.

(** ** walking through a built-in *)
Ltac show_body :=
  cbv beta iota delta [
    slice_to slice_from buf_insert no_args one_string one_number opt_count got wants
    b_backward_char b_backward_kill_word b_backward_word b_beginning_of_buffer b_beginning_of_line b_buffer_size b_buffer_substring b_capitalize b_concat b_current_column b_delete_backward_char b_delete_char b_delete_line b_delete_region b_downcase b_end_of_buffer b_end_of_line b_exchange_point_and_mark b_forward_char b_forward_word b_goto_char b_goto_line b_insert b_kill_line b_kill_word b_length b_line_number_at_pos b_looking_at b_looking_back b_mark b_mark_line b_mark_whole_buffer b_mark_word b_point b_point_max b_point_min b_re_search_backward b_re_search_forward b_region_beginning b_region_end b_replace_match b_replace_regexp_in_string b_replace_region b_search_backward b_search_forward b_set_mark b_set_mark_command b_string_match b_substring b_upcase substring_of region_bounds ].

(** only the definition of the command *)
Tactic Notation "show_top" :=
  cbv beta delta [ b_backward_char b_backward_kill_word b_backward_word b_beginning_of_buffer b_beginning_of_line b_buffer_size b_buffer_substring b_capitalize b_concat b_current_column b_delete_backward_char b_delete_char b_delete_line b_delete_region b_downcase b_end_of_buffer b_end_of_line b_exchange_point_and_mark b_forward_char b_forward_word b_goto_char b_goto_line b_insert b_kill_line b_kill_word b_length b_line_number_at_pos b_looking_at b_looking_back b_mark b_mark_line b_mark_whole_buffer b_mark_word b_point b_point_max b_point_min b_re_search_backward b_re_search_forward b_region_beginning b_region_end b_replace_match b_replace_regexp_in_string b_replace_region b_search_backward b_search_forward b_set_mark b_set_mark_command b_string_match b_substring b_upcase ].
Tactic Notation "show_top" "in" hyp(H) :=
  cbv beta delta [ b_backward_char b_backward_kill_word b_backward_word b_beginning_of_buffer b_beginning_of_line b_buffer_size b_buffer_substring b_capitalize b_concat b_current_column b_delete_backward_char b_delete_char b_delete_line b_delete_region b_downcase b_end_of_buffer b_end_of_line b_exchange_point_and_mark b_forward_char b_forward_word b_goto_char b_goto_line b_insert b_kill_line b_kill_word b_length b_line_number_at_pos b_looking_at b_looking_back b_mark b_mark_line b_mark_whole_buffer b_mark_word b_point b_point_max b_point_min b_re_search_backward b_re_search_forward b_region_beginning b_region_end b_replace_match b_replace_regexp_in_string b_replace_region b_search_backward b_search_forward b_set_mark b_set_mark_command b_string_match b_substring b_upcase ] in H.

(** case analysis on the argument list or a test *)
Ltac cases1 := match goal with
  | |- ?P (let x := ?v in @?k x) => change (P (k v)); generalize v; intro; cbv beta
  | |- ?P (match ?x with _ => _ end) => destruct x
  end.

Ltac keep := match goal with
  | |- keeps _ (ret _) => apply keeps_ret
  | |- keeps _ (fail _) => apply keeps_fail
  | |- keeps _ panic => apply keeps_panic
  | |- keeps _ get_content => apply keeps_get_content
  | |- keeps _ get_point => apply keeps_get_point
  | |- keeps _ get_mark => apply keeps_get_mark
  | |- keeps _ get_search => apply keeps_get_search
  | |- keeps _ (alloc _) => apply keeps_alloc
  | |- keeps _ (slice_m _ _ _) => apply keeps_slice
  | |- keeps _ (index_m _ _) => apply keeps_index
  | |- keeps _ (scan_fwd _ _ _ _) => apply keeps_scan_fwd
  | |- keeps _ (scan_bwd _ _ _ _) => apply keeps_scan_bwd
  | |- keeps _ (column_loop _ _ _ _) => apply keeps_column
  | |- keeps _ (fwd_words _ _ _ _ _) => apply keeps_fwd_words
  | |- keeps _ (bwd_words _ _ _ _ _) => apply keeps_bwd_words
  | |- keeps _ (line_steps _ _ _) => apply keeps_line_steps
  | |- keeps _ (concat_loop _ _ _) => apply keeps_concat
  | |- keeps _ (set_point _) => apply keeps_set_point
  | |- keeps _ (set_mark _) => apply keeps_set_mark
  | |- keeps _ (set_search _ _ _) => apply keeps_set_search
  | |- keeps _ (set_content _) => apply keeps_set_content
  | |- keeps _ (bind _ _) => apply keeps_bind
  | |- forall _, _ => intro
  | _ => cases1
  end; cbv beta iota.
Ltac nofail := match goal with
  | |- fails _ (ret _) => apply fails_ret
  | |- fails _ (fail _) => apply fails_fail
  | |- fails _ panic => apply fails_panic
  | |- fails _ get_content => apply fails_get_content
  | |- fails _ get_point => apply fails_get_point
  | |- fails _ get_mark => apply fails_get_mark
  | |- fails _ get_search => apply fails_get_search
  | |- fails _ (alloc _) => apply fails_alloc
  | |- fails _ (slice_m _ _ _) => apply fails_slice
  | |- fails _ (index_m _ _) => apply fails_index
  | |- fails _ (scan_fwd _ _ _ _) => apply fails_scan_fwd
  | |- fails _ (scan_bwd _ _ _ _) => apply fails_scan_bwd
  | |- fails _ (column_loop _ _ _ _) => apply fails_column
  | |- fails _ (fwd_words _ _ _ _ _) => apply fails_fwd_words
  | |- fails _ (bwd_words _ _ _ _ _) => apply fails_bwd_words
  | |- fails _ (line_steps _ _ _) => apply fails_line_steps
  | |- fails _ (set_point _) => apply fails_set_point
  | |- fails _ (set_mark _) => apply fails_set_mark
  | |- fails _ (set_search _ _ _) => apply fails_set_search
  | |- fails _ (set_content _) => apply fails_set_content
  | |- fails _ (bind _ _) => apply fails_bind
  | |- forall _, _ => intro
  | _ => cases1
  end; cbv beta iota.
Ltac stop := match goal with
  | |- ends (ret _) => apply ends_ret
  | |- ends (fail _) => apply ends_fail
  | |- ends panic => apply ends_panic
  | |- ends get_content => apply ends_get_content
  | |- ends get_point => apply ends_get_point
  | |- ends get_mark => apply ends_get_mark
  | |- ends get_search => apply ends_get_search
  | |- ends (alloc _) => apply ends_alloc
  | |- ends (slice_m _ _ _) => apply ends_slice
  | |- ends (index_m _ _) => apply ends_index
  | |- ends (scan_fwd _ _ _ _) => apply ends_scan_fwd
  | |- ends (scan_bwd _ _ _ _) => apply ends_scan_bwd
  | |- ends (column_loop _ _ _ _) => apply ends_column
  | |- ends (fwd_words _ _ _ _ _) => apply ends_fwd_words; lia
  | |- ends (bwd_words _ _ _ _ _) => apply ends_bwd_words; lia
  | |- ends (line_steps _ _ _) => apply ends_line_steps
  | |- ends (concat_loop _ _ _) => apply ends_concat
  | |- ends (set_point _) => apply ends_set_point
  | |- ends (set_mark _) => apply ends_set_mark
  | |- ends (set_search _ _ _) => apply ends_set_search
  | |- ends (set_content _) => apply ends_set_content
  | |- ends (bind _ _) => apply ends_bind
  | |- forall _, _ => intro
  | _ => cases1
  end; cbv beta iota.
Ltac keep_eq := solve [repeat keep; congruence].
Ltac cleanly := match goal with
  | |- clean (fail _) => apply clean_fail
  | |- clean (concat_loop _ _ _) => apply clean_concat
  | |- clean (bind (set_point _) _) => apply clean_never; repeat nofail
  | |- clean (bind (set_mark _) _) => apply clean_never; repeat nofail
  | |- clean (bind (set_content _) _) => apply clean_never; repeat nofail
  | |- clean (bind (bind _ _) _) => apply clean_never; repeat nofail
  | |- clean (bind _ _) => apply clean_bind; [keep_eq|apply clean_never; repeat nofail|]
  | |- forall _, _ => intro
  | |- clean (ret _) => apply clean_never, fails_ret
  | _ => cases1
  end; cbv beta iota.

(** all entries of the default environment, one goal each *)
Ltac each H :=
  cbn [default_functions In] in H;
  repeat (destruct H as [H|H]; [injection H as <- <-|]); [..|destruct H].

Lemma call_cases (Q : builtin -> Prop) (E : Ext) name :
  (forall n f, In (n, f) (default_functions E) -> Q f) ->
  Q (fun _ => fail (bs "undefined")) -> Q (call E name).
Proof.
  intros H H0. unfold call. destruct (default_env E (bs name)) as [f|] eqn:D.
  - apply default_env_in in D. apply (H _ _ D).
  - exact H0.
Qed.

Lemma builtin_clean E n f args : In (n, f) (default_functions E) -> clean (f args).
Proof. intros H. each H; show_body; repeat cleanly. Qed.
Lemma builtin_ends E n f args : In (n, f) (default_functions E) -> ends (f args).
Proof. intros H. each H; show_body; repeat stop. Qed.

(** ** the argument loop of the evaluator *)
Definition eval_list (E : Ext) (env : env) : list value -> M (list value) :=
  fix go (l : list value) : M (list value) :=
    match l with
    | [] => ret []
    | x :: l' => a <- eval_expr E env x ;; r <- go l' ;; ret (a :: r)
    end.
Lemma eval_list_cons E env x l :
  eval_list E env (x :: l) = (a <- eval_expr E env x ;; r <- eval_list E env l ;; ret (a :: r)).
Proof. reflexivity. Qed.
Lemma eval_call E env n args : eval_expr E env (VList (VSym n :: args)) =
  match env n with
  | None => fail (bs "undefined-function " ++ quote E n)
  | Some fn => vs <- eval_list E env args ;; fn vs
  end.
Proof. reflexivity. Qed.
