(** C16-C20, C24: lines, words and columns. *)
From Coq Require Import ZArith NArith List Bool Lia Strings.Byte ZifyBool.
From Verif Require Import Base Float Ext Utf8 Strconv Values Buffer Builtins Eval Spec
  Proofs_Base Proofs_Loops Proofs_Exec.
Import ListNotations.
Open Scope Z_scope.

Lemma forallb_ext {A} (f g : A -> bool) l : (forall x, f x = g x) -> forallb f l = forallb g l.
Proof. intros H. induction l; cbn; congruence. Qed.

Lemma rev_inj {A} (u v : list A) : rev u = rev v -> u = v.
Proof. intros H. rewrite <- (rev_involutive u), H. apply rev_involutive. Qed.

(** running the scans on a text split at a line *)
Lemma scan_bwd_line u line after b :
  whole_lines u -> no_newline line ->
  scan_bwd (loop_fuel (u ++ line ++ after)) (u ++ line ++ after) (fun ch => negb (is_nl ch)) (zlen u + zlen line) b
  = Done (zlen u) b.
Proof.
  intros Hu Hl. apply scan_bwd_run.
  - now apply not_nl_newline.
  - now apply stops_not_nl_rev.
  - unfold loop_fuel. rewrite !app_length. lia.
Qed.
Lemma scan_fwd_line before line rest b :
  no_newline line -> rest = [] \/ starts_with_newline rest ->
  scan_fwd (loop_fuel (before ++ line ++ rest)) (before ++ line ++ rest) (fun ch => negb (is_nl ch)) (zlen before) b
  = Done (zlen before + zlen line) b.
Proof.
  intros Hl Hr. apply scan_fwd_run.
  - now apply not_nl_newline.
  - now apply stops_not_nl.
  - unfold loop_fuel. rewrite !app_length. lia.
Qed.

(** ** C16 *)

Theorem beginning_of_line_moves E b u line after :
  fits (content b) -> splits b (point b) (u ++ line) after ->
  whole_lines u -> no_newline line -> line <> [] \/ after <> [] ->
  call E "beginning-of-line" [] b = Done (VStr []) (at_point b (zlen u + 1)).
Proof.
  intros Hf [Hc Hp] Hu Hl Hne. call. destruct b as [c p m lm ls le]. cbn [content point] in *. subst.
  exe. unwrap. ifs.
  destruct (zlen ((u ++ line) ++ after) <=? zlen (u ++ line) + 1 - 1) eqn:E1.
  - assert (after = []) as -> by (apply zlen_zero; zl).
    destruct Hne as [Hne|Hne]; [|congruence].
    destruct line as [|x line _] using rev_ind; [congruence|].
    replace ((u ++ line ++ [x]) ++ []) with (u ++ line ++ [x]) by now rewrite app_nil_r.
    replace (zlen (u ++ line ++ [x]) - 1) with (zlen u + zlen line) by zl.
    rewrite scan_bwd_line; auto. intros H. apply Hl. apply in_or_app. now left.
  - rewrite <- app_assoc. replace (zlen (u ++ line) + 1 - 1) with (zlen u + zlen line) by zl.
    rewrite scan_bwd_line; auto.
Qed.

(** On an empty buffer point becomes 0. *)
Theorem beginning_of_line_on_empty E b :
  content b = [] -> 1 <= point b -> int_ok (point b) ->
  call E "beginning-of-line" [] b = Done (VStr []) (at_point b 0).
Proof.
  intros Hc Hp Hi. call. destruct b as [c p m lm ls le]. cbn [content point] in *. subst.
  exe. unwrap. ifs. reflexivity.
Qed.

(** With point after a final newline it moves to the start of the previous line. *)
Theorem beginning_of_line_after_final_newline E b u prev :
  fits (content b) -> content b = u ++ prev ++ [nl] -> point b = zlen (content b) + 1 ->
  whole_lines u -> no_newline prev ->
  call E "beginning-of-line" [] b = Done (VStr []) (at_point b (zlen u + 1)).
Proof.
  intros Hf Hc Hp Hu Hl. call. destruct b as [c p m lm ls le]. cbn [content point] in *. subst.
  exe. unwrap. ifs.
  replace (zlen (u ++ prev ++ [nl]) - 1) with (zlen u + zlen prev) by zl. rewrite scan_bwd_line; auto.
Qed.
Theorem beginning_of_line_stays_on_line_refuted E :
  ~ (forall b u line after, good b -> splits b (point b) (u ++ line) after ->
     whole_lines u -> no_newline line ->
     call E "beginning-of-line" [] b = Done (VStr []) (at_point b (zlen u + 1))).
Proof.
  intros H. specialize (H (new_buffer []) [] [] []).
  assert (X : call E "beginning-of-line" [] (new_buffer []) = Done (VStr []) (at_point (new_buffer []) 0))
    by reflexivity.
  rewrite H in X; [discriminate| | | |].
  - repeat split; vm_compute; discriminate.
  - split; reflexivity.
  - left. reflexivity.
  - intros [].
Qed.

Theorem end_of_line_moves E b before line rest :
  fits (content b) -> splits b (point b) before (line ++ rest) ->
  no_newline line -> rest = [] \/ starts_with_newline rest ->
  call E "end-of-line" [] b = Done (VStr []) (at_point b (point b + zlen line)).
Proof.
  intros Hf [Hc Hp] Hl Hr. call. destruct b as [c p m lm ls le]. cbn [content point] in *. subst.
  exe. unwrap. ifs. destruct (zlen (before ++ line ++ rest) <=? zlen before + 1 - 1) eqn:E1.
  - f_equal. f_equal. zl.
  - replace (zlen before + 1 - 1) with (zlen before) by lia. rewrite scan_fwd_line; auto. f_equal. f_equal. zl.
Qed.

Example beginning_of_line_ex E :
  call E "beginning-of-line" [] (mkBuffer (bs "one
two three
four") 9 1 [] 0 0) = Done (VStr []) (mkBuffer (bs "one
two three
four") 5 1 [] 0 0).
Proof.
  apply (beginning_of_line_moves E (mkBuffer (bs "one
two three
four") 9 1 [] 0 0) (bs "one
") (bs "two ") (bs "three
four")).
  - vm_compute. discriminate.
  - split; reflexivity.
  - right. now exists (bs "one").
  - vm_compute. intuition discriminate.
  - left. discriminate.
Qed.
Example end_of_line_ex E :
  call E "end-of-line" [] (mkBuffer (bs "one
two three
four") 9 1 [] 0 0) = Done (VStr []) (mkBuffer (bs "one
two three
four") 14 1 [] 0 0).
Proof.
  apply (end_of_line_moves E (mkBuffer (bs "one
two three
four") 9 1 [] 0 0) (bs "one
two ") (bs "three") (bs "
four")).
  - vm_compute. discriminate.
  - split; reflexivity.
  - vm_compute. intuition discriminate.
  - right. now exists (bs "four").
Qed.

(** ** C17 *)

Lemma count_nl_newlines s : count_nl s = newlines s.
Proof.
  unfold newlines. induction s as [|c s IH]; [reflexivity|]. cbn [count_nl count_occ].
  unfold is_nl. rewrite IH. destruct (byte_eq_dec c nl) as [->|N].
  - rewrite byte_eqb_refl. lia.
  - apply byte_eqb_neq in N. rewrite N. lia.
Qed.
Lemma newlines_app u v : newlines (u ++ v) = newlines u + newlines v.
Proof. unfold newlines. rewrite count_occ_app. lia. Qed.
Lemma newlines_nonneg s : 0 <= newlines s.
Proof. unfold newlines. lia. Qed.
Lemma newlines_cons c s : newlines (c :: s) = (if is_nl c then 1 else 0) + newlines s.
Proof. rewrite <- !count_nl_newlines. reflexivity. Qed.

Theorem line_number_counts_newlines E b before after :
  fits (content b) -> splits b (point b) before after ->
  call E "line-number-at-pos" [] b = Done (VInt (newlines before + 1)) b.
Proof.
  intros Hf [Hc Hp]. call. destruct b as [c p m lm ls le]. cbn [content point] in *. subst.
  exe. unwrap. ifs. slices. rewrite count_nl_newlines. now rewrite (Z.add_comm 1).
Qed.

Lemma split_nonempty s : exists l ls, split_byte nl s = l :: ls.
Proof.
  induction s as [|c s (l & ls & E)]; cbn; eauto. destruct (Byte.eqb c nl); eauto. rewrite E. eauto.
Qed.
Lemma split_length s : zlen (split_byte nl s) = newlines s + 1.
Proof.
  induction s as [|c s IH]; [reflexivity|]. rewrite newlines_cons. cbn [split_byte]. unfold is_nl.
  destruct (split_nonempty s) as (l & ls & E). destruct (Byte.eqb c nl).
  - rewrite zlen_cons, IH. lia.
  - rewrite E in *. rewrite zlen_cons in *. lia.
Qed.
(** the offset of line k+1 is the length of the first k lines *)
Lemma line_offset_spec s : forall u v, s = u ++ v -> whole_lines u ->
  line_offset (split_byte nl s) (Z.to_nat (newlines u)) = zlen u.
Proof.
  induction s as [|c s IH]; intros u v E Hu.
  - symmetry in E. apply app_eq_nil in E. destruct E as [-> ->]. reflexivity.
  - destruct u as [|c' u]; [cbn; destruct (Byte.eqb c nl); [|destruct (split_byte nl s)]; reflexivity|].
    cbn in E. injection E as <- E.
    assert (Hu' : c = nl /\ u = [] \/ ends_with_newline u).
    { destruct Hu as [Hu|[t Ht]]; [discriminate|]. destruct t as [|x t]; cbn in Ht.
      - assert (c = nl) by congruence. assert (u = []) by congruence. auto.
      - right. exists t. congruence. }
    rewrite newlines_cons. unfold is_nl. cbn [split_byte]. pose proof (newlines_nonneg u).
    destruct (Byte.eqb c nl) eqn:Ec.
    + replace (Z.to_nat (1 + newlines u)) with (S (Z.to_nat (newlines u))) by lia.
      cbn [line_offset]. rewrite (IH u v E). 2:{ destruct Hu' as [[_ ->]|]; [left|right]; auto. }
      zl.
    + destruct Hu' as [[-> ->]|Hu']; [discriminate|].
      destruct (split_nonempty s) as (l & ls & El). rewrite El.
      assert (Hn : 0 < newlines u).
      { destruct Hu' as [t ->]. rewrite newlines_app, (newlines_cons nl). cbn.
        pose proof (newlines_nonneg t). pose proof (newlines_nonneg []). lia. }
      specialize (IH u v E (or_intror Hu')). rewrite El in IH.
      replace (Z.to_nat (0 + newlines u)) with (S (Z.to_nat (newlines u) - 1)) by lia.
      replace (Z.to_nat (newlines u)) with (S (Z.to_nat (newlines u) - 1)) in IH by lia.
      cbn [line_offset] in *. zl.
Qed.

Lemma zlen_split_bound s : zlen (split_byte nl s) <= zlen s + 1.
Proof.
  rewrite split_length. unfold newlines, zlen. pose proof (count_occ_bound byte_eq_dec nl s). lia.
Qed.

Theorem goto_line_moves E b f n u rest :
  int_arg E f n -> fits (content b) -> content b = u ++ rest -> whole_lines u ->
  newlines u + 1 = clamp 1 (newlines (content b) + 1) n ->
  call E "goto-line" [VNum f] b = Done (VStr []) (at_point b (zlen u + 1)).
Proof.
  intros Hn Hf Hc Hu Hk. call. unfold b_goto_line. count. apply int_arg_ok in Hn.
  destruct b as [c p m lm ls le]. cbn [content point] in *.
  exe. rewrite split_length in *. pose proof (newlines_nonneg c).
  assert (line_offset (split_byte nl c) (Z.to_nat (newlines u)) = zlen u) by (eapply line_offset_spec; eauto).
  assert (X : (if n <? 1 then 1 else if newlines c + 1 <? n then newlines c + 1 else n) = newlines u + 1).
  { rewrite Hk. unfold clamp. destruct (n <? 1) eqn:E1; [|destruct (newlines c + 1 <? n) eqn:E2]; lia. }
  rewrite X. replace (newlines u + 1 - 1) with (newlines u) by lia. rewrite H0. subst c. unwrap. finish.
Qed.

(** such a line start always exists *)
Lemma line_start_exists s : forall k, 0 <= k <= newlines s ->
  exists u v, s = u ++ v /\ whole_lines u /\ newlines u = k.
Proof.
  induction s as [|c s IH]; intros k Hk.
  - exists [], []. repeat split; [now left|]. cbn in *. unfold newlines in *. cbn in *. lia.
  - rewrite newlines_cons in Hk. destruct (Z.eq_dec k 0) as [->|N].
    + exists [], (c :: s). repeat split. now left.
    + destruct (is_nl c) eqn:Ec.
      * destruct (IH (k - 1)) as (u & v & -> & Hu & Hn); [lia|].
        exists (c :: u), v. split; auto. split.
        -- right. apply is_nl_true in Ec. subst c. destruct Hu as [->|[t ->]]; [now exists []|now exists (nl :: t)].
        -- rewrite newlines_cons, Ec. lia.
      * destruct (IH k) as (u & v & -> & Hu & Hn); [lia|]. exists (c :: u), v. split; auto. split.
        -- right. destruct Hu as [->|[t ->]]; [cbn in Hn; unfold newlines in Hn; cbn in Hn; lia|now exists (c :: t)].
        -- rewrite newlines_cons, Ec. lia.
Qed.

Theorem goto_line_then_line_number E b f n :
  int_arg E f n -> fits (content b) ->
  exists b', call E "goto-line" [VNum f] b = Done (VStr []) b' /\
    call E "line-number-at-pos" [] b' = Done (VInt (clamp 1 (newlines (content b) + 1) n)) b'.
Proof.
  intros Hn Hf. pose proof (newlines_nonneg (content b)).
  destruct (line_start_exists (content b) (clamp 1 (newlines (content b) + 1) n - 1)) as (u & v & E1 & E2 & E3).
  { unfold clamp. lia. }
  eexists. split.
  - apply (goto_line_moves E b f n u v); auto. lia.
  - rewrite (line_number_counts_newlines E _ u v); auto.
    + repeat f_equal. lia.
    + split; auto.
Qed.

Example goto_line_ex E :
  call E "goto-line" [VInt 3] (new_buffer (bs "one
two
three
")) = Done (VStr []) (at_point (new_buffer (bs "one
two
three
")) 9).
Proof.
  apply (goto_line_moves E (new_buffer (bs "one
two
three
")) (f_of_Z 3) 3 (bs "one
two
") (bs "three
")).
  - left. split; [apply denotes_trunc; reflexivity | split; vm_compute; discriminate].
  - vm_compute. discriminate.
  - reflexivity.
  - right. now exists (bs "one
two").
  - reflexivity.
Qed.

(** ** C18 *)

Theorem mark_line_selects E b args n u line after moved rest :
  count_arg E args n -> fits (content b) -> splits b (point b) (u ++ line) after ->
  whole_lines u -> no_newline line -> passes_lines (Z.to_nat n) after moved rest ->
  call E "mark-line" args b
  = Done (VStr []) (with_mark (at_point b (point b + zlen moved)) (zlen u + 1)).
Proof.
  intros Hn Hf [Hc Hp] Hu Hl Hm. call. unfold b_mark_line. count.
  destruct b as [c p m lm ls le]. cbn [content point] in *. subst.
  exe. unwrap. replace (zlen (u ++ line) + 1 - 1) with (zlen (u ++ line)) by lia.
  replace (scan_bwd _ _ _ _ _) with (@Done Z (zlen u) (mkBuffer ((u ++ line) ++ after) (zlen (u ++ line) + 1) m lm ls le)).
  2:{ symmetry. rewrite <- app_assoc. replace (zlen (u ++ line)) with (zlen u + zlen line) by zl.
      now apply scan_bwd_line. }
  match goal with |- context [line_steps _ _ _ ?b] =>
    destruct (line_steps_spec n (u ++ line) after b) as (moved' & rest' & E1 & E2 & E3) end.
  destruct (passes_lines_fun _ _ _ _ Hm _ _ E2) as [<- <-]. subst after.
  rewrite E3. unwrap. f_equal. f_equal. zl.
Qed.

(** delete-line removes exactly what mark-line selects. *)
Theorem delete_line_deletes E b args n u line after moved rest :
  count_arg E args n -> fits (content b) -> splits b (point b) (u ++ line) after ->
  whole_lines u -> no_newline line -> passes_lines (Z.to_nat n) after moved rest ->
  call E "delete-line" args b = Done (VStr []) (with_text b (u ++ rest) (zlen u + 1)).
Proof.
  intros Hn Hf [Hc Hp] Hu Hl Hm. call. unfold b_delete_line. count.
  destruct b as [c p m lm ls le]. cbn [content point] in *. subst.
  exe. unwrap. replace (zlen (u ++ line) + 1 - 1) with (zlen (u ++ line)) by lia.
  replace (scan_bwd _ _ _ _ _) with (@Done Z (zlen u) (mkBuffer ((u ++ line) ++ after) (zlen (u ++ line) + 1) m lm ls le)).
  2:{ symmetry. rewrite <- app_assoc. replace (zlen (u ++ line)) with (zlen u + zlen line) by zl.
      now apply scan_bwd_line. }
  match goal with |- context [line_steps _ _ _ ?b] =>
    destruct (line_steps_spec n (u ++ line) after b) as (moved' & rest' & E1 & E2 & E3) end.
  destruct (passes_lines_fun _ _ _ _ Hm _ _ E2) as [<- <-]. subst after.
  rewrite E3. rewrite <- app_assoc. slices. rewrite (app_assoc u line), (app_assoc (u ++ line)). slices. ifs. unwrap.
  reflexivity.
Qed.

Theorem kill_line_one E b args before c line rest :
  count_arg E args 1 -> fits (content b) -> splits b (point b) before (c :: line ++ rest) ->
  no_newline line -> rest = [] \/ starts_with_newline rest ->
  call E "kill-line" args b = Done (VStr []) (with_text b (before ++ c :: rest) (point b)).
Proof.
  intros Hn Hf [Hc Hp] Hl Hr. call. unfold b_kill_line. count.
  destruct b as [t p m lm ls le]. cbn [content point] in *. subst.
  exe. unwrap. ifs. replace (zlen before + 1 - 1 + 1) with (zlen (before ++ [c])) by zl.
  replace (before ++ c :: line ++ rest) with ((before ++ [c]) ++ line ++ rest) by (rewrite <- app_assoc; reflexivity).
  rewrite scan_fwd_line by auto. slices. ifs. rewrite <- app_assoc. reflexivity.
Qed.
Theorem kill_line_many E b f n before after moved rest :
  int_arg E f n -> n <> 1 -> fits (content b) -> splits b (point b) before after ->
  passes_lines (Z.to_nat n) after moved rest ->
  call E "kill-line" [VNum f] b = Done (VStr []) (with_text b (before ++ rest) (point b)).
Proof.
  intros Hn Hne Hf [Hc Hp] Hm. call. unfold b_kill_line, opt_count. rewrite (int_arg_to_int E f n) by auto.
  pose proof (passes_lines_app _ _ _ _ Hm) as Ha.
  destruct b as [t p m lm ls le]. cbn [content point] in *. subst.
  exe. unwrap. destruct (zlen (before ++ moved ++ rest) <=? zlen before + 1 - 1) eqn:E1.
  - assert (moved = []) as -> by (apply zlen_zero; zl). assert (rest = []) as -> by (apply zlen_zero; zl).
    ifs. reflexivity.
  - ifs. replace (zlen before + 1 - 1) with (zlen before) by lia.
    match goal with |- context [line_steps _ _ _ ?b] =>
      destruct (line_steps_spec n before (moved ++ rest) b) as (moved' & rest' & E2 & E3 & E4) end.
    destruct (passes_lines_fun _ _ _ _ Hm _ _ E3) as [<- <-].
    rewrite E4. slices. ifs. reflexivity.
Qed.
Theorem kill_line_at_end E b args n :
  count_arg E args n -> fits (content b) -> point b = zlen (content b) + 1 ->
  call E "kill-line" args b = Done (VStr []) b.
Proof.
  intros Hn Hf Hp. call. unfold b_kill_line. count.
  destruct b as [t p m lm ls le]. cbn [content point] in *. subst. exe. unwrap. ifs. reflexivity.
Qed.

(** kill-line does not kill the whole rest of the line *)
Theorem kill_line_kills_from_point_refuted E :
  ~ (forall b before line rest, good b -> splits b (point b) before (line ++ rest) ->
     no_newline line -> rest = [] \/ starts_with_newline rest ->
     exists b', call E "kill-line" [] b = Done (VStr []) b' /\ content b' = before ++ rest).
Proof.
  intros H. destruct (H (new_buffer (bs "abc")) [] (bs "abc") []) as (b' & E1 & E2).
  - repeat split; vm_compute; discriminate.
  - split; reflexivity.
  - vm_compute. intuition discriminate.
  - now left.
  - vm_compute in E1. injection E1 as <-. vm_compute in E2. discriminate.
Qed.

Example delete_line_ex E :
  call E "delete-line" [VInt 2] (mkBuffer (bs "a
b
cd
e") 4 1 [] 0 0) = Done (VStr []) (mkBuffer (bs "a
e") 3 1 [] 0 0).
Proof.
  apply (delete_line_deletes E (mkBuffer (bs "a
b
cd
e") 4 1 [] 0 0) [VInt 2] 2 (bs "a
") (bs "b") (bs "
cd
e") (bs "
cd
") (bs "e")).
  - right. exists (f_of_Z 2). split; [reflexivity|]. left. split; [apply denotes_trunc; reflexivity|].
    split; vm_compute; discriminate.
  - vm_compute. discriminate.
  - split; reflexivity.
  - right. now exists (bs "a").
  - vm_compute. intuition discriminate.
  - apply (pl_line 1 [] (bs "cd
e") (bs "cd
") (bs "e")); [intros []|].
    apply (pl_line 0 (bs "cd") (bs "e") [] (bs "e")); [vm_compute; intuition discriminate|constructor].
Qed.

(** ** C19 *)

Theorem forward_word_moves E b args n before after moved rest :
  count_arg E args n -> fits (content b) -> splits b (point b) before after ->
  passes_words (Z.to_nat n) after moved rest ->
  call E "forward-word" args b = Done (VStr []) (at_point b (point b + zlen moved)).
Proof.
  intros Hn Hf [Hc Hp] Hm. call. unfold b_forward_word. count.
  destruct b as [c p m lm ls le]. cbn [content point] in *. subst.
  exe. unwrap. replace (zlen before + 1 - 1) with (zlen before) by lia.
  match goal with |- context [fwd_words _ _ _ _ _ ?b] =>
    destruct (fwd_words_spec (loop_fuel (before ++ after)) before after n 0 b) as (moved' & rest' & E1 & E2 & E3) end.
  { rewrite loop_fuel_app. lia. } { lia. }
  replace (n - 0) with n in E2 by lia.
  destruct (passes_words_fun _ _ _ _ Hm _ _ E2) as [<- <-]. subst after.
  rewrite E3. unwrap. f_equal. f_equal. zl.
Qed.
Theorem backward_word_moves E b args n before after rest moved :
  count_arg E args n -> fits (content b) -> splits b (point b) before after ->
  passes_words_back (Z.to_nat n) before rest moved ->
  call E "backward-word" args b = Done (VStr []) (at_point b (zlen rest + 1)).
Proof.
  intros Hn Hf [Hc Hp] Hm. call. unfold b_backward_word. count.
  destruct b as [c p m lm ls le]. cbn [content point] in *. subst.
  exe. unwrap. replace (zlen before + 1 - 1) with (zlen before) by lia.
  match goal with |- context [bwd_words _ _ _ _ _ ?b] =>
    destruct (bwd_words_spec (loop_fuel (before ++ after)) before after n 0 b) as (moved' & rest' & E1 & E2 & E3) end.
  { rewrite loop_fuel_app. lia. } { lia. }
  replace (n - 0) with n in E2 by lia. unfold passes_words_back in *.
  destruct (passes_words_fun _ _ _ _ Hm _ _ E2) as [Em Er]. apply rev_inj in Er. subst rest'.
  rewrite E3. subst before. unwrap. reflexivity.
Qed.
Theorem mark_word_selects E b u w1 w2 v :
  fits (content b) -> splits b (point b) (u ++ w1) (w2 ++ v) -> w2 ++ v <> [] ->
  all_word w1 -> all_word w2 ->
  (forall t c, u = t ++ [c] -> ~ word_byte c) -> (forall c t, v = c :: t -> ~ word_byte c) ->
  call E "mark-word" [] b
  = Done (VStr []) (with_mark (at_point b (point b + zlen w2)) (zlen u + 1)).
Proof.
  intros Hf [Hc Hp] Hne H1 H2 Hu Hv. call.
  assert (0 < zlen (w2 ++ v)) by (destruct (w2 ++ v); [congruence|zl]).
  destruct b as [c p m lm ls le]. cbn [content point] in *. subst.
  exe. unwrap. ifs. replace (zlen (u ++ w1) + 1 - 1) with (zlen (u ++ w1)) by lia.
  replace (scan_bwd _ _ _ _ _) with
    (@Done Z (zlen u) (mkBuffer ((u ++ w1) ++ w2 ++ v) (zlen (u ++ w1) + 1) m lm ls le)).
  2:{ symmetry. rewrite <- app_assoc. replace (zlen (u ++ w1)) with (zlen u + zlen w1) by zl.
      apply scan_bwd_run; [now apply letters_word| |unfold loop_fuel; rewrite !app_length; lia].
      unfold stops. destruct (rev u) as [|x t] eqn:Er; auto. apply not_true_iff_false.
      rewrite is_letter_word. apply (Hu (rev t)). rewrite <- (rev_involutive u), Er. reflexivity. }
  rewrite scan_fwd_run; [|now apply letters_word| |unfold loop_fuel; rewrite !app_length; lia].
  - f_equal. f_equal. zl.
  - destruct v as [|x v]; cbn; auto. apply not_true_iff_false. rewrite is_letter_word. eauto.
Qed.
(** after the last byte there is no word to select: point and mark stay *)
Theorem mark_word_at_end E b : fits (content b) -> point b = zlen (content b) + 1 -> call E "mark-word" [] b = Done (VStr []) b.
Proof. intros Hf Hp. call. destruct b as [c p m lm ls le]. cbn [content point] in *. subst. exe. unwrap. ifs. reflexivity. Qed.

(** the relation determines the motion, and always has a solution *)
Theorem passes_words_total n s : exists moved rest, passes_words n s moved rest.
Proof.
  destruct (fwd_words_spec (S (length s)) [] s (Z.of_nat n) 0 (new_buffer [])) as (m & r & _ & H & _); [lia|lia|].
  exists m, r. now replace (Z.to_nat (Z.of_nat n - 0)) with n in H by lia.
Qed.
Theorem passes_lines_total n s : exists moved rest, passes_lines n s moved rest.
Proof. destruct (steps_spec n [] s (new_buffer [])) as (m & r & _ & H & _). eauto. Qed.

Definition fox : str := bs "the quick-fox 42".
Example fox_words : passes_words 2 (bs "quick-fox 42") (bs "quick-fox") (bs " 42").
Proof.
  apply (pw_word 1 [] (bs "quick") (bs "-fox 42") (bs "-fox") (bs " 42")).
  - constructor.
  - apply letters_word. reflexivity.
  - left. discriminate.
  - intros c t E. vm_compute in E. injection E as <- <-. rewrite <- is_letter_word. discriminate.
  - apply (pw_word 0 (bs "-") (bs "fox") (bs " 42") [] (bs " 42")).
    + apply nonletters_word. reflexivity.
    + apply letters_word. reflexivity.
    + left. discriminate.
    + intros c t E. vm_compute in E. injection E as <- <-. rewrite <- is_letter_word. discriminate.
    + constructor.
Qed.
Lemma count_two E : count_arg E [VInt 2] 2.
Proof.
  right. exists (f_of_Z 2). split; [reflexivity|]. left. split; [apply denotes_trunc; reflexivity|].
  split; vm_compute; discriminate.
Qed.
Example forward_word_ex E :
  call E "forward-word" [VInt 2] (mkBuffer fox 5 1 [] 0 0) = Done (VStr []) (mkBuffer fox 14 1 [] 0 0).
Proof.
  apply (forward_word_moves E (mkBuffer fox 5 1 [] 0 0) [VInt 2] 2 (bs "the ") (bs "quick-fox 42")
           (bs "quick-fox") (bs " 42")).
  - apply count_two.
  - vm_compute. discriminate.
  - split; reflexivity.
  - exact fox_words.
Qed.

(** ** C20 *)

Theorem kill_word_kills E b args n before after moved rest :
  count_arg E args n -> fits (content b) -> splits b (point b) before after ->
  passes_words (Z.to_nat n) after moved rest ->
  call E "kill-word" args b = Done (VStr []) (with_text b (before ++ rest) (point b)).
Proof.
  intros Hn Hf [Hc Hp] Hm. call. unfold b_kill_word. count.
  destruct b as [c p m lm ls le]. cbn [content point] in *. subst.
  exe. unwrap. replace (zlen before + 1 - 1) with (zlen before) by lia.
  match goal with |- context [fwd_words _ _ _ _ _ ?b] =>
    destruct (fwd_words_spec (loop_fuel (before ++ after)) before after n 0 b) as (moved' & rest' & E1 & E2 & E3) end.
  { rewrite loop_fuel_app. lia. } { lia. }
  replace (n - 0) with n in E2 by lia.
  destruct (passes_words_fun _ _ _ _ Hm _ _ E2) as [<- <-]. subst after.
  rewrite E3. slices. ifs. reflexivity.
Qed.

(** backward-kill-word also deletes the byte at point, when there is one. *)
Theorem backward_kill_word_kills E b args n before after rest moved :
  count_arg E args n -> fits (content b) -> splits b (point b) before after ->
  passes_words_back (Z.to_nat n) before rest moved ->
  call E "backward-kill-word" args b
  = Done (VStr []) (with_text b (rest ++ tl after) (zlen rest + 1)).
Proof.
  intros Hn Hf [Hc Hp] Hm. call. unfold b_backward_kill_word. count.
  destruct b as [c p m lm ls le]. cbn [content point] in *. subst.
  exe. unwrap. replace (zlen before + 1 - 1) with (zlen before) by lia.
  match goal with |- context [bwd_words _ _ _ _ _ ?b] =>
    destruct (bwd_words_spec (loop_fuel (before ++ after)) before after n 0 b) as (moved' & rest' & E1 & E2 & E3) end.
  { rewrite loop_fuel_app. lia. } { lia. }
  replace (n - 0) with n in E2 by lia. unfold passes_words_back in *.
  destruct (passes_words_fun _ _ _ _ Hm _ _ E2) as [Em Er]. apply rev_inj in Er. subst rest'.
  rewrite E3. subst before. unwrap. destruct after as [|x after].
  - ifs. rewrite app_nil_r. slices. cbn [tl].
    replace (slice (rest ++ moved') (zlen (rest ++ moved')) (zlen (rest ++ moved'))) with (Some (@nil byte)).
    2:{ symmetry. apply slice_some. exists (rest ++ moved'), []. rewrite !app_nil_r. repeat split. zl. }
    ifs. unwrap. reflexivity.
  - ifs. rewrite <- app_assoc. slices. cbn [tl].
    replace (rest ++ moved' ++ x :: after) with (rest ++ (moved' ++ [x]) ++ after)
      by (now rewrite <- (app_assoc moved')).
    slices. ifs. unwrap. reflexivity.
Qed.
(** It is not the mirror image of kill-word: on "foo bar baz" with point before " baz"
    it removes "bar " (with the space), not "bar". *)
Theorem backward_kill_word_kills_only_word_refuted E :
  ~ (forall b before after rest moved, good b -> splits b (point b) before after ->
     passes_words_back 1 before rest moved ->
     exists b', call E "backward-kill-word" [] b = Done (VStr []) b' /\ content b' = rest ++ after).
Proof.
  intros H.
  destruct (H (mkBuffer (bs "foo bar baz") 8 1 [] 0 0) (bs "foo bar") (bs " baz") (bs "foo ") (bs "bar")) as (b' & E1 & E2).
  - repeat split; vm_compute; discriminate.
  - split; reflexivity.
  - apply (pw_word 0 [] (bs "rab") (bs " oof") [] (bs " oof")).
    + constructor.
    + apply letters_word. reflexivity.
    + left. discriminate.
    + intros c t E'. vm_compute in E'. injection E' as <- <-. rewrite <- is_letter_word. discriminate.
    + constructor.
  - vm_compute in E1. injection E1 as <-. vm_compute in E2. discriminate.
Qed.
Example kill_word_ex E :
  call E "kill-word" [VInt 2] (mkBuffer fox 5 1 [] 0 0) = Done (VStr []) (mkBuffer (bs "the  42") 5 1 [] 0 0).
Proof.
  apply (kill_word_kills E (mkBuffer fox 5 1 [] 0 0) [VInt 2] 2 (bs "the ") (bs "quick-fox 42")
           (bs "quick-fox") (bs " 42")).
  - apply count_two.
  - vm_compute. discriminate.
  - split; reflexivity.
  - exact fox_words.
Qed.

(** ** C24 *)

Lemma column_loop_run line : forall fuel u v col b,
  whole_lines u -> no_newline line -> (length line < fuel)%nat ->
  column_loop fuel (u ++ line ++ v) (zlen u + zlen line - 1) col b = Done (col + zlen line) b.
Proof.
  induction line as [|c line IH] using rev_ind; intros [|fuel] u v col b Hu Hl Hf;
    rewrite ?app_length in Hf; cbn [length] in Hf; try lia.
  - cbn [column_loop app]. destruct Hu as [->|[t ->]].
    + cbn. unfold ret. now rewrite Z.add_0_r.
    + replace (0 <=? zlen (t ++ [nl]) + zlen [] - 1) with true by zl. unfold bind, index_m.
      replace (index ((t ++ [nl]) ++ v) (zlen (t ++ [nl]) + zlen [] - 1)) with (Some nl).
      2:{ symmetry. apply index_some. exists t, v. rewrite <- app_assoc. split; auto. zl. }
      cbn. unfold ret. now rewrite Z.add_0_r.
  - cbn [column_loop]. replace (0 <=? zlen u + zlen (line ++ [c]) - 1) with true by zl. unfold bind, index_m.
    replace (index (u ++ (line ++ [c]) ++ v) (zlen u + zlen (line ++ [c]) - 1)) with (Some c).
    2:{ symmetry. apply index_some. exists (u ++ line), v. rewrite <- !app_assoc. split; auto. zl. }
    unfold ret. replace (is_nl c) with false.
    2:{ symmetry. apply byte_eqb_neq. intros ->. apply Hl. apply in_or_app. right. now left. }
    cbn [negb]. replace (zlen u + zlen (line ++ [c]) - 1 - 1) with (zlen u + zlen line - 1) by zl.
    rewrite <- app_assoc. rewrite (IH fuel u ([c] ++ v)).
    + f_equal. zl.
    + auto.
    + intros H. apply Hl. apply in_or_app. now left.
    + lia.
Qed.

(** before a byte other than a newline: the bytes of the line through that byte *)
Theorem column_at_byte E b u line c after :
  fits (content b) -> splits b (point b) (u ++ line) (c :: after) ->
  whole_lines u -> no_newline line -> c <> nl ->
  call E "current-column" [] b = Done (VInt (zlen line + 1)) b.
Proof.
  intros Hf [Hc Hp] Hu Hl Hn. call. destruct b as [t p m lm ls le]. cbn [content point] in *. subst.
  exe. unwrap. ifs. replace ((u ++ line) ++ c :: after) with (u ++ (line ++ [c]) ++ after)
    by (rewrite <- !app_assoc; reflexivity).
  replace (zlen (u ++ line) + 1 - 1) with (zlen u + zlen (line ++ [c]) - 1) by zl.
  rewrite column_loop_run; auto.
  - do 2 f_equal. zl.
  - intros H. apply in_app_or in H. destruct H as [H|[H|[]]]; auto.
  - unfold loop_fuel. rewrite !app_length. cbn. lia.
Qed.
(** before a newline: always 0 *)
Theorem column_at_newline E b before after :
  fits (content b) -> splits b (point b) before (nl :: after) ->
  call E "current-column" [] b = Done (VInt 0) b.
Proof.
  intros Hf [Hc Hp]. call. destruct b as [t p m lm ls le]. cbn [content point] in *. subst.
  exe. unwrap. ifs. replace (before ++ nl :: after) with ((before ++ [nl]) ++ [] ++ after)
    by (rewrite <- !app_assoc; reflexivity).
  replace (zlen before + 1 - 1) with (zlen (before ++ [nl]) + zlen (@nil byte) - 1) by zl.
  rewrite column_loop_run; auto.
  - right. now exists before.
  - intros [].
  - unfold loop_fuel. cbn. lia.
Qed.
(** at the end of the buffer: the length of the last line *)
Theorem column_at_end E b u line :
  fits (content b) -> splits b (point b) (u ++ line) [] -> whole_lines u -> no_newline line ->
  call E "current-column" [] b = Done (VInt (zlen line)) b.
Proof.
  intros Hf [Hc Hp] Hu Hl. call. destruct b as [t p m lm ls le]. cbn [content point] in *. subst.
  exe. unwrap. ifs. rewrite <- app_assoc. replace (zlen (u ++ line ++ []) - 1) with (zlen u + zlen line - 1) by zl.
  rewrite column_loop_run; auto.
  unfold loop_fuel. rewrite !app_length. lia.
Qed.
(** So the column is not the number of bytes between the line start and point. *)
Theorem column_is_zero_based_refuted E :
  ~ (forall b u line after, good b -> splits b (point b) (u ++ line) after ->
     whole_lines u -> no_newline line ->
     call E "current-column" [] b = Done (VInt (zlen line)) b).
Proof.
  intros H. specialize (H (new_buffer (bs "ab")) [] [] (bs "ab")).
  assert (X : call E "current-column" [] (new_buffer (bs "ab")) = Done (VInt 1) (new_buffer (bs "ab"))) by reflexivity.
  rewrite H in X; [discriminate| | | |].
  - repeat split; vm_compute; discriminate.
  - split; reflexivity.
  - now left.
  - intros [].
Qed.
Example column_ex E :
  call E "current-column" [] (mkBuffer (bs "ab
cde") 5 1 [] 0 0) = Done (VInt 2) (mkBuffer (bs "ab
cde") 5 1 [] 0 0).
Proof.
  apply (column_at_byte E (mkBuffer (bs "ab
cde") 5 1 [] 0 0) (bs "ab
") (bs "c") "d"%byte (bs "e")).
  - vm_compute. discriminate.
  - split; reflexivity.
  - right. now exists (bs "ab").
  - vm_compute. intuition discriminate.
  - discriminate.
Qed.

(** ** Assumptions of every theorem above *)
Print Assumptions beginning_of_line_moves.
Print Assumptions beginning_of_line_on_empty.
Print Assumptions beginning_of_line_after_final_newline.
Print Assumptions beginning_of_line_stays_on_line_refuted.
Print Assumptions end_of_line_moves.
Print Assumptions line_number_counts_newlines.
Print Assumptions goto_line_moves.
Print Assumptions goto_line_then_line_number.
Print Assumptions mark_line_selects.
Print Assumptions delete_line_deletes.
Print Assumptions kill_line_one.
Print Assumptions kill_line_many.
Print Assumptions kill_line_at_end.
Print Assumptions kill_line_kills_from_point_refuted.
Print Assumptions forward_word_moves.
Print Assumptions backward_word_moves.
Print Assumptions mark_word_selects.
Print Assumptions mark_word_at_end.
Print Assumptions passes_words_total.
Print Assumptions passes_lines_total.
Print Assumptions kill_word_kills.
Print Assumptions backward_kill_word_kills.
Print Assumptions backward_kill_word_kills_only_word_refuted.
Print Assumptions column_at_byte.
Print Assumptions column_at_newline.
Print Assumptions column_at_end.
Print Assumptions column_is_zero_based_refuted.
