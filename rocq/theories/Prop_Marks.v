(** Selecting text, swapping point and mark, and undoing changes. *)
From Coq Require Import ZArith NArith List Bool Lia Strings.Byte ZifyBool.
From Verif Require Import Base Float Ext Utf8 Strconv Values Buffer Builtins Eval Spec SpecText SpecBytes RefExt
  Proofs_Base Proofs_Utf8 Proofs_Loops Proofs_Exec Proofs_Float Proofs_Effects Proofs_Safe Proofs_Chars
  Prop_Edit Prop_Lines Prop_Regexp Prop_Calls Prop_Eval Prop_Safe Prop_Chars.
Import ListNotations.
Open Scope Z_scope.

(** ** C61 *)

Theorem set_mark_marks_point E b : call E "set-mark" [] b = Done (VStr []) (with_mark b (point b)).
Proof. reflexivity. Qed.
Theorem exchange_swaps E b :
  call E "exchange-point-and-mark" [] b = Done (VStr []) (with_mark (at_point b (mark b)) (point b)).
Proof. reflexivity. Qed.
Theorem exchange_twice E b v b' : call E "exchange-point-and-mark" [] b = Done v b' -> call E "exchange-point-and-mark" [] b' = Done v b.
Proof. rewrite exchange_swaps. intros H. injection H as <- <-. rewrite exchange_swaps. destruct b; reflexivity. Qed.
(** exchanging does not change the region *)
Theorem exchange_keeps_region E b u t v b' r : region b u t v -> call E "exchange-point-and-mark" [] b = Done r b' -> region b' u t v.
Proof.
  rewrite exchange_swaps. intros (Hc & H1 & H2) H. injection H as _ <-. unfold region. cbn [content mark point with_mark at_point].
  now rewrite Z.min_comm, Z.max_comm.
Qed.
Theorem mark_whole_buffer_selects E b :
  call E "mark-whole-buffer" [] b = Done (VStr []) (at_point (with_mark b 1) (zlen (content b) + 1)).
Proof. reflexivity. Qed.
Theorem whole_buffer_region b : region (at_point (with_mark b 1) (zlen (content b) + 1)) [] (content b) [].
Proof. split; cbn [content mark point with_mark at_point]; [now rewrite app_nil_r|]. unfold clamp, zlen. cbn [length]. lia. Qed.

(** replacing everything *)
Theorem everything_replaced E b r b1 v1 : fits (content b) -> fits r -> content b <> [] ->
  call E "mark-whole-buffer" [] b = Done v1 b1 ->
  exists b2, call E "replace-region" [VStr r] b1 = Done (VStr []) b2 /\ content b2 = r /\ point b2 = zlen r + 1.
Proof.
  intros F Fr N H. rewrite mark_whole_buffer_selects in H. injection H as _ <-.
  assert (I : ints_ok (at_point (with_mark b 1) (zlen (content b) + 1))).
  { unfold ints_ok. cbn [content mark point with_mark at_point]. pose proof (zlen_nonneg (content b)). unfold fits in *. ints. lia. }
  rewrite (replace_region_replaces E _ [] (content b) [] r I (whole_buffer_region b)) by (now rewrite app_nil_r).
  destruct (content b) as [|c t]; [congruence|]. eexists. split; [reflexivity|]. cbn. rewrite app_nil_r. split; auto.
Qed.
(** an empty buffer has no region to replace: nothing is inserted *)
Theorem everything_replaced_on_empty_refuted E : exists r b1 b2,
  call E "mark-whole-buffer" [] (new_buffer []) = Done (VStr []) b1 /\
  call E "replace-region" [VStr r] b1 = Done (VStr []) b2 /\ r <> [] /\ content b2 = [].
Proof. exists (bs "x"). do 2 eexists. split; [reflexivity|]. split; [reflexivity|]. split; [discriminate|reflexivity]. Qed.

(** ** Undoing *)

(** the same buffer text and point, other fields aside *)
Theorem insert_undone E b s args b1 v1 : good b -> fits (content b1) -> count_arg E args (zlen s) ->
  call E "insert" [VStr s] b = Done v1 b1 -> call E "delete-backward-char" args b1 = Done (VStr []) b.
Proof.
  intros (F & V & _) F1 A H. destruct (split_at (content b) (point b - 1)) as (u & w & Ec & Eu); [unfold valid_pos in V; lia|].
  destruct (Z_le_gt_dec (zlen (u ++ s ++ w)) max_alloc) as [L|L].
  2:{ rewrite (insert_too_long E b s u w) in H; [discriminate|split; auto; lia|auto|unfold fits; lia]. }
  rewrite (insert_splices E b s u w) in H; [|split; auto; lia|auto]. injection H as _ <-.
  rewrite (delete_backward_char_deletes E _ args (zlen s) u s w); auto.
  - destruct b as [c p m lm ls le]. cbn in *. f_equal. unfold with_text. cbn. subst c. f_equal. lia.
  - zl.
  - split; cbn; [now rewrite <- app_assoc|zl].
  - zl.
Qed.

(** what a deletion removed, inserted at point, restores the text *)
Definition undone_by_insert (E : Ext) (b b' : buffer) : Prop := exists del v b'',
  call E "insert" [VStr del] b' = Done v b'' /\ content b'' = content b.
Lemma undone E b b' a del z : fits (content b) -> content b = a ++ del ++ z -> content b' = a ++ z -> point b' = zlen a + 1 ->
  undone_by_insert E b b'.
Proof.
  intros F Hc Hc' Hp. exists del. rewrite (insert_splices E b' del a z); [|now split|now rewrite <- Hc]. do 2 eexists. split; [reflexivity|]. now symmetry.
Qed.
Theorem deletions_are_undone E n args b v b' : In n ["kill-word"; "backward-kill-word"; "delete-line"; "delete-backward-char"]%string ->
  good b -> (forall k, count_arg E args k -> 0 <= k) -> call E n args b = Done v b' -> undone_by_insert E b b'.
Proof.
  intros I (F & V & _) K C. destruct (split_at (content b) (point b - 1)) as (u & w & Ec & Eu); [unfold valid_pos in V; lia|].
  assert (Ep : point b = zlen u + 1) by lia.
  assert (A : exists k, count_arg E args k).
  { apply takes_count. destruct I as [<-|[<-|[<-|[<-|[]]]]]; (eapply accepted; [| |exact C]; [sig|discriminate]). }
  destruct A as (k & A). specialize (K k A). destruct I as [<-|[<-|[<-|[<-|[]]]]].
  - destruct (passes_words_total (Z.to_nat k) w) as (mv & r & P). rewrite (kill_word_kills E b args k u w mv r) in C; auto; [|now split].
    injection C as _ <-. pose proof (passes_words_app _ _ _ _ P) as ->. now apply (undone E b _ u mv r).
  - destruct (passes_words_total (Z.to_nat k) (rev u)) as (mv & r & P).
    assert (Q : passes_words_back (Z.to_nat k) u (rev r) (rev mv)) by (unfold passes_words_back; now rewrite !rev_involutive).
    rewrite (backward_kill_word_kills E b args k u w (rev r) (rev mv)) in C; auto; [|now split]. injection C as _ <-.
    pose proof (passes_words_app _ _ _ _ P) as X. apply (f_equal (@rev byte)) in X. rewrite rev_involutive, rev_app_distr in X.
    apply (undone E b _ (rev r) (rev mv ++ firstn 1 w) (tl w)); auto. rewrite Ec, X, <- !app_assoc. now destruct w.
  - destruct (last_newline u) as (a & l & -> & WL & NL). destruct (passes_lines_total (Z.to_nat k) w) as (mv & r & P).
    rewrite (delete_line_deletes E b args k a l w mv r) in C; auto; [|now split]. injection C as _ <-.
    pose proof (passes_lines_app _ _ _ _ P) as ->. apply (undone E b _ a (l ++ mv) r); auto. rewrite Ec, <- !app_assoc. reflexivity.
  - destruct (split_at u (zlen u - Z.min k (zlen u))) as (a & d & -> & La); [pose proof (zlen_nonneg u); lia|].
    rewrite (delete_backward_char_deletes E b args k a d w) in C; auto; [|now split|zl]. injection C as _ <-.
    apply (undone E b _ a d w); auto; [rewrite Ec, <- !app_assoc; reflexivity|cbn; rewrite Ep; zl].
Qed.
Theorem delete_char_undone E args k b v b' : count_arg E args k -> 0 <= k -> int_ok (point b - 1 + k) -> good b ->
  call E "delete-char" args b = Done v b' -> undone_by_insert E b b'.
Proof.
  intros A K J (F & V & _) C. destruct (split_at (content b) (point b - 1)) as (u & w & Ec & Eu); [unfold valid_pos in V; lia|].
  destruct (split_at w (Z.min k (zlen w))) as (d & r & -> & Ld); [pose proof (zlen_nonneg w); lia|].
  rewrite (delete_char_deletes E b args k u d r) in C; auto; [|split; auto; lia]. injection C as _ <-.
  apply (undone E b _ u d r); auto. cbn. lia.
Qed.
Theorem delete_region_undone E b v b' : ints_ok b -> call E "delete-region" [] b = Done v b' -> content b' <> content b -> undone_by_insert E b b'.
Proof.
  intros J C N. destruct (region_exists b) as (u & t & w & R). rewrite (delete_region_deletes E b u t w) in C by auto. injection C as _ <-.
  destruct t as [|x t]; [congruence|]. destruct R as (Ec & _). destruct J as (F & _). now apply (undone E b _ u (x :: t) w).
Qed.
(** kill-line keeps the byte at point, so putting the killed text back at point misplaces it *)
Theorem kill_line_undone_refuted E : exists b b' v, good b /\ call E "kill-line" [] b = Done v b' /\ ~ undone_by_insert E b b'.
Proof.
  exists (new_buffer (bs "abc")), (mkBuffer (bs "a") 1 1 [] 0 0), (VStr []). split; [vm_compute; repeat split; discriminate|]. split; [reflexivity|].
  intros (del & v & b'' & C & X).
  destruct (Z_le_gt_dec (zlen ([] ++ del ++ bs "a")) max_alloc) as [L|L].
  - rewrite (insert_splices E _ del [] (bs "a")) in C; [|split; reflexivity|exact L]. injection C as _ <-. cbn [content with_text new_buffer app] in X.
    apply (f_equal (@rev byte)) in X. rewrite rev_app_distr in X. discriminate.
  - rewrite (insert_too_long E _ del [] (bs "a")) in C; [discriminate|split; reflexivity|vm_compute; discriminate|unfold fits; lia].
Qed.
(** a replacement is undone by searching back for it *)
Theorem replacement_undone E b s r u w b1 v1 : content b = u ++ s ++ w -> fits (content b) -> fits (u ++ r ++ w) -> s <> [] -> r <> [] ->
  last_match b <> [] -> last_start b = zlen u + 1 -> last_end b = zlen u + zlen s + 1 ->
  call E "replace-match" [VStr r] b = Done v1 b1 ->
  exists b2 b3, call E "search-backward" [VStr r] b1 = Done (VStr []) b2 /\ call E "replace-match" [VStr s] b2 = Done (VStr []) b3 /\ content b3 = content b.
Proof.
  intros Hc F Fr Ns Nr Hl Hs He C. rewrite (replace_match_replaces E b u s w r) in C; auto. injection C as _ <-.
  rewrite (search_backward_finds_last E _ r u [] w).
  - eexists. eexists. split; [reflexivity|]. rewrite (replace_match_replaces E _ u r w s); cbn [content last_match last_start last_end with_match with_text]; auto; try lia; try (now rewrite <- Hc).
  - exact Fr.
  - rewrite app_nil_r. split; cbn; [now rewrite <- app_assoc|zl].
  - rewrite app_nil_r. intros i Hi (x & y & X & ->). apply (f_equal zlen) in X. revert X Hi. zl.
Qed.

(** the concrete case: select a word, replace it, take it back *)
Example edit_and_undo : exists b1 b2 b3,
  eval ref_ext (default_env ref_ext) [cmd "search-forward" [VStr (bs "two")]; cmd "replace-match" [VStr (bs "2")]] (new_buffer (bs "one two three")) = EvDone (VStr []) b1 /\
  content b1 = bs "one 2 three" /\
  eval ref_ext (default_env ref_ext) [cmd "search-backward" [VStr (bs "2")]; cmd "replace-match" [VStr (bs "two")]] b1 = EvDone (VStr []) b2 /\
  content b2 = bs "one two three" /\
  eval ref_ext (default_env ref_ext) [cmd "mark-whole-buffer" []; cmd "exchange-point-and-mark" []; cmd "replace-region" [VStr (bs "new")]] b2 = EvDone (VStr []) b3 /\
  content b3 = bs "new".
Proof.
  eexists. eexists. eexists. split; [vm_compute; reflexivity|]. split; [reflexivity|]. split; [vm_compute; reflexivity|]. split; [reflexivity|].
  split; [vm_compute; reflexivity|reflexivity].
Qed.
Example kill_and_undo : forall E, exists b', call E "kill-word" [VInt 2] (mkBuffer (bs "one two three") 4 1 [] 0 0) = Done (VStr []) b' /\
  content b' = bs "one" /\ undone_by_insert E (mkBuffer (bs "one two three") 4 1 [] 0 0) b'.
Proof.
  intros E. assert (X : call E "kill-word" [VInt 2] (mkBuffer (bs "one two three") 4 1 [] 0 0) = Done (VStr []) (mkBuffer (bs "one") 4 1 [] 0 0)) by (vm_compute; reflexivity).
  eexists. split; [exact X|]. split; [reflexivity|]. apply (deletions_are_undone E "kill-word"%string [VInt 2] _ (VStr []) _); auto; [now left|vm_compute; repeat split; discriminate|].
  intros k [[? _]|(f & Hf & A)]; [discriminate|]. injection Hf as <-. destruct (count_lit E 2) as [[? _]|(g & Hg & B)]; [lia|discriminate|]. injection Hg as <-.
  apply int_arg_to_int in A, B. lia.
Qed.

(** ** Assumptions of every theorem above *)
Print Assumptions set_mark_marks_point.
Print Assumptions exchange_swaps.
Print Assumptions exchange_twice.
Print Assumptions exchange_keeps_region.
Print Assumptions mark_whole_buffer_selects.
Print Assumptions whole_buffer_region.
Print Assumptions everything_replaced.
Print Assumptions everything_replaced_on_empty_refuted.
Print Assumptions insert_undone.
Print Assumptions deletions_are_undone.
Print Assumptions delete_char_undone.
Print Assumptions delete_region_undone.
Print Assumptions kill_line_undone_refuted.
Print Assumptions replacement_undone.
