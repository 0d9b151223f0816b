(** C25, C26: regular expressions.  The engine is a parameter [E] (Go's regexp package);
    [ext_ok E] says that the matches it reports are ranges of the subject. *)
From Coq Require Import ZArith NArith List Bool Lia Strings.Byte ZifyBool.
From Verif Require Import Base Float Ext Utf8 Strconv Values Buffer Builtins Eval RefExt Spec
  Proofs_Base Proofs_Loops Proofs_Exec Proofs_Float Proofs_Ref Prop_Edit.
Import ListNotations.
Open Scope Z_scope.

(** ** C25 *)

(** [matched s i j u t v]: offsets i, j of [s] delimit the text [t], between [u] and [v] *)
Definition matched (s : str) (m : Z * Z) (u t v : str) : Prop :=
  s = u ++ t ++ v /\ m = (zlen u, zlen u + zlen t).
Lemma matched_exists s m : match_ok s m -> exists u t v, matched s m u t v.
Proof.
  destruct m as [i j]. intros (H1 & H2 & H3). cbn in *.
  destruct (split_at2 s i j) as (u & t & v & E & -> & ->); auto. exists u, t, v. split; auto.
Qed.

Theorem re_search_forward_finds E b p before after m u t v :
  fits (content b) -> splits b (point b) before after -> after <> [] ->
  re_error E p = None -> re_find E p after = Some m -> matched after m u t v ->
  call E "re-search-forward" [VStr p] b
  = Done (VStr []) (with_match b (point b + zlen u + zlen t) t (point b + zlen u) (point b + zlen u + zlen t)).
Proof.
  intros Hf [Hc Hp] Hne He Hm [Hs ->]. call. destruct b as [c pt mk lm ls le]. cbn [content point] in *. subst c pt.
  assert (0 < zlen after) by (destruct after; [congruence|zl]).
  exe. unwrap. ifs. rewrite He. slices. rewrite Hm. subst after.
  rewrite !app_assoc, <- (app_assoc _ t v). rewrite slice_mid by zl. finish.
Qed.
Theorem re_search_forward_fails E b p before after :
  fits (content b) -> splits b (point b) before after ->
  (after = [] -> call E "re-search-forward" [VStr p] b = Fail (bs "search failed") b) /\
  (after <> [] -> forall msg, re_error E p = Some msg ->
     call E "re-search-forward" [VStr p] b = Fail (bs "invalid regexp: " ++ msg) b) /\
  (after <> [] -> re_error E p = None -> re_find E p after = None ->
     call E "re-search-forward" [VStr p] b = Fail (bs "search failed") b).
Proof.
  intros Hf [Hc Hp]. call. destruct b as [c pt mk lm ls le]. cbn [content point] in *. subst c pt.
  split; [|split].
  - intros ->. exe. unwrap. ifs. reflexivity.
  - intros Hne msg Hm. assert (0 < zlen after) by (destruct after; [congruence|zl]).
    exe. unwrap. ifs. rewrite Hm. reflexivity.
  - intros Hne He Hm. assert (0 < zlen after) by (destruct after; [congruence|zl]).
    exe. unwrap. ifs. rewrite He. slices. rewrite Hm. reflexivity.
Qed.

Theorem re_search_backward_finds E b p before after ms m u t v :
  fits (content b) -> splits b (point b) before after ->
  re_error E p = None -> re_find_all E p before = ms ++ [m] -> matched before m u t v ->
  call E "re-search-backward" [VStr p] b
  = Done (VStr []) (with_match b (zlen u + zlen t + 1) t (zlen u + 1) (zlen u + zlen t + 1)).
Proof.
  intros Hf [Hc Hp] He Hm [Hs ->]. call. destruct b as [c pt mk lm ls le]. cbn [content point] in *. subst c pt.
  exe. unwrap. ifs. rewrite He. slices. rewrite Hm, rev_app_distr. cbn [rev app]. subst before.
  rewrite <- !app_assoc. rewrite slice_mid by zl. finish.
Qed.
Theorem re_search_backward_fails E b p before after :
  fits (content b) -> splits b (point b) before after ->
  (forall msg, re_error E p = Some msg ->
     call E "re-search-backward" [VStr p] b = Fail (bs "invalid regexp: " ++ msg) b) /\
  (re_error E p = None -> re_find_all E p before = [] ->
     call E "re-search-backward" [VStr p] b = Fail (bs "search failed") b).
Proof.
  intros Hf [Hc Hp]. call. destruct b as [c pt mk lm ls le]. cbn [content point] in *. subst c pt. split.
  - intros msg Hm. exe. unwrap. ifs. rewrite Hm. reflexivity.
  - intros He Hm. exe. unwrap. ifs. rewrite He. slices. rewrite Hm. reflexivity.
Qed.

(** replace-match after a regexp search replaces exactly the matched text (when it is not
    empty; an empty match counts as no previous search) *)
Theorem re_search_forward_then_replace E b p r before after m u t v :
  good b -> splits b (point b) before after -> after <> [] ->
  re_error E p = None -> re_find E p after = Some m -> matched after m u t v -> t <> [] ->
  fits (before ++ u ++ r ++ v) ->
  exists b1 b2, call E "re-search-forward" [VStr p] b = Done (VStr []) b1 /\
    call E "replace-match" [VStr r] b1 = Done (VStr []) b2 /\
    content b2 = before ++ u ++ r ++ v /\ point b2 = zlen (before ++ u ++ r) + 1.
Proof.
  intros Hg Hs Hne He Hm Hma Ht Hf'. eexists. 
  assert (X := re_search_forward_finds E b p before after m u t v (proj1 Hg) Hs Hne He Hm Hma).
  destruct Hs as [Hc Hp], Hma as [Ha _].
  assert (Y := replace_match_replaces E (with_match b (point b + zlen u + zlen t) t (point b + zlen u) (point b + zlen u + zlen t))
     (before ++ u) t v r).
  eexists. split; [exact X|]. split; [apply Y|].
  - cbn. rewrite Hc, Ha. now rewrite <- app_assoc.
  - exact Ht.
  - exact Ht.
  - cbn. zl.
  - cbn. zl.
  - apply Hg.
  - now rewrite <- app_assoc.
  - cbn. rewrite <- !app_assoc. split; auto. zl.
Qed.
Theorem empty_match_cannot_be_replaced E b p r before after m u v :
  good b -> splits b (point b) before after -> after <> [] ->
  re_error E p = None -> re_find E p after = Some m -> matched after m u [] v ->
  exists b1, call E "re-search-forward" [VStr p] b = Done (VStr []) b1 /\
    call E "replace-match" [VStr r] b1 = Fail (bs "no previous search") b1.
Proof.
  intros Hg Hs Hne He Hm Hma. eexists. split.
  - apply (re_search_forward_finds E b p before after m u [] v (proj1 Hg) Hs Hne He Hm Hma).
  - reflexivity.
Qed.

Definition aaa : buffer := mkBuffer (bs "aaa") 4 1 [] 0 0.
(** The last of the successive matches need not be the last occurrence: in "aaa", "aa" is
    found at 1, although it also occurs at 2 (where search-backward finds it). *)
Theorem re_search_backward_finds_last_occurrence_refuted :
  exists E, ext_ok E /\ re_error E (bs "aa") = None /\
  occurs_at (content aaa) (bs "aa") 1 /\
  call E "re-search-backward" [VStr (bs "aa")] aaa = Done (VStr []) (with_match aaa 3 (bs "aa") 1 3) /\
  call E "search-backward" [VStr (bs "aa")] aaa = Done (VStr []) (with_match aaa 4 (bs "aa") 2 4).
Proof.
  exists ref_ext. split; [apply ref_ext_ok|]. split; [reflexivity|]. split.
  - exists (bs "a"), []. split; reflexivity.
  - split; vm_compute; reflexivity.
Qed.
Example re_search_forward_ex :
  exists b1 b2, call ref_ext "re-search-forward" [VStr (bs "two")] (mkBuffer (bs "one two three") 3 1 [] 0 0) = Done (VStr []) b1 /\
    call ref_ext "replace-match" [VStr (bs "2")] b1 = Done (VStr []) b2 /\
    content b2 = bs "one 2 three" /\ point b2 = 6.
Proof.
  apply (re_search_forward_then_replace ref_ext (mkBuffer (bs "one two three") 3 1 [] 0 0) (bs "two") (bs "2")
    (bs "on") (bs "e two three") (2, 5) (bs "e ") (bs "two") (bs " three")).
  - repeat split; vm_compute; discriminate.
  - split; reflexivity.
  - discriminate.
  - reflexivity.
  - reflexivity.
  - split; reflexivity.
  - discriminate.
  - vm_compute. discriminate.
Qed.

(** ** C26 *)

Theorem looking_at_answers E b p before after :
  ext_ok E -> fits (content b) -> splits b (point b) before after -> after <> [] -> re_error E p = None ->
  call E "looking-at" [VStr p] b = Done (VSym (bs "t")) b /\
    (exists t v, re_find E p after = Some (0, zlen t) /\ after = t ++ v)
  \/ call E "looking-at" [VStr p] b = Done (VSym (bs "nil")) b /\
    (forall j, re_find E p after <> Some (0, j)).
Proof.
  intros HE Hf [Hc Hp] Hne He. call. destruct b as [c pt mk lm ls le]. cbn [content point] in *. subst c pt.
  assert (0 < zlen after) by (destruct after; [congruence|zl]).
  exe. unwrap. ifs. slices. rewrite He. destruct (re_find E p after) as [[m0 m1]|] eqn:F.
  - destruct (m0 =? 0) eqn:Z0.
    + left. split; [reflexivity|]. assert (m0 = 0) as -> by lia.
      destruct (matched_exists after (0, m1)) as (u & t & v & Es & Em); [eapply ok_find; eauto|].
      injection Em as E1 E2. assert (u = []) as -> by (apply zlen_zero; lia). exists t, v. split; auto. do 2 f_equal. zl.
    + right. split; [reflexivity|]. intros j X. injection X as -> ->. lia.
  - right. split; [reflexivity|]. discriminate.
Qed.
(** with an invalid pattern the text after point is compared literally *)
Theorem looking_at_literal E b p before after msg :
  fits (content b) -> splits b (point b) before after -> after <> [] -> re_error E p = Some msg ->
  call E "looking-at" [VStr p] b = Done (VSym (bs "t")) b /\ (exists v, after = p ++ v)
  \/ call E "looking-at" [VStr p] b = Done (VSym (bs "nil")) b /\ ~ (exists v, after = p ++ v).
Proof.
  intros Hf [Hc Hp] Hne He. call. destruct b as [c pt mk lm ls le]. cbn [content point] in *. subst c pt.
  assert (0 < zlen after) by (destruct after; [congruence|zl]).
  exe. unwrap. ifs. slices. rewrite He. destruct (has_prefix after p) eqn:F.
  - left. split; [reflexivity|]. now apply has_prefix_iff.
  - right. split; [reflexivity|]. rewrite <- has_prefix_iff. congruence.
Qed.
(** at the end of the buffer nothing matches, not even the empty pattern *)
Theorem looking_at_end E b p :
  fits (content b) -> point b = zlen (content b) + 1 ->
  call E "looking-at" [VStr p] b = Done (VSym (bs "nil")) b.
Proof.
  intros Hf Hp. call. destruct b as [c pt mk lm ls le]. cbn [content point] in *. subst pt.
  exe. unwrap. ifs. reflexivity.
Qed.

Theorem looking_back_answers E b p before after :
  ext_ok E -> fits (content b) -> splits b (point b) before after -> before <> [] -> re_error E p = None ->
  call E "looking-back" [VStr p] b = Done (VSym (bs "t")) b /\
    (exists u t, before = u ++ t /\ re_find E p before = Some (zlen u, zlen before))
  \/ call E "looking-back" [VStr p] b = Done (VSym (bs "nil")) b /\
    (forall i, re_find E p before <> Some (i, zlen before)).
Proof.
  intros HE Hf [Hc Hp] Hne He. call. destruct b as [c pt mk lm ls le]. cbn [content point] in *. subst c pt.
  assert (0 < zlen before) by (destruct before; [congruence|zl]).
  exe. unwrap. ifs. rewrite He. slices. destruct (re_find E p before) as [[m0 m1]|] eqn:F.
  - destruct (m1 =? zlen before) eqn:Z0.
    + left. split; [reflexivity|]. assert (m1 = zlen before) as -> by lia.
      destruct (matched_exists before (m0, zlen before)) as (u & t & v & Es & Em); [eapply ok_find; eauto|].
      assert (E1 : m0 = zlen u) by congruence. assert (E2 : zlen before = zlen u + zlen t) by congruence.
      assert (v = []) as -> by (apply zlen_zero; rewrite Es in E2; zl). rewrite app_nil_r in Es.
      exists u, t. split; auto. now subst m0.
    + right. split; [reflexivity|]. intros i X. injection X as -> ->. lia.
  - right. split; [reflexivity|]. discriminate.
Qed.
Theorem looking_back_literal E b p before after msg :
  fits (content b) -> splits b (point b) before after -> before <> [] -> re_error E p = Some msg ->
  call E "looking-back" [VStr p] b = Done (VSym (bs "t")) b /\ (exists u, before = u ++ p)
  \/ call E "looking-back" [VStr p] b = Done (VSym (bs "nil")) b /\ ~ (exists u, before = u ++ p).
Proof.
  intros Hf [Hc Hp] Hne He. call. destruct b as [c pt mk lm ls le]. cbn [content point] in *. subst c pt.
  assert (0 < zlen before) by (destruct before; [congruence|zl]).
  exe. unwrap. ifs. rewrite He. replace (zlen before + 1 - 1) with (zlen before) by lia.
  destruct (zlen p <=? zlen before) eqn:L.
  - slices. destruct (has_suffix before p) eqn:F.
    + left. split; [reflexivity|]. now apply has_suffix_iff.
    + right. split; [reflexivity|]. rewrite <- has_suffix_iff. congruence.
  - right. split; [reflexivity|]. intros [u ->]. zl.
Qed.
Theorem looking_back_start E b p : point b = 1 -> call E "looking-back" [VStr p] b = Done (VSym (bs "nil")) b.
Proof.
  intros Hp. call. destruct b as [c pt mk lm ls le]. cbn [content point] in *. subst pt. exe. reflexivity.
Qed.
(** Only the leftmost match is considered: "foo" ends with "o", yet the answer is nil. *)
Theorem looking_back_sees_every_match_refuted :
  exists E, ext_ok E /\
  ~ (forall b p before after, good b -> splits b (point b) before after -> before <> [] -> re_error E p = None ->
     (exists u t, before = u ++ t /\ re_find E p t = Some (0, zlen t)) ->
     call E "looking-back" [VStr p] b = Done (VSym (bs "t")) b).
Proof.
  exists ref_ext. split; [apply ref_ext_ok|]. intros H.
  specialize (H (mkBuffer (bs "foo") 4 1 [] 0 0) (bs "o") (bs "foo") []).
  assert (X : call ref_ext "looking-back" [VStr (bs "o")] (mkBuffer (bs "foo") 4 1 [] 0 0)
              = Done (VSym (bs "nil")) (mkBuffer (bs "foo") 4 1 [] 0 0)) by (vm_compute; reflexivity).
  rewrite H in X; [discriminate| | | | |].
  - repeat split; vm_compute; discriminate.
  - split; reflexivity.
  - discriminate.
  - reflexivity.
  - exists (bs "fo"), (bs "o"). split; reflexivity.
Qed.

(** string-match reports the 0-based offset of the leftmost match *)
Theorem string_match_answers E b p s :
  ext_ok E -> fits s -> re_error E p = None ->
  match re_find E p s with
  | Some (i, j) => exists f, call E "string-match" [VStr p; VStr s] b = Done (VNum f) b /\ exactly f i /\ 0 <= i <= j /\ j <= zlen s
  | None => call E "string-match" [VStr p; VStr s] b = Done (VSym (bs "nil")) b
  end.
Proof.
  intros HE Hf He. call. unfold b_string_match. rewrite He. destruct (re_find E p s) as [[i j]|] eqn:F; [|reflexivity].
  exists (f_of_Z i). split; [reflexivity|]. destruct (ok_find E HE p s (i, j) F) as (H1 & H2 & H3). cbn in *.
  split; [apply f_of_Z_exact; ints; lia|lia].
Qed.
(** an invalid pattern is searched for literally *)
Theorem string_match_literal E b p s msg :
  fits s -> re_error E p = Some msg ->
  (exists i f, call E "string-match" [VStr p; VStr s] b = Done (VNum f) b /\ exactly f i /\
     occurs_at s p i /\ forall j, 0 <= j < i -> ~ occurs_at s p j)
  \/ (call E "string-match" [VStr p; VStr s] b = Done (VSym (bs "nil")) b /\ forall i, ~ occurs_at s p i).
Proof.
  intros Hf He. call. unfold b_string_match. rewrite He. destruct (str_index_spec s p) as [[H1 H2]|[H1 H2]].
  - left. exists (str_index s p), (f_of_Z (str_index s p)). pose proof (occurs_bound _ _ _ H1). pose proof (zlen_nonneg p).
    replace (str_index s p =? -1) with false by lia. split; [reflexivity|]. split; [|auto].
    apply f_of_Z_exact. ints. lia.
  - right. rewrite H1. split; [reflexivity|auto].
Qed.
Example looking_ex :
  call ref_ext "looking-at" [VStr (bs "two")] (mkBuffer (bs "one two") 5 1 [] 0 0)
    = Done (VSym (bs "t")) (mkBuffer (bs "one two") 5 1 [] 0 0) /\
  call ref_ext "looking-back" [VStr (bs "one ")] (mkBuffer (bs "one two") 5 1 [] 0 0)
    = Done (VSym (bs "t")) (mkBuffer (bs "one two") 5 1 [] 0 0).
Proof. split; vm_compute; reflexivity. Qed.

(** ** Assumptions of every theorem above *)
Print Assumptions re_search_forward_finds.
Print Assumptions re_search_forward_fails.
Print Assumptions re_search_backward_finds.
Print Assumptions re_search_backward_fails.
Print Assumptions re_search_forward_then_replace.
Print Assumptions empty_match_cannot_be_replaced.
Print Assumptions re_search_backward_finds_last_occurrence_refuted.
Print Assumptions looking_at_answers.
Print Assumptions looking_at_literal.
Print Assumptions looking_at_end.
Print Assumptions looking_back_answers.
Print Assumptions looking_back_literal.
Print Assumptions looking_back_start.
Print Assumptions looking_back_sees_every_match_refuted.
Print Assumptions string_match_answers.
Print Assumptions string_match_literal.
