(** C07, C08, C11-C15: inserting, character motion, literal search, match replacement,
    regions and character deletion. *)
From Coq Require Import ZArith NArith List Bool Lia Strings.Byte ZifyBool.
From Verif Require Import Base Float Ext Utf8 Strconv Values Buffer Builtins Eval Spec
  Proofs_Base Proofs_Loops Proofs_Exec Proofs_Float.
Import ListNotations.
Open Scope Z_scope.

(** ** C07 *)

(** insert puts the text at point and moves point past it. *)
Theorem insert_splices E b s before after :
  splits b (point b) before after -> fits (before ++ s ++ after) ->
  call E "insert" [VStr s] b
  = Done (VStr []) (with_text b (before ++ s ++ after) (point b + zlen s)).
Proof.
  intros [Hc Hp] Hf. call. destruct b as [c p m lm ls le]. cbn in *. subst.
  exe. unwrap.
  destruct (zlen before + 1 <=? 1) eqn:E1.
  - assert (before = []) as -> by (apply zlen_zero; zl). cbn [app] in *. ifs. unwrap. reflexivity.
  - ifs. slices. ifs. unwrap. finish.
Qed.

(** With point before the buffer insert prepends, beyond the end it appends. *)
Theorem insert_outside E b s :
  int_ok (point b) -> int_ok (point b + zlen s) -> fits (s ++ content b) ->
  (point b < 1 -> call E "insert" [VStr s] b
     = Done (VStr []) (with_text b (s ++ content b) (point b + zlen s))) /\
  (point b > zlen (content b) + 1 -> call E "insert" [VStr s] b
     = Done (VStr []) (with_text b (content b ++ s) (point b + zlen s))).
Proof.
  intros Hp Hq Hf. call. destruct b as [c p m lm ls le]. cbn in *.
  split; intros H; exe; ifs; unwrap; reflexivity.
Qed.

(** The only other outcome is running out of memory. *)
Theorem insert_too_long E b s before after :
  splits b (point b) before after -> fits (content b) -> ~ fits (before ++ s ++ after) ->
  call E "insert" [VStr s] b = OutOfMemory.
Proof.
  intros [Hc Hp] Hf Hn. call. destruct b as [c p m lm ls le]. cbn in *. subst.
  exe. unwrap. destruct (zlen before + 1 <=? 1) eqn:E1; ifs; slices; ifs; reflexivity.
Qed.

Example insert_ex E :
  call E "insert" [VStr (bs "big ")] (mkBuffer (bs "a dog") 3 1 [] 0 0)
  = Done (VStr []) (mkBuffer (bs "a big dog") 7 1 [] 0 0).
Proof. exact (insert_splices E (mkBuffer (bs "a dog") 3 1 [] 0 0) (bs "big ") (bs "a ") (bs "dog")
  (conj eq_refl eq_refl) ltac:(unfold fits; vm_compute; discriminate)). Qed.

(** ** C08 *)

Theorem goto_char_clamps E b f n :
  int_arg E f n -> fits (content b) ->
  call E "goto-char" [VNum f] b
  = Done (VStr []) (at_point b (clamp 1 (zlen (content b) + 1) n)).
Proof.
  intros Hn Hf. call. unfold b_goto_char. count. apply int_arg_ok in Hn. destruct b as [c p m lm ls le]. cbn in *.
  exe. destruct (n <? 1) eqn:E1; [|destruct (zlen c + 1 <? n) eqn:E2]; finish.
Qed.

Theorem forward_char_clamps E b args n :
  count_arg E args n -> good b -> int_ok (point b + n) ->
  call E "forward-char" args b
  = Done (VStr []) (at_point b (clamp 1 (zlen (content b) + 1) (point b + n))).
Proof.
  intros Hn Hg Hi. call. unfold b_forward_char. count. destruct b as [c p m lm ls le]. cbn in *.
  exe. unwrap. destruct (p + n <? 1) eqn:E1; [|destruct (zlen c + 1 <? p + n) eqn:E2]; finish.
Qed.

(** backward-char clamps at the beginning only *)
Theorem backward_char_clamps E b args n :
  count_arg E args n -> int_ok (point b - n) ->
  call E "backward-char" args b
  = Done (VStr []) (at_point b (Z.max 1 (point b - n))).
Proof.
  intros Hn Hi. call. unfold b_backward_char. count. destruct b as [c p m lm ls le]. cbn in *.
  exe. unwrap. destruct (p - n <? 1) eqn:E1; finish.
Qed.

(** so with a negative count it leaves the buffer: "backward-char -5" on "ab" *)
Theorem backward_char_stays_inside_refuted E :
  ~ (forall b args n, count_arg E args n -> good b -> int_ok (point b - n) ->
     exists b', call E "backward-char" args b = Done (VStr []) b' /\ good b').
Proof.
  intros H.
  destruct (H (new_buffer (bs "ab")) [VNum (f_of_Z (-5))] (-5)) as (b' & E1 & E2).
  - right. eexists. split; [reflexivity|]. left. split; [|unfold int_ok; vm_compute; split; discriminate].
    apply denotes_trunc. vm_compute. reflexivity.
  - repeat split; vm_compute; discriminate.
  - split; vm_compute; discriminate.
  - vm_compute in E1. injection E1 as <-. destruct E2 as (_ & [_ E2] & _). vm_compute in E2. apply E2. reflexivity.
Qed.

(** The sum is computed modulo 2^64: a huge count moves to the beginning instead of the end. *)
Theorem forward_char_overflows E b args n :
  count_arg E args n -> good b -> point b + n > max_int ->
  call E "forward-char" args b = Done (VStr []) (at_point b 1).
Proof.
  intros Hn Hg Hi. call. unfold b_forward_char. count.
  pose proof (count_arg_ok _ _ _ Hn).
  destruct b as [c p m lm ls le]. cbn in *.
  exe. assert (wrap (p + n) < 1).
  { destruct (wrap_cases (p + n)) as [[]|[[]|[]]]; ints; lia. }
  ifs. reflexivity.
Qed.
(** 9223372036854774784 is a float64; on a text of 1100 bytes with point at the end *)
Example forward_char_overflows_ex E :
  call E "forward-char" [VNum (f_of_Z 9223372036854774784)] (mkBuffer (repeat "a"%byte 1100) 1101 1 [] 0 0)
  = Done (VStr []) (mkBuffer (repeat "a"%byte 1100) 1 1 [] 0 0).
Proof. vm_compute. reflexivity. Qed.

(** A number outside the 64-bit range is converted as the platform pleases: on amd64 the
    result is the smallest integer, and goto-char 1e19 goes to the beginning. *)
Theorem goto_char_huge_goes_to_start E b :
  f2i_oob E (f_of_Z 10000000000000000000) = min_int -> fits (content b) ->
  call E "goto-char" [VNum (f_of_Z 10000000000000000000)] b = Done (VStr []) (at_point b 1).
Proof.
  intros H Hf. call. unfold b_goto_char, one_number.
  replace (f_to_int E (f_of_Z 10000000000000000000)) with min_int.
  - destruct b as [c p m lm ls le]. cbn in *. exe. ifs. reflexivity.
  - unfold f_to_int. rewrite H.
    replace (f_trunc (f_of_Z 10000000000000000000)) with (Some 10000000000000000000) by (vm_compute; reflexivity).
    vm_compute. reflexivity.
Qed.

(** the fractional part is dropped: "forward-char 2.9" moves by 2 *)
Example forward_char_ex E :
  call E "forward-char" [VNum (S754_finite false 6530219459687219 (-51))] (new_buffer (bs "hello"))
  = Done (VStr []) (at_point (new_buffer (bs "hello")) 3).
Proof. vm_compute. reflexivity. Qed.

(** ** C11 *)

Theorem search_forward_finds_first E b s before pre post :
  fits (content b) -> splits b (point b) before (pre ++ s ++ post) -> pre ++ s ++ post <> [] ->
  (forall i, 0 <= i < zlen pre -> ~ occurs_at (pre ++ s ++ post) s i) ->
  let start := point b + zlen pre in
  call E "search-forward" [VStr s] b
  = Done (VStr []) (with_match b (start + zlen s) s start (start + zlen s)).
Proof.
  intros Hf [Hc Hp] Hne Hfirst start. subst start. call. destruct b as [c p m lm ls le]. cbn in *. subst.
  assert (0 < zlen (pre ++ s ++ post)).
  { destruct (pre ++ s ++ post); [congruence|]. zl. }
  exe. unwrap. ifs. slices.
  replace (str_index (pre ++ s ++ post) s) with (zlen pre).
  - ifs. unwrap. finish.
  - assert (Ho : occurs_at (pre ++ s ++ post) s (zlen pre)) by (exists pre, post; auto).
    destruct (str_index_spec (pre ++ s ++ post) s) as [[Hi Hm]|[_ Hn]]; [|exfalso; eapply Hn; eauto].
    pose proof (occurs_bound _ _ _ Hi).
    destruct (Z.lt_trichotomy (str_index (pre ++ s ++ post) s) (zlen pre)) as [L|[L|L]]; auto.
    + exfalso. eapply Hfirst; eauto. lia.
    + exfalso. apply (Hm (zlen pre)); auto. zl.
Qed.

Theorem search_forward_fails E b s before after :
  fits (content b) -> splits b (point b) before after ->
  after = [] \/ (forall i, ~ occurs_at after s i) ->
  call E "search-forward" [VStr s] b = Fail (bs "search failed") b.
Proof.
  intros Hf [Hc Hp] Hn. call. destruct b as [c p m lm ls le]. cbn in *. subst.
  exe. unwrap. ifs. destruct after as [|a after].
  - ifs. reflexivity.
  - ifs. slices. destruct (str_index_spec (a :: after) s) as [[Ho _]|[-> _]].
    + destruct Hn as [Hn|Hn]; [discriminate|]. exfalso. eapply Hn; eauto.
    + reflexivity.
Qed.

(** the two cases cover everything: a string that occurs has a first occurrence *)
Theorem first_occurrence_exists (text s : str) :
  (exists pre post, text = pre ++ s ++ post /\
     forall i, 0 <= i < zlen pre -> ~ occurs_at text s i) \/
  (forall i, ~ occurs_at text s i).
Proof.
  destruct (str_index_spec text s) as [[(pre & post & H & Hi) Hm]|[_ Hn]]; auto.
  left. exists pre, post. rewrite <- Hi. auto.
Qed.

Example search_forward_ex E :
  call E "search-forward" [VStr (bs "an")] (mkBuffer (bs "banana") 3 1 [] 0 0)
  = Done (VStr []) (mkBuffer (bs "banana") 6 1 (bs "an") 4 6).
Proof.
  apply (search_forward_finds_first E (mkBuffer (bs "banana") 3 1 [] 0 0) (bs "an") (bs "ba") (bs "n") (bs "a")).
  - vm_compute. discriminate.
  - split; reflexivity.
  - discriminate.
  - intros i Hi. replace i with 0 by (unfold zlen in Hi; cbn in Hi; lia). rewrite occurs_0. discriminate.
Qed.

(** ** C12 *)

Theorem search_backward_finds_last E b s pre post after :
  fits (content b) -> splits b (point b) (pre ++ s ++ post) after ->
  (forall i, zlen pre < i -> ~ occurs_at (pre ++ s ++ post) s i) ->
  let start := zlen pre + 1 in
  call E "search-backward" [VStr s] b
  = Done (VStr []) (with_match b (start + zlen s) s start (start + zlen s)).
Proof.
  intros Hf [Hc Hp] Hlast start. subst start. call. destruct b as [c p m lm ls le]. cbn in *. subst.
  exe. unwrap. ifs.
  rewrite (slice_pre (pre ++ s ++ post) after) by zl.
  replace (str_last_index (pre ++ s ++ post) s) with (zlen pre).
  - ifs. unwrap. finish.
  - assert (Ho : occurs_at (pre ++ s ++ post) s (zlen pre)) by (exists pre, post; auto).
    destruct (str_last_index_spec (pre ++ s ++ post) s) as [[Hi Hm]|[_ Hn]]; [|exfalso; eapply Hn; eauto].
    destruct (Z.lt_trichotomy (str_last_index (pre ++ s ++ post) s) (zlen pre)) as [L|[L|L]]; auto.
    + exfalso. eapply Hm; eauto.
    + exfalso. eapply Hlast; eauto.
Qed.

Theorem search_backward_fails E b s before after :
  fits (content b) -> splits b (point b) before after -> (forall i, ~ occurs_at before s i) ->
  call E "search-backward" [VStr s] b = Fail (bs "search failed") b.
Proof.
  intros Hf [Hc Hp] Hn. call. destruct b as [c p m lm ls le]. cbn in *. subst.
  exe. unwrap. ifs. slices. destruct (str_last_index_spec before s) as [[Ho _]|[-> _]].
  - exfalso. eapply Hn; eauto.
  - reflexivity.
Qed.

Theorem last_occurrence_exists (text s : str) :
  (exists pre post, text = pre ++ s ++ post /\
     forall i, zlen pre < i -> ~ occurs_at text s i) \/
  (forall i, ~ occurs_at text s i).
Proof.
  destruct (str_last_index_spec text s) as [[(pre & post & H & Hi) Hm]|[_ Hn]]; auto.
  left. exists pre, post. rewrite <- Hi. auto.
Qed.

Lemma occurs_prefix u v s i : occurs_at u s i -> occurs_at (u ++ v) s i.
Proof. intros (x & y & -> & ->). exists x, (y ++ v). rewrite <- !app_assoc. auto. Qed.

(** Repeating search-backward never makes progress. *)
Theorem search_backward_stuck E b s v b' :
  fits (content b) -> valid_pos (content b) (point b) ->
  call E "search-backward" [VStr s] b = Done v b' ->
  call E "search-backward" [VStr s] b' = Done v b'.
Proof.
  intros Hf Hp H.
  destruct (split_at (content b) (point b - 1)) as (before & after & Hc & Hb); [ints; lia|].
  destruct (last_occurrence_exists before s) as [(pre & post & -> & Hl)|Hn].
  - rewrite (search_backward_finds_last E b s pre post after) in H; auto; [|split; auto; lia].
    injection H as <- <-.
    rewrite (search_backward_finds_last E _ s pre [] (post ++ after)); auto.
    + split; cbn; [|zl]. rewrite Hc, <- !app_assoc. reflexivity.
    + intros i Hi Ho. apply (Hl i Hi). apply (occurs_prefix _ post) in Ho.
      rewrite app_nil_r, <- app_assoc in Ho. exact Ho.
  - rewrite (search_backward_fails E b s before after) in H; auto; [discriminate|split; auto; lia].
Qed.

(** so, unlike in Emacs, it does not move to the beginning of the match *)
Theorem search_backward_goes_to_match_start_refuted E :
  ~ (forall b s pre after, content b = pre ++ s ++ after -> point b = zlen pre + zlen s + 1 ->
     fits (content b) -> s <> [] ->
     exists b', call E "search-backward" [VStr s] b = Done (VStr []) b' /\ point b' = zlen pre + 1).
Proof.
  intros H. destruct (H (mkBuffer (bs "one two") 8 1 [] 0 0) (bs "two") (bs "one ") []) as (b' & E1 & E2);
    [reflexivity | reflexivity | vm_compute; discriminate | discriminate |].
  vm_compute in E1. injection E1 as <-. vm_compute in E2. discriminate.
Qed.

(** ** C13 *)

(** replace-match replaces the text at the remembered positions *)
Theorem replace_match_replaces E b u t v r :
  content b = u ++ t ++ v -> t <> [] -> last_match b <> [] ->
  last_start b = zlen u + 1 -> last_end b = zlen u + zlen t + 1 ->
  fits (content b) -> fits (u ++ r ++ v) ->
  call E "replace-match" [VStr r] b
  = Done (VStr []) (with_text b (u ++ r ++ v) (zlen u + zlen r + 1)).
Proof.
  intros Hc Ht Hl Hs He Hf Hf'. call. destruct b as [c p m lm ls le]. cbn in *. subst.
  assert (0 < zlen t) by (destruct t; [congruence|zl]).
  exe. destruct lm; [congruence|]. unwrap. ifs. slices. ifs. unwrap. finish.
Qed.

(** After a successful search, replace-match replaces exactly the occurrence found. *)
Theorem search_forward_then_replace E b s r before pre post b1 v1 :
  fits (content b) -> s <> [] -> splits b (point b) before (pre ++ s ++ post) ->
  (forall i, 0 <= i < zlen pre -> ~ occurs_at (pre ++ s ++ post) s i) ->
  fits (before ++ pre ++ r ++ post) ->
  call E "search-forward" [VStr s] b = Done v1 b1 ->
  exists b2, call E "replace-match" [VStr r] b1 = Done (VStr []) b2 /\
    content b2 = before ++ pre ++ r ++ post /\
    point b2 = zlen before + zlen pre + zlen r + 1 /\ mark b2 = mark b.
Proof.
  intros Hf Hs Hsp Hfirst Hr H. pose proof Hsp as [Hc Hp].
  rewrite (search_forward_finds_first E b s before pre post) in H; auto.
  2:{ destruct pre; [|discriminate]. destruct s; [congruence|discriminate]. }
  injection H as <- <-. eexists. split.
  - apply (replace_match_replaces E _ (before ++ pre) s post r); cbn; auto; try (rewrite <- ?app_assoc; auto; fail); zl.
  - cbn. rewrite <- app_assoc. repeat split. zl.
Qed.

Theorem search_backward_then_replace E b s r pre post after b1 v1 :
  fits (content b) -> s <> [] -> splits b (point b) (pre ++ s ++ post) after ->
  (forall i, zlen pre < i -> ~ occurs_at (pre ++ s ++ post) s i) ->
  fits (pre ++ r ++ post ++ after) ->
  call E "search-backward" [VStr s] b = Done v1 b1 ->
  exists b2, call E "replace-match" [VStr r] b1 = Done (VStr []) b2 /\
    content b2 = pre ++ r ++ post ++ after /\
    point b2 = zlen pre + zlen r + 1 /\ mark b2 = mark b.
Proof.
  intros Hf Hs Hsp Hlast Hr H. pose proof Hsp as [Hc Hp].
  rewrite (search_backward_finds_last E b s pre post after) in H; auto.
  injection H as <- <-. eexists. split.
  - apply (replace_match_replaces E _ pre s (post ++ after) r); cbn; auto; try zl.
    rewrite Hc, <- !app_assoc. reflexivity.
  - cbn. repeat split.
Qed.

Theorem replace_match_without_match E b r :
  last_match b = [] -> call E "replace-match" [VStr r] b = Fail (bs "no previous search") b.
Proof. intros H. call. destruct b as [c p m lm ls le]. cbn in *. subst. reflexivity. Qed.

(** in particular after a successful search for the empty string *)
Example replace_match_after_empty_search E :
  let b' := mkBuffer (bs "ab") 1 1 [] 1 1 in
  call E "search-forward" [VStr []] (new_buffer (bs "ab")) = Done (VStr []) b' /\
  call E "replace-match" [VStr (bs "x")] b' = Fail (bs "no previous search") b'.
Proof. split; vm_compute; reflexivity. Qed.

(** After the text has become shorter than the remembered positions it fails. *)
Theorem replace_match_out_of_range E b r :
  last_match b <> [] -> 1 <= last_start b < last_end b -> int_ok (last_end b) ->
  last_end b > zlen (content b) + 1 ->
  call E "replace-match" [VStr r] b = Fail (bs "invalid search match positions") b.
Proof.
  intros Hl Hs Hi He. call. destruct b as [c p m lm ls le]. cbn in *.
  exe. destruct lm; [congruence|]. unwrap. ifs. reflexivity.
Qed.

(** The match is remembered by position only: it is not true that replace-match only ever
    replaces text equal to the last match.  Script: search-forward "b"; beginning-of-buffer;
    insert "XY"; replace-match "-" on "abc" gives "X-abc". *)
Theorem replace_match_checks_text_refuted E :
  ~ (forall b r b', good b -> call E "replace-match" [VStr r] b = Done (VStr []) b' ->
     exists u v, content b = u ++ last_match b ++ v /\ content b' = u ++ r ++ v).
Proof.
  intros H.
  destruct (H (mkBuffer (bs "XYabc") 3 1 (bs "b") 2 3) (bs "-")
              (mkBuffer (bs "X-abc") 3 1 (bs "b") 2 3)) as (u & v & E1 & E2).
  - repeat split; vm_compute; discriminate.
  - vm_compute. reflexivity.
  - cbn in E1, E2.
    destruct u as [|u1 [|u2 [|u3 [|u4 [|u5 u]]]]]; cbn in E1, E2; try discriminate.
    destruct u; discriminate.
Qed.
Example replace_match_stale E :
  eval E (default_env E)
    [VList [VSym (bs "search-forward"); VStr (bs "b")]; VList [VSym (bs "beginning-of-buffer")];
     VList [VSym (bs "insert"); VStr (bs "XY")]; VList [VSym (bs "replace-match"); VStr (bs "-")]]
    (new_buffer (bs "abc")) = EvDone (VStr []) (mkBuffer (bs "X-abc") 3 1 (bs "b") 2 3).
Proof. vm_compute. reflexivity. Qed.

(** ** C14 *)

(** [region b u t v]: the text between mark and point, clamped into the buffer, is [t],
    with [u] before and [v] after it *)
Definition region (b : buffer) (u t v : str) : Prop :=
  content b = u ++ t ++ v /\
  clamp 1 (zlen (content b) + 1) (Z.min (mark b) (point b)) = zlen u + 1 /\
  clamp 1 (zlen (content b) + 1) (Z.max (mark b) (point b)) = zlen u + zlen t + 1.

Definition ints_ok (b : buffer) : Prop :=
  fits (content b) /\ min_int < point b <= max_int /\ min_int < mark b <= max_int.

Lemma region_exists b : exists u t v, region b u t v.
Proof.
  pose proof (zlen_nonneg (content b)).
  destruct (split_at2 (content b) (clamp 1 (zlen (content b) + 1) (Z.min (mark b) (point b)) - 1)
                   (clamp 1 (zlen (content b) + 1) (Z.max (mark b) (point b)) - 1)) as (u & t & v & E1 & E2 & E3);
    [unfold clamp; lia | unfold clamp; lia|].
  exists u, t, v. split; [auto|]. split; lia.
Qed.

Lemma region_bounds_spec b u t v : region b u t v -> ints_ok b ->
  region_bounds (content b) (mark b) (point b) = if zlen t =? 0 then None else Some (zlen u, zlen u + zlen t).
Proof.
  destruct b as [c p m lm ls le]. unfold region, ints_ok. cbn. intros (-> & H1 & H2) (Hf & Hp & Hm).
  unfold region_bounds.
  assert (Hx : exists lo hi, (if p <? m then (p, m) else (m, p)) = (lo, hi) /\ lo = Z.min m p /\ hi = Z.max m p).
  { destruct (p <? m) eqn:E; do 2 eexists; (split; [reflexivity|lia]). }
  destruct Hx as (lo & hi & -> & -> & ->). unwrap.
  destruct (Z.min m p - 1 <? 0) eqn:E1; destruct (zlen (u ++ t ++ v) <? Z.max m p - 1) eqn:E2; ints; lens.
  - destruct (zlen t =? 0) eqn:E3; ifs; finish.
  - destruct (zlen t =? 0) eqn:E3; ifs; finish.
  - destruct (zlen t =? 0) eqn:E3; ifs; finish.
  - destruct (zlen t =? 0) eqn:E3; ifs; finish.
Qed.

Theorem delete_region_deletes E b u t v :
  ints_ok b -> region b u t v ->
  call E "delete-region" [] b
  = Done (VStr []) (match t with [] => b | _ => with_text b (u ++ v) (zlen u + 1) end).
Proof.
  intros Hi Hr. pose proof (region_bounds_spec b u t v Hr Hi) as Hb. destruct Hr as (Hc & _ & _).
  destruct Hi as (Hf & _). call. destruct b as [c p m lm ls le]. cbn in *. subst c.
  unfold b_delete_region, no_args, get_mark, get_point, get_content, bind. cbn [content mark point].
  rewrite Hb. destruct t as [|x t].
  - reflexivity.
  - ifs. exe. slices. ifs. reflexivity.
Qed.

Theorem replace_region_replaces E b u t v r :
  ints_ok b -> region b u t v -> fits (u ++ r ++ v) ->
  call E "replace-region" [VStr r] b
  = Done (VStr []) (match t with [] => b | _ => with_text b (u ++ r ++ v) (zlen u + zlen r + 1) end).
Proof.
  intros Hi Hr Hf'. pose proof (region_bounds_spec b u t v Hr Hi) as Hb. destruct Hr as (Hc & _ & _).
  destruct Hi as (Hf & _). call. destruct b as [c p m lm ls le]. cbn in *. subst c.
  unfold b_replace_region, one_string, get_mark, get_point, get_content, bind. cbn [content mark point].
  rewrite Hb. destruct t as [|x t].
  - reflexivity.
  - ifs. exe. slices. ifs. unwrap. reflexivity.
Qed.

Theorem region_bounds_reported E b :
  call E "region-beginning" [] b = Done (VInt (Z.min (mark b) (point b))) b /\
  call E "region-end" [] b = Done (VInt (Z.max (mark b) (point b))) b.
Proof.
  destruct b as [c p m lm ls le]. cbn [mark point]. split; call; exe;
    destruct (p <? m) eqn:H; do 2 f_equal; lia.
Qed.

(** buffer-substring of the region's bounds is the region's text *)
Theorem region_text E b u t v f g :
  ints_ok b -> region b u t v -> 1 <= Z.min (mark b) (point b) ->
  int_arg E f (Z.min (mark b) (point b)) -> int_arg E g (Z.max (mark b) (point b)) ->
  call E "buffer-substring" [VNum f; VNum g] b = Done (VStr t) b.
Proof.
  intros Hi Hr Hpos Hfd Hgd. unfold ints_ok, region in *. call.
  destruct b as [c p m lm ls le]. cbn [content mark point] in *. destruct Hr as (-> & H1 & H2).
  exe. rewrite (int_arg_to_int E f (Z.min m p)), (int_arg_to_int E g (Z.max m p)) by auto.
  replace (Z.max m p =? -1) with false by lia. unwrap. ifs.
  destruct (zlen t =? 0) eqn:Ht.
  - assert (t = []) as -> by (apply zlen_zero; lia).
    destruct (zlen (u ++ [] ++ v) <? Z.max m p - 1) eqn:E2; ints; ifs; reflexivity.
  - destruct (zlen (u ++ t ++ v) <? Z.max m p - 1) eqn:E2; ints; lens; ifs;
    rewrite slice_mid by zl; reflexivity.
Qed.

(** Mark and point play the same role. *)
Theorem region_symmetric b u t v :
  region b u t v <-> region (at_point (with_mark b (point b)) (mark b)) u t v.
Proof. unfold region. cbn. now rewrite (Z.min_comm (mark b)), (Z.max_comm (mark b)). Qed.

Example delete_region_ex E :
  call E "delete-region" [] (mkBuffer (bs "one two three") 9 5 [] 0 0)
  = Done (VStr []) (mkBuffer (bs "one three") 5 5 [] 0 0).
Proof.
  apply (delete_region_deletes E (mkBuffer (bs "one two three") 9 5 [] 0 0) (bs "one ") (bs "two ") (bs "three")).
  - repeat split; vm_compute; congruence.
  - repeat split.
Qed.
Example replace_empty_region_inserts_nothing E :
  call E "replace-region" [VStr (bs "x")] (mkBuffer (bs "ab") 2 2 [] 0 0)
  = Done (VStr []) (mkBuffer (bs "ab") 2 2 [] 0 0).
Proof. vm_compute. reflexivity. Qed.

(** ** C15 *)

Theorem delete_char_deletes E b args n before del rest :
  count_arg E args n -> 0 <= n -> int_ok (point b - 1 + n) -> fits (content b) ->
  splits b (point b) before (del ++ rest) -> zlen del = Z.min n (zlen (del ++ rest)) ->
  call E "delete-char" args b = Done (VStr []) (with_text b (before ++ rest) (point b)).
Proof.
  intros Hn H0 Hi Hf [Hc Hp] Hd. call. unfold b_delete_char. count.
  destruct b as [c p m lm ls le]. cbn in *. subst. exe.
  destruct (zlen (before ++ del ++ rest) <? zlen before + 1) eqn:E1.
  - assert (del = []) as -> by (apply zlen_zero; zl). assert (rest = []) as -> by (apply zlen_zero; zl).
    ifs. reflexivity.
  - ifs. slices. unwrap.
    destruct (zlen (before ++ del ++ rest) <? zlen before + 1 - 1 + n) eqn:E2; slices; ifs; reflexivity.
Qed.

(** A negative count duplicates the [-n] bytes before point instead of deleting, ... *)
Theorem delete_char_negative_duplicates E b f n u w after :
  int_arg E f n -> n < 0 -> fits (u ++ w ++ w ++ after) ->
  splits b (point b) (u ++ w) after -> zlen w = - n -> after <> [] ->
  call E "delete-char" [VNum f] b = Done (VStr []) (with_text b (u ++ w ++ w ++ after) (point b)).
Proof.
  intros Hn H0 Hf [Hc Hp] Hw Ha. call. unfold b_delete_char.
  assert (Ha' : 0 < zlen after) by (destruct after; [congruence|zl]).
  cbn. rewrite (int_arg_to_int E f n) by auto.
  destruct b as [c p m lm ls le]. cbn in *. subst. exe. ifs. slices. unwrap. ifs.
  rewrite <- (app_assoc u w after). rewrite slice_suf by zl. ifs. now rewrite <- !app_assoc.
Qed.
(** ... or crashes when there are not that many. *)
Theorem delete_char_negative_crashes E b f n before after :
  int_arg E f n -> int_ok (point b - 1 + n) -> fits (content b) ->
  splits b (point b) before after -> after <> [] -> - n > zlen before ->
  call E "delete-char" [VNum f] b = Panic.
Proof.
  intros Hn Hi Hf [Hc Hp] Ha Hl. call. unfold b_delete_char.
  assert (Ha' : 0 < zlen after) by (destruct after; [congruence|zl]).
  cbn. rewrite (int_arg_to_int E f n) by auto.
  destruct b as [c p m lm ls le]. cbn in *. subst. exe. ifs. slices. unwrap. ifs.
  match goal with |- context [slice ?s ?i ?j] => replace (slice s i j) with (@None str) end; auto.
  symmetry. apply slice_none. zl.
Qed.

Theorem delete_backward_char_deletes E b args n rest del after :
  count_arg E args n -> 0 <= n -> fits (content b) ->
  splits b (point b) (rest ++ del) after -> zlen del = Z.min n (zlen (rest ++ del)) ->
  call E "delete-backward-char" args b
  = Done (VStr []) (with_text b (rest ++ after) (point b - zlen del)).
Proof.
  intros Hn H0 Hf [Hc Hp] Hd. call. unfold b_delete_backward_char.
  pose proof (count_arg_ok _ _ _ Hn).
  count. destruct b as [c p m lm ls le]. cbn in *. subst. exe. unwrap.
  destruct (zlen (rest ++ del) + 1 - 1 - n <? 0) eqn:E1.
  - assert (rest = []) as -> by (apply zlen_zero; zl). cbn [app] in *.
    destruct (zlen del + 1 - 1 <=? 0) eqn:E2.
    + assert (del = []) as -> by (apply zlen_zero; zl). reflexivity.
    + slices. replace (slice (del ++ after) 0 0) with (Some (@nil byte))
        by (symmetry; apply (slice_pre [] (del ++ after)); auto).
      ifs. unwrap. finish.
  - destruct (zlen (rest ++ del) + 1 - 1 <=? zlen (rest ++ del) + 1 - 1 - n) eqn:E2.
    + assert (del = []) as -> by (apply zlen_zero; zl). rewrite app_nil_r in *. finish.
    + rewrite <- !app_assoc. slices. ifs. unwrap. finish.
Qed.

(** A negative count is ignored, ... *)
Theorem delete_backward_char_negative E b f n :
  int_arg E f n -> n <= 0 -> good b -> int_ok (point b - 1 - n) ->
  call E "delete-backward-char" [VNum f] b = Done (VStr []) b.
Proof.
  intros Hn H0 Hg Hi. call. unfold b_delete_backward_char. cbn. rewrite (int_arg_to_int E f n) by auto.
  apply int_arg_ok in Hn. destruct b as [c p m lm ls le]. cbn in *. exe. unwrap. ifs. reflexivity.
Qed.
(** ... except that the smallest integer overflows and deletes everything before point. *)
Theorem delete_backward_char_overflows E b before after :
  fits (content b) -> splits b (point b) before after ->
  call E "delete-backward-char" [VNum (f_of_Z min_int)] b = Done (VStr []) (with_text b after 1).
Proof.
  intros Hf [Hc Hp]. call. unfold b_delete_backward_char, opt_count.
  replace (f_to_int E (f_of_Z min_int)) with min_int by (vm_compute; reflexivity).
  destruct b as [c p m lm ls le]. cbn [content point] in *. subst. exe. unwrap.
  destruct (wrap_cases (zlen before + 1 - 1 - min_int)) as [[Hw' Hw]|[[Hw' Hw]|[Hw' Hw]]]; try (ints; zl; fail).
  rewrite Hw. ifs. destruct before as [|x before]; [reflexivity|]. ifs.
  replace (slice ((x :: before) ++ after) 0 0) with (Some (@nil byte))
    by (symmetry; apply (slice_pre [] ((x :: before) ++ after)); auto).
  slices. ifs. unwrap. reflexivity.
Qed.

Example delete_char_ex E :
  call E "delete-char" [VInt 3] (mkBuffer (bs "abcde") 2 1 [] 0 0)
  = Done (VStr []) (mkBuffer (bs "ae") 2 1 [] 0 0).
Proof.
  apply (delete_char_deletes E (mkBuffer (bs "abcde") 2 1 [] 0 0) [VInt 3] 3 (bs "a") (bs "bcd") (bs "e"));
    [apply count_lit; lia|..]; vm_compute; intuition discriminate.
Qed.
Example delete_char_negative_ex E :
  call E "delete-char" [VInt (-2)] (mkBuffer (bs "abcde") 4 1 [] 0 0)
  = Done (VStr []) (mkBuffer (bs "abcbcde") 4 1 [] 0 0) /\
  call E "delete-char" [VInt (-1)] (new_buffer (bs "abcde")) = Panic.
Proof. split; vm_compute; reflexivity. Qed.
Example delete_backward_char_ex E :
  call E "delete-backward-char" [VInt 10] (mkBuffer (bs "abcde") 4 1 [] 0 0)
  = Done (VStr []) (mkBuffer (bs "de") 1 1 [] 0 0).
Proof.
  apply (delete_backward_char_deletes E (mkBuffer (bs "abcde") 4 1 [] 0 0) [VInt 10] 10 [] (bs "abc") (bs "de"));
    [apply count_lit; lia|..]; vm_compute; intuition discriminate.
Qed.

(** ** Assumptions of every theorem above *)
Print Assumptions insert_splices.
Print Assumptions insert_outside.
Print Assumptions insert_too_long.
Print Assumptions goto_char_clamps.
Print Assumptions forward_char_clamps.
Print Assumptions backward_char_clamps.
Print Assumptions backward_char_stays_inside_refuted.
Print Assumptions forward_char_overflows.
Print Assumptions goto_char_huge_goes_to_start.
Print Assumptions search_forward_finds_first.
Print Assumptions search_forward_fails.
Print Assumptions first_occurrence_exists.
Print Assumptions search_backward_finds_last.
Print Assumptions search_backward_fails.
Print Assumptions last_occurrence_exists.
Print Assumptions search_backward_stuck.
Print Assumptions search_backward_goes_to_match_start_refuted.
Print Assumptions replace_match_replaces.
Print Assumptions search_forward_then_replace.
Print Assumptions search_backward_then_replace.
Print Assumptions replace_match_without_match.
Print Assumptions replace_match_out_of_range.
Print Assumptions replace_match_checks_text_refuted.
Print Assumptions delete_region_deletes.
Print Assumptions replace_region_replaces.
Print Assumptions region_bounds_reported.
Print Assumptions region_text.
Print Assumptions region_symmetric.
Print Assumptions delete_char_deletes.
Print Assumptions delete_char_negative_duplicates.
Print Assumptions delete_char_negative_crashes.
Print Assumptions delete_backward_char_deletes.
Print Assumptions delete_backward_char_negative.
Print Assumptions delete_backward_char_overflows.
