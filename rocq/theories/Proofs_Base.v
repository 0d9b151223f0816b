(** Lemmas about byte strings, slices and wrap-around integers. *)
From Coq Require Import ZArith NArith List Bool Lia Strings.Byte ZifyBool.
From Verif Require Import Base Float Ext Values Buffer Builtins Eval Spec.
Import ListNotations.
Open Scope Z_scope.

(** ** lengths *)
Lemma zlen_nonneg {A} (l : list A) : 0 <= zlen l.
Proof. unfold zlen. lia. Qed.
Lemma zlen_nil {A} : zlen (@nil A) = 0.
Proof. reflexivity. Qed.
Lemma zlen_cons {A} (x : A) l : zlen (x :: l) = 1 + zlen l.
Proof. unfold zlen. cbn [length]. lia. Qed.
Lemma zlen_app {A} (l m : list A) : zlen (l ++ m) = zlen l + zlen m.
Proof. unfold zlen. rewrite app_length. lia. Qed.
Lemma zlen_rev {A} (l : list A) : zlen (rev l) = zlen l.
Proof. unfold zlen. now rewrite rev_length. Qed.
Lemma zlen_map {A B} (f : A -> B) l : zlen (map f l) = zlen l.
Proof. unfold zlen. now rewrite map_length. Qed.
Lemma zlen_zero {A} (l : list A) : zlen l = 0 -> l = [].
Proof. destruct l; auto. rewrite zlen_cons. pose proof (zlen_nonneg l). lia. Qed.
Lemma zlen_firstn {A} n (l : list A) : zlen (firstn n l) = Z.min (Z.of_nat n) (zlen l).
Proof. unfold zlen. rewrite firstn_length. lia. Qed.
Lemma zlen_skipn {A} n (l : list A) : zlen (skipn n l) = Z.max 0 (zlen l - Z.of_nat n).
Proof. unfold zlen. rewrite skipn_length. lia. Qed.

#[export] Hint Rewrite @zlen_app @zlen_cons @zlen_nil @zlen_rev @zlen_firstn @zlen_skipn : zlen.

Ltac pose_len l :=
  lazymatch goal with
  | H : 0 <= zlen l |- _ => fail
  | _ => pose proof (zlen_nonneg l)
  end.
Ltac lens :=
  autorewrite with zlen in *;
  repeat match goal with
         | |- context [zlen ?l] => pose_len l
         | H : context [zlen ?l] |- _ => pose_len l
         end.
Ltac zl := lens; try lia.

(** ** bytes and strings *)
Lemma byte_eqb_eq a b : Byte.eqb a b = true <-> a = b.
Proof. split. apply byte_dec_bl. apply byte_dec_lb. Qed.
Lemma byte_eqb_refl a : Byte.eqb a a = true.
Proof. now apply byte_eqb_eq. Qed.
Lemma byte_eqb_neq a b : Byte.eqb a b = false <-> a <> b.
Proof. rewrite <- not_true_iff_false. now rewrite byte_eqb_eq. Qed.

Lemma str_eqb_eq a b : str_eqb a b = true <-> a = b.
Proof.
  revert b. induction a as [|x a IH]; intros [|y b]; cbn; try (split; congruence).
  rewrite andb_true_iff, byte_eqb_eq, IH. split; [intros []; congruence | intros H; now inversion H].
Qed.
Lemma str_eqb_refl a : str_eqb a a = true.
Proof. now apply str_eqb_eq. Qed.
Lemma str_eqb_neq a b : str_eqb a b = false <-> a <> b.
Proof. rewrite <- not_true_iff_false. now rewrite str_eqb_eq. Qed.
Lemma str_eq_dec (a b : str) : {a = b} + {a <> b}.
Proof.
  destruct (str_eqb a b) eqn:H; [left; now apply str_eqb_eq | right; now apply str_eqb_neq].
Qed.

Lemma is_nl_true c : is_nl c = true <-> c = nl.
Proof. apply byte_eqb_eq. Qed.

(** ** wrap *)
Lemma wrap_id z : int_ok z -> wrap z = z.
Proof.
  unfold int_ok, min_int, max_int, wrap. intros H.
  rewrite Z.mod_small; unfold two63, two64 in *; lia.
Qed.
Lemma wrap_ok z : int_ok (wrap z).
Proof.
  unfold int_ok, min_int, max_int, wrap.
  pose proof (Z.mod_pos_bound (z + two63) two64). unfold two63, two64 in *. lia.
Qed.
Lemma wrap_cases z : - two64 <= z < two64 ->
  (int_ok z /\ wrap z = z) \/ (z > max_int /\ wrap z = z - two64) \/ (z < min_int /\ wrap z = z + two64).
Proof.
  intros Hz. unfold int_ok, min_int, max_int.
  destruct (Z_lt_le_dec z (- two63)).
  - right. right. split; [lia|]. unfold wrap.
    rewrite <- (Z_mod_plus_full _ 1), Z.mod_small; unfold two63, two64 in *; lia.
  - destruct (Z_lt_le_dec (two63 - 1) z).
    + right. left. split; [lia|]. unfold wrap.
      rewrite <- (Z_mod_plus_full _ (-1)), Z.mod_small; unfold two63, two64 in *; lia.
    + left. split; [lia|]. apply wrap_id. unfold int_ok, min_int, max_int. lia.
Qed.

Ltac ints := unfold good, fits, valid_pos, clamp, int_ok, min_int, max_int, two63, two64, max_alloc in *; cbn [content point mark last_match last_start last_end] in *.
(** remove the wraps whose argument is in range *)
Ltac unwrap :=
  repeat match goal with
         | |- context [wrap ?z] => rewrite (wrap_id z) by (ints; zl)
         | H : context [wrap ?z] |- _ => rewrite (wrap_id z) in H by (ints; zl)
         end.

(** ** slices *)
Lemma slice_some s i j t : slice s i j = Some t <->
  exists u v, s = u ++ t ++ v /\ i = zlen u /\ j = zlen u + zlen t.
Proof.
  unfold slice. split.
  - destruct ((0 <=? i) && (i <=? j) && (j <=? zlen s)) eqn:H; [|discriminate].
    intros E. injection E as <-.
    exists (firstn (Z.to_nat i) s), (skipn (Z.to_nat (j - i)) (skipn (Z.to_nat i) s)).
    rewrite !firstn_skipn. split; [reflexivity|]. zl.
  - intros (u & v & -> & -> & ->).
    replace ((0 <=? zlen u) && (zlen u <=? zlen u + zlen t) && (zlen u + zlen t <=? zlen (u ++ t ++ v)))
      with true by (symmetry; zl).
    f_equal. replace (Z.to_nat (zlen u)) with (length u) by (unfold zlen; lia).
    rewrite skipn_app, skipn_all, Nat.sub_diag. cbn.
    replace (Z.to_nat (zlen u + zlen t - zlen u)) with (length t) by (unfold zlen; lia).
    rewrite firstn_app, firstn_all, Nat.sub_diag. cbn. now rewrite app_nil_r.
Qed.
Lemma slice_pre u v i : i = zlen u -> slice (u ++ v) 0 i = Some u.
Proof. intros ->. apply slice_some. exists [], v. auto. Qed.
Lemma slice_suf u v i j : i = zlen u -> j = zlen (u ++ v) -> slice (u ++ v) i j = Some v.
Proof. intros -> ->. apply slice_some. exists u, []. rewrite app_nil_r. zl. auto. Qed.
Lemma slice_mid u t v i j : i = zlen u -> j = zlen u + zlen t -> slice (u ++ t ++ v) i j = Some t.
Proof. intros -> ->. apply slice_some. exists u, v. auto. Qed.
Lemma slice_ok s i j : 0 <= i <= j -> j <= zlen s -> exists t, slice s i j = Some t.
Proof. intros. unfold slice. replace ((0 <=? i) && (i <=? j) && (j <=? zlen s)) with true by lia. eauto. Qed.
Lemma slice_none s i j : slice s i j = None <-> ~ (0 <= i <= j /\ j <= zlen s).
Proof.
  unfold slice. destruct ((0 <=? i) && (i <=? j) && (j <=? zlen s)) eqn:H; split; try discriminate; try lia.
  reflexivity.
Qed.

(** every position splits a text *)
Lemma split_at (s : str) i : 0 <= i <= zlen s -> exists u v, s = u ++ v /\ i = zlen u.
Proof.
  intros H. exists (firstn (Z.to_nat i) s), (skipn (Z.to_nat i) s).
  rewrite firstn_skipn. split; [reflexivity|]. zl.
Qed.
Lemma split_at2 (s : str) i j : 0 <= i <= j -> j <= zlen s ->
  exists u t v, s = u ++ t ++ v /\ i = zlen u /\ j = zlen u + zlen t.
Proof.
  intros. destruct (slice_ok s i j) as [t Ht]; auto.
  apply slice_some in Ht. destruct Ht as (u & v & -> & -> & ->). exists u, t, v. auto.
Qed.

Lemma app_inv_len (u v u' v' : str) : u ++ v = u' ++ v' -> zlen u = zlen u' -> u = u' /\ v = v'.
Proof.
  revert u'. induction u as [|x u IH]; intros [|y u'] E L; cbn in E; zl; auto.
  injection E as -> E. destruct (IH u' E) as [-> ->]; auto. lia.
Qed.
(** of two splits of one text, one is inside the other *)
Lemma app_split_le (u v u' v' : str) : u ++ v = u' ++ v' -> zlen u <= zlen u' ->
  exists w, u' = u ++ w /\ v = w ++ v'.
Proof.
  revert u'. induction u as [|x u IH]; intros u' E L.
  - exists u'. auto.
  - destruct u' as [|y u']; zl. cbn in E. injection E as -> E.
    destruct (IH u' E) as (w & -> & ->); [lia|]. exists w. auto.
Qed.

(** ** indexing *)
Lemma index_some s i c : index s i = Some c <-> exists u v, s = u ++ c :: v /\ i = zlen u.
Proof.
  unfold index. split.
  - destruct (0 <=? i) eqn:H; [|discriminate]. intros E.
    apply nth_error_split in E. destruct E as (u & v & -> & E). exists u, v. split; auto. unfold zlen. lia.
  - intros (u & v & -> & ->). pose proof (zlen_nonneg u).
    replace (0 <=? zlen u) with true by lia. unfold zlen. rewrite Nat2Z.id.
    rewrite nth_error_app2, Nat.sub_diag; auto.
Qed.
Lemma index_ok s i : 0 <= i < zlen s -> exists c, index s i = Some c.
Proof.
  intros. destruct (split_at s i) as (u & v & -> & ->); [lia|].
  destruct v as [|c v]; [zl|]. exists c. apply index_some. eauto.
Qed.
Lemma index_none s i : index s i = None <-> ~ (0 <= i < zlen s).
Proof.
  split.
  - intros H H'. destruct (index_ok s i H') as [c Hc]. congruence.
  - intros H. destruct (index s i) eqn:E; auto. apply index_some in E.
    destruct E as (u & v & -> & ->). exfalso. apply H. zl.
Qed.

(** ** prefixes and occurrences *)
Lemma has_prefix_iff s p : has_prefix s p = true <-> exists v, s = p ++ v.
Proof.
  revert s. induction p as [|x p IH]; intros s.
  - destruct s; cbn; (split; [intros _; eexists; reflexivity | auto]).
  - destruct s as [|y s].
    + cbn; split; [discriminate|]. intros [v E]. discriminate.
    + cbn; rewrite andb_true_iff, byte_eqb_eq, IH. split.
      * intros [-> [v ->]]. now exists v.
      * intros [v E]. injection E as -> ->. eauto.
Qed.
Lemma has_suffix_iff s p : has_suffix s p = true <-> exists u, s = u ++ p.
Proof.
  unfold has_suffix. rewrite has_prefix_iff. split.
  - intros [v E]. exists (rev v). rewrite <- (rev_involutive s), E, rev_app_distr, rev_involutive. reflexivity.
  - intros [u ->]. exists (rev u). now rewrite rev_app_distr.
Qed.

Lemma occurs_0 s p : occurs_at s p 0 <-> has_prefix s p = true.
Proof.
  rewrite has_prefix_iff. unfold occurs_at. split.
  - intros (u & v & -> & E). symmetry in E. apply zlen_zero in E. subst. cbn. eauto.
  - intros (v & ->). exists [], v. auto.
Qed.
Lemma occurs_S c s p i : 0 < i -> occurs_at (c :: s) p i <-> occurs_at s p (i - 1).
Proof.
  intros Hi. unfold occurs_at. split.
  - intros (u & v & E & ->). destruct u as [|x u]; [zl|]. cbn in E. injection E as -> ->.
    exists u, v. split; auto. zl.
  - intros (u & v & -> & E). exists (c :: u), v. split; auto. zl.
Qed.
Lemma occurs_bound s p i : occurs_at s p i -> 0 <= i /\ i + zlen p <= zlen s.
Proof. intros (u & v & -> & ->). zl. Qed.

Lemma str_index_from_spec s p k :
  (exists i, str_index_from s p k = k + i /\ occurs_at s p i /\ forall j, 0 <= j < i -> ~ occurs_at s p j)
  \/ (str_index_from s p k = -1 /\ forall j, ~ occurs_at s p j).
Proof.
  revert k. induction s as [|c s IH]; intros k; cbn [str_index_from];
    destruct (has_prefix _ p) eqn:Hp.
  - left. exists 0. split; [lia|]. split; [now apply occurs_0|]. intros; lia.
  - right. split; auto. intros j Hj. pose proof (occurs_bound _ _ _ Hj).
    assert (j = 0) as -> by zl. apply occurs_0 in Hj. congruence.
  - left. exists 0. split; [lia|]. split; [now apply occurs_0|]. intros; lia.
  - destruct (IH (k + 1)) as [(i & E & Ho & Hm) | [E Hn]].
    + left. exists (i + 1). pose proof (occurs_bound _ _ _ Ho). split; [lia|]. split.
      * apply occurs_S; [lia|]. now replace (i + 1 - 1) with i by lia.
      * intros j Hj Hj'. destruct (Z.eq_dec j 0) as [->|].
        -- apply occurs_0 in Hj'. congruence.
        -- apply occurs_S in Hj'; [|lia]. apply (Hm (j - 1)); auto. lia.
    + right. split; auto. intros j Hj. pose proof (occurs_bound _ _ _ Hj).
      destruct (Z.eq_dec j 0) as [->|].
      * apply occurs_0 in Hj. congruence.
      * apply occurs_S in Hj; [|lia]. now apply (Hn (j - 1)).
Qed.
Lemma str_index_spec s p :
  (occurs_at s p (str_index s p) /\ forall j, 0 <= j < str_index s p -> ~ occurs_at s p j)
  \/ (str_index s p = -1 /\ forall j, ~ occurs_at s p j).
Proof.
  unfold str_index. destruct (str_index_from_spec s p 0) as [(i & -> & ? & ?)|]; auto.
Qed.

Lemma str_last_index_from_spec s p k best :
  (exists i, str_last_index_from s p k best = k + i /\ occurs_at s p i /\ forall j, i < j -> ~ occurs_at s p j)
  \/ (str_last_index_from s p k best = best /\ forall j, ~ occurs_at s p j).
Proof.
  revert k best. induction s as [|c s IH]; intros k best; cbn [str_last_index_from].
  - destruct (has_prefix [] p) eqn:Hp.
    + left. exists 0. split; [lia|]. split; [now apply occurs_0|]. intros j Hj Ho.
      pose proof (occurs_bound _ _ _ Ho). zl.
    + right. split; auto. intros j Hj. pose proof (occurs_bound _ _ _ Hj).
      assert (j = 0) as -> by zl. apply occurs_0 in Hj. congruence.
  - destruct (IH (k + 1) (if has_prefix (c :: s) p then k else best)) as [(i & E & Ho & Hm) | [E Hn]].
    + left. exists (i + 1). pose proof (occurs_bound _ _ _ Ho). split; [lia|]. split.
      * apply occurs_S; [lia|]. now replace (i + 1 - 1) with i by lia.
      * intros j Hj Hj'. apply occurs_S in Hj'; [|lia]. apply (Hm (j - 1)); auto. lia.
    + rewrite E. destruct (has_prefix (c :: s) p) eqn:Hp.
      * left. exists 0. split; [lia|]. split; [now apply occurs_0|].
        intros j Hj Hj'. apply occurs_S in Hj'; [|lia]. now apply (Hn (j - 1)).
      * right. split; auto. intros j Hj. pose proof (occurs_bound _ _ _ Hj).
        destruct (Z.eq_dec j 0) as [->|].
        -- apply occurs_0 in Hj. congruence.
        -- apply occurs_S in Hj; [|lia]. now apply (Hn (j - 1)).
Qed.
Lemma str_last_index_spec s p :
  (occurs_at s p (str_last_index s p) /\ forall j, str_last_index s p < j -> ~ occurs_at s p j)
  \/ (str_last_index s p = -1 /\ forall j, ~ occurs_at s p j).
Proof.
  unfold str_last_index. destruct (str_last_index_from_spec s p 0 (-1)) as [(i & -> & ? & ?)|]; auto.
Qed.

(** ** numbers *)
Lemma denotes_trunc f n : denotes f n <-> f_trunc f = Some n.
Proof.
  destruct f as [s| | |s m e]; cbn [denotes f_trunc]; try (split; [easy|discriminate]).
  - split; congruence.
  - split.
    + intros (a & Ha & -> & H). destruct (0 <=? e) eqn:He.
      * subst a. reflexivity.
      * replace a with (Zpos m / 2 ^ (- e)); [reflexivity|].
        symmetry. apply Z.div_unique with (r := Zpos m - 2 ^ (- e) * a); lia.
    + intros H. injection H as <-. destruct (0 <=? e) eqn:He.
      * exists (Zpos m * 2 ^ e). split; [|auto]. apply Z.mul_nonneg_nonneg; [lia|]. apply Z.pow_nonneg. lia.
      * assert (0 < 2 ^ (- e)) by (apply Z.pow_pos_nonneg; lia).
        exists (Zpos m / 2 ^ (- e)). split; [apply Z.div_pos; lia|]. split; auto.
        pose proof (Z.div_mod (Zpos m) (2 ^ (- e))). pose proof (Z.mod_pos_bound (Zpos m) (2 ^ (- e))). nia.
Qed.
Lemma int_arg_to_int E f n : int_arg E f n -> f_to_int E f = n.
Proof.
  unfold f_to_int. intros [[H Hn]|[H ->]].
  - apply denotes_trunc in H. rewrite H.
    now replace ((min_int <=? n) && (n <=? max_int)) with true by (ints; lia).
  - destruct (f_trunc f) as [z|] eqn:T; [|reflexivity]. apply denotes_trunc in T. apply H in T.
    now replace ((min_int <=? z) && (z <=? max_int)) with false by (ints; lia).
Qed.
Lemma int_arg_exists E f : int_arg E f (f_to_int E f).
Proof.
  unfold f_to_int. destruct (f_trunc f) as [z|] eqn:T.
  - destruct ((min_int <=? z) && (z <=? max_int)) eqn:R.
    + left. apply denotes_trunc in T. split; auto. unfold int_ok. lia.
    + right. split; auto. intros z' D. apply denotes_trunc in D. rewrite D in T. injection T as ->. unfold int_ok. lia.
  - right. split; auto. intros z' D. apply denotes_trunc in D. congruence.
Qed.
Lemma int_arg_ok E f n : int_arg E f n -> int_ok n.
Proof. intros [[_ H]| [_ ->]]; auto. apply wrap_ok. Qed.
Lemma count_arg_ok E args n : count_arg E args n -> int_ok n.
Proof. intros [[_ ->]|(f & _ & H)]; [ints; lia|]. now apply int_arg_ok in H. Qed.
Lemma f_to_int_ok E f : int_ok (f_to_int E f).
Proof.
  unfold f_to_int. destruct (f_trunc f) as [z|]; [|apply wrap_ok].
  destruct ((min_int <=? z) && (z <=? max_int)) eqn:H; [|apply wrap_ok]. unfold int_ok. lia.
Qed.
