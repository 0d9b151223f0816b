(** C27: equality of values. *)
From Coq Require Import ZArith NArith List Bool Lia Strings.Byte.
From Verif Require Import Base Float Ext Utf8 Strconv Values Buffer Spec Proofs_Base Proofs_Float Proofs_Number.
Import ListNotations.
Open Scope Z_scope.

(** ** C27 *)
Lemma equal_list l m : equal_v (VList l) (VList m) = forallb (fun p => equal_v (fst p) (snd p)) (combine l m)
  && Nat.eqb (length l) (length m).
Proof.
  cbn [equal_v]. rewrite andb_comm. f_equal. revert m.
  induction l as [|x l IH]; destruct m as [|y m]; auto. cbn [combine forallb fst snd]. now rewrite IH.
Qed.
Lemma equal_cons x l y m : equal_v (VList (x :: l)) (VList (y :: m)) = equal_v x y && equal_v (VList l) (VList m).
Proof. rewrite !equal_list. cbn. now rewrite andb_assoc. Qed.

(** Equal holds exactly between values of the same shape with the same names, strings and
    numbers *)
Theorem equal_is_same a : forall b, float64s a -> float64s b -> equal_v a b = true <-> same_value a b.
Proof.
  induction a as [n|s|f|l IH] using value_ind'; destruct b as [n'|s'|f'|l']; intros Ha Hb;
    try (cbn; split; [discriminate|intros X; inversion X]); cbn [equal_v].
  - rewrite str_eqb_eq. split; [intros ->; constructor|intros X; now inversion X].
  - rewrite str_eqb_eq. split; [intros ->; constructor|intros X; now inversion X].
  - rewrite (f_eqb_same f f' Ha Hb). split; [now constructor|intros X; now inversion X].
  - fold equal_v. change (equal_v (VList l) (VList l') = true <-> same_value (VList l) (VList l')).
    revert l' Hb. induction IH as [|x l Hx _ IHl]; intros [|y m] Hb.
    + split; [constructor; constructor|auto].
    + split; [discriminate|intros X; inversion X as [| | |? ? Y]; inversion Y].
    + split; [discriminate|intros X; inversion X as [| | |? ? Y]; inversion Y].
    + rewrite equal_cons, andb_true_iff. destruct Ha as [Hax Hal], Hb as [Hby Hbm].
      rewrite (Hx y Hax Hby), (IHl Hal m Hbm). split.
      * intros [X Y]. constructor. constructor; auto. now inversion Y.
      * intros X. inversion X as [| | |? ? Y]; inversion Y; subst. split; auto. now constructor.
Qed.

(** on optional values: nil equals only nil *)
Theorem equal_nil v : equal None None = true /\ equal None (Some v) = false /\ equal (Some v) None = false.
Proof. repeat split. Qed.

Lemma f_eqb_sym x y : f_eqb x y = f_eqb y x.
Proof.
  destruct x as [s|s| |s m e], y as [s'|s'| |s' m' e']; try (destruct s; reflexivity); try (destruct s'; reflexivity);
    try (destruct s, s'; reflexivity); auto.
  apply eq_true_iff_eq. rewrite !f_eqb_finite. intuition congruence.
Qed.
Lemma f_eqb_trans x y z : f_eqb x y = true -> f_eqb y z = true -> f_eqb x z = true.
Proof.
  destruct x as [s|s| |s m e], y as [s'|s'| |s' m' e']; try (destruct s; discriminate); try (destruct s'; discriminate);
    try discriminate; try (destruct s, s'; discriminate).
  - destruct z as [?|[]| |[] ? ?]; auto.
  - destruct z as [?|[]| |[] ? ?], s, s'; auto.
  - rewrite f_eqb_finite. intros (-> & -> & ->). auto.
Qed.
Lemma f_eqb_refl x : f_eqb x x = true <-> x <> S754_nan.
Proof.
  destruct x as [s|s| |s m e]; cbn.
  - split; congruence. - destruct s; split; congruence. - split; congruence.
  - split; [congruence|]. intros _. now apply f_eqb_finite.
Qed.

Theorem equal_symmetric a b : equal a b = equal b a.
Proof.
  destruct a as [a|], b as [b|]; auto. cbn. revert b.
  induction a as [n|s|f|l IH] using value_ind'; destruct b as [n'|s'|f'|l']; auto.
  - apply eq_true_iff_eq. cbn. rewrite !str_eqb_eq. intuition congruence.
  - apply eq_true_iff_eq. cbn. rewrite !str_eqb_eq. intuition congruence.
  - apply f_eqb_sym.
  - revert l'. induction IH as [|x l Hx _ IHl]; intros [|y m]; auto. rewrite !equal_cons, Hx. f_equal. apply IHl.
Qed.
Theorem equal_transitive a b c : equal a b = true -> equal b c = true -> equal a c = true.
Proof.
  destruct a as [a|], b as [b|], c as [c|]; try discriminate; auto. cbn. revert b c.
  induction a as [n|s|f|l IH] using value_ind'; destruct b as [n'|s'|f'|l']; try discriminate;
    destruct c as [n2|s2|f2|l2]; try discriminate.
  - cbn. rewrite !str_eqb_eq. congruence.
  - cbn. rewrite !str_eqb_eq. congruence.
  - apply f_eqb_trans.
  - revert l' l2. induction IH as [|x l Hx _ IHl]; intros [|y m] [|z k]; try discriminate; auto.
    rewrite !equal_cons, !andb_true_iff. intros [X Y] [X' Y']. split; eauto.
Qed.
(** reflexive exactly on values without NaN *)
Theorem equal_reflexive a : equal (Some a) (Some a) = true <-> no_nan a.
Proof.
  cbn. induction a as [n|s|f|l IH] using value_ind'.
  - cbn. rewrite str_eqb_eq. unfold no_nan. cbn. tauto.
  - cbn. rewrite str_eqb_eq. unfold no_nan. cbn. tauto.
  - apply f_eqb_refl.
  - induction IH as [|x l Hx _ IHl]; [unfold no_nan; cbn; tauto|].
    rewrite equal_cons, andb_true_iff, Hx, IHl. unfold no_nan. cbn. tauto.
Qed.
(** so Equal is not reflexive, and it identifies numbers that print differently *)
Theorem equal_reflexive_everywhere_refuted : ~ forall a, equal (Some a) (Some a) = true.
Proof. intros H. specialize (H (VNum S754_nan)). discriminate. Qed.
Theorem equal_values_print_alike_refuted :
  ~ forall E a b, equal (Some a) (Some b) = true -> show E a = show E b.
Proof.
  intros H. set (E := {| re_error := fun _ => None; re_find := fun _ _ => None; re_find_all := fun _ _ => [];
    re_replace_all := fun _ s _ => s; uc_upper := fun r => r; uc_lower := fun r => r; uc_print := fun _ => true;
    f2i_oob := fun _ => 0 |}).
  specialize (H E (VNum (S754_zero false)) (VNum (S754_zero true)) eq_refl). discriminate H.
Qed.

Example equal_example :
  equal (Some (VList [VSym (bs "f"); VInt 3; VList [VStr (bs "x")]]))
        (Some (VList [VSym (bs "f"); VInt 3; VList [VStr (bs "x")]])) = true
  /\ equal (Some (VList [VSym (bs "f"); VInt 3])) (Some (VList [VStr (bs "f"); VInt 3])) = false
  /\ equal (Some (VList [VInt 3])) (Some (VList [VInt 3; VInt 4])) = false.
Proof. repeat split. Qed.
Example equal_is_same_example : float64s (VList [VSym (bs "f"); VInt 3; VNum (S754_zero true)]) /\
  same_value (VList [VSym (bs "f"); VInt 3; VNum (S754_zero true)]) (VList [VSym (bs "f"); VInt 3; VNum (S754_zero false)]).
Proof. split; [repeat split|]. repeat constructor. Qed.

(** ** Assumptions of every theorem above *)
Print Assumptions equal_is_same.
Print Assumptions equal_nil.
Print Assumptions equal_symmetric.
Print Assumptions equal_transitive.
Print Assumptions equal_reflexive.
Print Assumptions equal_reflexive_everywhere_refuted.
Print Assumptions equal_values_print_alike_refuted.
