(** Integers up to 2^53 are represented exactly. *)
From Coq Require Import ZArith List Bool Lia ZifyBool.
From Verif Require Import Base Float Ext Values Buffer Spec Proofs_Base.
Import ListNotations.
Open Scope Z_scope.

Lemma digits_bounds p : 2 ^ (Zpos (digits2_pos p) - 1) <= Zpos p < 2 ^ Zpos (digits2_pos p).
Proof.
  induction p as [p IH|p IH|]; [| |cbn; lia]; cbn [digits2_pos]; rewrite Pos2Z.inj_succ.
  - replace (Z.succ (Zpos (digits2_pos p)) - 1) with (Z.succ (Zpos (digits2_pos p) - 1)) by lia.
    rewrite !Z.pow_succ_r by lia. lia.
  - replace (Z.succ (Zpos (digits2_pos p)) - 1) with (Z.succ (Zpos (digits2_pos p) - 1)) by lia.
    rewrite !Z.pow_succ_r by lia. lia.
Qed.
Lemma digits_unique p d : 0 < d -> 2 ^ (d - 1) <= Zpos p < 2 ^ d -> Zpos (digits2_pos p) = d.
Proof.
  intros Hd H. pose proof (digits_bounds p) as B. set (k := Zpos (digits2_pos p)) in *.
  assert (0 < k) by (unfold k; lia).
  destruct (Z.lt_trichotomy k d) as [L|[->|L]]; auto; exfalso.
  - pose proof (Z.pow_le_mono_r 2 k (d - 1) ltac:(lia) ltac:(lia)). lia.
  - pose proof (Z.pow_le_mono_r 2 d (k - 1) ltac:(lia) ltac:(lia)). lia.
Qed.
Lemma digits_le p n : 0 <= n -> Zpos p < 2 ^ n -> Zpos (digits2_pos p) <= n.
Proof.
  intros Hn H. pose proof (digits_bounds p). destruct (Z.le_gt_cases (Zpos (digits2_pos p)) n); auto.
  pose proof (Z.pow_le_mono_r 2 n (Zpos (digits2_pos p) - 1) ltac:(lia) ltac:(lia)). lia.
Qed.

Lemma shift_pos_spec k p : Zpos (shift_pos k p) = Zpos p * 2 ^ Zpos k.
Proof. rewrite shift_pos_correct, Z.pow_pos_fold. lia. Qed.

(** a positive mantissa of exactly 53 digits and a small exponent is left as it is *)
Lemma shr_fexp_id m e : Zpos (digits2_pos m) = 53 -> -1074 <= e ->
  shr_fexp prec emax (Zpos m) e loc_Exact = (shr_record_of_loc (Zpos m) loc_Exact, e).
Proof.
  intros H He. unfold shr_fexp, fexp, emin, prec, emax, shr. cbn [Zdigits2]. rewrite H.
  replace (Z.max (53 + e - 53) (3 - 1024 - 53) - e) with 0 by lia. reflexivity.
Qed.
Lemma round_aux_id s m e : Zpos (digits2_pos m) = 53 -> -1074 <= e <= 971 ->
  binary_round_aux prec emax s (Zpos m) e loc_Exact = S754_finite s m e.
Proof.
  intros H He. unfold binary_round_aux. rewrite shr_fexp_id by lia.
  cbn [shr_record_of_loc shr_m loc_of_shr_record round_nearest_even]. rewrite shr_fexp_id by lia.
  cbn [shr_record_of_loc shr_m]. unfold emax, prec. now replace (e <=? 1024 - 53) with true by lia.
Qed.

Lemma binary_round_small s p : Zpos p < 2 ^ 53 ->
  exists m e, binary_round prec emax s p 0 = S754_finite s m e /\ e <= 0 /\ Zpos m = Zpos p * 2 ^ (- e).
Proof.
  intros H. pose proof (digits_bounds p) as B. pose proof (digits_le p 53 ltac:(lia) H) as D.
  unfold binary_round. set (k := Zpos (digits2_pos p)) in *. assert (0 < k) by (unfold k; lia).
  replace (fexp prec emax (k + 0)) with (k - 53) by (unfold fexp, emin, prec, emax; lia).
  unfold shl_align. replace (k - 53 - 0) with (k - 53) by lia.
  destruct (k - 53) as [|q|q] eqn:E; [| lia |].
  - exists p, 0. rewrite round_aux_id by lia. split; auto. split; [lia|]. cbn. lia.
  - exists (shift_pos q p), (Zneg q). rewrite round_aux_id.
    + split; auto. split; [lia|]. rewrite shift_pos_spec. reflexivity.
    + apply digits_unique; [lia|]. rewrite shift_pos_spec.
      replace (Zpos q) with (53 - k) by lia.
      replace (53 - 1) with ((k - 1) + (53 - k)) by lia. rewrite Z.pow_add_r by lia.
      replace (2 ^ 53) with (2 ^ k * 2 ^ (53 - k)) by (rewrite <- Z.pow_add_r by lia; f_equal; lia).
      pose proof (Z.pow_pos_nonneg 2 (53 - k) ltac:(lia) ltac:(lia)). nia.
    + lia.
Qed.

Lemma f_of_Z_exact z : - 2 ^ 53 < z < 2 ^ 53 -> exactly (f_of_Z z) z.
Proof.
  intros H. unfold f_of_Z, binary_normalize. destruct z as [|p|p]; [reflexivity| |].
  - destruct (binary_round_small false p) as (m & e & -> & He & Hm); [lia|]. cbn [exactly].
    destruct (0 <=? e) eqn:E; [|lia]. assert (e = 0) as -> by lia. cbn in *. lia.
  - destruct (binary_round_small true p) as (m & e & -> & He & Hm); [lia|]. cbn [exactly].
    destruct (0 <=? e) eqn:E.
    + assert (e = 0) as -> by lia. cbn in *. lia.
    + change (Zneg p) with (- Zpos p). change (Zneg m) with (- Zpos m). rewrite Z.mul_opp_l, Hm. reflexivity.
Qed.

Lemma exactly_denotes f n : exactly f n -> denotes f n.
Proof.
  destruct f as [s| | |s m e]; cbn [denotes exactly]; auto. intros H. exists (Z.abs n). split; [lia|].
  destruct (0 <=? e) eqn:E.
  - pose proof (Z.pow_pos_nonneg 2 e ltac:(lia) ltac:(lia)) as P. destruct s.
    + change (Zneg m) with (- Zpos m) in H. assert (0 < Zpos m * 2 ^ e) by (apply Z.mul_pos_pos; lia).
      rewrite Z.mul_opp_l in H. lia.
    + assert (0 < Zpos m * 2 ^ e) by (apply Z.mul_pos_pos; lia). lia.
  - pose proof (Z.pow_pos_nonneg 2 (- e) ltac:(lia) ltac:(lia)). destruct s.
    + assert (n < 0) by nia. replace (Z.abs n) with (- n) by lia. split; [lia|]. change (Zneg m) with (- Zpos m) in H. nia.
    + assert (0 < n) by nia. replace (Z.abs n) with n by lia. split; [lia|]. nia.
Qed.
Lemma exactly_fun f n n' : exactly f n -> exactly f n' -> n = n'.
Proof.
  destruct f as [s| | |s m e]; cbn [exactly]; try tauto; try congruence.
  destruct (0 <=? e) eqn:E; [congruence|]. pose proof (Z.pow_pos_nonneg 2 (- e) ltac:(lia) ltac:(lia)). nia.
Qed.
Lemma f_of_Z_int_arg E z : - 2 ^ 53 < z < 2 ^ 53 -> int_arg E (f_of_Z z) z.
Proof.
  intros H. left. split; [apply exactly_denotes, f_of_Z_exact; auto|]. ints. lia.
Qed.
Lemma count_lit E z : - 2 ^ 53 < z < 2 ^ 53 -> count_arg E [VInt z] z.
Proof. intros H. right. exists (f_of_Z z). split; [reflexivity|]. now apply f_of_Z_int_arg. Qed.
