(** C69: the text of a number (edlisp/number.go:37-42, Number.String), which is what scripts
    print and what the writers write: exact for integers, otherwise the shortest decimal
    that reads back. *)
From Coq Require Import ZArith NArith QArith Qabs Qpower List Bool Lia Lqa ZifyBool Strings.Byte.
From Verif Require Import Base Float Ext Utf8 Strconv Values Buffer Builtins Eval Parser RefExt Spec SpecNumber SpecNumText
  Proofs_Base Proofs_Float Proofs_Number Proofs_Round Proofs_Nearest Proofs_Unique Proofs_Numeral Proofs_Shortest Proofs_Shortest2 Prop_Numbers.
Import ListNotations.
Open Scope Z_scope.

(** ** C69 *)

Lemma exact_rounds s m e : f64_valid (S754_finite s m e) = true -> rounds s (inject_Z (Zpos m) * p2 e) (Some (S754_finite s m e)).
Proof.
  intros V. apply (near_rounds s m e); [auto|]. set (v := (inject_Z (Zpos m) * p2 e)%Q).
  assert (V0 : (0 < v)%Q) by (unfold v; pose proof (p2_pos e); assert (0 < inject_Z (Zpos m))%Q by reflexivity; nra).
  clearbody v. setoid_replace (v - v)%Q with 0%Q by ring. change (Qabs 0) with 0%Q. rewrite Qmult_0_r. auto.
Qed.
Lemma inj_eq a b : (inject_Z a == inject_Z b)%Q -> a = b.
Proof. unfold Qeq. cbn. lia. Qed.
Lemma integral_trunc s m e z : f64_valid (S754_finite s m e) = true -> (q_value (S754_finite s m e) == inject_Z z)%Q ->
  f_trunc (S754_finite s m e) = Some z /\ (if s then - z else z) > 0 /\ (inject_Z (Zpos m) * p2 e == inject_Z (Z.abs z))%Q.
Proof.
  intros V H. rewrite finite_value in H. set (a := if s then - z else z).
  assert (E : (inject_Z (Zpos m) * p2 e == inject_Z a)%Q).
  { rewrite <- (signed_invol s (inject_Z (Zpos m) * p2 e)), (signed_comp s _ _ H). unfold a. destruct s; cbn [signed]; [now rewrite inject_Z_opp|reflexivity]. }
  assert (A0 : 0 < a).
  { rewrite Zlt_Qlt. rewrite <- E. pose proof (p2_pos e). assert (0 < inject_Z (Zpos m))%Q by reflexivity. change (inject_Z 0) with 0%Q. nra. }
  assert (Za : z = if s then - a else a) by (unfold a; destruct s; lia).
  split; [|split; [lia|rewrite E; replace (Z.abs z) with a by (destruct s; lia); reflexivity]].
  rewrite Za. cbn [f_trunc]. cbv zeta. replace (if 0 <=? e then Zpos m * 2 ^ e else Zpos m / 2 ^ (- e)) with a; [reflexivity|].
  destruct (0 <=? e) eqn:C.
  - apply inj_eq. rewrite inj_mul, <- p2_int by lia. now symmetry.
  - assert (M : Zpos m = a * 2 ^ (- e)).
    { apply inj_eq. rewrite inj_mul, <- E, <- p2_int by lia. rewrite <- Qmult_assoc, <- p2_add. replace (e + - e) with 0 by lia. change (p2 0) with 1%Q. ring. }
    rewrite M, Z.div_mul; [reflexivity|]. apply Z.pow_nonzero; lia.
Qed.
(** an integer in the range of int is written exactly, in plain decimal *)
Theorem integer_text E f z : f64_valid f = true -> is_finite f -> f <> S754_zero true -> (q_value f == inject_Z z)%Q ->
  min_int <= z <= max_int -> int_text (num_string E f) z.
Proof.
  intros V F N H R. destruct f as [s|s| |s m e]; try (destruct F; fail).
  - destruct s; [congruence|]. cbn [q_value] in H. apply (inj_eq 0) in H. subst z. apply (utoa_text 0).
  - destruct (integral_trunc s m e z V H) as (T & S & A). unfold num_string.
    assert (I : f_to_int E (S754_finite s m e) = z) by (unfold f_to_int; rewrite T; replace ((min_int <=? z) && (z <=? max_int)) with true by lia; reflexivity).
    rewrite I. assert (X : f_of_Z z = S754_finite s m e).
    { assert (B : Z.abs z < 2 ^ 1000).
      { apply (Z.le_lt_trans _ (2 ^ 63)); [ints; lia|reflexivity]. }
      pose proof (integer_nearest z B) as R1. pose proof (exact_rounds s m e V) as R2. apply (rounds_comp _ _ _ _ A) in R2.
      replace (z <? 0) with s in R1 by (destruct s; lia).
      pose proof (rounds_same s _ _ _ R1 R2) as Y. assert (Some (f_of_Z z) = Some (S754_finite s m e)); [|congruence].
      apply Y; intros g G; injection G as <-; [apply f_of_Z_valid|auto]. }
    rewrite X. replace (f_eqb (S754_finite s m e) (S754_finite s m e)) with true; [rewrite T; apply itoa_text|].
    symmetry. now apply f_eqb_finite.
Qed.
(** every other finite number is written as the shortest decimal that reads back *)
Theorem fraction_shortest E f : f64_valid f = true -> is_finite f ->
  (forall z, min_int <= z <= max_int -> ~ (q_value f == inject_Z z)%Q) -> ~ (q_value f == inject_Z (2 ^ 63))%Q ->
  shortest f (num_string E f).
Proof.
  intros V F N N63. destruct f as [s|s| |s m e]; try (destruct F; fail).
  - exfalso. apply (N 0); [ints; lia|reflexivity].
  - unfold num_string. destruct (f_eqb (S754_finite s m e) (f_of_Z (f_to_int E (S754_finite s m e)))) eqn:Q; [|now apply fmt_g_shortest].
    exfalso. assert (Hz : int_ok (f_to_int E (S754_finite s m e))).
    { unfold f_to_int. destruct (f_trunc _) as [z|]; [|apply wrap_ok].
      destruct ((min_int <=? z) && (z <=? max_int)) eqn:R; [unfold int_ok; lia|apply wrap_ok]. }
    set (z := f_to_int E (S754_finite s m e)) in *. clearbody z.
    (* f is the conversion of z *)
    assert (Ef : f_of_Z z = S754_finite s m e /\ (e < 0 -> exists y, y * 2 ^ (- e) = Zpos m)).
    { unfold f_of_Z, binary_normalize in *. destruct z as [|p|p]; [destruct s; discriminate|..].
      - destruct (binary_round_int false p) as (m' & e' & [[X Y]|X]); [ints; lia| |rewrite X in Q; destruct s; discriminate].
        rewrite X in *. apply f_eqb_finite in Q as (-> & <- & <-). split; [reflexivity|]. destruct Y as [[_ Y]|Y]; [eauto|lia].
      - destruct (binary_round_int true p) as (m' & e' & [[X Y]|X]); [ints; lia| |rewrite X in Q; destruct s; discriminate].
        rewrite X in *. apply f_eqb_finite in Q as (-> & <- & <-). split; [reflexivity|]. destruct Y as [[_ Y]|Y]; [eauto|lia]. }
    destruct Ef as [Ef Hi]. assert (Int : exists y, (q_value (S754_finite s m e) == inject_Z y)%Q).
    { destruct (valid_mag _ _ _ V) as [_ He].
      assert (P : exists y, (inject_Z (Zpos m) * p2 e == inject_Z y)%Q).
      { destruct (Z.lt_ge_cases e 0) as [L|L].
        - destruct (Hi L) as [y Hy]. exists y. rewrite <- Hy, inj_mul, <- p2_int by lia. rewrite <- Qmult_assoc, <- p2_add. replace (- e + e) with 0 by lia. change (p2 0) with 1%Q. ring.
        - exists (Zpos m * 2 ^ e). rewrite inj_mul, <- p2_int by lia. reflexivity. }
      destruct P as [y Hy]. exists (if s then - y else y). rewrite finite_value, (signed_comp s _ _ Hy). destruct s; cbn [signed]; [now rewrite inject_Z_opp|reflexivity]. }
    destruct Int as [y Hy].
    assert (B : Z.abs z < 2 ^ 1000) by (apply (Z.le_lt_trans _ (2 ^ 63)); [ints; lia|reflexivity]).
    destruct (integer_nearest z B) as (_ & (_ & _ & Near) & _). rewrite Ef in Near.
    assert (Sz : (signed (z <? 0) (inject_Z (Z.abs z)) == inject_Z z)%Q).
    { destruct z; reflexivity. }
    assert (Rp : forall b : bool, representable (inject_Z (if b then - 2 ^ 63 else 2 ^ 63))).
    { intros b. exists (if b then - 1 else 1), 63. split; [destruct b; reflexivity|]. split; [lia|]. destruct b; reflexivity. }
    destruct (Near _ (Rp false)) as [U _]. destruct (Near _ (Rp true)) as [L _]. rewrite Sz, Hy in U, L.
    assert (Zabs : forall a b, Qabs (inject_Z a - inject_Z b) = inject_Z (Z.abs (a - b))).
    { intros a b. unfold Qminus. rewrite <- inject_Z_opp, <- inject_Z_plus. reflexivity. }
    rewrite !Zabs in U, L. rewrite <- Zle_Qle in U, L.
    destruct (Z.eq_dec y (2 ^ 63)) as [->|Ny]; [now apply N63|]. apply (N y); [|auto]. ints. lia.
Qed.
(** 2^63, which int cannot hold, is written in one of the two ways, depending on the platform *)
Theorem two_63_text E f : f64_valid f = true -> (q_value f == inject_Z (2 ^ 63))%Q ->
  int_text (num_string E f) (2 ^ 63) \/ shortest f (num_string E f).
Proof.
  intros V H. destruct f as [s|s| |s m e]; try (exfalso; revert H; cbn; discriminate). 
  unfold num_string. destruct (f_eqb _ _); [left|right; now apply fmt_g_shortest].
  destruct (integral_trunc s m e _ V H) as (-> & _). apply itoa_text.
Qed.
(** the remaining float64 values *)
Theorem special_text E : num_string E (S754_zero true) = bs "-0" /\ num_string E S754_nan = bs "NaN" /\
  num_string E (S754_infinity false) = bs "+Inf" /\ num_string E (S754_infinity true) = bs "-Inf".
Proof.
  assert (I : forall s, f_eqb (S754_infinity s) (f_of_Z (f_to_int E (S754_infinity s))) = false).
  { intros s. unfold f_to_int. cbn [f_trunc]. pose proof (wrap_ok (f2i_oob E (S754_infinity s))) as W.
    set (z := wrap _) in *. clearbody z. unfold f_of_Z, binary_normalize. destruct z as [|p|p]; [now destruct s|..].
    - destruct (binary_round_int false p) as (m & e & [[X _]|X]); [ints; lia|rewrite X; now destruct s..].
    - destruct (binary_round_int true p) as (m & e & [[X _]|X]); [ints; lia|rewrite X; now destruct s..]. }
  unfold num_string. rewrite !I. split; [destruct (f_eqb _ _); reflexivity|]. split; [|auto].
  destruct (f_eqb S754_nan _) eqn:Q; [discriminate|reflexivity].
Qed.
(** different numbers have different texts, and equal numbers equal texts *)
Theorem number_text_injective E f g : f64_valid f = true -> f64_valid g = true -> num_string E f = num_string E g -> f = g.
Proof.
  intros Vf Vg H. pose proof (num_string_parses E f Vf) as A. pose proof (num_string_parses E g Vg) as B. rewrite H in A. congruence.
Qed.

(** no float64 has two shortest texts: with the theorems above, the text of every number is determined *)
Theorem shortest_unique f t t' : f64_valid f = true -> shortest f t -> shortest f t' -> t = t'.
Proof. apply shortest_fun. Qed.
Lemma nearest_comp x y f : (x == y)%Q -> nearest x f -> nearest y f.
Proof.
  intros E (A & B & C). split; [auto|]. split; [auto|]. intros q Q. destruct (C q Q) as [C1 C2]. rewrite E in C1, C2. auto.
Qed.
Lemma limit_converts f n : f64_valid f = true -> (q_value f == inject_Z (2 ^ 63))%Q -> int_ok n ->
  (f_eqb f (f_of_Z n) = true <-> nearest (inject_Z n) f).
Proof.
  intros V H N. destruct f as [s|s| |s m e]; try (exfalso; revert H; cbn; discriminate).
  assert (B : Z.abs n < 2 ^ 1000) by (apply (Z.le_lt_trans _ (2 ^ 63)); [ints; unfold int_ok in *; ints; lia|reflexivity]).
  pose proof (integer_nearest n B) as R. pose proof (f_of_Z_valid n) as Vn.
  assert (Sn : (signed (n <? 0) (inject_Z (Z.abs n)) == inject_Z n)%Q) by (destruct n; reflexivity). split.
  - intros Q. assert (Ef : f_of_Z n = S754_finite s m e).
    { destruct (f_of_Z n) as [z|z| |s' m' e']; try (destruct s; cbn in Q; discriminate); [destruct s, z; discriminate|]. now apply f_eqb_finite in Q as (-> & -> & ->). }
    rewrite Ef in R. destruct R as (_ & R & _). now apply (nearest_comp _ _ _ Sn).
  - intros R'. assert (P : 0 < n).
    { destruct R' as (_ & _ & C). destruct (C 0%Q) as [C1 _]; [exists 0, 0; repeat split; lia|]. rewrite H in C1.
      destruct (Z.lt_ge_cases 0 n) as [|L]; auto. exfalso. revert C1. unfold Qminus. rewrite <- !inject_Z_opp, <- inject_Z_plus.
      change 0%Q with (inject_Z 0). rewrite <- inject_Z_plus. change (Qabs (inject_Z (2 ^ 63 + - n))) with (inject_Z (Z.abs (2 ^ 63 + - n))).
      change (Qabs (inject_Z (0 + - n))) with (inject_Z (Z.abs (0 + - n))). rewrite <- Zle_Qle. lia. }
    replace (n <? 0) with false in * by lia.
    assert (S0 : s = false).
    { destruct s; auto. exfalso. rewrite finite_value in H. cbn [signed] in H. pose proof (p2_pos e). assert (0 < inject_Z (Zpos m))%Q by reflexivity.
      assert (0 < inject_Z (Zpos m) * p2 e)%Q by nra. assert (0 < inject_Z (2 ^ 63))%Q by reflexivity. lra. }
    subst s. assert (X : Some (S754_finite false m e) = Some (f_of_Z n)).
    { apply (rounds_same false (inject_Z (Z.abs n))); auto; [|intros g G; injection G as <-; auto|intros g G; injection G as <-; auto].
      destruct R as (Ov & _ & _). split; [auto|]. split; [|reflexivity]. apply (nearest_comp _ _ _ (Qeq_sym _ _ Sn)). auto. }
    injection X as <-. now apply f_eqb_finite.
Qed.
(** the text of every float64, exactly *)
Theorem number_text_exact E f t : f64_valid f = true -> (num_string E f = t <-> number_shown E f t).
Proof.
  intros V. destruct (special_text E) as (SZ & SN & SP & SM).
  assert (Two : (q_value f == inject_Z (2 ^ 63))%Q -> is_finite f /\ f_trunc f = Some (2 ^ 63)).
  { intros H. destruct f as [s|s| |s m e]; try (exfalso; revert H; cbn; discriminate). split; [exact I|].
    now destruct (integral_trunc s m e _ V H) as (T & _). }
  assert (Lim : (q_value f == inject_Z (2 ^ 63))%Q ->
    num_string E f = (if f_eqb f (f_of_Z (f_to_int E f)) then itoa (2 ^ 63) else num_string E f) /\
    (f_eqb f (f_of_Z (f_to_int E f)) = false -> shortest f (num_string E f))).
  { intros H. destruct f as [s|s| |s m e]; try (exfalso; revert H; cbn; discriminate). destruct (Two H) as [_ T]. split.
    - unfold num_string at 1 2. destruct (f_eqb _ _); [now rewrite T|reflexivity].
    - intros Q. unfold num_string. rewrite Q. now apply fmt_g_shortest. }
  assert (Ok : int_ok (f_to_int E f)).
  { unfold f_to_int. destruct (f_trunc f) as [z|]; [|apply wrap_ok].
    destruct ((min_int <=? z) && (z <=? max_int)) eqn:R; [unfold int_ok; lia|apply wrap_ok]. }
  split.
  - intros <-. destruct f as [[]|[]| |s m e]; rewrite ?SZ, ?SN, ?SP, ?SM; try (constructor; fail).
    + apply ns_integer with 0; try discriminate; [exact I|reflexivity|ints; lia|]. apply integer_text; try discriminate; [auto|exact I|reflexivity|ints; lia].
    + set (f := S754_finite s m e) in *. destruct (Qeq_dec (q_value f) (inject_Z (2 ^ 63))) as [H|H].
      * destruct (Lim H) as [L1 L2]. pose proof (limit_converts f _ V H Ok) as C. destruct (f_eqb f (f_of_Z (f_to_int E f))) eqn:Q.
        -- rewrite L1. eapply ns_limit; [exact H|apply int_arg_exists|now apply C|apply itoa_text].
        -- eapply ns_limit_other; [exact H|apply int_arg_exists| |now apply L2]. intros X. apply C in X. congruence.
      * destruct (f_trunc f) as [z|] eqn:T; [|discriminate].
        destruct (Qeq_dec (q_value f) (inject_Z z)) as [Hz|Hz].
        -- destruct ((min_int <=? z) && (z <=? max_int)) eqn:Rg.
           ++ apply ns_integer with z; try discriminate; [exact I|auto|lia|]. apply integer_text; try discriminate; [auto|exact I|auto|lia].
           ++ assert (No : forall y, min_int <= y <= max_int -> ~ (q_value f == inject_Z y)%Q).
              { intros y Y Q. rewrite Hz in Q. apply inj_eq in Q. subst y. lia. }
              apply ns_other; [exact I|auto|auto|]. now apply fraction_shortest.
        -- assert (No : forall y, min_int <= y <= max_int -> ~ (q_value f == inject_Z y)%Q).
           { intros y Y Q. destruct (integral_trunc s m e y V Q) as (T' & _). fold f in T'. rewrite T in T'. injection T' as ->. contradiction. }
           apply ns_other; [exact I|auto|auto|]. now apply fraction_shortest.
  - intros H. destruct H as [| | | |f z t F N Hz Rg T|f t F N N63 T|f n t H A Nr T|f n t H A Nr T]; auto.
    + eapply int_text_fun; [|exact T]. now apply integer_text.
    + eapply shortest_fun; [exact V| |exact T]. now apply fraction_shortest.
    + destruct (Lim H) as [L1 _]. rewrite <- (int_arg_to_int _ _ _ A) in Nr. apply (limit_converts f _ V H Ok) in Nr. rewrite Nr in L1. rewrite L1.
      eapply int_text_fun; [apply itoa_text|exact T].
    + destruct (Lim H) as [_ L2]. eapply shortest_fun; [exact V| |exact T]. apply L2. rewrite <- (int_arg_to_int _ _ _ A) in Nr.
      destruct (f_eqb f (f_of_Z (f_to_int E f))) eqn:Q; [|reflexivity]. exfalso. apply Nr. now apply (limit_converts f _ V H Ok).
Qed.
Theorem number_text_one E f : f64_valid f = true -> exists t, number_shown E f t /\ forall t', number_shown E f t' -> t' = t.
Proof.
  intros V. exists (num_string E f). split; [now apply number_text_exact|]. intros t' H. apply number_text_exact in H; auto.
Qed.

(** the text of 2^63 depends on the processor: saturating conversions (arm64) give the
    integer, others (amd64) the shortest decimal *)
Definition arm_ext : Ext := {| re_error := re_error ref_ext; re_find := re_find ref_ext; re_find_all := re_find_all ref_ext;
  re_replace_all := re_replace_all ref_ext; uc_upper := uc_upper ref_ext; uc_lower := uc_lower ref_ext; uc_print := uc_print ref_ext;
  f2i_oob := fun _ => max_int |}.
Theorem number_text_same_everywhere_refuted : exists f,
  num_string ref_ext f = bs "9.223372036854776e+18" /\ num_string arm_ext f = bs "9223372036854775808".
Proof. exists (f_of_Z (2 ^ 63)). split; vm_compute; reflexivity. Qed.

(** examples *)
Definition num_of (t : str) : spec_float := match parse_float t with Some f => f | None => S754_nan end.
Example number_text_ex :
  num_string ref_ext (num_of (bs "0.1")) = bs "0.1" /\
  num_string ref_ext (num_of (bs "0.30000000000000004")) = bs "0.30000000000000004" /\
  num_string ref_ext (num_of (bs "123456.5")) = bs "123456.5" /\
  num_string ref_ext (num_of (bs "1234567.5")) = bs "1.2345675e+06" /\
  num_string ref_ext (num_of (bs "1234567")) = bs "1234567" /\
  num_string ref_ext (num_of (bs "0.0001")) = bs "0.0001" /\
  num_string ref_ext (num_of (bs "0.00001")) = bs "1e-05" /\
  num_string ref_ext (num_of (bs "1125899906842624.25")) = bs "1.1258999068426242e+15" /\
  num_string ref_ext (num_of (bs "1125899906842624.75")) = bs "1.1258999068426248e+15" /\
  num_string ref_ext (num_of (bs "5e-324")) = bs "5e-324" /\
  num_string ref_ext (num_of (bs "-1e300")) = bs "-1e+300".
Proof. repeat split; vm_compute; reflexivity. Qed.
Example shortest_hypotheses_ex : f64_valid (num_of (bs "0.1")) = true /\ is_finite (num_of (bs "0.1")) /\
  (forall z, min_int <= z <= max_int -> ~ (q_value (num_of (bs "0.1")) == inject_Z z)%Q) /\ ~ (q_value (num_of (bs "0.1")) == inject_Z (2 ^ 63))%Q.
Proof.
  assert (N : num_of (bs "0.1") = S754_finite false 7205759403792794 (-56)) by (vm_compute; reflexivity). rewrite N.
  split; [reflexivity|]. split; [exact I|]. split.
  - intros z _ H. destruct (integral_trunc _ _ _ _ (eq_refl : f64_valid (S754_finite false 7205759403792794 (-56)) = true) H) as (T & P & _).
    vm_compute in T. injection T as <-. discriminate.
  - intros H. destruct (integral_trunc _ _ _ _ (eq_refl : f64_valid (S754_finite false 7205759403792794 (-56)) = true) H) as (T & P & _).
    vm_compute in T. discriminate.
Qed.

(** ** Assumptions of every theorem above *)
Print Assumptions integer_text.
Print Assumptions fraction_shortest.
Print Assumptions two_63_text.
Print Assumptions special_text.
Print Assumptions number_text_injective.
Print Assumptions shortest_unique.
Print Assumptions number_text_exact.
Print Assumptions number_text_one.
Print Assumptions number_text_same_everywhere_refuted.
