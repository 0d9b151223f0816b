(** float64: canonical form, exact rounding, and reading back printed numbers. *)
From Coq Require Import ZArith NArith List Bool Lia ZifyBool ZifyN Strings.Byte.
From Verif Require Import Base Float Ext Utf8 Strconv Values Buffer Spec Proofs_Base Proofs_Float.
Import ListNotations.
Open Scope Z_scope.

(** ** Canonical form *)
Lemma valid_finite s m e : f64_valid (S754_finite s m e) = true ->
  e = Z.max (Zpos (digits2_pos m) + e - 53) (-1074) /\ e <= 971.
Proof.
  unfold f64_valid, valid_binary, bounded, canonical_mantissa, fexp, emin, prec, emax. intros H.
  apply andb_prop in H as [H1 H2]. apply Zeq_bool_eq in H1. lia.
Qed.
Lemma digits_mul p k q : 0 <= k -> Zpos q = Zpos p * 2 ^ k ->
  Zpos (digits2_pos q) = Zpos (digits2_pos p) + k.
Proof.
  intros Hk H. pose proof (digits_bounds p) as B. apply digits_unique; [lia|]. rewrite H.
  replace (Zpos (digits2_pos p) + k - 1) with (Zpos (digits2_pos p) - 1 + k) by lia.
  rewrite !Z.pow_add_r by lia. pose proof (Z.pow_pos_nonneg 2 k ltac:(lia) ltac:(lia)). nia.
Qed.
(** same value, so same digits + exponent *)
Lemma same_mag m e m' e' : e' <= e -> Zpos m * 2 ^ (e - e') = Zpos m' ->
  Zpos (digits2_pos m') + e' = Zpos (digits2_pos m) + e.
Proof. intros L H. rewrite (digits_mul m (e - e') m') by lia. lia. Qed.
Lemma canonical_unique s s' m e m' e' :
  f64_valid (S754_finite s m e) = true -> f64_valid (S754_finite s' m' e') = true ->
  Zpos m * 2 ^ (e + 1074) = Zpos m' * 2 ^ (e' + 1074) -> m = m' /\ e = e'.
Proof.
  intros H H' Q. apply valid_finite in H as [H _], H' as [H' _].
  assert (G : forall m e m' e', e' <= e -> -1074 <= e' ->
    e = Z.max (Zpos (digits2_pos m) + e - 53) (-1074) ->
    e' = Z.max (Zpos (digits2_pos m') + e' - 53) (-1074) ->
    Zpos m * 2 ^ (e + 1074) = Zpos m' * 2 ^ (e' + 1074) -> m = m' /\ e = e').
  { clear. intros m e m' e' L L' H H' Q.
    replace (e + 1074) with (e - e' + (e' + 1074)) in Q by lia. rewrite Z.pow_add_r, Z.mul_assoc in Q by lia.
    apply Z.mul_reg_r in Q; [|pose proof (Z.pow_pos_nonneg 2 (e' + 1074)); lia].
    pose proof (same_mag m e m' e' L Q). assert (e = e') by lia. subst e'.
    rewrite Z.sub_diag, Z.pow_0_r in Q. split; [lia|auto]. }
  destruct (Z.le_ge_cases e' e).
  - apply G; auto; lia.
  - destruct (G m' e' m e) as [-> ->]; auto; lia.
Qed.

Lemma f_eqb_finite s m e s' m' e' :
  f_eqb (S754_finite s m e) (S754_finite s' m' e') = true <-> s = s' /\ m = m' /\ e = e'.
Proof.
  split.
  - unfold f_eqb, SFeqb, SFcompare. change (Pos.compare_cont Eq m m') with (Pos.compare m m'). destruct s, s'; try discriminate;
      (destruct (Z.compare_spec e e'); try discriminate);
      (destruct (Pos.compare_spec m m'); try discriminate); auto.
  - intros (-> & -> & ->). unfold f_eqb, SFeqb, SFcompare.
    change (Pos.compare_cont Eq m' m') with (Pos.compare m' m'). rewrite Z.compare_refl, Pos.compare_refl. now destruct s'.
Qed.
Lemma f_eqb_same x y : f64_valid x = true -> f64_valid y = true -> f_eqb x y = true <-> same_number x y.
Proof.
  intros Hx Hy. destruct x as [s|s| |s m e], y as [s'|s'| |s' m' e']; cbn [same_number scaled];
    try (destruct s, s'; cbn; split; congruence || tauto); try (cbn; split; [congruence|tauto]).
  - split; [intros X; destruct s, s'; discriminate|]. intros H. exfalso. apply valid_finite in Hy as [Hy _].
    pose proof (Z.pow_pos_nonneg 2 (e' + 1074) ltac:(lia) ltac:(lia)). destruct s'; nia.
  - split; [intros X; destruct s, s'; discriminate|]. intros H. exfalso. apply valid_finite in Hx as [Hx _].
    pose proof (Z.pow_pos_nonneg 2 (e + 1074) ltac:(lia) ltac:(lia)). destruct s; nia.
  - rewrite f_eqb_finite. split.
    + now intros (-> & -> & ->).
    + intros H. pose proof Hx as Hx'. pose proof Hy as Hy'. apply valid_finite in Hx' as [Hx' _], Hy' as [Hy' _].
      pose proof (Z.pow_pos_nonneg 2 (e + 1074) ltac:(lia) ltac:(lia)).
      pose proof (Z.pow_pos_nonneg 2 (e' + 1074) ltac:(lia) ltac:(lia)).
      assert (s = s') as <- by (destruct s, s'; auto; exfalso; nia).
      split; auto. apply (canonical_unique s s); auto. destruct s; lia.
Qed.

(** ** Rounding a representable value gives that value back *)
Lemma shr_exact p : forall q, 0 < q -> 
  iter_pos shr_1 p {| shr_m := q * 2 ^ Zpos p; shr_r := false; shr_s := false |}
  = {| shr_m := q; shr_r := false; shr_s := false |}.
Proof.
  assert (one : forall q, 0 < q -> shr_1 {| shr_m := q * 2; shr_r := false; shr_s := false |}
     = {| shr_m := q; shr_r := false; shr_s := false |}).
  { intros q Hq. destruct q as [|q|q]; try lia. rewrite Z.mul_comm. reflexivity. }
  induction p as [p IH|p IH|]; intros q Hq; cbn [iter_pos].
  - replace (q * 2 ^ Zpos p~1) with ((q * 2 ^ Zpos p) * 2 ^ Zpos p * 2).
    + rewrite one, IH, IH; auto; pose proof (Z.pow_pos_nonneg 2 (Zpos p)); nia.
    + replace (2 ^ Zpos p~1) with (2 ^ Zpos p * 2 ^ Zpos p * 2 ^ 1)
        by (rewrite <- !Z.pow_add_r by lia; f_equal; lia). lia.
  - replace (q * 2 ^ Zpos p~0) with ((q * 2 ^ Zpos p) * 2 ^ Zpos p).
    + rewrite IH, IH; auto; pose proof (Z.pow_pos_nonneg 2 (Zpos p)); nia.
    + replace (2 ^ Zpos p~0) with (2 ^ Zpos p * 2 ^ Zpos p)
        by (rewrite <- !Z.pow_add_r by lia; f_equal; lia). lia.
  - exact (one q Hq).
Qed.

Lemma fexp_val x : fexp prec emax x = Z.max (x - 53) (-1074).
Proof. unfold fexp, emin, prec, emax. lia. Qed.

Lemma shr_fexp_exact s m e mx ex : f64_valid (S754_finite s m e) = true -> ex <= e ->
  Zpos mx = Zpos m * 2 ^ (e - ex) ->
  shr_fexp prec emax (Zpos mx) ex loc_Exact = ({| shr_m := Zpos m; shr_r := false; shr_s := false |}, e).
Proof.
  intros V L H. pose proof (same_mag m e mx ex L (eq_sym H)) as M. apply valid_finite in V as [V _].
  unfold shr_fexp. cbn [Zdigits2 shr_record_of_loc]. rewrite fexp_val, M, <- V. unfold shr.
  destruct (e - ex) as [|p|p] eqn:D; [| |lia].
  - rewrite H. replace ex with e by lia. f_equal. f_equal. cbn. lia.
  - rewrite H, shr_exact by lia. f_equal. lia.
Qed.
Lemma round_aux_exact s m e mx ex : f64_valid (S754_finite s m e) = true -> ex <= e ->
  Zpos mx = Zpos m * 2 ^ (e - ex) ->
  binary_round_aux prec emax s (Zpos mx) ex loc_Exact = S754_finite s m e.
Proof.
  intros V L H. unfold binary_round_aux. rewrite (shr_fexp_exact s m e) by auto.
  cbn [shr_m loc_of_shr_record round_nearest_even].
  rewrite (shr_fexp_exact s m e m e) by (auto; rewrite ?Z.sub_diag; lia).
  cbn [shr_m]. apply valid_finite in V as [_ V]. unfold emax, prec. now replace (e <=? 1024 - 53) with true by lia.
Qed.
Lemma round_exact s m e mx ex : f64_valid (S754_finite s m e) = true ->
  (ex <= e /\ Zpos mx = Zpos m * 2 ^ (e - ex)) \/ (e <= ex /\ Zpos m = Zpos mx * 2 ^ (ex - e)) ->
  binary_round prec emax s mx ex = S754_finite s m e.
Proof.
  intros V H. unfold binary_round.
  assert (M : Zpos (digits2_pos mx) + ex = Zpos (digits2_pos m) + e).
  { destruct H as [[L H]|[L H]]; [apply (same_mag m e mx ex)|symmetry; apply (same_mag mx ex m e)]; auto. }
  rewrite fexp_val, M. pose proof V as W. apply valid_finite in W as [W _]. rewrite <- W. unfold shl_align.
  destruct (e - ex) as [|p|p] eqn:D.
  - apply round_aux_exact; auto; [lia|]. rewrite D. replace ex with e in H by lia. rewrite Z.sub_diag in H. cbn in *. lia.
  - apply round_aux_exact; auto; [lia|]. rewrite D. destruct H as [[L H]|[L H]]; [|lia]. try rewrite D in H. exact H.
  - apply round_aux_exact; auto; [lia|]. rewrite Z.sub_diag. destruct H as [[L H]|[L H]]; [lia|].
    rewrite shift_pos_spec, H. replace (ex - e) with (Zpos p) by lia. cbn. lia.
Qed.

(** the same for a quotient *)
Lemma div_exact s m e D B : f64_valid (S754_finite s m e) = true -> e < 0 -> 0 < D -> 0 < B ->
  Zpos m * B = D * 2 ^ (- e) ->
  (let '(mz, ez, lz) := SFdiv_core_binary prec emax D 0 B 0 in binary_round_aux prec emax s mz ez lz)
  = S754_finite s m e.
Proof.
  intros V He HD HB H. destruct D as [|D|D]; try lia. destruct B as [|B|B]; try lia.
  unfold SFdiv_core_binary. cbn [Zdigits2]. set (dD := Zpos (digits2_pos D)). set (dB := Zpos (digits2_pos B)).
  rewrite fexp_val. set (e' := Z.min _ _).
  pose proof (digits_bounds D) as BD. pose proof (digits_bounds B) as BB. pose proof (digits_bounds m) as Bm.
  fold dD in BD. fold dB in BB. pose proof V as W. apply valid_finite in W as [W _].
  set (dm := Zpos (digits2_pos m)) in *.
  (* 2^(dm-1) 2^(dB-1) <= m B = D 2^-e < 2^(dD-e) *)
  assert (K : dD - e >= dm + dB - 1).
  { assert (2 ^ (dm - 1 + (dB - 1)) < 2 ^ (dD - e)).
    { replace (dD - e) with (dD + - e) by lia. rewrite !Z.pow_add_r by lia.
      pose proof (Z.pow_pos_nonneg 2 (- e) ltac:(lia) ltac:(lia)).
      pose proof (Z.pow_pos_nonneg 2 (dm - 1) ltac:(lia) ltac:(lia)).
      pose proof (Z.pow_pos_nonneg 2 (dB - 1) ltac:(lia) ltac:(lia)). nia. }
    apply Z.pow_lt_mono_r_iff in H0; lia. }
  assert (K2 : dD - 1 - e < dm + dB).
  { assert (2 ^ (dD - 1 + - e) < 2 ^ (dm + dB)).
    { rewrite !Z.pow_add_r by lia.
      pose proof (Z.pow_pos_nonneg 2 (- e) ltac:(lia) ltac:(lia)). nia. }
    apply Z.pow_lt_mono_r_iff in H0; lia. }
  assert (L : e' <= e) by (unfold e'; lia). clearbody e'.
  replace (0 - 0 - e') with (- e') by lia.
  replace (match - e' with Z0 => Zpos D | Zpos _ => Z.shiftl (Zpos D) (- e') | Zneg _ => 0 end)
    with (Zpos D * 2 ^ (- e')).
  2:{ destruct (- e') as [|p|p] eqn:X; try lia. now rewrite Z.shiftl_mul_pow2 by lia. }
  pose proof (Z_div_mod (Zpos D * 2 ^ (- e')) (Zpos B) ltac:(lia)) as DM.
  destruct (Z.div_eucl (Zpos D * 2 ^ (- e')) (Zpos B)) as [q r]. destruct DM as [Hq Hr].
  assert (Q : Zpos D * 2 ^ (- e') = Zpos B * (Zpos m * 2 ^ (e - e'))).
  { replace (- e') with (- e + (e - e')) by lia. rewrite Z.pow_add_r by lia. rewrite Z.mul_assoc, <- H. lia. }
  assert (q = Zpos m * 2 ^ (e - e') /\ r = 0) as [-> ->].
  { rewrite Q in Hq. set (k := Zpos m * 2 ^ (e - e')) in *. clearbody k.
    assert (k - q < 1) by nia. assert (-1 < k - q) by nia. assert (q = k) as -> by lia. split; [auto|lia]. }
  unfold new_location. replace ((if Z.even (Zpos B) then new_location_even (Zpos B) else new_location_odd (Zpos B)) 0) with loc_Exact
    by (destruct (Z.even (Zpos B)); reflexivity).
  pose proof (Z.pow_pos_nonneg 2 (e - e') ltac:(lia) ltac:(lia)).
  destruct (Zpos m * 2 ^ (e - e')) as [|mx|mx] eqn:X; try lia. apply round_aux_exact; auto.
Qed.

(** ** Decimal digits *)
Definition digits (s : str) : Prop := Forall (fun c => is_digit c = true) s.
Definition horner (acc : Z) (s : str) : Z := fold_left (fun a c => a * 10 + digit_val c) s acc.

Lemma uint_digits d : digits (uint_bytes d).
Proof. induction d; cbn; constructor; auto. Qed.
Lemma utoa_digits n : digits (utoa n).
Proof. apply uint_digits. Qed.
Lemma of_uint_acc_horner d : forall acc, Zpos (Pos.of_uint_acc d acc) = horner (Zpos acc) (uint_bytes d).
Proof. induction d; intros acc; [reflexivity|..]; cbn [Pos.of_uint_acc uint_bytes]; rewrite IHd;
  unfold horner; cbn [fold_left]; f_equal; unfold digit_val; cbn -[Z.mul Z.add Pos.mul Pos.add]; lia. Qed.
Lemma of_uint_horner d : Z.of_N (N.of_uint d) = horner 0 (uint_bytes d).
Proof.
  unfold N.of_uint. induction d; cbn [Pos.of_uint]; [reflexivity| |
    cbn [Z.of_N]; rewrite of_uint_acc_horner; reflexivity..]. exact IHd.
Qed.
Lemma utoa_horner n : horner 0 (utoa n) = Z.of_N n.
Proof. unfold utoa. rewrite <- of_uint_horner. now rewrite DecimalN.Unsigned.of_to. Qed.
Lemma utoa_head n : n <> 0%N -> exists c t, utoa n = c :: t /\ is_digit c = true /\ c <> "0"%byte.
Proof.
  intros H. unfold utoa. destruct (N.to_uint n) eqn:U.
  - exfalso. destruct n as [|p]; [congruence|]. cbn in U.
    now apply (DecimalPos.Unsigned.to_uint_nonnil p).
  - exfalso. pose proof (DecimalN.Unsigned.to_of (N.to_uint n)) as X. rewrite DecimalN.Unsigned.of_to in X.
    rewrite U in X. cbn in X. unfold Decimal.unorm in X.
    destruct (Decimal.nzhead (Decimal.D0 u)) eqn:Z.
    + assert (u = Decimal.Nil) by congruence. subst u.
      apply H. rewrite <- (DecimalN.Unsigned.of_to n), U. reflexivity.
    + apply (DecimalFacts.nzhead_nonzero (Decimal.D0 u) u0). auto.
    + discriminate. + discriminate. + discriminate. + discriminate. + discriminate.
    + discriminate. + discriminate. + discriminate. + discriminate.
  - eexists _, _. repeat split; discriminate || reflexivity.
  - eexists _, _. repeat split; discriminate || reflexivity.
  - eexists _, _. repeat split; discriminate || reflexivity.
  - eexists _, _. repeat split; discriminate || reflexivity.
  - eexists _, _. repeat split; discriminate || reflexivity.
  - eexists _, _. repeat split; discriminate || reflexivity.
  - eexists _, _. repeat split; discriminate || reflexivity.
  - eexists _, _. repeat split; discriminate || reflexivity.
  - eexists _, _. repeat split; discriminate || reflexivity.
Qed.

Lemma digit_val_range c : is_digit c = true -> 0 <= digit_val c <= 9.
Proof. unfold is_digit, in_range, digit_val. lia. Qed.
Lemma horner_bounds s : digits s -> forall acc, 0 <= acc ->
  acc * 10 ^ zlen s <= horner acc s < (acc + 1) * 10 ^ zlen s.
Proof.
  intros H. induction H as [|c s Hc _ IH]; intros acc Ha; unfold horner; cbn [fold_left].
  - rewrite zlen_nil. cbn. lia.
  - apply digit_val_range in Hc. fold (horner (acc * 10 + digit_val c) s).
    specialize (IH (acc * 10 + digit_val c) ltac:(lia)). rewrite zlen_cons.
    pose proof (zlen_nonneg s). rewrite Z.pow_add_r by lia. pose proof (Z.pow_pos_nonneg 10 (zlen s) ltac:(lia) ltac:(lia)). nia.
Qed.
Lemma utoa_bounds n : n <> 0%N -> 10 ^ (zlen (utoa n) - 1) <= Z.of_N n < 10 ^ zlen (utoa n).
Proof.
  intros H. pose proof (utoa_digits n) as D. destruct (utoa_head n H) as (c & t & E & Hc & Hc0).
  rewrite <- (utoa_horner n). split.
  - rewrite E in *. inversion D as [|? ? D1 D2]; subst. unfold horner. cbn [fold_left].
    fold (horner (0 * 10 + digit_val c) t). pose proof (horner_bounds t D2 (0 * 10 + digit_val c)) as B.
    rewrite zlen_cons. replace (1 + zlen t - 1) with (zlen t) by lia.
    assert (1 <= digit_val c). 
    { pose proof (digit_val_range c Hc). destruct (Z.eq_dec (digit_val c) 0) as [X|]; [|lia]. exfalso. apply Hc0.
      unfold digit_val, byteN in X.
      assert (Byte.to_N c = 48%N) as Y by lia. apply (f_equal Byte.of_N) in Y. rewrite Byte.of_to_N in Y. now injection Y. }
    pose proof (zlen_nonneg t). pose proof (Z.pow_pos_nonneg 10 (zlen t) ltac:(lia) ltac:(lia)). nia.
  - pose proof (horner_bounds (utoa n) D 0). lia.
Qed.

(** reading digits *)
Definition rf0 : rf := {| rf_mant := 0; rf_nd := 0; rf_dp := 0; rf_dot := false; rf_dig := false; rf_us := false |}.
Definition stops (s : str) : Prop := match s with
  | [] => True
  | c :: _ => is_digit c = false /\ c <> "_"%byte /\ c <> "."%byte
  end.
Lemma digit_not c : is_digit c = true -> Byte.eqb c "_" = false /\ Byte.eqb c "." = false
  /\ Byte.eqb c "+" = false /\ Byte.eqb c "-" = false /\ Byte.eqb c """" = false /\ Byte.eqb c "e" = false.
Proof. destruct c; try discriminate; repeat split. Qed.

Lemma read_digits_run s : digits s -> forall st rest, stops rest -> 0 < rf_nd st ->
  read_digits false st (s ++ rest) =
  ({| rf_mant := horner (rf_mant st) s; rf_nd := rf_nd st + zlen s; rf_dp := rf_dp st; rf_dot := rf_dot st;
      rf_dig := rf_dig st || (0 <? zlen s); rf_us := rf_us st |}, rest).
Proof.
  intros H. induction H as [|c s Hc _ IH]; intros st rest Hr Hn.
  - rewrite zlen_nil. cbn [app]. unfold horner; cbn [fold_left]. rewrite Z.add_0_r, orb_false_r.
    replace {| rf_mant := rf_mant st; rf_nd := rf_nd st; rf_dp := rf_dp st; rf_dot := rf_dot st;
               rf_dig := rf_dig st; rf_us := rf_us st |} with st by now destruct st.
    destruct rest as [|c rest]; [reflexivity|]. destruct Hr as (A & B & C). cbn [read_digits].
    apply byte_eqb_neq in B, C. now rewrite B, C, A.
  - cbn [app read_digits]. destruct (digit_not c Hc) as (A & B & _). rewrite A, B, Hc.
    replace (rf_nd st =? 0) with false by lia. rewrite andb_false_r. rewrite IH by (cbn [rf_nd]; auto; lia).
    cbn [rf_mant rf_nd rf_dp rf_dot rf_dig rf_us]. rewrite zlen_cons. pose proof (zlen_nonneg s).
    f_equal. f_equal; try lia.
Qed.
Lemma read_digits_utoa n rest : n <> 0%N -> stops rest ->
  read_digits false rf0 (utoa n ++ rest) =
  ({| rf_mant := Z.of_N n; rf_nd := zlen (utoa n); rf_dp := 0; rf_dot := false; rf_dig := true; rf_us := false |}, rest).
Proof.
  intros H Hr. rewrite <- (utoa_horner n). pose proof (utoa_digits n) as D.
  destruct (utoa_head n H) as (c & t & E & Hc & Hc0). rewrite E in *. inversion D as [|? ? D1 D2]; subst.
  cbn [app read_digits]. destruct (digit_not c Hc) as (A & B & _). rewrite A, B, Hc.
  apply byte_eqb_neq in Hc0. rewrite Hc0. cbn [andb rf_nd rf0]. rewrite read_digits_run by (cbn [rf_nd]; auto; lia).
  cbn [rf_mant rf_nd rf_dp rf_dot rf_dig rf_us]. rewrite zlen_cons. reflexivity.
Qed.
Lemma read_exp_run s : digits s -> forall e, 0 <= e -> horner e s < 10000 -> read_exp e false s = (horner e s, false, []).
Proof.
  intros H. induction H as [|c s Hc Hs IH]; intros e He Hb; [reflexivity|]. cbn [read_exp].
  destruct (digit_not c Hc) as (A & _). rewrite A, Hc. pose proof (digit_val_range c Hc).
  assert (X : horner e (c :: s) = horner (e * 10 + digit_val c) s) by reflexivity. rewrite X in *.
  pose proof (horner_bounds s Hs (e * 10 + digit_val c) ltac:(lia)).
  pose proof (zlen_nonneg s). pose proof (Z.pow_pos_nonneg 10 (zlen s) ltac:(lia) ltac:(lia)).
  replace (e <? 10000) with true by nia. apply IH; auto; lia.
Qed.

Definition minus (neg : bool) : str := if neg then ["-"%byte] else [].

Lemma special_digit neg c t : is_digit c = true -> parse_special (minus neg ++ c :: t) = None.
Proof.
  intros H. assert (F : eq_fold (c :: t) (bs "inf") = false /\ eq_fold (c :: t) (bs "infinity") = false
    /\ eq_fold (c :: t) (bs "nan") = false).
  { unfold eq_fold. cbn [map]. destruct c; try discriminate; repeat split; reflexivity. }
  destruct F as (F1 & F2 & F3). destruct neg; cbn [minus app parse_special].
  - replace (Byte.eqb "-" "+" || Byte.eqb "-" "-") with true by reflexivity. cbv zeta. now rewrite F1, F2.
  - destruct (digit_not c H) as (_ & _ & A & B & _). rewrite A, B. cbn [orb]. now rewrite F1, F2, F3.
Qed.

Ltac pair_is v := match goal with |- (let '(_, _) := ?x in _) = _ => replace x with v end.
(** the texts [-]digits and [-]digits e-digits *)
Lemma parse_float_digits neg n : n <> 0%N ->
  parse_float (minus neg ++ utoa n) = round_dec neg (Z.of_N n) 0 (zlen (utoa n)).
Proof.
  intros H. destruct (utoa_head n H) as (c & t & E & Hc & Hc0). unfold parse_float.
  rewrite E at 1. rewrite special_digit by auto.
  destruct (digit_not c Hc) as (_ & _ & A & B & _).
  pair_is (neg, utoa n).
  2:{ destruct neg; cbn [minus app]; [reflexivity|]. rewrite E, A, B. reflexivity. }
  pair_is (false, utoa n).
  2:{ rewrite E. apply byte_eqb_neq in Hc0. rewrite Hc0. destruct t as [|? [|? ?]]; reflexivity. }
  fold rf0. pose proof (read_digits_utoa n [] H I) as R. rewrite app_nil_r in R. rewrite R.
  cbn [rf_mant rf_nd rf_dp rf_dot rf_dig rf_us negb andb]. now rewrite Z.sub_diag.
Qed.
Lemma parse_float_exp neg n k : n <> 0%N -> k <> 0%N -> (k < 10000)%N ->
  parse_float (minus neg ++ utoa n ++ "e"%byte :: "-"%byte :: utoa k) = round_dec neg (Z.of_N n) (- Z.of_N k) (zlen (utoa n)).
Proof.
  intros H Hk Hk'. destruct (utoa_head n H) as (c & t & E & Hc & Hc0). unfold parse_float.
  set (suf := "e"%byte :: "-"%byte :: utoa k).
  rewrite E at 1. cbn [app]. rewrite special_digit by auto.
  destruct (digit_not c Hc) as (_ & _ & A & B & _).
  pair_is (neg, utoa n ++ suf).
  2:{ destruct neg; cbn [minus app]; [reflexivity|]. rewrite E. cbn [app]. rewrite A, B. reflexivity. }
  pair_is (false, utoa n ++ suf).
  2:{ rewrite E. cbn [app]. apply byte_eqb_neq in Hc0. rewrite Hc0.
      match goal with |- _ = match ?l with _ => _ end => destruct l as [|? [|? ?]]; reflexivity end. }
  fold rf0. rewrite read_digits_utoa by (auto; unfold suf; cbn; repeat split; discriminate).
  cbn [rf_mant rf_nd rf_dp rf_dot rf_dig rf_us negb andb]. unfold suf. cbn [Byte.eqb].
  replace (Byte.eqb (lower "e") "e") with true by reflexivity. cbv iota.
  replace (Byte.eqb "-" "+") with false by reflexivity. replace (Byte.eqb "-" "-") with true by reflexivity. cbv iota beta.
  destruct (utoa_head k Hk) as (d & u & Ek & Hd & _). pose proof (utoa_horner k) as HK.
  pose proof (read_exp_run (utoa k) (utoa_digits k) 0 ltac:(lia) ltac:(lia)) as R. rewrite HK in R.
  rewrite Ek in *. rewrite Hd, R. cbn [andb]. f_equal. lia.
Qed.

Lemma f_same_eq x y : f_same x y = true -> x = y.
Proof.
  destruct x, y; cbn; try discriminate; auto.
  - intros H. apply eqb_prop in H. congruence.
  - intros H. apply eqb_prop in H. congruence.
  - intros H. apply andb_prop in H as [H H3]. apply andb_prop in H as [H1 H2]. apply eqb_prop in H1.
    apply Pos.eqb_eq in H2. apply Z.eqb_eq in H3. congruence.
Qed.
Lemma parses_to_eq t f : parses_to t f = true -> parse_float t = Some f.
Proof. unfold parses_to. destruct (parse_float t) as [g|]; [|discriminate]. intros H. apply f_same_eq in H. now subst. Qed.

(** the magnitude of a float64 in decimal *)
Lemma valid_mag s m e : f64_valid (S754_finite s m e) = true ->
  Zpos m < 2 ^ 53 /\ -1074 <= e <= 971.
Proof.
  intros V. apply valid_finite in V as [V V']. pose proof (digits_bounds m) as B.
  split; [|lia]. assert (Zpos (digits2_pos m) <= 53) by lia.
  pose proof (Z.pow_le_mono_r 2 (Zpos (digits2_pos m)) 53 ltac:(lia) ltac:(lia)). lia.
Qed.
Lemma round_dec_int s m e n nd : f64_valid (S754_finite s m e) = true -> nd <= 310 ->
  0 < nd -> (0 <= e /\ n = Zpos m * 2 ^ e) \/ (e < 0 /\ n * 2 ^ (- e) = Zpos m) ->
  round_dec s n 0 nd = Some (S754_finite s m e).
Proof.
  intros V Hnd Hnd' H. assert (0 < n).
  { destruct H as [[? ->]|[? H]]; [pose proof (Z.pow_pos_nonneg 2 e); nia|].
    pose proof (Z.pow_pos_nonneg 2 (- e) ltac:(lia) ltac:(lia)). nia. }
  destruct n as [|p|p]; try lia. unfold round_dec.
  replace (310 <? 0 + nd) with false by lia. replace (0 + nd <? -330) with false by lia. cbv iota zeta.
  change (0 <=? 0) with true. cbv iota. replace (Z.to_pos (Zpos p * 10 ^ 0)) with p by (cbn; lia).
  rewrite (round_exact s m e); auto. destruct H as [[? H]|[? H]].
  - left. rewrite Z.sub_0_r. auto with zarith.
  - right. split; [lia|]. replace (0 - e) with (- e) by lia. auto.
Qed.
Lemma pow10_le a b : 0 <= a -> 0 <= b -> 10 ^ a <= b -> forall c, b < 10 ^ c -> a < c.
Proof.
  intros Ha Hb H c Hc. destruct (Z.lt_ge_cases a c); auto. exfalso.
  destruct (Z.lt_ge_cases c 0) as [X|X]; [rewrite Z.pow_neg_r in Hc by auto; lia|].
  pose proof (Z.pow_le_mono_r 10 c a). lia.
Qed.
(** at most 310 digits *)
Lemma big_digits s m e n : f64_valid (S754_finite s m e) = true -> 0 <= e -> Z.of_N n = Zpos m * 2 ^ e ->
  0 < zlen (utoa n) <= 310.
Proof.
  intros V He H. apply valid_mag in V as [Vm Ve]. pose proof (Z.pow_pos_nonneg 2 e ltac:(lia) ltac:(lia)).
  assert (n <> 0%N) as N0 by nia. destruct (utoa_head n N0) as (c & t & E & _).
  assert (0 < zlen (utoa n)) by (rewrite E, zlen_cons; pose proof (zlen_nonneg t); lia).
  pose proof (utoa_bounds n N0) as [B _]. split; auto.
  assert (zlen (utoa n) - 1 < 309); [|lia]. apply (pow10_le _ (Z.of_N n)); auto; try lia.
  rewrite H. apply Z.lt_le_trans with (2 ^ 53 * 2 ^ 971).
  - pose proof (Z.pow_le_mono_r 2 e 971 ltac:(lia) ltac:(lia)). nia.
  - vm_compute. discriminate.
Qed.

(** ** Printing and reading back *)
Lemma shr_1_le x : 0 <= shr_m x -> 0 <= shr_m (shr_1 x) <= shr_m x.
Proof. destruct x as [[|[p|p|]|p] r s]; cbn; intros; lia. Qed.
Lemma shr_iter_le p : forall x, 0 <= shr_m x -> 0 <= shr_m (iter_pos shr_1 p x) <= shr_m x.
Proof.
  induction p as [p IH|p IH|]; intros x H; cbn [iter_pos].
  - pose proof (shr_1_le x H) as A. pose proof (IH (shr_1 x) ltac:(lia)) as B.
    pose proof (IH (iter_pos shr_1 p (shr_1 x)) ltac:(lia)). lia.
  - pose proof (IH x H) as B. pose proof (IH (iter_pos shr_1 p x) ltac:(lia)). lia.
  - now apply shr_1_le.
Qed.
Lemma shr_le x e n : 0 <= shr_m x -> 0 <= shr_m (fst (shr x e n)) <= shr_m x /\ snd (shr x e n) = e + Z.max 0 n.
Proof.
  intros H. destruct n as [|p|p]; cbn [shr fst snd]; split; try lia. now apply shr_iter_le.
Qed.
Lemma Zdigits2_le a b : 0 <= a <= b -> Zdigits2 a <= Zdigits2 b.
Proof.
  intros H. destruct a as [|p|p], b as [|q|q]; cbn [Zdigits2]; try lia.
  apply digits_le; [lia|]. pose proof (digits_bounds q). lia.
Qed.
Lemma loc_m m l : shr_m (shr_record_of_loc m l) = m.
Proof. destruct l as [|[]]; reflexivity. Qed.
Lemma rne_le m l : 0 <= m -> 0 <= round_nearest_even m l <= m + 1.
Proof. destruct l as [|[]]; cbn; try lia. destruct (Z.even m); lia. Qed.

Lemma shr_fexp_le m e l : 0 <= m ->
  0 <= shr_m (fst (shr_fexp prec emax m e l)) <= m /\
  snd (shr_fexp prec emax m e l) = Z.max e (Z.max (Zdigits2 m + e - 53) (-1074)).
Proof.
  intros H. unfold shr_fexp. rewrite fexp_val.
  destruct (shr_le (shr_record_of_loc m l) e (Z.max (Zdigits2 m + e - 53) (-1074) - e)) as [A B]; rewrite ?loc_m in *; auto.
  split; auto. rewrite B. lia.
Qed.

(** float64(i) is exact, or an integer because its exponent is not negative; it never overflows *)
Lemma binary_round_int s p : Zpos p <= 2 ^ 63 ->
  exists m e, binary_round prec emax s p 0 = S754_finite s m e /\
    ((e < 0 /\ Zpos p * 2 ^ (- e) = Zpos m) \/ 0 <= e) \/ binary_round prec emax s p 0 = S754_zero s.
Proof.
  intros H. destruct (Z.lt_ge_cases (Zpos p) (2 ^ 53)) as [L|L].
  - destruct (binary_round_small s p L) as (m & e & X & He & Hm). exists m, e. left. split; auto.
    destruct (Z.eq_dec e 0) as [->|]; [right; lia|left; split; [lia|auto]].
  - pose proof (digits_bounds p) as B. set (k := Zpos (digits2_pos p)) in *.
    assert (K : 53 < k).
    { destruct (Z.lt_ge_cases 53 k); auto. pose proof (Z.pow_le_mono_r 2 k 53 ltac:(lia) ltac:(lia)). lia. }
    assert (K' : k <= 64).
    { apply (digits_le p 64); [lia|]. change (2 ^ 64) with (2 * 2 ^ 63). lia. }
    unfold binary_round. fold k. rewrite fexp_val. unfold shl_align.
    replace (Z.max (k + 0 - 53) (-1074) - 0) with (k - 53) by lia.
    destruct (k - 53) as [|q|q] eqn:Q; try lia. unfold binary_round_aux.
    pose proof (shr_fexp_le (Zpos p) 0 loc_Exact ltac:(lia)) as S1.
    destruct (shr_fexp prec emax (Zpos p) 0 loc_Exact) as [x1 e1]. cbn [fst snd Zdigits2] in S1. fold k in S1.
    destruct S1 as [S1 E1].
    pose proof (rne_le (shr_m x1) (loc_of_shr_record x1) ltac:(lia)) as R.
    set (m2 := round_nearest_even _ _) in *. clearbody m2.
    pose proof (shr_fexp_le m2 e1 loc_Exact ltac:(lia)) as S2.
    destruct (shr_fexp prec emax m2 e1 loc_Exact) as [x2 e2]. cbn [fst snd] in S2. destruct S2 as [S2 E2].
    destruct (shr_m x2) as [|m|m] eqn:X2; try lia.
    + exists xH, 0. now right.
    + exists m, e2. left. assert (D2 : Zdigits2 m2 <= 65).
      { assert (0 < m2) by lia. destruct m2 as [|m2|m2]; try lia. cbn [Zdigits2]. apply digits_le; [lia|].
        change (2 ^ 65) with (2 ^ 63 * 4). lia. }
      unfold emax at 1, prec at 1. replace (e2 <=? 1024 - 53) with true by lia. split; auto. right. lia.
Qed.

Lemma itoa_minus (s : bool) (a : Z) : 0 < a -> itoa (if s then - a else a) = minus s ++ utoa (Z.to_N a).
Proof. intros H. destruct a as [|p|p]; try lia. destruct s; reflexivity. Qed.

Lemma parse_integral s m e : f64_valid (S754_finite s m e) = true ->
  (e < 0 -> exists z, z * 2 ^ (- e) = Zpos m) ->
  parse_float (match f_trunc (S754_finite s m e) with Some z => itoa z | None => [] end) = Some (S754_finite s m e).
Proof.
  intros V H. cbn [f_trunc]. set (a := if 0 <=? e then _ else _).
  assert (A : 0 < a /\ ((0 <= e /\ a = Zpos m * 2 ^ e) \/ (e < 0 /\ a * 2 ^ (- e) = Zpos m))).
  { unfold a. destruct (0 <=? e) eqn:E.
    - pose proof (Z.pow_pos_nonneg 2 e ltac:(lia) ltac:(lia)). split; [nia|left; lia].
    - destruct H as [z Hz]; [lia|]. pose proof (Z.pow_pos_nonneg 2 (- e) ltac:(lia) ltac:(lia)).
      rewrite <- Hz, Z.div_mul by lia. split; [nia|right; lia]. }
  clearbody a. destruct A as [A0 A]. rewrite itoa_minus by auto.
  assert (N0 : Z.to_N a <> 0%N) by lia. rewrite parse_float_digits by auto. rewrite Z2N.id by lia.
  assert (0 < zlen (utoa (Z.to_N a)) <= 310).
  { destruct A as [[A1 A2]|[A1 A2]].
    - eapply big_digits; eauto. rewrite Z2N.id by lia. auto.
    - apply valid_mag in V as [V _]. pose proof (utoa_bounds _ N0) as [B _]. rewrite Z2N.id in B by lia.
      destruct (utoa_head _ N0) as (c & t & E & _).
      assert (0 < zlen (utoa (Z.to_N a))) by (rewrite E, zlen_cons; pose proof (zlen_nonneg t); lia).
      assert (zlen (utoa (Z.to_N a)) - 1 < 17); [|lia]. apply (pow10_le _ a); auto; [lia..|].
      pose proof (Z.pow_pos_nonneg 2 (- e) ltac:(lia) ltac:(lia)).
      assert (a < 2 ^ 53) by nia. pose proof (eq_refl : (2 ^ 53 <? 10 ^ 17) = true). lia. }
  apply round_dec_int; auto; lia.
Qed.

(** exact decimal expansions *)
Lemma parse_expansion s m e : f64_valid (S754_finite s m e) = true ->
  parse_float (minus s ++ (if 0 <=? e then itoa (Zpos m * 2 ^ e) else itoa (Zpos m * 5 ^ (- e)) ++ "e"%byte :: itoa e))
  = Some (S754_finite s m e).
Proof.
  intros V. destruct (0 <=? e) eqn:E.
  - pose proof (parse_integral s m e V ltac:(lia)) as P. cbn [f_trunc] in P. rewrite E in P.
    pose proof (Z.pow_pos_nonneg 2 e ltac:(lia) ltac:(lia)). rewrite itoa_minus in P by nia.
    pose proof (itoa_minus false (Zpos m * 2 ^ e) ltac:(nia)) as I. cbn [minus app] in I. now rewrite I.
  - pose proof (valid_mag _ _ _ V) as [Vm Ve]. pose proof (Z.pow_pos_nonneg 5 (- e) ltac:(lia) ltac:(lia)) as P5.
    set (D := Zpos m * 5 ^ (- e)). assert (0 < D) by (unfold D; nia).
    pose proof (itoa_minus false D ltac:(lia)) as I. cbn [minus app] in I. rewrite I.
    pose proof (itoa_minus true (- e) ltac:(lia)) as I'. cbn [minus app] in I'. rewrite Z.opp_involutive in I'. rewrite I'.
    assert (N0 : Z.to_N D <> 0%N) by lia.
    rewrite parse_float_exp by lia. rewrite !Z2N.id by lia. rewrite Z.opp_involutive.
    pose proof (utoa_bounds _ N0) as [B B']. rewrite Z2N.id in B, B' by lia.
    set (nd := zlen (utoa (Z.to_N D))) in *.
    assert (P10 : 10 ^ (- e) = 5 ^ (- e) * 2 ^ (- e)) by (rewrite <- Z.pow_mul_l; reflexivity).
    assert (P2 : 1 <= 2 ^ (- e) <= 2 ^ 1074).
    { pose proof (Z.pow_pos_nonneg 2 (- e) ltac:(lia) ltac:(lia)). split; [lia|]. apply Z.pow_le_mono_r; lia. }
    assert (Hnd : 0 < nd) by (destruct (utoa_head _ N0) as (c & t & X & _); unfold nd; rewrite X, zlen_cons; pose proof (zlen_nonneg t); lia).
    assert (U : nd - 1 < - e + 17).
    { apply (pow10_le _ D); try lia. rewrite Z.pow_add_r by lia. unfold D. rewrite P10.
      pose proof (eq_refl : (2 ^ 53 <? 10 ^ 17) = true). nia. }
    assert (L : - e - 324 < nd).
    { destruct (Z.lt_ge_cases (- e - 324) 0); [lia|]. apply (pow10_le _ D); try lia.
      pose proof (eq_refl : (2 ^ 1074 <? 10 ^ 324) = true).
      assert (10 ^ (- e - 324) * 10 ^ 324 = 10 ^ (- e)) by (rewrite <- Z.pow_add_r by lia; f_equal; lia).
      unfold D. pose proof (Z.pow_pos_nonneg 10 (- e - 324) ltac:(lia) ltac:(lia)). 
      assert (10 ^ (- e - 324) * 10 ^ 324 <= 5 ^ (- e) * 10 ^ 324) by nia. nia. }
    unfold round_dec. destruct D as [|d|d] eqn:ED; try lia.
    replace (310 <? e + nd) with false by lia. replace (e + nd <? -330) with false by lia.
    replace (0 <=? e) with false by lia. cbv iota zeta.
    rewrite (div_exact s m e (Zpos d) (10 ^ (- e)) V) ; auto; try lia.
Qed.

Lemma shortest_parses fuel f neg num den dp : forall nd t,
  shortest_loop fuel f neg num den dp nd = Some t -> parse_float t = Some f.
Proof.
  induction fuel as [|fuel IH]; [discriminate|]. intros nd t. cbn [shortest_loop].
  destruct (find _ _) as [u|] eqn:F; [|apply IH].
  intros H. injection H as <-. apply find_some in F as [_ F]. now apply parses_to_eq.
Qed.
Lemma parse_fmt_g s m e : f64_valid (S754_finite s m e) = true ->
  parse_float (fmt_g_finite s m e) = Some (S754_finite s m e).
Proof.
  intros V. unfold fmt_g_finite. destruct (frac m e) as [num den] eqn:F.
  destruct (shortest_loop _ _ _ _ _ _ _) as [t|] eqn:S; [now apply shortest_parses in S|].
  pose proof (parse_expansion s m e V) as P. unfold minus in P. unfold frac in F.
  destruct (0 <=? e); injection F as <- <-; auto.
Qed.

(** Number.String and strconv.ParseFloat are inverse on every float64, NaN and infinities included *)
Lemma num_string_parses E f : f64_valid f = true -> parse_float (num_string E f) = Some f.
Proof.
  intros V. unfold num_string. destruct (f_eqb f (f_of_Z (f_to_int E f))) eqn:Q.
  - assert (Hz : int_ok (f_to_int E f)).
    { unfold f_to_int. destruct (f_trunc f) as [z|]; [|apply wrap_ok].
      destruct ((min_int <=? z) && (z <=? max_int)) eqn:R; [unfold int_ok; lia|apply wrap_ok]. }
    set (z := f_to_int E f) in *. clearbody z. unfold f_of_Z, binary_normalize in Q.
    destruct f as [[]|s| |s m e]; try reflexivity.
    + exfalso. destruct z as [|p|p]; [destruct s; discriminate|..].
      * destruct (binary_round_int false p) as (m & e & [[X _]|X]); [ints; lia|rewrite X in Q; destruct s; discriminate..].
      * destruct (binary_round_int true p) as (m & e & [[X _]|X]); [ints; lia|rewrite X in Q; destruct s; discriminate..].
    + discriminate Q.
    + apply parse_integral; auto. intros He.
      destruct z as [|p|p]; [destruct s; discriminate|..].
      * destruct (binary_round_int false p) as (m' & e' & [[X Y]|X]); [ints; lia| |rewrite X in Q; destruct s; discriminate].
        rewrite X in Q. apply f_eqb_finite in Q as (-> & <- & <-). destruct Y as [[_ Y]|Y]; [eauto|lia].
      * destruct (binary_round_int true p) as (m' & e' & [[X Y]|X]); [ints; lia| |rewrite X in Q; destruct s; discriminate].
        rewrite X in Q. apply f_eqb_finite in Q as (-> & <- & <-). destruct Y as [[_ Y]|Y]; [eauto|lia].
  - destruct f as [[]|[]| |s m e]; try reflexivity. now apply parse_fmt_g.
Qed.
