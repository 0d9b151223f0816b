(** Rounding always gives a canonical float64: whatever ParseFloat accepts is a number
    that a Go float64 can hold. *)
From Coq Require Import ZArith NArith List Bool Lia ZifyBool ZifyN Strings.Byte.
From Verif Require Import Base Float Ext Utf8 Strconv Values Buffer Spec Proofs_Base Proofs_Float Proofs_Number.
Import ListNotations.
Open Scope Z_scope.

Lemma shr_1_m r : 0 <= shr_m r -> shr_m (shr_1 r) = shr_m r / 2.
Proof.
  destruct r as [m a b]. cbn [shr_m]. intros H. unfold shr_1. rewrite <- Z.div2_div.
  destruct m as [|[p|p|]|p]; try lia; reflexivity.
Qed.
Lemma shr_iter_m p : forall r, 0 <= shr_m r -> shr_m (iter_pos shr_1 p r) = shr_m r / 2 ^ Zpos p.
Proof.
  induction p as [p IH|p IH|]; intros r H; cbn [iter_pos].
  - assert (0 <= shr_m (shr_1 r)) by (rewrite shr_1_m by auto; apply Z.div_pos; lia).
    assert (0 <= shr_m (iter_pos shr_1 p (shr_1 r))) by (rewrite IH by auto; apply Z.div_pos; lia).
    rewrite IH, IH, shr_1_m by auto. rewrite !Z.div_div by lia. f_equal.
    replace (Zpos p~1) with (1 + Zpos p + Zpos p) by lia. rewrite !Z.pow_add_r by lia. lia.
  - assert (0 <= shr_m (iter_pos shr_1 p r)) by (rewrite IH by auto; apply Z.div_pos; lia).
    rewrite IH, IH by auto. rewrite !Z.div_div by lia. f_equal.
    replace (Zpos p~0) with (Zpos p + Zpos p) by lia. rewrite !Z.pow_add_r by lia. lia.
  - rewrite shr_1_m by auto. reflexivity.
Qed.
Lemma shr_fexp_m m e l n : 0 <= m -> n = Z.max (Zdigits2 m + e - 53) (-1074) - e -> 0 <= n ->
  exists r, shr_fexp prec emax m e l = (r, e + n) /\ shr_m r = m / 2 ^ n.
Proof.
  intros H -> Hn. unfold shr_fexp. rewrite fexp_val. set (n := _ - e) in *. clearbody n.
  assert (R : shr_m (shr_record_of_loc m l) = m) by (destruct l as [|[]]; reflexivity).
  unfold shr. destruct n as [|p|p]; [| |lia].
  - eexists. split; [f_equal; lia|]. rewrite R, Z.pow_0_r, Z.div_1_r. reflexivity.
  - eexists. split; [reflexivity|]. rewrite shr_iter_m, R by (rewrite R; auto). reflexivity.
Qed.
Lemma Zdigits2_bounds m : 0 < m -> 2 ^ (Zdigits2 m - 1) <= m < 2 ^ Zdigits2 m /\ 0 < Zdigits2 m.
Proof. destruct m as [|p|p]; try lia. intros _. split; [apply digits_bounds|]. cbn. lia. Qed.
Lemma Zdigits2_nonneg m : 0 <= m -> 0 <= Zdigits2 m.
Proof. destruct m; cbn; lia. Qed.
Lemma finite_valid s m e : e = Z.max (Zpos (digits2_pos m) + e - 53) (-1074) -> e <= 971 ->
  f64_valid (S754_finite s m e) = true.
Proof.
  intros H L. unfold f64_valid, valid_binary, bounded, canonical_mantissa. rewrite fexp_val.
  apply andb_true_intro. split; [apply Zeq_is_eq_bool; auto|unfold emax, prec; lia].
Qed.

(** a float64 that is a number *)
Definition good (f : spec_float) : Prop := f64_valid f = true /\ f <> S754_nan.
Lemma round_aux_valid s mx ex l : 0 <= mx -> ex <= Z.max (Zdigits2 mx + ex - 53) (-1074) ->
  good (binary_round_aux prec emax s mx ex l).
Proof.
  intros H L. unfold binary_round_aux.
  destruct (shr_fexp_m mx ex l _ H eq_refl ltac:(lia)) as (r & -> & R).
  set (d := Zdigits2 mx) in *. set (n := Z.max _ _ - ex) in *.
  set (m1 := round_nearest_even _ _).
  assert (Hn : 0 <= n) by lia.
  pose proof (Z.pow_pos_nonneg 2 n ltac:(lia) Hn) as P.
  assert (U : shr_m r < 2 ^ 53).
  { rewrite R. apply Z.div_lt_upper_bound; [lia|]. rewrite <- Z.pow_add_r by lia.
    destruct (Z.eq_dec mx 0) as [->|]; [apply Z.pow_pos_nonneg; lia|].
    destruct (Zdigits2_bounds mx ltac:(lia)) as [B B0]. fold d in B, B0.
    pose proof (Z.pow_le_mono_r 2 d (n + 53) ltac:(lia) ltac:(lia)). lia. }
  assert (Lo : 0 <= shr_m r) by (rewrite R; apply Z.div_pos; lia).
  assert (N : ex + n = -1074 \/ -1074 < ex + n /\ 2 ^ 52 <= shr_m r).
  { destruct (Z.eq_dec (ex + n) (-1074)) as [|Q]; [left; auto|right]. split; [lia|].
    destruct (Z.eq_dec mx 0) as [->|].
    - exfalso. unfold n, d in *. cbn [Zdigits2] in *. lia.
    - destruct (Zdigits2_bounds mx ltac:(lia)) as [B B0]. fold d in B, B0. rewrite R.
      apply Z.div_le_lower_bound; [lia|]. rewrite <- Z.pow_add_r by lia.
      replace (n + 52) with (d - 1) by lia. lia. }
  assert (M : m1 = shr_m r \/ m1 = shr_m r + 1).
  { unfold m1, round_nearest_even. destruct (loc_of_shr_record r) as [|[]]; auto. destruct (Z.even _); auto. }
  clearbody m1. set (e1 := ex + n) in *. clearbody e1. clear R P Hn L n d H mx ex l.
  destruct m1 as [|p|p]; [| |lia].
  - destruct (shr_fexp_m 0 e1 loc_Exact 0) as (r2 & -> & R2); cbn [Zdigits2]; try lia.
    rewrite R2. rewrite Z.pow_0_r, Z.div_1_r. split; [reflexivity|discriminate].
  - change (2 ^ 53) with 9007199254740992 in *. change (2 ^ 52) with 4503599627370496 in *.
    destruct (Z.eq_dec (Zpos p) 9007199254740992) as [Q|Q].
    + assert (D : Zpos (digits2_pos p) = 54) by (apply digits_unique; [lia|]; rewrite Q; cbn; lia).
      destruct (shr_fexp_m (Zpos p) e1 loc_Exact 1) as (r2 & -> & R2); cbn [Zdigits2]; try lia.
      rewrite R2, Q. change (9007199254740992 / 2 ^ 1) with (Zpos 4503599627370496). cbv iota.
      destruct (e1 + 1 <=? emax - prec) eqn:C; [|split; [reflexivity|discriminate]]. unfold emax, prec in C.
      split; [|discriminate]. apply finite_valid; [|lia]. change (Zpos (digits2_pos 4503599627370496)) with 53. lia.
    + assert (D : Zpos (digits2_pos p) <= 53)
        by (apply digits_le; [lia|]; change (2 ^ 53) with 9007199254740992; lia).
      assert (D2 : e1 = -1074 \/ Zpos (digits2_pos p) = 53).
      { destruct N as [->|[N1 N2]]; [auto|right]. apply digits_unique; [lia|].
        change (2 ^ (53 - 1)) with 4503599627370496. change (2 ^ 53) with 9007199254740992. lia. }
      destruct (shr_fexp_m (Zpos p) e1 loc_Exact 0) as (r2 & -> & R2); cbn [Zdigits2]; try lia.
      rewrite R2. rewrite Z.pow_0_r, Z.div_1_r.
      destruct (e1 + 0 <=? emax - prec) eqn:C; [|split; [reflexivity|discriminate]]. unfold emax, prec in C.
      split; [|discriminate]. apply finite_valid; lia.
Qed.

Lemma round_valid s m e : good (binary_round prec emax s m e).
Proof.
  unfold binary_round. rewrite fexp_val. unfold shl_align.
  destruct (_ - e) as [|p|p] eqn:D; try (apply round_aux_valid; [lia|cbn [Zdigits2]; lia]).
  set (ex := Z.max _ _) in *.
  apply round_aux_valid; [lia|]. cbn [Zdigits2].
  rewrite (digits_mul m (Zpos p) (shift_pos p m)); [lia|lia|apply shift_pos_spec].
Qed.

Lemma div_valid s D B : 0 < D -> 0 < B ->
  good (let '(mz, ez, lz) := SFdiv_core_binary prec emax D 0 B 0 in
        binary_round_aux prec emax s mz ez lz).
Proof.
  intros HD HB. unfold SFdiv_core_binary. rewrite fexp_val.
  destruct (Zdigits2_bounds D HD) as [BD D0]. destruct (Zdigits2_bounds B HB) as [BB B0].
  set (dD := Zdigits2 D) in *. set (dB := Zdigits2 B) in *.
  set (e' := Z.min _ _).
  assert (L0 : e' <= 0) by lia.
  replace (0 - 0 - e') with (- e') by lia.
  replace (match - e' with Z0 => D | Zpos _ => Z.shiftl D (- e') | Zneg _ => 0 end) with (D * 2 ^ (- e')).
  2:{ destruct (- e') as [|p|p] eqn:X; try lia. now rewrite Z.shiftl_mul_pow2 by lia. }
  pose proof (Z_div_mod (D * 2 ^ (- e')) B ltac:(lia)) as DM.
  destruct (Z.div_eucl (D * 2 ^ (- e')) B) as [q r]. destruct DM as [Hq Hr].
  pose proof (Z.pow_pos_nonneg 2 (- e') ltac:(lia) ltac:(lia)) as P.
  assert (Q0 : 0 <= q) by nia.
  apply round_aux_valid; [auto|].
  assert (K : dD - dB - e' <= Zdigits2 q).
  { pose proof (Zdigits2_nonneg q Q0). destruct (Z.le_gt_cases (dD - dB - e') 0); [lia|].
    destruct (Z.eq_dec q 0) as [->|].
    - exfalso.
      assert (2 ^ (dD - 1 + - e') < 2 ^ dB) by (rewrite Z.pow_add_r by lia; nia).
      apply Z.pow_lt_mono_r_iff in H1; lia.
    - destruct (Zdigits2_bounds q ltac:(lia)) as [Bq Bq0].
      assert (2 ^ (dD - 1 + - e') < 2 ^ (dB + Zdigits2 q)).
      { rewrite !Z.pow_add_r by lia.
        assert (D * 2 ^ (- e') < B * (q + 1)) by nia.
        assert (B * (q + 1) <= 2 ^ dB * 2 ^ Zdigits2 q) by (apply Z.mul_le_mono_nonneg; lia). nia. }
      apply Z.pow_lt_mono_r_iff in H1; lia. }
  lia.
Qed.

Definition finite_good (f : spec_float) : Prop :=
  f64_valid f = true /\ match f with S754_zero _ | S754_finite _ _ _ => True | _ => False end.
Lemma not_infinite r f : good r -> match r with S754_infinity _ => None | _ => Some r end = Some f -> finite_good f.
Proof. intros [V N]. destruct r; intros H; try discriminate; try congruence; injection H as <-; split; auto. Qed.
Lemma round_dec_valid neg D e nd f : round_dec neg D e nd = Some f -> finite_good f.
Proof.
  unfold round_dec. destruct D as [|p|p]; try (intros [= <-]; split; [reflexivity|exact I]). cbv zeta.
  apply not_infinite. destruct (_ <? _); [split; [reflexivity|discriminate]|]. destruct (_ <? _); [split; [reflexivity|discriminate]|].
  destruct (0 <=? e) eqn:C; [apply round_valid|]. apply div_valid; [lia|]. apply Z.pow_pos_nonneg; lia.
Qed.
Lemma round_bin_valid neg M e f : round_bin neg M e = Some f -> finite_good f.
Proof.
  unfold round_bin. destruct M as [|p|p]; try (intros [= <-]; split; [reflexivity|exact I]). cbv zeta.
  apply not_infinite. destruct (_ <? _); [split; [reflexivity|discriminate]|]. destruct (_ <? _); [split; [reflexivity|discriminate]|].
  apply round_valid.
Qed.
Lemma parse_special_valid s f : parse_special s = Some f -> f64_valid f = true.
Proof.
  unfold parse_special. destruct s as [|c t]; [discriminate|]. cbv zeta.
  destruct (_ || _); [intros [= <-]; reflexivity|]. destruct (_ && _); [intros [= <-]; reflexivity|discriminate].
Qed.
(** whatever ParseFloat accepts is a float64; digits denote a finite one *)
Lemma parse_float_finite s f : parse_special s = None -> parse_float s = Some f -> finite_good f.
Proof.
  intros S. unfold parse_float. rewrite S.
  destruct (match s with [] => _ | _ => _ end) as [neg s1].
  destruct (match s1 with [] => _ | _ => _ end) as [hex s2].
  destruct (read_digits _ _ _) as [st s3]. destruct (negb _); [discriminate|]. cbv zeta.
  assert (F : forall (dp : Z) (us : bool) (rest : str),
    match rest with
    | _ :: _ => None
    | [] => if us && negb (underscore_ok s) then None
            else if hex then round_bin neg (rf_mant st) (dp - 4 * rf_nd st)
            else round_dec neg (rf_mant st) (dp - rf_nd st) (rf_nd st)
    end = Some f -> finite_good f).
  { intros dp us [|? ?]; [|discriminate]. destruct (_ && _); [discriminate|].
    destruct hex; [apply round_bin_valid|apply round_dec_valid]. }
  destruct s3 as [|c t].
  + destruct hex; [discriminate|]. apply (F _ _ []).
  + destruct (Byte.eqb _ _); [|discriminate].
    destruct (match t with [] => _ | _ => _ end) as [esign t1].
    destruct t1 as [|d0 t1]; [discriminate|]. destruct (is_digit d0); [|discriminate].
    destruct (read_exp _ _ _) as [[e us] rest]. apply F.
Qed.
Lemma parse_float_valid s f : parse_float s = Some f -> f64_valid f = true.
Proof.
  destruct (parse_special s) as [g|] eqn:S.
  - unfold parse_float. rewrite S. intros [= <-]. exact (parse_special_valid _ _ S).
  - intros H. exact (proj1 (parse_float_finite s f S H)).
Qed.
(** the numbers scripts compute with *)
Lemma f_of_Z_valid z : f64_valid (f_of_Z z) = true.
Proof. unfold f_of_Z, binary_normalize. destruct z; [reflexivity|apply round_valid..]. Qed.
