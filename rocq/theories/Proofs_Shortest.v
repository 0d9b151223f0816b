(** The search for the shortest decimal (Strconv.fmt_g_finite) finds it, within 17 digits. *)
From Coq Require Import ZArith NArith QArith Qabs Qpower List Bool Lia Lqa ZifyBool Strings.Byte.
From Verif Require Import Base Float Ext Utf8 Strconv Values Buffer Spec SpecNumber Proofs_Base Proofs_Float Proofs_Number
  Proofs_Round Proofs_Nearest Proofs_Unique Proofs_Numeral.
Import ListNotations.
Open Scope Z_scope.

(** numerals read as the nearest float64 *)
Lemma exponent_reads limit ep ex : limit <= 100000 -> exponent_text limit ep ex -> exp_reads ep ex.
Proof.
  intros L [H|(e & s & neg & ds & n & He & Hs & D & N & B & -> & ->)]; [now left|right].
  destruct (value_digits _ _ D) as [D1 ->]. exists e, s, neg, ds, (horner 0 ds). do 4 (split; [auto|]).
  split; [apply read_exp_exact; auto; lia|auto].
Qed.
Lemma rounds_comp neg x y r : (x == y)%Q -> rounds neg x r -> rounds neg y r.
Proof.
  intros E. destruct r as [f|]; cbn [rounds]; [|intros; lra]. intros (A & (B & C & D) & G).
  split; [lra|]. split; [|auto]. split; [auto|]. split; [auto|]. intros q Q. destruct (D q Q) as [D1 D2].
  pose proof (signed_comp neg x y E) as S. rewrite S in D1, D2. auto.
Qed.
Lemma zero_rounds neg : rounds neg 0 (Some (S754_zero neg)).
Proof.
  split; [reflexivity|]. split; [|reflexivity]. split; [exact I|]. split; [exists 0, 0; repeat split; lia|].
  assert (Z0 : (Qabs (q_value (S754_zero neg) - signed neg 0) == 0)%Q) by (destruct neg; reflexivity).
  intros q _. rewrite Z0. split; [apply Qabs_nonneg|]. intros _. right. exact I.
Qed.

Lemma numeral_rounds t neg x : numeral 100000 t neg x -> rounds neg x (parse_float t).
Proof.
  intros (s & ip & fp & fd & ep & n & ex & -> & Hs & F & X & N & D & E).
  apply exponent_reads in X; [|lia]. destruct (value_digits _ _ D) as [D1 Dn].
  destruct (parse_numeral neg s ip fp fd ep ex Hs F X N D1) as [[Z0 ->]|(nd & Pn & B & ->)].
  - apply (rounds_comp neg 0); [|apply zero_rounds]. rewrite E, Dn, Z0. change (inject_Z 0) with 0%Q. ring.
  - apply round_dec_rounds; auto; [|now rewrite <- Dn].
    pose proof (Z.pow_pos_nonneg 10 (nd - 1) ltac:(lia) ltac:(lia)). lia.
Qed.

Open Scope Q_scope.
(** ** What rounds to a given float64 *)
Lemma gap_units m e m' e' : (0 < m < 2 ^ 53)%Z -> (-1074 <= e)%Z -> (-1074 < e -> 2 ^ 52 <= m)%Z ->
  (Z.abs m' < 2 ^ 53)%Z -> (-1074 <= e')%Z -> (mag m' e' <> mag m e)%Z -> (mag m e <= 2 ^ 53 * Z.abs (mag m' e' - mag m e))%Z.
Proof.
  intros M E C M' E' N. unfold mag in *. destruct (Z.le_gt_cases e e') as [L|L].
  - replace (e' + 1074)%Z with ((e' - e) + (e + 1074))%Z in * by lia. rewrite (Z.pow_add_r 2 (e' - e)) in * by lia.
    pose proof (Z.pow_pos_nonneg 2 (e + 1074) ltac:(lia) ltac:(lia)) as P. set (p := (2 ^ (e + 1074))%Z) in *.
    set (a := (2 ^ (e' - e))%Z) in *. clearbody p a.
    replace (m' * (a * p) - m * p)%Z with ((m' * a - m) * p)%Z by ring. rewrite Z.abs_mul, (Z.abs_eq p) by lia.
    assert (1 <= Z.abs (m' * a - m))%Z by nia. set (z := Z.abs (m' * a - m)) in *. clearbody z.
    change (2 ^ 53)%Z with 9007199254740992%Z in *. nia.
  - specialize (C ltac:(lia)). replace (e + 1074)%Z with (1 + (e - e' - 1) + (e' + 1074))%Z in * by lia.
    rewrite (Z.pow_add_r 2 (1 + (e - e' - 1))), (Z.pow_add_r 2 1) in * by lia. change (2 ^ 1)%Z with 2%Z in *.
    pose proof (Z.pow_pos_nonneg 2 (e' + 1074) ltac:(lia) ltac:(lia)) as P. set (p := (2 ^ (e' + 1074))%Z) in *.
    pose proof (Z.pow_pos_nonneg 2 (e - e' - 1) ltac:(lia) ltac:(lia)) as T. set (t := (2 ^ (e - e' - 1))%Z) in *. clearbody p t.
    change (2 ^ 53)%Z with 9007199254740992%Z in *. change (2 ^ 52)%Z with 4503599627370496%Z in *.
    assert (A : (9007199254740992 <= m * (2 * t))%Z) by nia. set (a := (m * (2 * t))%Z) in *.
    replace (m * (2 * t * p))%Z with (a * p)%Z in * by (unfold a; ring). clearbody a.
    replace (m' * p - a * p)%Z with ((m' - a) * p)%Z by ring. rewrite Z.abs_mul, (Z.abs_eq p) by lia.
    assert (a <= 9007199254740992 * Z.abs (m' - a))%Z by lia. nia.
Qed.
Lemma gap s m e q : f64_valid (S754_finite s m e) = true -> representable q ->
  let v := inject_Z (Zpos m) * p2 e in ~ q == v -> v <= inject_Z (2 ^ 53) * Qabs (q - v).
Proof.
  intros V (m' & e' & M' & E' & Hq) v N. rewrite Hq in N |- *. clear Hq. destruct (valid_mag _ _ _ V) as [M E]. pose proof (canonical _ _ _ V) as C.
  unfold v in *. rewrite <- (mag_value m' e'), <- (mag_value (Zpos m) e) in N |- * by lia. pose proof (p2_pos (-1074)) as T.
  setoid_replace (inject_Z (mag m' e') * tiny - inject_Z (mag (Z.pos m) e) * tiny) with (inject_Z (mag m' e' - mag (Zpos m) e) * tiny)
    by (unfold Zminus; rewrite inj_add, inject_Z_opp; ring).
  rewrite Qabs_Qmult, (Qabs_pos tiny) by lra. change (Qabs (inject_Z (mag m' e' - mag (Z.pos m) e))) with (inject_Z (Z.abs (mag m' e' - mag (Z.pos m) e))).
  rewrite Qmult_assoc, <- inj_mul. assert (L := gap_units (Zpos m) e m' e' ltac:(lia) ltac:(lia) C M' ltac:(lia)).
  apply Qmult_le_compat_r; [|lra]. apply inj_le. apply L. intros X. apply N. now rewrite X.
Qed.
Lemma finite_below s m e : f64_valid (S754_finite s m e) = true -> inject_Z (Zpos m) * p2 e <= inject_Z (2 ^ 54 - 2) * p2 970.
Proof.
  intros V. destruct (valid_mag _ _ _ V) as [M E]. pose proof (p2_le e 971 ltac:(lia)) as L. change 971%Z with (1 + 970)%Z in L. rewrite p2_add in L.
  change (p2 1) with (2 # 1) in L. assert (A : inject_Z (Zpos m) <= inject_Z (2 ^ 53 - 1)) by (apply inj_le; lia).
  assert (B : inject_Z (2 ^ 54 - 2) == (2 # 1) * inject_Z (2 ^ 53 - 1)) by reflexivity. rewrite B.
  assert (0 < inject_Z (Zpos m)) by (apply (inj_lt 0); lia). pose proof (p2_pos e). pose proof (p2_pos 970).
  set (a := inject_Z (Zpos m)) in *. set (b := inject_Z (2 ^ 53 - 1)) in *. set (c := p2 e) in *. set (d := p2 970) in *. clearbody a b c d.
  apply (Qle_trans _ (b * c)); [apply Qmult_le_compat_r; lra|]. setoid_replace ((2#1) * b * d) with (b * ((2 # 1) * d)) by ring.
  rewrite !(Qmult_comm b). apply Qmult_le_compat_r; lra.
Qed.
(** numbers between the float and one that rounds to it round to it *)
Lemma between_rounds s m e x y : f64_valid (S754_finite s m e) = true -> let v := inject_Z (Zpos m) * p2 e in
  rounds s x (Some (S754_finite s m e)) -> (v <= y <= x \/ x <= y <= v) -> rounds s y (Some (S754_finite s m e)).
Proof.
  intros V v (Lx & (F & R & N) & S) B. split; [|split; [|auto]].
  - destruct B as [B|B]; [lra|]. apply (Qle_lt_trans _ v); [lra|]. apply (Qle_lt_trans _ _ _ (finite_below s m e V)).
    rewrite overflow_val. apply Qmult_lt_compat_r; [apply p2_pos|reflexivity].
  - split; [auto|]. split; [auto|]. intros q Q. destruct (N q Q) as [N1 N2].
    pose proof (finite_value s m e) as W. fold v in W. rewrite W in *. clear W.
    rewrite (signed_abs s v x) in N1, N2. rewrite (signed_abs s v y).
    assert (G : forall z, Qabs (q - signed s z) == Qabs (signed s q - z)).
    { intros z. rewrite <- (signed_abs s (signed s q) z), signed_invol. reflexivity. }
    rewrite G in N1, N2. rewrite G. clear G. revert N1 N2. generalize (q == signed s v \/ even_mantissa (S754_finite s m e)).
    set (w := signed s q). clearbody w v. intros P.
    apply (Qabs_case (v - x)); apply (Qabs_case (w - x)); apply (Qabs_case (v - y)); apply (Qabs_case (w - y)); intros.
    all: split; [lra|intros; apply N2; lra].
Qed.
(** numbers very near to the float round to it *)
Lemma near_rounds s m e y : f64_valid (S754_finite s m e) = true -> let v := inject_Z (Zpos m) * p2 e in
  inject_Z (2 ^ 54) * Qabs (y - v) < v -> rounds s y (Some (S754_finite s m e)).
Proof.
  intros V v B. assert (V0 : 0 < v) by (pose proof (Qabs_nonneg (y - v)); assert (0 < inject_Z (2 ^ 54)) by reflexivity; nra).
  split; [|split; [|reflexivity]].
  - assert (L : v <= inject_Z (2 ^ 54 - 2) * p2 970) by (apply (finite_below s m e V)).
    rewrite overflow_val. pose proof (Qle_Qabs (y - v)) as A. pose proof (p2_pos 970). set (t := p2 970) in *. clearbody v t.
    assert (B1 : inject_Z (2 ^ 54) * Qabs (y - v) < inject_Z (2 ^ 54) * t).
    { apply (Qlt_trans _ _ _ B). apply (Qle_lt_trans _ _ _ L). apply Qmult_lt_compat_r; [auto|reflexivity]. }
    assert (B2 : Qabs (y - v) < t).
    { apply Qnot_le_lt. intros X. apply (Qlt_not_le _ _ B1). rewrite !(Qmult_comm (inject_Z (2 ^ 54))). apply Qmult_le_compat_r; [auto|discriminate]. }
    assert (E : inject_Z (2 ^ 54 - 1) * t == inject_Z (2 ^ 54 - 2) * t + t) by (change (inject_Z (2 ^ 54 - 1)) with (inject_Z (2 ^ 54 - 2) + 1); ring).
    lra.
  - split; [exact I|]. destruct (valid_mag _ _ _ V) as [M E]. split.
    { apply (representable_comp (signed s v)); [symmetry; apply finite_value|]. apply representable_signed. exists (Zpos m), e. split; [lia|]. split; [auto|reflexivity]. }
    intros q Q. pose proof (finite_value s m e) as W. fold v in W. rewrite W. rewrite (signed_abs s v y).
    assert (G : Qabs (q - signed s y) == Qabs (signed s q - y)).
    { rewrite <- (signed_abs s (signed s q) y), signed_invol. reflexivity. }
    rewrite G. destruct (Qeq_dec (signed s q) v) as [X|X].
    + split; [|intros _; left; transitivity (signed s (signed s q)); [symmetry; apply signed_invol|now apply signed_comp]].
      rewrite X. rewrite (Qabs_Qminus v y). apply Qle_refl.
    + pose proof (gap s m e (signed s q) V (representable_signed s q Q) X) as P. fold v in P.
      set (w := signed s q) in *. clearbody w v.
      assert (Tri : Qabs (w - v) <= Qabs (w - y) + Qabs (y - v)).
      { setoid_replace (w - v) with ((w - y) + (y - v)) by ring. apply Qabs_triangle. }
      assert (Str : Qabs (y - v) < Qabs (w - y)).
      { apply Qnot_le_lt. intros Z0. change (inject_Z (2 ^ 54)) with ((2 # 1) * inject_Z (2 ^ 53)) in B.
        assert (0 < inject_Z (2 ^ 53)) by reflexivity. set (c := inject_Z (2 ^ 53)) in *. clearbody c.
        assert (c * Qabs (w - v) <= c * ((2 # 1) * Qabs (y - v))).
        { rewrite !(Qmult_comm c). apply Qmult_le_compat_r; lra. } lra. }
      rewrite (Qabs_Qminus v y). split; [lra|]. intros. exfalso. lra.
Qed.

(** ** The decimal point and the neighbours of the value *)
Lemma small_dp_spec fuel : forall num den dp, (0 < num < den)%Z -> (den <= num * 10 ^ Z.of_nat fuel)%Z ->
  exists j, (0 <= j <= Z.of_nat fuel)%Z /\ small_dp fuel num den dp = (dp - j)%Z /\ (num * 10 ^ j < den <= num * 10 ^ (j + 1))%Z.
Proof.
  induction fuel as [|fuel IH]; intros num den dp H L.
  - exfalso. change (10 ^ Z.of_nat 0)%Z with 1%Z in L. lia.
  - cbn [small_dp]. destruct (num * 10 <? den)%Z eqn:C.
    + destruct (IH (num * 10)%Z den (dp - 1)%Z) as (j & J & E & B); [lia| |].
      * rewrite Nat2Z.inj_succ, Z.pow_succ_r in L by lia. lia.
      * exists (j + 1)%Z. split; [lia|]. split; [lia|].
        replace (num * 10 ^ (j + 1))%Z with (num * 10 * 10 ^ j)%Z by (rewrite Z.pow_add_r by lia; ring).
        replace (num * 10 ^ (j + 1 + 1))%Z with (num * 10 * 10 ^ (j + 1))%Z by (rewrite (Z.pow_add_r 10 (j + 1)) by lia; ring). auto.
    + exists 0%Z. split; [lia|]. split; [lia|]. change (10 ^ 0)%Z with 1%Z. change (10 ^ (0 + 1))%Z with 10%Z. lia.
Qed.
Lemma dec_point_spec num den v : (0 < num)%Z -> (0 < den)%Z -> (den <= num * 10 ^ 400)%Z -> v * inject_Z den == inject_Z num ->
  let dp := dec_point num den in p10 (dp - 1) <= v < p10 dp /\ (-400 <= dp)%Z.
Proof.
  intros Hn Hd L V dp. assert (D0 : 0 < inject_Z den) by (apply (inj_lt 0); auto). unfold dp, dec_point. destruct (den <=? num)%Z eqn:C.
  - assert (N0 : (1 <= num / den)%Z) by (apply Z.div_le_lower_bound; lia).
    pose proof (itoa_minus false (num / den) ltac:(lia)) as I. cbn [minus app] in I. rewrite I. clear I.
    pose proof (utoa_bounds (Z.to_N (num / den)) ltac:(lia)) as B. rewrite Z2N.id in B by lia.
    destruct (utoa_head (Z.to_N (num / den)) ltac:(lia)) as (c & t & X & _).
    assert (Hl : (1 <= zlen (utoa (Z.to_N (num / den))))%Z) by (rewrite X, zlen_cons; pose proof (zlen_nonneg t); lia).
    set (l := zlen _) in *. clearbody l. pose proof (Z.div_mod num den ltac:(lia)) as DM. pose proof (Z.mod_pos_bound num den ltac:(lia)) as MB.
    set (q := (num / den)%Z) in *. set (r := (num mod den)%Z) in *. clearbody q r.
    split; [|lia]. rewrite !p10_int by lia. split.
    + apply Qnot_lt_le. intros Z0. assert (inject_Z num < inject_Z (10 ^ (l - 1)) * inject_Z den) by (rewrite <- V; apply Qmult_lt_compat_r; auto).
      rewrite <- inj_mul, <- Zlt_Qlt in H. nia.
    + apply Qnot_le_lt. intros Z0. assert (inject_Z (10 ^ l) * inject_Z den <= inject_Z num) by (rewrite <- V; apply Qmult_le_compat_r; lra).
      rewrite <- inj_mul, <- Zle_Qle in H. nia.
  - destruct (small_dp_spec 400 num den 0) as (j & J & E & B1 & B2); [lia|exact L|]. rewrite E. split; [|change (Z.of_nat 400) with 400%Z in J; lia].
    replace (0 - j - 1)%Z with (- (j + 1))%Z by lia. replace (0 - j)%Z with (- j)%Z by lia.
    pose proof (p10_neg (j + 1) ltac:(lia)) as P1. pose proof (p10_neg j ltac:(lia)) as P0.
    pose proof (p10_pos (- (j + 1))) as Q1. pose proof (p10_pos (- j)) as Q0.
    apply inj_lt in B1. apply inj_le in B2. rewrite inj_mul in B1, B2. rewrite <- V in B1, B2.
    set (a := p10 (- (j + 1))) in *. set (b := inject_Z (10 ^ (j + 1))) in *. set (a' := p10 (- j)) in *. set (b' := inject_Z (10 ^ j)) in *.
    set (d := inject_Z den) in *. clearbody a b a' b' d. split.
    + assert (X : d * (v * b) >= d * 1) by (setoid_replace (d * (v * b)) with (v * d * b) by ring; lra).
      assert (Y : 1 <= v * b) by (apply Qnot_lt_le; intros Z0; apply (Qlt_not_le (d * (v * b)) (d * 1)); [rewrite !(Qmult_comm d); apply Qmult_lt_compat_r; auto|lra]).
      assert (a * 1 <= a * (v * b)) by (rewrite !(Qmult_comm a); apply Qmult_le_compat_r; lra).
      setoid_replace (a * (v * b)) with (v * (a * b)) in H by ring. rewrite P1 in H. lra.
    + assert (Y : v * b' < 1) by (apply Qnot_le_lt; intros Z0; apply (Qle_not_lt (d * 1) (d * (v * b'))); [rewrite !(Qmult_comm d); apply Qmult_le_compat_r; lra|setoid_replace (d * (v * b')) with (v * d * b') by ring; lra]).
      assert (a' * (v * b') < a' * 1) by (rewrite !(Qmult_comm a'); apply Qmult_lt_compat_r; lra).
      setoid_replace (a' * (v * b')) with (v * (a' * b')) in H by ring. rewrite P0 in H. lra.
Qed.

Lemma frac_spec s m e : f64_valid (S754_finite s m e) = true -> let v := inject_Z (Zpos m) * p2 e in
  let '(num, den) := frac m e in (0 < num)%Z /\ (0 < den)%Z /\ (den <= num * 10 ^ 400)%Z /\ v * inject_Z den == inject_Z num.
Proof.
  intros V v. destruct (valid_mag _ _ _ V) as [M E]. unfold frac. destruct (0 <=? e)%Z eqn:C.
  - pose proof (Z.pow_pos_nonneg 2 e ltac:(lia) ltac:(lia)). pose proof (Z.pow_pos_nonneg 10 400 ltac:(lia) ltac:(lia)).
    split; [nia|]. split; [lia|]. split; [nia|]. unfold v. rewrite inj_mul, <- p2_int by lia. change (inject_Z 1) with 1. ring.
  - pose proof (Z.pow_pos_nonneg 2 (- e) ltac:(lia) ltac:(lia)). split; [lia|]. split; [lia|]. split.
    + apply (Z.le_trans _ (2 ^ 1074)); [apply Z.pow_le_mono_r; lia|]. apply (Z.le_trans _ (1 * 10 ^ 400)); [apply Z.leb_le; vm_compute; reflexivity|].
      apply Z.mul_le_mono_nonneg_r; [|lia]. apply Z.pow_nonneg. lia.
    + unfold v. rewrite <- (p2_int (- e)) by lia. rewrite <- Qmult_assoc, <- p2_add. replace (e + - e)%Z with 0%Z by lia. change (p2 0) with 1. ring.
Qed.

(** the two neighbours: [q] and [q + 1] units of 10^k *)
Lemma candidates_spec num den dp nd v : (0 < num)%Z -> (0 < den)%Z -> v * inject_Z den == inject_Z num -> let k := (dp - nd)%Z in
  exists q, inject_Z q * p10 k <= v /\ v < inject_Z (q + 1) * p10 k /\
    (candidates num den dp nd = [(q, k); ((q + 1)%Z, k)] /\ v - inject_Z q * p10 k <= inject_Z (q + 1) * p10 k - v /\
       (v - inject_Z q * p10 k == inject_Z (q + 1) * p10 k - v -> Z.even q = true) \/
     candidates num den dp nd = [((q + 1)%Z, k); (q, k)] /\ inject_Z (q + 1) * p10 k - v <= v - inject_Z q * p10 k /\
       (v - inject_Z q * p10 k == inject_Z (q + 1) * p10 k - v -> Z.even (q + 1) = true)).
Proof.
  intros Hn Hd V k. unfold candidates. fold k.
  assert (AB : exists a b, (if (0 <=? k)%Z then (num, (den * 10 ^ k)%Z) else ((num * 10 ^ (- k))%Z, den)) = (a, b) /\ (0 < b)%Z /\ v * inject_Z b == inject_Z a * p10 k).
  { destruct (0 <=? k)%Z eqn:C.
    - exists num, (den * 10 ^ k)%Z. split; [auto|]. split; [pose proof (Z.pow_pos_nonneg 10 k ltac:(lia) ltac:(lia)); nia|].
      rewrite inj_mul, <- p10_int, Qmult_assoc, V by lia. reflexivity.
    - exists (num * 10 ^ (- k))%Z, den. split; [auto|]. split; [auto|]. rewrite V, inj_mul.
      pose proof (p10_neg (- k) ltac:(lia)) as P. rewrite Z.opp_involutive in P. rewrite <- Qmult_assoc, (Qmult_comm (inject_Z _) (p10 k)), P. ring. }
  destruct AB as (a & b & -> & Hb & A). exists (a / b)%Z. pose proof (Z.div_mod a b ltac:(lia)) as DM. pose proof (Z.mod_pos_bound a b Hb) as MB.
  set (q := (a / b)%Z) in *. set (r := (a mod b)%Z) in *. clearbody q r. subst a.
  assert (B0 : 0 < inject_Z b) by (apply (inj_lt 0); auto). pose proof (p10_pos k) as P. set (t := p10 k) in *. clearbody t.
  rewrite inj_add in A. rewrite inj_mul in A. rewrite inj_add. change (inject_Z 1) with 1.
  assert (R0 : 0 <= inject_Z r) by (apply (inj_le 0); lia). assert (R1 : inject_Z r < inject_Z b) by (apply inj_lt; lia).
  set (cond := ((2 * r <? b) || ((2 * r =? b) && Z.even q))%Z) in *.
  assert (HH : cond = true -> (2 # 1) * inject_Z r <= inject_Z b).
  { intros X. change (2 # 1) with (inject_Z 2). rewrite <- inj_mul. apply inj_le. unfold cond in X. lia. }
  assert (HH' : cond = false -> inject_Z b <= (2 # 1) * inject_Z r).
  { intros X. change (2 # 1) with (inject_Z 2). rewrite <- inj_mul. apply inj_le. unfold cond in X. lia. }
  assert (HT : inject_Z b == (2 # 1) * inject_Z r -> cond = Z.even q).
  { intros X. change (2 # 1) with (inject_Z 2) in X. rewrite <- inj_mul in X. rewrite inject_Z_injective in X. unfold cond.
    replace (2 * r <? b)%Z with false by lia. replace (2 * r =? b)%Z with true by lia. reflexivity. }
  assert (EV : Z.even (q + 1) = negb (Z.even q)) by (replace (q + 1)%Z with (Z.succ q) by lia; rewrite Z.even_succ, <- Z.negb_even; reflexivity).
  set (Q := inject_Z q) in *. set (R := inject_Z r) in *. set (B := inject_Z b) in *. clearbody Q R B cond.
  (* v = (q + r / b) t *)
  assert (VV : (v - Q * t) * B == R * t) by lra.
  assert (cancel : forall x, 0 <= x * B -> 0 <= x).
  { intros x X. apply Qnot_lt_le. intros Z0. apply (Qlt_not_le (x * B) (0 * B)); [apply Qmult_lt_compat_r; auto|lra]. }
  assert (cancel' : forall x, 0 < x * B -> 0 < x).
  { intros x X. apply Qnot_le_lt. intros Z0. apply (Qle_not_lt (x * B) (0 * B)); [apply Qmult_le_compat_r; lra|lra]. }
  split; [|split].
  - enough (0 <= v - Q * t) by lra. apply cancel. rewrite VV. nra.
  - enough (0 < (Q + 1) * t - v) by lra. apply cancel'. assert (((Q + 1) * t - v) * B == (B - R) * t) by lra. rewrite H. nra.
  - assert (TT : v - Q * t == (Q + 1) * t - v -> B == (2 # 1) * R).
    { intros T0. assert (T1 : (B - (2 # 1) * R) * t == 0) by (assert (((Q + 1) * t - v - (v - Q * t)) * B == (B - (2 # 1) * R) * t) by lra; rewrite <- H;
        setoid_replace ((Q + 1) * t - v - (v - Q * t)) with 0 by lra; ring).
      apply Qmult_integral in T1 as [T1|T1]; lra. }
    destruct cond.
    + left. split; [auto|]. specialize (HH eq_refl). split; [|intros T0; symmetry; apply HT, TT, T0]. enough (0 <= (Q + 1) * t - v - (v - Q * t)) by lra. apply cancel.
      assert (((Q + 1) * t - v - (v - Q * t)) * B == (B - (2 # 1) * R) * t) by lra. rewrite H. nra.
    + right. split; [auto|]. specialize (HH' eq_refl). split; [|intros T0; rewrite EV, <- (HT (TT T0)); reflexivity]. enough (0 <= (v - Q * t) - ((Q + 1) * t - v)) by lra. apply cancel.
      assert (((v - Q * t) - ((Q + 1) * t - v)) * B == ((2 # 1) * R - B) * t) by lra. rewrite H. nra.
Qed.

(** ** Layout *)
Lemma digits_shape n : (0 < n)%Z -> exists d t, itoa n = d :: t.
Proof.
  intros H. pose proof (itoa_minus false n H) as I. cbn [minus app] in I. rewrite I.
  destruct (utoa_head (Z.to_N n) ltac:(lia)) as (c & t & X & _). eauto.
Qed.
Lemma fmt_f_layout lo hi pad (neg : bool) ds dp : (1 <= zlen ds)%Z -> (lo <= dp - 1 < hi)%Z ->
  exists u, fmt_f neg ds dp = (if neg then bs "-" else []) ++ u /\ number_layout lo hi pad ds dp u.
Proof.
  intros L C. unfold fmt_f. replace (if neg then ["-"%byte] else []) with (if neg then bs "-" else []) by (destruct neg; reflexivity).
  eexists. split; [reflexivity|]. destruct (0 <? dp)%Z eqn:C1.
  - destruct (dp <? zlen ds)%Z eqn:C2.
    + replace (Z.to_nat (dp - zlen ds)) with 0%nat by lia. replace (Z.to_nat (- dp)) with 0%nat by lia. cbn [repeat app]. rewrite app_nil_r.
      assert (S : number_layout lo hi pad (firstn (Z.to_nat dp) ds ++ skipn (Z.to_nat dp) ds) dp (firstn (Z.to_nat dp) ds ++ "."%byte :: skipn (Z.to_nat dp) ds)).
      { unfold zlen in *. apply nl_inside; [unfold zlen; rewrite firstn_length; lia|lia|]. intros X. apply (f_equal (@length byte)) in X. rewrite skipn_length in X. cbn in X. lia. }
      now rewrite firstn_skipn in S.
    + unfold zlen in *. rewrite firstn_all2 by lia. rewrite app_nil_r. apply nl_above. unfold zlen. lia.
  - replace (dp <? zlen ds)%Z with true by lia. replace (Z.to_nat dp) with 0%nat by lia. cbn [skipn].
    change (bs "0" ++ "."%byte :: repeat "0"%byte (Z.to_nat (- dp)) ++ ds) with (bs "0." ++ repeat "0"%byte (Z.to_nat (- dp)) ++ ds).
    apply nl_below; lia.
Qed.
Lemma fmt_g_layout neg n k : (0 < n)%Z -> let ds := itoa n in
  exists u, fmt_g neg n k = (if neg then bs "-" else []) ++ u /\ g_layout ds (zlen ds + k) u.
Proof.
  intros H ds. unfold fmt_g. fold ds. cbv zeta. set (dp := (zlen ds + k)%Z).
  assert (D : exists d t, ds = d :: t) by now apply digits_shape.
  clearbody dp ds. destruct D as (d & t & ->).
  destruct ((dp - 1 <? -4) || (6 <=? dp - 1))%Z eqn:C.
  - eexists. split; [|apply nl_exponent; [lia|apply itoa_text]]. unfold fmt_e.
    replace (if neg then ["-"%byte] else []) with (if neg then bs "-" else []) by (destruct neg; reflexivity). f_equal.
    destruct t as [|c t]; cbn [app]; reflexivity.
  - apply fmt_f_layout; [rewrite zlen_cons; pose proof (zlen_nonneg t); lia|lia].
Qed.
Lemma horner_pad a k : horner a (repeat "0"%byte k) = (a * 10 ^ Z.of_nat k)%Z.
Proof.
  revert a. induction k as [|k IH]; intros a; [cbn [repeat horner fold_left]; change (10 ^ Z.of_nat 0)%Z with 1%Z; unfold horner; cbn; lia|].
  cbn [repeat]. change (horner a ("0"%byte :: repeat "0"%byte k)) with (horner (a * 10 + digit_val "0"%byte) (repeat "0"%byte k)).
  rewrite IH. change (digit_val "0"%byte) with 0%Z. rewrite Nat2Z.inj_succ, Z.pow_succ_r by lia. ring.
Qed.
Lemma horner_app a s t : horner a (s ++ t) = horner (horner a s) t.
Proof. unfold horner. now rewrite fold_left_app. Qed.
Lemma zeros_digits k : digits (repeat "0"%byte k).
Proof. apply Forall_forall. intros c Hc. apply repeat_spec in Hc. now subst. Qed.
(** what is laid out is a numeral with the value of the digits *)
Lemma layout_numeral lo hi pad (neg : bool) s ds dp u : sign_text neg s -> number_layout lo hi pad ds dp u -> digits ds -> ds <> [] -> (-10000 < dp < 10000)%Z ->
  numeral 100000 (s ++ u) neg (inject_Z (horner 0 ds) * p10 (dp - zlen ds)).
Proof.
  intros Hs L D N B.
  assert (K : forall (ip fp fd ep : str) ex y, fraction_text fp fd -> exponent_text 100000 ep ex -> digits (ip ++ fd) -> ip ++ fd <> [] ->
    y == inject_Z (horner 0 (ip ++ fd)) * p10 (ex - zlen fd) -> numeral 100000 (s ++ ip ++ fp ++ ep) neg y).
  { intros ip fp fd ep ex y F X Dg Ne Y. exists s, ip, fp, fd, ep, (horner 0 (ip ++ fd)), ex. split; [auto|]. split; [auto|]. split; [auto|].
    split; [auto|]. split; [auto|]. split; [now apply digits_have_value|auto]. }
  destruct L as [d ds dp u C I|ds dp C1 C2|a b dp C1 C2 C3|ds dp C].
  - apply (K [d] (match ds with [] => [] | _ => "."%byte :: ds end) ds _ (dp - 1)%Z); auto; [destruct ds; [left|right]; auto| |].
    + right. assert (A : digits (if pad && (Z.abs (dp - 1) <? 10)%Z then "0"%byte :: u else u) /\ (if pad && (Z.abs (dp - 1) <? 10)%Z then "0"%byte :: u else u) <> []
        /\ horner 0 (if pad && (Z.abs (dp - 1) <? 10)%Z then "0"%byte :: u else u) = Z.abs (dp - 1)).
      { destruct I as (us & n & Du & Nu & _ & [[-> En]|(-> & En & Pn)]); [|lia]. destruct (value_digits _ _ Du) as [Dg Hn].
        destruct (pad && (Z.abs (dp - 1) <? 10)%Z); [|now rewrite En, Hn]. split; [constructor; auto|]. split; [discriminate|].
        change (horner 0 ("0"%byte :: us)) with (horner 0 us). now rewrite En. }
      destruct A as (A1 & A2 & A3). set (es := if pad && (Z.abs (dp - 1) <? 10)%Z then _ else _) in *. clearbody es.
      exists "e"%byte, [if (dp - 1 <? 0)%Z then "-"%byte else "+"%byte], (dp - 1 <? 0)%Z, es, (Z.abs (dp - 1)).
      split; [now left|]. split; [destruct (dp - 1 <? 0)%Z; cbn; auto|]. split; [rewrite <- A3; now apply digits_have_value|].
      split; [auto|]. split; [lia|]. split; [reflexivity|]. destruct (dp - 1 <? 0)%Z eqn:X; lia.
    + rewrite zlen_cons. replace (dp - (1 + zlen ds))%Z with (dp - 1 - zlen ds)%Z by lia. reflexivity.
  - change (bs "0." ++ repeat "0"%byte (Z.to_nat (- dp)) ++ ds) with (bs "0" ++ ("."%byte :: repeat "0"%byte (Z.to_nat (- dp)) ++ ds)).
    replace ("."%byte :: repeat "0"%byte (Z.to_nat (- dp)) ++ ds) with (("."%byte :: repeat "0"%byte (Z.to_nat (- dp)) ++ ds) ++ []) by apply app_nil_r.
    apply (K (bs "0") _ (repeat "0"%byte (Z.to_nat (- dp)) ++ ds) [] 0%Z); [now right|now left| |discriminate|].
    + constructor; [reflexivity|]. apply Forall_app. split; [apply zeros_digits|auto].
    + rewrite horner_app. change (horner 0 (bs "0")) with 0%Z. rewrite horner_app, horner_pad. rewrite Z.mul_0_l.
      assert (Lz : zlen (repeat "0"%byte (Z.to_nat (- dp)) ++ ds) = (- dp + zlen ds)%Z) by (unfold zlen; rewrite app_length, repeat_length; lia).
      rewrite Lz. replace (0 - (- dp + zlen ds))%Z with (dp - zlen ds)%Z by lia. reflexivity.
  - replace (a ++ "."%byte :: b) with (a ++ ("."%byte :: b) ++ []) by now rewrite app_nil_r.
    apply (K a ("."%byte :: b) b [] 0%Z); [now right|now left|auto|auto|].
    assert (Lz : zlen (a ++ b) = (zlen a + zlen b)%Z) by (unfold zlen; rewrite app_length; lia). rewrite Lz.
    replace (dp - (zlen a + zlen b))%Z with (0 - zlen b)%Z by lia. reflexivity.
  - replace (ds ++ repeat "0"%byte (Z.to_nat (dp - zlen ds))) with ((ds ++ repeat "0"%byte (Z.to_nat (dp - zlen ds))) ++ [] ++ []) by now rewrite !app_nil_r.
    apply (K (ds ++ repeat "0"%byte (Z.to_nat (dp - zlen ds))) [] [] [] 0%Z); [now left|now left| | |].
    + rewrite app_nil_r. apply Forall_app. split; [auto|apply zeros_digits].
    + rewrite app_nil_r. intros X. apply N. now apply app_eq_nil in X.
    + rewrite app_nil_r, horner_app, horner_pad, inj_mul. change (p10 (0 - zlen (@nil byte))) with 1.
      rewrite Z2Nat.id by lia. rewrite <- p10_int by lia. ring.
Qed.

(** ** The search *)
Lemma f_same_refl f : f_same f f = true.
Proof. destruct f as [[]|[]| |s m e]; try reflexivity. cbn. rewrite Bool.eqb_reflx, Pos.eqb_refl, Z.eqb_refl. reflexivity. Qed.
Lemma parses_iff t f neg x : numeral 100000 t neg x -> f64_valid f = true -> parses_to t f = true <-> rounds neg x (Some f).
Proof.
  intros H V. pose proof (numeral_rounds t neg x H) as R. split; intros P.
  - apply parses_to_eq in P. now rewrite P in R.
  - assert (E : parse_float t = Some f).
    { apply (rounds_same neg x); auto; [intros g; apply parse_float_valid|]. intros g X. injection X as <-. auto. }
    unfold parses_to. rewrite E. apply f_same_refl.
Qed.
Lemma strip_spec fuel : forall n k, (0 < n)%Z -> let '(n', k') := strip_zeros fuel n k in
  (0 < n' <= n)%Z /\ (k <= k' <= k + Z.of_nat fuel)%Z /\ inject_Z n' * p10 k' == inject_Z n * p10 k /\
  ((0 < fuel)%nat -> (n mod 10 = 0 -> n' <= n / 10)%Z).
Proof.
  induction fuel as [|fuel IH]; intros n k H; cbn [strip_zeros]; [split; [lia|]; split; [lia|]; split; [reflexivity|lia]|].
  destruct ((n mod 10 =? 0) && negb (n =? 0))%Z eqn:C.
  - assert (D : n = (10 * (n / 10))%Z) by (pose proof (Z.div_mod n 10 ltac:(lia)); lia). assert (0 < n / 10)%Z by lia.
    specialize (IH (n / 10)%Z (k + 1)%Z ltac:(lia)). destruct (strip_zeros fuel (n / 10) (k + 1)) as [n' k'].
    destruct IH as (A & B & E & _). split; [lia|]. split; [lia|]. split; [|lia]. rewrite E, p10_add. rewrite D at 2. rewrite inj_mul.
    change (p10 1) with (inject_Z 10). ring.
  - split; [lia|]. split; [lia|]. split; [reflexivity|]. lia.
Qed.
Lemma itoa_len n : (0 < n)%Z -> (10 ^ (zlen (itoa n) - 1) <= n < 10 ^ zlen (itoa n))%Z /\ (1 <= zlen (itoa n))%Z /\ digits (itoa n) /\ horner 0 (itoa n) = n /\
  hd_error (itoa n) <> Some "0"%byte.
Proof.
  intros H. pose proof (itoa_minus false n H) as I. cbn [minus app] in I. rewrite I.
  pose proof (utoa_bounds (Z.to_N n) ltac:(lia)) as B. rewrite Z2N.id in B by lia. split; [auto|].
  destruct (utoa_head (Z.to_N n) ltac:(lia)) as (c & t & X & _ & C). split; [rewrite X, zlen_cons; pose proof (zlen_nonneg t); lia|].
  split; [apply utoa_digits|]. split; [rewrite utoa_horner; lia|]. rewrite X. cbn. congruence.
Qed.
Lemma len_bound n a : (0 < n)%Z -> (0 <= a)%Z -> (n < 10 ^ a)%Z -> (zlen (itoa n) <= a)%Z.
Proof.
  intros H A L. destruct (itoa_len n H) as (B & C & _). destruct (Z.le_gt_cases (zlen (itoa n)) a); auto.
  pose proof (Z.pow_le_mono_r 10 a (zlen (itoa n) - 1) ltac:(lia) ltac:(lia)). lia.
Qed.
(** a laid out decimal reads as the float if and only if it rounds to it *)
Lemma laid_reads lo hi pad s m e n k u : f64_valid (S754_finite s m e) = true -> (0 < n <= 10 ^ 20)%Z -> (-2000 < k < 2000)%Z ->
  number_layout lo hi pad (itoa n) (zlen (itoa n) + k) u ->
  parses_to ((if s then bs "-" else []) ++ u) (S754_finite s m e) = true <-> rounds s (inject_Z n * p10 k) (Some (S754_finite s m e)).
Proof.
  intros V A B L. destruct (itoa_len n ltac:(lia)) as (_ & C & D & Hn & _).
  pose proof (len_bound n 21 ltac:(lia) ltac:(lia) ltac:(change (10 ^ 21)%Z with (10 * 10 ^ 20)%Z; lia)) as Lb.
  apply parses_iff; [|auto].
  pose proof (layout_numeral lo hi pad s (if s then bs "-" else []) (itoa n) (zlen (itoa n) + k) u) as X. rewrite Hn in X.
  replace (zlen (itoa n) + k - zlen (itoa n))%Z with k in X by lia. apply X; auto; [destruct s; cbn; auto| |lia].
  intros Y. rewrite Y in C. now apply C.
Qed.
Lemma cand_reads s m e n k : f64_valid (S754_finite s m e) = true -> (0 < n <= 10 ^ 20)%Z -> (-1000 < k < 1000)%Z ->
  parses_to (cand_text s (n, k)) (S754_finite s m e) = true <-> rounds s (inject_Z n * p10 k) (Some (S754_finite s m e)).
Proof.
  intros V H K. unfold cand_text. cbn [fst snd]. pose proof (strip_spec 20 n k ltac:(lia)) as S. destruct (strip_zeros 20 n k) as [n' k'].
  destruct S as (A & B & E & _). change (Z.of_nat 20) with 20%Z in B.
  destruct (fmt_g_layout s n' k' ltac:(lia)) as (u & -> & L).
  rewrite (laid_reads (-4) 6 true s m e n' k' u V ltac:(lia) ltac:(lia) L). split; apply rounds_comp; [auto|now symmetry].
Qed.
(** any decimal with at most [nd] digits that rounds to the float has a neighbour of the
    value between itself and the float *)
Lemma cover s m e dp nd q n k : f64_valid (S754_finite s m e) = true -> let v := inject_Z (Zpos m) * p2 e in let f := S754_finite s m e in
  p10 (dp - 1) <= v -> (1 <= nd)%Z -> inject_Z q * p10 (dp - nd) <= v < inject_Z (q + 1) * p10 (dp - nd) ->
  (n < 10 ^ nd)%Z -> rounds s (inject_Z n * p10 k) (Some f) ->
  rounds s (inject_Z q * p10 (dp - nd)) (Some f) /\ v - inject_Z q * p10 (dp - nd) <= v - inject_Z n * p10 k \/
  rounds s (inject_Z (q + 1) * p10 (dp - nd)) (Some f) /\ inject_Z (q + 1) * p10 (dp - nd) - v <= inject_Z n * p10 k - v.
Proof.
  intros V v f P Hnd [Q1 Q2] N R.
  assert (C : inject_Z n * p10 k <= inject_Z q * p10 (dp - nd) \/ inject_Z (q + 1) * p10 (dp - nd) <= inject_Z n * p10 k).
  { destruct (Z.le_gt_cases (dp - nd) k) as [L|L].
    - replace k with (k - (dp - nd) + (dp - nd))%Z by lia. rewrite (p10_add (k - (dp - nd))), (p10_int (k - (dp - nd))) by lia.
      rewrite Qmult_assoc, <- inj_mul. set (z := (n * 10 ^ (k - (dp - nd)))%Z). pose proof (p10_pos (dp - nd)).
      destruct (Z.le_gt_cases z q); [left|right]; (apply Qmult_le_compat_r; [apply inj_le; lia|lra]).
    - left. apply (Qle_trans _ (p10 (dp - 1))).
      + apply (Qle_trans _ (inject_Z (10 ^ nd) * p10 k)); [apply Qmult_le_compat_r; [apply inj_le; lia|pose proof (p10_pos k); lra]|].
        rewrite <- p10_int, <- p10_add by lia. apply p10_le. lia.
      + assert (X : (10 ^ (nd - 1) <= q)%Z).
        { assert (Y : p10 (dp - 1) < inject_Z (q + 1) * p10 (dp - nd)) by lra.
          replace (dp - 1)%Z with ((nd - 1) + (dp - nd))%Z in Y by lia. rewrite p10_add, p10_int in Y by lia. pose proof (p10_pos (dp - nd)) as P0.
          assert (Z1 : inject_Z (10 ^ (nd - 1)) < inject_Z (q + 1)).
          { apply Qnot_le_lt. intros Z0. apply (Qlt_not_le _ _ Y). apply Qmult_le_compat_r; lra. }
          rewrite <- Zlt_Qlt in Z1. lia. }
        replace (dp - 1)%Z with ((nd - 1) + (dp - nd))%Z by lia. rewrite p10_add, p10_int by lia. apply Qmult_le_compat_r; [now apply inj_le|].
        pose proof (p10_pos (dp - nd)). lra. }
  destruct C as [C|C]; [left|right]; (split; [|lra]); apply (between_rounds s m e (inject_Z n * p10 k)); auto; fold v; lra.
Qed.

Definition found (shape : Z -> Z -> str) (s : bool) (m : positive) (e : Z) (t : str) : Prop := let v := inject_Z (Zpos m) * p2 e in let f := S754_finite s m e in
  exists n k, t = shape n k /\ (0 < n)%Z /\ (zlen (itoa n) <= 17)%Z /\ rounds s (inject_Z n * p10 k) (Some f) /\
    forall n' k', rounds s (inject_Z n' * p10 k') (Some f) -> (10 ^ (zlen (itoa n) - 1) <= n')%Z /\
      ((n' < 10 ^ zlen (itoa n))%Z -> Qabs (inject_Z n * p10 k - v) <= Qabs (inject_Z n' * p10 k' - v) /\
        (Qabs (inject_Z n * p10 k - v) == Qabs (inject_Z n' * p10 k' - v) -> inject_Z n' * p10 k' == inject_Z n * p10 k \/ Z.even n = true)).

Lemma pow10_mono a b : (0 <= a <= b)%Z -> (10 ^ a <= 10 ^ b)%Z.
Proof. intros. apply Z.pow_le_mono_r; lia. Qed.
(** a float64 is never in the middle between 9 and 10 units of a power of ten that both round to it *)
Lemma nine_ten s m e k : f64_valid (S754_finite s m e) = true -> let v := inject_Z (Zpos m) * p2 e in
  (2 # 1) * v == inject_Z 19 * p10 k -> rounds s (inject_Z 9 * p10 k) (Some (S754_finite s m e)) -> False.
Proof.
  intros V v T (_ & (_ & _ & N) & _). destruct (valid_mag _ _ _ V) as [M E]. pose proof (canonical _ _ _ V) as C.
  destruct (N (signed s (inject_Z (Zpos m - 1) * p2 e))) as [N1 _].
  { apply representable_signed. exists (Zpos m - 1)%Z, e. split; [lia|]. split; [auto|reflexivity]. }
  rewrite finite_value in N1. fold v in N1. rewrite !signed_abs in N1.
  assert (W : inject_Z (Zpos m - 1) * p2 e == v - p2 e) by (unfold v, Zminus; rewrite inj_add; change (inject_Z (- (1))) with (- (1)); ring).
  rewrite W in N1. clear W. change (inject_Z 19) with (19 # 1) in T. change (inject_Z 9) with (9 # 1) in N1.
  pose proof (p2_pos e) as P2. pose proof (p10_pos k) as P10.
  assert (L : p10 k <= p2 e).
  { revert N1. apply (Qabs_case (v - (9 # 1) * p10 k)); apply (Qabs_case (v - p2 e - (9 # 1) * p10 k)); intros; lra. }
  assert (M9 : (Zpos m <= 9)%Z).
  { destruct (Z.le_gt_cases (Zpos m) 9) as [|X]; auto. exfalso. assert (Y : inject_Z 10 * p2 e <= v) by (apply Qmult_le_compat_r; [apply inj_le; lia|lra]).
    change (inject_Z 10) with (10 # 1) in Y. lra. }
  assert (E0 : e = (-1074)%Z) by (destruct (Z.eq_dec e (-1074)); auto; specialize (C ltac:(lia)); lia). subst e.
  destruct (Z.le_gt_cases 0 k) as [K|K].
  - pose proof (p10_le 0 k K) as X. change (p10 0) with 1 in X. assert (p2 (-1074) < 1) by reflexivity. lra.
  - assert (X : (2 * Zpos m * 10 ^ (- k) = 19 * 2 ^ 1074)%Z).
    { rewrite <- inject_Z_injective, !inj_mul. change (inject_Z 2) with (2 # 1). change (inject_Z 19) with (19 # 1).
      rewrite <- p10_int, <- p2_int by lia. assert (Y1 : p10 k * p10 (- k) == 1) by (rewrite <- p10_add; replace (k + - k)%Z with 0%Z by lia; reflexivity).
      assert (Y2 : p2 (-1074) * p2 1074 == 1) by (rewrite <- p2_add; reflexivity).
      unfold v in T. set (a := p10 k) in *. set (b := p10 (- k)) in *. set (c := p2 (-1074)) in *. set (d := p2 1074) in *. set (w := inject_Z (Zpos m)) in *.
      clearbody a b c d w. clear - T Y1 Y2.
      transitivity ((2 # 1) * (w * c) * (b * d)); [transitivity ((2 # 1) * w * b * (c * d)); [rewrite Y2|]; ring|].
      rewrite T. transitivity ((19 # 1) * d * (a * b)); [ring|]. rewrite Y1. ring. }
    replace (- k)%Z with (Z.succ (- k - 1)) in X by lia. rewrite Z.pow_succ_r in X by lia.
    assert (Y : ((19 * 2 ^ 1074) mod 5 = 0)%Z).
    { rewrite <- X. replace (2 * Z.pos m * (10 * 10 ^ (- k - 1)))%Z with ((2 * Zpos m * 2 * 10 ^ (- k - 1)) * 5)%Z by ring. apply Z.mod_mul. lia. }
    vm_compute in Y. discriminate.
Qed.
(** a neighbour that is the best with [nd] digits, when fewer digits do not suffice *)
Lemma cand_found F shape s m e nd c k : f64_valid (S754_finite s m e) = true -> let v := inject_Z (Zpos m) * p2 e in let f := S754_finite s m e in
  (1 <= nd <= 17)%Z -> (0 < c <= 10 ^ nd)%Z -> (-1000 < k < 1000)%Z ->
  (forall n' k', (n' < 10 ^ (nd - 1))%Z -> ~ rounds s (inject_Z n' * p10 k') (Some f)) ->
  rounds s (inject_Z c * p10 k) (Some f) ->
  (forall n' k', (n' < 10 ^ nd)%Z -> rounds s (inject_Z n' * p10 k') (Some f) -> Qabs (inject_Z c * p10 k - v) <= Qabs (inject_Z n' * p10 k' - v) /\
    (Qabs (inject_Z c * p10 k - v) == Qabs (inject_Z n' * p10 k' - v) -> inject_Z n' * p10 k' == inject_Z c * p10 k \/
      Z.even c = true /\ (c = 10 ^ nd -> (2 # 1) * v == inject_Z (2 * c - 1) * p10 k /\ rounds s (inject_Z (c - 1) * p10 k) (Some f))%Z)) ->
  found shape s m e (let '(n, k') := strip_zeros (S F) c k in shape n k').
Proof.
  intros V v f Hnd Hc Hk Few R Best.
  pose proof (strip_spec (S F) c k ltac:(lia)) as S. destruct (strip_zeros (Datatypes.S F) c k) as [n k2].
  destruct S as (A & B & E & T).
  assert (R' : rounds s (inject_Z n * p10 k2) (Some f)) by (apply (rounds_comp _ (inject_Z c * p10 k)); [now symmetry|auto]).
  pose proof (pow10_mono nd 20 ltac:(lia)) as M20.
  assert (N1 : (10 ^ (nd - 1) <= n)%Z).
  { destruct (Z.le_gt_cases (10 ^ (nd - 1)) n) as [|X]; auto. exfalso. eapply Few; eauto. }
  assert (P10 : (10 ^ nd = 10 * 10 ^ (nd - 1))%Z) by (replace nd with (Z.succ (nd - 1)) at 1 by lia; apply Z.pow_succ_r; lia).
  assert (N2 : (n < 10 ^ nd)%Z).
  { destruct (Z.eq_dec c (10 ^ nd)) as [->|]; [|lia]. assert (X : (10 ^ nd mod 10 = 0)%Z) by (rewrite P10, Z.mul_comm; apply Z.mod_mul; lia).
    specialize (T ltac:(lia) X). rewrite P10 in T at 1. rewrite Z.mul_comm, Z.div_mul in T by lia.
    pose proof (Z.pow_pos_nonneg 10 (nd - 1) ltac:(lia) ltac:(lia)). lia. }
  destruct (itoa_len n ltac:(lia)) as (L & L1 & _). 
  assert (LL : zlen (itoa n) = nd).
  { apply Z.le_antisymm; [apply len_bound; lia|]. destruct (Z.le_gt_cases nd (zlen (itoa n))) as [|X]; auto. exfalso.
    pose proof (pow10_mono (zlen (itoa n)) (nd - 1) ltac:(lia)). lia. }
  exists n, k2. split; [reflexivity|]. split; [lia|]. split; [lia|]. split; [auto|].
  intros n' k' Rn. rewrite LL. split.
  - destruct (Z.le_gt_cases (10 ^ (nd - 1)) n') as [|X]; auto. exfalso. eapply Few; eauto.
  - intros X. destruct (Best n' k' X Rn) as [Best1 Best2]. rewrite E. split; [exact Best1|]. intros Tie.
    destruct (Best2 Tie) as [Q|[Ev Top]]; [left; exact Q|right].
    destruct (Z.eq_dec k2 k) as [->|Nk].
    + assert (n = c); [|congruence]. pose proof (p10_pos k) as Pk. apply Qmult_inj_r in E; [|lra]. now rewrite inject_Z_injective in E.
    + (* zeros were cut off: only ten itself has as few digits then *)
      assert (Cn : c = (n * 10 ^ (k2 - k))%Z).
      { rewrite <- inject_Z_injective, inj_mul, <- p10_int by lia. pose proof (p10_pos k) as Pk. apply (Qmult_inj_r _ _ (p10 k)); [lra|].
        rewrite <- E, <- Qmult_assoc, <- p10_add. replace (k2 - k + k)%Z with k2 by lia. reflexivity. }
      assert (T10 : (10 <= 10 ^ (k2 - k))%Z) by (change 10%Z with (10 ^ 1)%Z at 1; apply pow10_mono; lia).
      assert (c = 10 ^ nd)%Z as Hc' by nia. destruct (Top Hc') as [T1 T2]. exfalso.
      assert (n = 10 ^ (nd - 1))%Z as Hn' by nia.
      destruct (Z.eq_dec nd 1) as [->|Nd].
      * change (10 ^ 1)%Z with 10%Z in Hc'. subst c. rewrite Hc' in T1, T2. exact (nine_ten s m e k V T1 T2).
      * apply (Few 1 (k2 + (nd - 1)))%Z; [apply (Z.lt_le_trans _ (10 ^ 1)); [lia|apply pow10_mono; lia]|].
        apply (rounds_comp _ (inject_Z n * p10 k2)); [|auto]. rewrite Hn', <- p10_int, <- p10_add by lia. change (inject_Z 1) with 1.
        replace (k2 + (nd - 1))%Z with (nd - 1 + k2)%Z by lia. ring.
Qed.

(** the loops of Strconv.shortest_loop and Json.json_shortest *)
Fixpoint any_loop (test : str -> bool) (cand : Z * Z -> str) (fuel : nat) (num den dp nd : Z) : option str :=
  match fuel with
  | O => None
  | S fuel' =>
    match find test (map cand (candidates num den dp nd)) with
    | Some t => Some t
    | None => any_loop test cand fuel' num den dp (nd + 1)
    end
  end.
Lemma search F shape test cand s m e num den dp : f64_valid (S754_finite s m e) = true -> let v := inject_Z (Zpos m) * p2 e in let f := S754_finite s m e in
  (0 < num)%Z -> (0 < den)%Z -> v * inject_Z den == inject_Z num -> p10 (dp - 1) <= v < p10 dp -> (-400 <= dp <= 400)%Z ->
  (forall n k, (0 < n <= 10 ^ 20)%Z -> (-1000 < k < 1000)%Z -> test (cand (n, k)) = true <-> rounds s (inject_Z n * p10 k) (Some f)) ->
  (forall n k, cand (n, k) = let '(n', k') := strip_zeros (S F) n k in shape n' k') ->
  forall fuel nd, (1 <= nd)%Z -> (nd + Z.of_nat fuel = 18)%Z -> (0 < fuel)%nat ->
  (forall n' k', (n' < 10 ^ (nd - 1))%Z -> ~ rounds s (inject_Z n' * p10 k') (Some f)) ->
  exists t, any_loop test cand fuel num den dp nd = Some t /\ found shape s m e t.
Proof.
  intros V v f Hn Hd Hv Hdp Dr Rd Sh. induction fuel as [|fuel IH]; [lia|]. intros nd N1 NF _ Few. cbn [any_loop].
  destruct (candidates_spec num den dp nd v Hn Hd Hv) as (q & Q1 & Q2 & C). set (k := (dp - nd)%Z) in *.
  pose proof (p10_pos k) as Pk. assert (Kr : (-1000 < k < 1000)%Z) by (unfold k; lia).
  assert (Hq : (10 ^ (nd - 1) <= q < 10 ^ nd)%Z).
  { split.
    - assert (Y : p10 (dp - 1) < inject_Z (q + 1) * p10 k) by lra.
      replace (dp - 1)%Z with ((nd - 1) + k)%Z in Y by (unfold k; lia). rewrite (p10_add (nd - 1) k), (p10_int (nd - 1)) in Y by lia.
      assert (Z1 : inject_Z (10 ^ (nd - 1)) < inject_Z (q + 1)).
      { apply Qnot_le_lt. intros Z0. apply (Qlt_not_le _ _ Y). apply Qmult_le_compat_r; lra. }
      rewrite <- Zlt_Qlt in Z1. lia.
    - assert (Y : inject_Z q * p10 k < p10 dp) by lra.
      replace dp with (nd + k)%Z in Y by (unfold k; lia). rewrite (p10_add nd k), (p10_int nd) in Y by lia.
      assert (Z1 : inject_Z q < inject_Z (10 ^ nd)).
      { apply Qnot_le_lt. intros Z0. apply (Qlt_not_le _ _ Y). apply Qmult_le_compat_r; lra. }
      now rewrite <- Zlt_Qlt in Z1. }
  pose proof (Z.pow_pos_nonneg 10 (nd - 1) ltac:(lia) ltac:(lia)) as Pp. pose proof (pow10_mono nd 17 ltac:(lia)) as M17.
  assert (M20 : (10 ^ 17 < 10 ^ 20)%Z) by reflexivity.
  assert (Rq : test (cand (q, k)) = true <-> rounds s (inject_Z q * p10 k) (Some f)) by (apply Rd; lia).
  assert (Rq1 : test (cand ((q + 1)%Z, k)) = true <-> rounds s (inject_Z (q + 1) * p10 k) (Some f)) by (apply Rd; lia).
  assert (Cov : forall n' k', (n' < 10 ^ nd)%Z -> rounds s (inject_Z n' * p10 k') (Some f) ->
    rounds s (inject_Z q * p10 k) (Some f) /\ v - inject_Z q * p10 k <= v - inject_Z n' * p10 k' \/
    rounds s (inject_Z (q + 1) * p10 k) (Some f) /\ inject_Z (q + 1) * p10 k - v <= inject_Z n' * p10 k' - v).
  { intros n' k' X Y. exact (cover s m e dp nd q n' k' V (proj1 Hdp) N1 (conj Q1 Q2) X Y). }
  assert (Aq : Qabs (inject_Z q * p10 k - v) == v - inject_Z q * p10 k) by (rewrite Qabs_Qminus; apply Qabs_pos; lra).
  assert (Aq1 : Qabs (inject_Z (q + 1) * p10 k - v) == inject_Z (q + 1) * p10 k - v) by (apply Qabs_pos; lra).
  assert (Ab : forall y, y - v <= Qabs (y - v) /\ v - y <= Qabs (y - v)).
  { intros y. split; [apply Qle_Qabs|]. rewrite Qabs_Qminus. apply Qle_Qabs. }
  (* both fail: go on *)
  assert (Next : ~ rounds s (inject_Z q * p10 k) (Some f) -> ~ rounds s (inject_Z (q + 1) * p10 k) (Some f) ->
    exists t, any_loop test cand fuel num den dp (nd + 1) = Some t /\ found shape s m e t).
  { intros F1 F2. destruct fuel as [|fuel].
    - exfalso. assert (nd = 17)%Z by lia. subst nd. 
      assert (K0 : p10 (dp - 1) == p10 16 * p10 k) by (rewrite <- p10_add; unfold k; replace (16 + (dp - 17))%Z with (dp - 1)%Z by lia; reflexivity).
      assert (W : inject_Z (2 ^ 54) * p10 k < (2 # 1) * v).
      { apply (Qlt_le_trans _ ((2 # 1) * p10 (dp - 1))); [|lra]. rewrite K0, Qmult_assoc. apply Qmult_lt_compat_r; [auto|reflexivity]. }
      assert (Sm : inject_Z (q + 1) * p10 k == inject_Z q * p10 k + p10 k) by (rewrite inj_add; change (inject_Z 1) with 1; ring).
      assert (P54 : 0 < inject_Z (2 ^ 54)) by reflexivity. set (c := inject_Z (2 ^ 54)) in *.
      destruct C as [[_ [C _]]|[_ [C _]]].
      + apply F1. apply (near_rounds s m e); [auto|]. fold v. fold c. rewrite Aq.
        assert (c * (v - inject_Z q * p10 k) <= c * ((1 # 2) * p10 k)) by (rewrite !(Qmult_comm c); apply Qmult_le_compat_r; lra). lra.
      + apply F2. apply (near_rounds s m e); [auto|]. fold v. fold c. rewrite Aq1.
        assert (c * (inject_Z (q + 1) * p10 k - v) <= c * ((1 # 2) * p10 k)) by (rewrite !(Qmult_comm c); apply Qmult_le_compat_r; lra). lra.
    - apply IH; [lia|lia|lia|]. intros n' k' X Y. replace (nd + 1 - 1)%Z with nd in X by lia.
      destruct (Cov n' k' X Y) as [[Z0 _]|[Z0 _]]; auto. }
  (* a decimal as near as a neighbour of the value *)
  assert (Sm : inject_Z (2 * (q + 1) - 1) * p10 k == inject_Z q * p10 k + inject_Z (q + 1) * p10 k).
  { replace (2 * (q + 1) - 1)%Z with (q + (q + 1))%Z by lia. rewrite inj_add. ring. }
  assert (Hm : (q + 1 - 1)%Z = q) by lia.
  destruct C as [[Ec [C Cev]]|[Ec [C Cev]]]; rewrite Ec; cbn [map find].
  - destruct (test (cand (q, k))) eqn:E1; [|destruct (test (cand ((q + 1)%Z, k))) eqn:E2].
    + exists (cand (q, k)). split; [auto|]. rewrite Sh. apply (cand_found F shape s m e nd); auto; [lia|lia|now apply Rq|].
      intros n' k' X Y. fold v. rewrite Aq. destruct (Ab (inject_Z n' * p10 k')) as [A1 A2]. destruct (Cov n' k' X Y) as [[_ Z0]|[_ Z0]].
      * split; [lra|]. intros Tie. left. lra.
      * split; [lra|]. intros Tie. right. split; [apply Cev; lra|lia].
    + exists (cand ((q + 1)%Z, k)). split; [auto|]. rewrite Sh. apply (cand_found F shape s m e nd); auto; [lia|lia|now apply Rq1|].
      intros n' k' X Y. fold v. rewrite Aq1. destruct (Ab (inject_Z n' * p10 k')) as [A1 A2]. destruct (Cov n' k' X Y) as [[Z1 Z0]|[_ Z0]]; [apply Rq in Z1; congruence|].
      split; [lra|]. intros Tie. left. lra.
    + apply Next; intros X; [apply Rq in X|apply Rq1 in X]; congruence.
  - destruct (test (cand ((q + 1)%Z, k))) eqn:E1; [|destruct (test (cand (q, k))) eqn:E2].
    + exists (cand ((q + 1)%Z, k)). split; [auto|]. rewrite Sh. apply (cand_found F shape s m e nd); auto; [lia|lia|now apply Rq1|].
      intros n' k' X Y. fold v. rewrite Aq1. destruct (Ab (inject_Z n' * p10 k')) as [A1 A2]. destruct (Cov n' k' X Y) as [[Z1 Z0]|[_ Z0]].
      * split; [lra|]. intros Tie. right. split; [apply Cev; lra|]. intros _. rewrite Sm, Hm. split; [lra|exact Z1].
      * split; [lra|]. intros Tie. left. lra.
    + exists (cand (q, k)). split; [auto|]. rewrite Sh. apply (cand_found F shape s m e nd); auto; [lia|lia|now apply Rq|].
      intros n' k' X Y. fold v. rewrite Aq. destruct (Ab (inject_Z n' * p10 k')) as [A1 A2]. destruct (Cov n' k' X Y) as [[_ Z0]|[Z1 Z0]]; [|apply Rq1 in Z1; congruence].
      split; [lra|]. intros Tie. left. lra.
    + apply Next; intros X; [apply Rq in X|apply Rq1 in X]; congruence.
Qed.

Lemma positive_rounds s m e x : f64_valid (S754_finite s m e) = true -> rounds s x (Some (S754_finite s m e)) -> 0 < x.
Proof.
  intros V (_ & (_ & _ & N) & _). apply Qnot_le_lt. intros X. destruct (N 0) as [N1 _]; [exists 0%Z, 0%Z; repeat split; lia|].
  rewrite finite_value, signed_abs in N1. assert (V0 : 0 < inject_Z (Zpos m) * p2 e) by (pose proof (p2_pos e); assert (0 < inject_Z (Zpos m)) by reflexivity; nra).
  assert (G : Qabs (0 - signed s x) == Qabs (0 - x)) by (destruct s; cbn [signed]; [rewrite Qabs_Qminus; setoid_replace (- x - 0) with (0 - x) by ring|]; reflexivity).
  rewrite G in N1. revert N1. set (v := inject_Z (Zpos m) * p2 e) in *. clearbody v.
  apply (Qabs_case (v - x)); apply (Qabs_case (0 - x)); intros; lra.
Qed.
Lemma even_digit n : (0 < n)%Z -> Z.even n = true -> exists c, hd_error (rev (itoa n)) = Some c /\ In c (bs "02468").
Proof.
  intros H Ev. destruct (itoa_len n H) as (_ & L & D & Hh & _). destruct (rev (itoa n)) as [|c r] eqn:Er.
  - apply (f_equal (@rev byte)) in Er. rewrite rev_involutive in Er. rewrite Er in L. now exfalso; apply L.
  - exists c. split; [reflexivity|]. assert (E : itoa n = rev r ++ [c]) by (rewrite <- (rev_involutive (itoa n)), Er; reflexivity).
    rewrite E in Hh, D. rewrite horner_snoc in Hh. apply Forall_app in D as [_ D]. pose proof (Forall_inv D) as Dc. cbv beta in Dc.
    assert (Ev' : Z.even (digit_val c) = true).
    { rewrite <- Hh, Z.even_add, Z.even_mul in Ev. change (Z.even 10) with true in Ev. rewrite ?orb_true_r, ?orb_true_l in Ev. destruct (Z.even (digit_val c)); auto. }
    clear - Dc Ev'. revert Dc Ev'. destruct c; cbv; intros; try discriminate; auto 10.
Qed.
Lemma loop_found F shape test cand s m e : f64_valid (S754_finite s m e) = true -> let f := S754_finite s m e in
  (forall n k, (0 < n <= 10 ^ 20)%Z -> (-1000 < k < 1000)%Z -> test (cand (n, k)) = true <-> rounds s (inject_Z n * p10 k) (Some f)) ->
  (forall n k, cand (n, k) = let '(n', k') := strip_zeros (S F) n k in shape n' k') ->
  let '(num, den) := frac m e in exists t, any_loop test cand 17 num den (dec_point num den) 1 = Some t /\ found shape s m e t.
Proof.
  intros V f Rd Sh. pose proof (frac_spec s m e V) as Fr. destruct (frac m e) as [num den]. cbv zeta in Fr. destruct Fr as (Hn & Hd & L & Hv).
  set (v := inject_Z (Zpos m) * p2 e) in *. destruct (dec_point_spec num den v Hn Hd L Hv) as [B Lo].
  assert (Hi : (dec_point num den <= 400)%Z).
  { destruct (Z.le_gt_cases (dec_point num den) 400); auto. exfalso. pose proof (p10_le 310 (dec_point num den - 1) ltac:(lia)) as P.
    pose proof (finite_below s m e V) as Fb. fold v in Fb. pose proof ten_310 as T. rewrite overflow_val in T.
    assert (inject_Z (2 ^ 54 - 2) * p2 970 < inject_Z (2 ^ 54 - 1) * p2 970) by (apply Qmult_lt_compat_r; [apply p2_pos|reflexivity]). lra. }
  apply (search F shape test cand s m e num den _ V Hn Hd Hv B (conj Lo Hi) Rd Sh 17%nat 1%Z); [lia|reflexivity|lia|].
  intros n' k' X R. change (10 ^ (1 - 1))%Z with 1%Z in X. apply (positive_rounds s m e _ V) in R. pose proof (p10_pos k').
  assert (inject_Z n' <= inject_Z 0) by (apply inj_le; lia). change (inject_Z 0) with 0 in *. nra.
Qed.
Lemma found_shortest (layout : str -> Z -> str -> Prop) shape s m e t : f64_valid (S754_finite s m e) = true -> found shape s m e t ->
  (forall n k, (0 < n)%Z -> exists u, shape n k = (if s then bs "-" else []) ++ u /\ layout (itoa n) (zlen (itoa n) + k)%Z u) ->
  shortest_in layout (S754_finite s m e) t.
Proof.
  intros V (n & k & -> & N0 & N17 & R & Min) Ly.
  destruct (Ly n k N0) as (u & -> & Lay). destruct (itoa_len n N0) as (Ln & L1 & Dg & Hh & Hd0).
  exists s, (itoa n), (zlen (itoa n) + k)%Z, u, (inject_Z n * p10 k). split; [reflexivity|]. split; [reflexivity|]. split; [auto|].
  assert (Av : Qabs (q_value (S754_finite s m e)) == inject_Z (Zpos m) * p2 e).
  { rewrite finite_value. assert (0 < inject_Z (Zpos m) * p2 e) by (pose proof (p2_pos e); assert (0 < inject_Z (Zpos m)) by reflexivity; nra).
    destruct s; cbn [signed]; [rewrite Qabs_opp|]; apply Qabs_pos; lra. }
  split; [exists n; split; [pose proof (digits_have_value _ Dg) as X; now rewrite Hh in X|replace (zlen (itoa n) + k - zlen (itoa n))%Z with k by lia; reflexivity]|].
  split; [auto|]. split.
  { intros X. destruct (rev (itoa n)) as [|c r] eqn:Er; [discriminate|]. cbn in X. injection X as ->.
    assert (E : itoa n = rev r ++ ["0"%byte]) by (rewrite <- (rev_involutive (itoa n)), Er; reflexivity).
    assert (H10 : n = (10 * horner 0 (rev r))%Z) by (rewrite <- Hh, E, horner_snoc; change (digit_val "0"%byte) with 0%Z; lia).
    assert (P10 : (10 ^ zlen (itoa n) = 10 * 10 ^ (zlen (itoa n) - 1))%Z) by (replace (zlen (itoa n)) with (Z.succ (zlen (itoa n) - 1)) at 1 by lia; apply Z.pow_succ_r; lia).
    destruct (Min (horner 0 (rev r)) (k + 1)%Z) as [M _]; [|lia]. apply (rounds_comp _ (inject_Z n * p10 k)); [|auto].
    rewrite H10 at 1. rewrite inj_mul, p10_add. change (p10 1) with (inject_Z 10). ring. }
  split; [intros X; rewrite X in L1; now apply L1|]. split; [auto|]. split; [auto|].
  intros n' k' y R'. destruct (Min n' k' R') as [M1 M2]. split; [auto|]. intros X. rewrite Av. destruct (M2 X) as [M3 M4]. split; [exact M3|].
  intros Tie. destruct (M4 Tie) as [Q|Ev]; [left; exact Q|right]. now apply even_digit.
Qed.
Lemma shortest_loop_any f s : forall fuel num den dp nd,
  shortest_loop fuel f s num den dp nd = any_loop (fun t => parses_to t f) (cand_text s) fuel num den dp nd.
Proof. induction fuel as [|fuel IH]; intros; cbn [shortest_loop any_loop]; [reflexivity|]. destruct (find _ _); [reflexivity|apply IH]. Qed.
Lemma fmt_g_shortest s m e : f64_valid (S754_finite s m e) = true -> shortest (S754_finite s m e) (fmt_g_finite s m e).
Proof.
  intros V. pose proof (loop_found 19 (fmt_g s) (fun t => parses_to t (S754_finite s m e)) (cand_text s) s m e V) as H.
  unfold fmt_g_finite. destruct (frac m e) as [num den]. destruct H as (t & H1 & H2); [intros; now apply cand_reads|reflexivity|].
  rewrite shortest_loop_any, H1. apply (found_shortest _ (fmt_g s)); auto. intros n k. apply fmt_g_layout.
Qed.
