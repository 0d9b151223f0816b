(** The nearest float64 is unique: [nearest] determines the number. *)
From Coq Require Import ZArith QArith Qabs Qpower List Bool Lia Lqa ZifyBool.
From Verif Require Import Base Float Ext Utf8 Strconv Values Buffer Spec SpecNumber Proofs_Base Proofs_Float Proofs_Number Proofs_Round Proofs_Nearest.
Open Scope Q_scope.

(** values in units of the smallest float *)
Definition mag (m e : Z) : Z := (m * 2 ^ (e + 1074))%Z.
Definition units (f : spec_float) : Z :=
  match f with S754_finite s m e => if s then (- mag (Zpos m) e)%Z else mag (Zpos m) e | _ => 0%Z end.
Notation tiny := (p2 (-1074)).
Lemma mag_value m e : (-1074 <= e)%Z -> inject_Z (mag m e) * tiny == inject_Z m * p2 e.
Proof.
  intros H. unfold mag. rewrite inj_mul, <- p2_int by lia. rewrite <- Qmult_assoc, <- p2_add. now replace (e + 1074 + -1074)%Z with e by lia.
Qed.
Lemma units_value f : f64_valid f = true -> is_finite f -> q_value f == inject_Z (units f) * tiny.
Proof.
  intros V F. destruct f as [s| | |s m e]; try (destruct F; fail); [cbn; ring|].
  destruct (valid_mag _ _ _ V) as [_ E]. rewrite finite_value. cbn [units].
  destruct s; cbn [signed]; [rewrite inject_Z_opp|]; rewrite <- mag_value by lia; ring.
Qed.
Lemma mag_representable m e : (Z.abs m < 2 ^ 53)%Z -> (-1074 <= e <= 971)%Z -> representable (inject_Z (mag m e) * tiny).
Proof. intros M E. exists m, e. split; [auto|]. split; [auto|]. apply mag_value. lia. Qed.
Lemma units_lt f g : inject_Z f * tiny < inject_Z g * tiny -> (f < g)%Z.
Proof. intros H. pose proof (p2_pos (-1074)). rewrite Zlt_Qlt. apply Qnot_le_lt. intros Z0. nra. Qed.

(** nothing representable lies strictly between two nearest floats *)
Lemma nothing_between x f g q : nearest x f -> nearest x g -> q_value f < q -> q < q_value g -> ~ representable q.
Proof.
  intros (_ & Rf & F) (_ & Rg & G) L1 L2 R.
  destruct (F _ R) as [F1 _]. destruct (G _ R) as [G1 _]. destruct (F _ Rg) as [F2 _]. destruct (G _ Rf) as [G2 _].
  revert F1 G1 F2 G2. set (a := q_value f) in *. set (b := q_value g) in *. clearbody a b.
  apply (Qabs_case (a - x)); apply (Qabs_case (b - x)); apply (Qabs_case (q - x)); intros; lra.
Qed.
Lemma tie_even x f g : nearest x f -> nearest x g -> ~ q_value f == q_value g -> even_mantissa f /\ even_mantissa g.
Proof.
  intros (_ & Rf & F) (_ & Rg & G) N. destruct (F _ Rg) as [F1 F2]. destruct (G _ Rf) as [G1 G2].
  assert (E : Qabs (q_value f - x) == Qabs (q_value g - x)) by (apply Qle_antisym; auto).
  split.
  - destruct (F2 E) as [X|X]; [exfalso; apply N; now symmetry|auto].
  - destruct (G2 (Qeq_sym _ _ E)) as [X|X]; [exfalso; apply N; auto|auto].
Qed.

Lemma canonical s m e : f64_valid (S754_finite s m e) = true -> (-1074 < e -> 2 ^ 52 <= Zpos m)%Z.
Proof.
  intros V E. apply valid_finite in V as [V _]. pose proof (digits_bounds m) as B.
  assert (D : Zpos (digits2_pos m) = 53%Z) by lia. rewrite D in B. change (53 - 1)%Z with 52%Z in B. lia.
Qed.
(** two neighbours with even mantissas do not exist *)
Lemma no_even_pair mf ef mg eg : (0 <= mf < 2 ^ 53)%Z -> (0 < mg < 2 ^ 53)%Z -> (-1074 <= ef <= 971)%Z -> (-1074 <= eg <= 971)%Z ->
  (-1074 < eg -> 2 ^ 52 <= mg)%Z -> Z.even mf = true -> Z.even mg = true -> (mag mf ef < mag mg eg)%Z ->
  exists m e, (Z.abs m < 2 ^ 53)%Z /\ (-1074 <= e <= 971)%Z /\ (mag mf ef < mag m e < mag mg eg)%Z.
Proof.
  intros Mf Mg Ef Eg Cg Vf Vg L.
  pose proof (Z.pow_pos_nonneg 2 (eg + 1074) ltac:(lia) ltac:(lia)) as Pg.
  destruct (Z.lt_ge_cases (mag mf ef) (mag (mg - 1) eg)) as [A|A].
  { exists (mg - 1)%Z, eg. split; [lia|]. split; [auto|]. split; [auto|]. unfold mag. nia. }
  destruct (Z.le_gt_cases eg ef) as [C|C].
  - (* on the grid of g *)
    exfalso. assert (X : mag mf ef = (mf * 2 ^ (ef - eg) * 2 ^ (eg + 1074))%Z).
    { unfold mag. rewrite <- Z.mul_assoc, <- Z.pow_add_r by lia. f_equal. f_equal. lia. }
    rewrite X in *. unfold mag in *. set (k := (mf * 2 ^ (ef - eg))%Z) in *.
    assert (K : k = (mg - 1)%Z) by nia.
    assert (Ev : Z.even k = true) by (unfold k; now rewrite Z.even_mul, Vf).
    rewrite K, Z.sub_1_r, Z.even_pred, <- Z.negb_even, Vg in Ev. discriminate.
  - specialize (Cg ltac:(lia)).
    pose proof (Z.pow_pos_nonneg 2 (eg - 1 + 1074) ltac:(lia) ltac:(lia)) as Pg1.
    assert (X : mag mg eg = (2 * mg * 2 ^ (eg - 1 + 1074))%Z).
    { unfold mag. replace (eg + 1074)%Z with (1 + (eg - 1 + 1074))%Z by lia. rewrite Z.pow_add_r by lia. lia. }
    assert (Y : (mag mf ef <= mf * 2 ^ (eg - 1 + 1074))%Z).
    { unfold mag. apply Z.mul_le_mono_nonneg_l; [lia|]. apply Z.pow_le_mono_r; lia. }
    change (2 ^ 53)%Z with 9007199254740992%Z in *. change (2 ^ 52)%Z with 4503599627370496%Z in *.
    exists 9007199254740991%Z, (eg - 1)%Z. split; [lia|]. split; [lia|].
    assert (Z1 : mag 9007199254740991 (eg - 1) = (9007199254740991 * 2 ^ (eg - 1 + 1074))%Z) by reflexivity.
    rewrite Z1, X. split; [|nia].
    assert (mf <> 9007199254740991)%Z by (intros ->; discriminate). nia.
Qed.

Lemma even_of f : f64_valid f = true -> is_finite f -> even_mantissa f -> (0 <= units f)%Z ->
  exists m e, (0 <= m < 2 ^ 53)%Z /\ (-1074 <= e <= 971)%Z /\ Z.even m = true /\ units f = mag m e /\ (0 < m -> -1074 < e -> 2 ^ 52 <= m)%Z.
Proof.
  intros V F Ev P. destruct f as [s| | |s m e]; try (destruct F; fail).
  - exists 0%Z, 0%Z. repeat split; lia.
  - destruct (valid_mag _ _ _ V) as [M E]. pose proof (canonical _ _ _ V) as C. cbn [units] in *.
    destruct s.
    + exfalso. unfold mag in P. pose proof (Z.pow_pos_nonneg 2 (e + 1074) ltac:(lia) ltac:(lia)). nia.
    + exists (Zpos m), e. repeat split; auto; lia.
Qed.
Lemma nearest_same_pos x f g : f64_valid f = true -> f64_valid g = true -> nearest x f -> nearest x g ->
  (0 <= units f < units g)%Z -> False.
Proof.
  intros Vf Vg Nf Ng L. assert (Ff : is_finite f) by apply Nf. assert (Fg : is_finite g) by apply Ng.
  pose proof (units_value f Vf Ff) as Uf. pose proof (units_value g Vg Fg) as Ug. pose proof (p2_pos (-1074)) as T.
  assert (N : ~ q_value f == q_value g).
  { rewrite Uf, Ug. destruct L as [_ L]. apply inj_lt in L. intros Z0. nra. }
  destruct (tie_even x f g Nf Ng N) as [Ef Eg].
  destruct (even_of f Vf Ff Ef ltac:(lia)) as (mf & ef & A1 & A2 & A3 & A4 & A5).
  destruct (even_of g Vg Fg Eg ltac:(lia)) as (mg & eg & B1 & B2 & B3 & B4 & B5).
  rewrite A4, B4 in L.
  assert (Pg : (0 < mg)%Z).
  { unfold mag in L. pose proof (Z.pow_pos_nonneg 2 (eg + 1074) ltac:(lia) ltac:(lia)). nia. }
  destruct (no_even_pair mf ef mg eg A1 ltac:(lia) A2 B2 (B5 Pg) A3 B3 ltac:(lia)) as (m & e & M & E & K1 & K2).
  apply (nothing_between x f g (inject_Z (mag m e) * tiny) Nf Ng).
  - rewrite Uf, A4. apply inj_lt in K1. nra.
  - rewrite Ug, B4. apply inj_lt in K2. nra.
  - now apply mag_representable.
Qed.

Definition flip (f : spec_float) : spec_float :=
  match f with S754_finite s m e => S754_finite (negb s) m e | S754_zero s => S754_zero (negb s) | f => f end.
Lemma flip_value f : q_value (flip f) == - q_value f.
Proof. destruct f as [s| | |s m e]; cbn; try reflexivity. destruct s; cbn [negb]; ring. Qed.
Lemma flip_nearest x f : nearest x f -> nearest (- x) (flip f).
Proof.
  intros (F & R & H). split; [destruct f; auto|]. split.
  - apply (representable_comp (signed true (q_value f))); [cbn [signed]; now rewrite flip_value|]. now apply representable_signed.
  - intros q Hq. destruct (H (- q)) as [H1 H2]; [apply (representable_signed true q Hq)|].
    assert (A1 : Qabs (q_value (flip f) - - x) == Qabs (q_value f - x)).
    { rewrite flip_value. setoid_replace (- q_value f - - x) with (- (q_value f - x)) by ring. apply Qabs_opp. }
    assert (A2 : Qabs (q - - x) == Qabs (- q - x)).
    { setoid_replace (q - - x) with (- (- q - x)) by ring. apply Qabs_opp. }
    rewrite A1, A2. split; [auto|]. intros E. destruct (H2 E) as [Z0|Z0].
    + left. rewrite flip_value, <- Z0. ring.
    + right. destruct f; auto.
Qed.
Lemma flip_units f : units (flip f) = (- units f)%Z.
Proof. destruct f as [s| | |s m e]; try reflexivity. destruct s; cbn [flip negb units]; lia. Qed.
Lemma flip_valid f : f64_valid f = true -> f64_valid (flip f) = true.
Proof. destruct f as [s| | |s m e]; auto. Qed.

Lemma nearest_units x f g : f64_valid f = true -> f64_valid g = true -> nearest x f -> nearest x g -> units f = units g.
Proof.
  intros Vf Vg Nf Ng.
  assert (W : forall x f g, f64_valid f = true -> f64_valid g = true -> nearest x f -> nearest x g -> (units f < units g)%Z -> False).
  { clear. intros x f g Vf Vg Nf Ng L.
    destruct (Z.le_gt_cases 0 (units f)) as [P|P]; [apply (nearest_same_pos x f g Vf Vg Nf Ng); lia|].
    destruct (Z.le_gt_cases (units g) 0) as [P'|P'].
    - apply (nearest_same_pos (- x) (flip g) (flip f) (flip_valid g Vg) (flip_valid f Vf) (flip_nearest x g Ng) (flip_nearest x f Nf)).
      rewrite !flip_units. lia.
    - apply (nothing_between x f g 0 Nf Ng).
      + destruct Nf as [Ff _]. rewrite (units_value f Vf Ff). apply inj_lt in P. pose proof (p2_pos (-1074)). change (inject_Z 0) with 0 in P. nra.
      + destruct Ng as [Fg _]. rewrite (units_value g Vg Fg). apply inj_lt in P'. pose proof (p2_pos (-1074)). change (inject_Z 0) with 0 in P'. nra.
      + exists 0%Z, 0%Z. repeat split; lia. }
  destruct (Z.lt_trichotomy (units f) (units g)) as [L|[E|L]]; [exfalso; eauto|auto|exfalso; eauto].
Qed.
Lemma mag_injective m e m' e' s s' : f64_valid (S754_finite s m e) = true -> f64_valid (S754_finite s' m' e') = true ->
  mag (Zpos m) e = mag (Zpos m') e' -> m = m' /\ e = e'.
Proof.
  intros V V' H. pose proof (canonical _ _ _ V) as C. pose proof (canonical _ _ _ V') as C'.
  destruct (valid_mag _ _ _ V) as [M E]. destruct (valid_mag _ _ _ V') as [M' E']. unfold mag in H.
  assert (W : forall m e m' e', (Zpos m < 2 ^ 53 -> -1074 <= e -> (-1074 < e' -> 2 ^ 52 <= Zpos m') ->
     Zpos m * 2 ^ (e + 1074) = Zpos m' * 2 ^ (e' + 1074) -> e' <= e)%Z).
  { clear. intros m e m' e' M E C H. destruct (Z.le_gt_cases e' e); [auto|exfalso].
    specialize (C ltac:(lia)). pose proof (Z.pow_pos_nonneg 2 (e + 1074) ltac:(lia) ltac:(lia)).
    assert (X : (2 ^ (e' + 1074) = 2 ^ (e' - e - 1) * 2 * 2 ^ (e + 1074))%Z).
    { replace (e' + 1074)%Z with ((e' - e - 1) + 1 + (e + 1074))%Z by lia.
      rewrite (Z.pow_add_r 2 (e' - e - 1 + 1) (e + 1074)), (Z.pow_add_r 2 (e' - e - 1) 1) by lia. lia. }
    rewrite X in H.
    pose proof (Z.pow_pos_nonneg 2 (e' - e - 1) ltac:(lia) ltac:(lia)).
    assert (Zpos m = Zpos m' * (2 ^ (e' - e - 1) * 2))%Z by nia.
    change (2 ^ 53)%Z with 9007199254740992%Z in *. change (2 ^ 52)%Z with 4503599627370496%Z in *. nia. }
  assert (E0 : e = e').
  { apply Z.le_antisymm; [apply (W m' e' m e); auto; lia|apply (W m e m' e'); auto; lia]. }
  subst e'. split; [|auto]. pose proof (Z.pow_pos_nonneg 2 (e + 1074) ltac:(lia) ltac:(lia)).
  assert (Zpos m = Zpos m') by nia. congruence.
Qed.
Lemma units_same f g : f64_valid f = true -> f64_valid g = true -> is_finite f -> is_finite g -> sign_bit f = sign_bit g ->
  units f = units g -> f = g.
Proof.
  intros Vf Vg Ff Fg S U.
  assert (P : forall m e, f64_valid (S754_finite false m e) = true -> (0 < mag (Zpos m) e)%Z).
  { intros m e V. destruct (valid_mag _ _ _ V) as [_ E]. unfold mag. pose proof (Z.pow_pos_nonneg 2 (e + 1074) ltac:(lia) ltac:(lia)). nia. }
  destruct f as [s| | |s m e], g as [s'| | |s' m' e']; try (destruct Ff; fail); try (destruct Fg; fail); cbn [sign_bit] in S; injection S as ->.
  - reflexivity.
  - exfalso. cbn [units] in U. specialize (P m' e' Vg). destruct s'; lia.
  - exfalso. cbn [units] in U. specialize (P m e Vf). destruct s'; lia.
  - cbn [units] in U. destruct (mag_injective m e m' e' s' s' Vf Vg) as [-> ->]; [|reflexivity]. destruct s'; lia.
Qed.
Lemma rounds_same neg x r r' : rounds neg x r -> rounds neg x r' ->
  (forall f, r = Some f -> f64_valid f = true) -> (forall f, r' = Some f -> f64_valid f = true) -> r = r'.
Proof.
  intros H H' V V'. destruct r as [f|], r' as [g|]; cbn [rounds] in *; try (exfalso; lra); [|reflexivity].
  destruct H as (_ & N & S), H' as (_ & N' & S'). specialize (V f eq_refl). specialize (V' g eq_refl).
  f_equal. apply units_same; auto; [apply N|apply N'|congruence|]. eapply nearest_units; eauto.
Qed.
