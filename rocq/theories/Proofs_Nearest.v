(** Rounding to the nearest float64: the location that the standard library's
    [binary_round_aux] carries along is the exact position of the number between two
    neighbours, so the result is the nearest float64, ties to even. *)
From Coq Require Import ZArith QArith Qabs Qpower List Bool Lia Lqa ZifyBool Strings.Byte.
From Verif Require Import Base Float Ext Utf8 Strconv Values Buffer Spec SpecNumber Proofs_Base Proofs_Float Proofs_Number Proofs_Round.
Import ListNotations.
Open Scope Q_scope.

Notation p2 e := ((2 # 1) ^ e).
Lemma p2_pos e : 0 < p2 e.
Proof. apply Qpower_0_lt. reflexivity. Qed.
Lemma p2_add a b : p2 (a + b) == p2 a * p2 b.
Proof. apply Qpower_plus. discriminate. Qed.
Lemma p2_int n : (0 <= n)%Z -> p2 n == inject_Z (2 ^ n).
Proof. intros H. symmetry. apply (Zpower_Qpower 2 n H). Qed.
Lemma p2_le a b : (a <= b)%Z -> p2 a <= p2 b.
Proof.
  intros H. replace b with (a + (b - a))%Z by lia. rewrite p2_add. rewrite (p2_int (b - a)) by lia.
  assert (1 <= inject_Z (2 ^ (b - a))).
  { change 1 with (inject_Z 1). rewrite <- Zle_Qle. pose proof (Z.pow_pos_nonneg 2 (b - a) ltac:(lia) ltac:(lia)). lia. }
  pose proof (p2_pos a). nra.
Qed.
Lemma inj_le a b : (a <= b)%Z -> inject_Z a <= inject_Z b.
Proof. now rewrite <- Zle_Qle. Qed.
Lemma inj_lt a b : (a < b)%Z -> inject_Z a < inject_Z b.
Proof. now rewrite <- Zlt_Qlt. Qed.
Lemma inj_add a b : inject_Z (a + b) == inject_Z a + inject_Z b.
Proof. now rewrite inject_Z_plus. Qed.
Lemma inj_mul a b : inject_Z (a * b) == inject_Z a * inject_Z b.
Proof. now rewrite inject_Z_mult. Qed.

(** [loc_in m l y]: [l] tells where [y] lies between [m] and [m + 1] *)
Definition loc_in (m : Z) (l : location) (y : Q) : Prop :=
  match l with
  | loc_Exact => y == inject_Z m
  | loc_Inexact Lt => inject_Z m < y < inject_Z m + (1 # 2)
  | loc_Inexact Eq => y == inject_Z m + (1 # 2)
  | loc_Inexact Gt => inject_Z m + (1 # 2) < y < inject_Z m + 1
  end.
Lemma loc_in_ext m l y y' : y == y' -> loc_in m l y -> loc_in m l y'.
Proof. intros E. destruct l as [|[]]; cbn; intros H; lra. Qed.
Lemma loc_bounds m l y : loc_in m l y -> inject_Z m <= y < inject_Z m + 1.
Proof. destruct l as [|[]]; cbn; intros H; lra. Qed.

Lemma loc_shr_1 r y : (0 <= shr_m r)%Z -> loc_in (shr_m r) (loc_of_shr_record r) y ->
  loc_in (shr_m (shr_1 r)) (loc_of_shr_record (shr_1 r)) (y / (2 # 1)).
Proof.
  intros P H. destruct r as [m a b]. cbn [shr_m] in *.
  assert (X : exists k c, m = (2 * k + (if c : bool then 1 else 0))%Z /\ shr_1 (Build_shr_record m a b) = Build_shr_record k c (a || b)).
  { destruct m as [|[p|p|]|p]; try lia.
    - exists 0%Z, false. split; reflexivity.
    - exists (Zpos p), true. split; [lia|reflexivity].
    - exists (Zpos p), false. split; [lia|reflexivity].
    - exists 0%Z, true. split; reflexivity. }
  destruct X as (k & c & -> & ->). cbn [shr_m].
  assert (K : inject_Z (2 * k + (if c then 1 else 0)) == (2 # 1) * inject_Z k + (if c then 1 else 0)).
  { rewrite inj_add, inj_mul. destruct c; reflexivity. }
  assert (Y : y / (2 # 1) == (1 # 2) * y) by field.
  apply (loc_in_ext _ _ ((1 # 2) * y)); [now symmetry|].
  destruct c, a, b; cbn [orb loc_of_shr_record loc_in] in *; lra.
Qed.
Lemma loc_shr_iter p : forall r y, (0 <= shr_m r)%Z -> loc_in (shr_m r) (loc_of_shr_record r) y ->
  loc_in (shr_m (iter_pos shr_1 p r)) (loc_of_shr_record (iter_pos shr_1 p r)) (y / p2 (Zpos p)).
Proof.
  assert (N : forall a, ~ p2 a == 0) by (intros a X; pose proof (p2_pos a); lra).
  induction p as [p IH|p IH|]; intros r y P H; cbn [iter_pos].
  - assert (P1 : (0 <= shr_m (shr_1 r))%Z) by (rewrite shr_1_m by auto; apply Z.div_pos; lia).
    assert (P2 : (0 <= shr_m (iter_pos shr_1 p (shr_1 r)))%Z) by (rewrite shr_iter_m by auto; apply Z.div_pos; lia).
    apply loc_shr_1 in H; [|auto]. apply IH in H; [|auto]. apply IH in H; [|auto]. eapply loc_in_ext; [|exact H].
    replace (Zpos p~1) with (1 + Zpos p + Zpos p)%Z by lia. rewrite !p2_add. change (p2 1) with (2 # 1). field. apply N.
  - assert (P2 : (0 <= shr_m (iter_pos shr_1 p r))%Z) by (rewrite shr_iter_m by auto; apply Z.div_pos; lia).
    apply IH in H; [|auto]. apply IH in H; [|auto]. eapply loc_in_ext; [|exact H].
    replace (Zpos p~0) with (Zpos p + Zpos p)%Z by lia. rewrite !p2_add. field. apply N.
  - apply loc_shr_1; auto.
Qed.
Lemma shr_fexp_loc m e l n y : (0 <= m)%Z -> loc_in m l y -> n = (Z.max (Zdigits2 m + e - 53) (-1074) - e)%Z -> (0 <= n)%Z ->
  exists r, shr_fexp prec emax m e l = (r, (e + n)%Z) /\ shr_m r = (m / 2 ^ n)%Z /\ loc_in (shr_m r) (loc_of_shr_record r) (y / p2 n).
Proof.
  intros H Hl -> Hn. unfold shr_fexp. rewrite fexp_val. set (n := (_ - e)%Z) in *. clearbody n.
  assert (R : shr_m (shr_record_of_loc m l) = m) by (destruct l as [|[]]; reflexivity).
  assert (L : loc_of_shr_record (shr_record_of_loc m l) = l) by (destruct l as [|[]]; reflexivity).
  unfold shr. destruct n as [|p|p]; [| |lia].
  - eexists. split; [f_equal; lia|]. rewrite R, L, Z.pow_0_r, Z.div_1_r. split; [reflexivity|].
    eapply loc_in_ext; [|exact Hl]. change (p2 0) with 1. field.
  - eexists. split; [reflexivity|]. rewrite shr_iter_m, R by (rewrite R; auto). split; [reflexivity|].
    rewrite <- R at 1. rewrite <- shr_iter_m by (rewrite R; auto). apply loc_shr_iter; rewrite R; [auto|]. now rewrite L.
Qed.

(** rounding to an integer *)
Lemma rne_nearest m l y k : loc_in m l y -> let r := round_nearest_even m l in
  Qabs (inject_Z r - y) <= Qabs (inject_Z k - y) /\
  (Qabs (inject_Z r - y) == Qabs (inject_Z k - y) -> k = r \/ Z.even r = true).
Proof.
  intros H r.
  assert (K : (k <= m \/ m + 1 <= k)%Z) by lia.
  assert (B : (r = m /\ y <= inject_Z m + (1 # 2) /\ (y == inject_Z m + (1 # 2) -> Z.even r = true)
               \/ r = (m + 1)%Z /\ inject_Z m + (1 # 2) <= y /\ (y == inject_Z m + (1 # 2) -> Z.even r = true))).
  { unfold r, round_nearest_even. destruct l as [|[]]; cbn [loc_in] in H.
    - left. split; [auto|]. split; [lra|]. intros X. exfalso. lra.
    - destruct (Z.even m) eqn:Ev; [left|right].
      + split; [auto|]. split; [lra|auto].
      + split; [auto|]. split; [lra|]. intros _. rewrite Z.add_1_r, Z.even_succ, <- Z.negb_even, Ev. reflexivity.
    - left. split; [auto|]. split; [lra|]. intros X. exfalso. lra.
    - right. split; [auto|]. split; [lra|]. intros X. exfalso. lra. }
  pose proof (loc_bounds _ _ _ H) as Y. clearbody r.
  assert (I1 : inject_Z (m + 1) == inject_Z m + 1) by (rewrite inj_add; reflexivity).
  destruct B as [(-> & B1 & B2)|(-> & B1 & B2)].
  - assert (A1 : Qabs (inject_Z m - y) == y - inject_Z m) by (rewrite Qabs_neg by lra; ring).
    destruct K as [K|K].
    + pose proof (inj_le _ _ K) as K'. assert (A2 : Qabs (inject_Z k - y) == y - inject_Z k) by (rewrite Qabs_neg by lra; ring).
      rewrite A1, A2. split; [lra|]. intros X. left. apply inject_Z_injective. lra.
    + pose proof (inj_le _ _ K) as K'. assert (A2 : Qabs (inject_Z k - y) == inject_Z k - y) by (rewrite Qabs_pos by lra; ring).
      rewrite A1, A2. split; [lra|]. intros X. right. apply B2. lra.
  - assert (A1 : Qabs (inject_Z (m + 1) - y) == inject_Z (m + 1) - y) by (rewrite Qabs_pos by lra; ring).
    destruct K as [K|K].
    + pose proof (inj_le _ _ K) as K'. assert (A2 : Qabs (inject_Z k - y) == y - inject_Z k) by (rewrite Qabs_neg by lra; ring).
      rewrite A1, A2. split; [lra|]. intros X. right. apply B2. lra.
    + pose proof (inj_le _ _ K) as K'. assert (A2 : Qabs (inject_Z k - y) == inject_Z k - y) by (rewrite Qabs_pos by lra; ring).
      rewrite A1, A2. split; [lra|]. intros X. left. apply inject_Z_injective. lra.
Qed.

(** rounding at the right exponent gives the nearest float *)
Lemma grid_nearest m l e x q : (0 <= m)%Z -> loc_in m l (x / p2 e) ->
  (e = -1074 \/ -1074 < e /\ 2 ^ 52 <= m)%Z -> representable q ->
  let r := round_nearest_even m l in
  Qabs (inject_Z r * p2 e - x) <= Qabs (q - x) /\
  (Qabs (inject_Z r * p2 e - x) == Qabs (q - x) -> q == inject_Z r * p2 e \/ Z.even r = true).
Proof.
  intros M H D (k & ek & Hk & He & Hq) r. pose proof (p2_pos e) as U.
  set (y := x / p2 e) in *.
  assert (Y : x == y * p2 e) by (unfold y; field; lra).
  assert (S : forall z, Qabs (z * p2 e - x) == Qabs (z - y) * p2 e).
  { intros z. rewrite Y. setoid_replace (z * p2 e - y * p2 e) with ((z - y) * p2 e) by ring. rewrite Qabs_Qmult.
    rewrite (Qabs_pos (p2 e)) by lra. reflexivity. }
  clearbody y. rewrite S.
  destruct (Z.le_gt_cases e ek) as [L|L].
  - set (K := (k * 2 ^ (ek - e))%Z).
    assert (Q1 : q == inject_Z K * p2 e).
    { rewrite Hq. unfold K. rewrite inj_mul, <- p2_int by lia. rewrite <- Qmult_assoc, <- p2_add. now replace (ek - e + e)%Z with ek by lia. }
    destruct (rne_nearest m l y K H) as [N1 N2]. fold r in N1, N2. rewrite Q1, S. split; [nra|].
    intros X. destruct N2 as [->|]; [|left|right; auto]; [|reflexivity].
    assert (Z0 : (Qabs (inject_Z r - y) - Qabs (inject_Z K - y)) * p2 e == 0) by lra.
    apply Qmult_integral in Z0 as [Z0|Z0]; lra.
  - destruct D as [->|[D1 D2]]; [lia|].
    (* below the grid: smaller than 2^52 units *)
    assert (Q1 : q < inject_Z (2 ^ 52) * p2 e).
    { rewrite Hq. assert (B : inject_Z k < inject_Z (2 ^ 53)) by (apply inj_lt; lia).
      pose proof (p2_pos ek). apply (Qlt_le_trans _ (inject_Z (2 ^ 53) * p2 ek)); [nra|].
      change (2 ^ 53)%Z with (2 ^ 52 * 2)%Z. rewrite inj_mul. change (inject_Z 2) with (p2 1). rewrite <- Qmult_assoc, <- p2_add.
      pose proof (p2_le (1 + ek) e ltac:(lia)). assert (0 < inject_Z (2 ^ 52)) by reflexivity. nra. }
    pose proof (loc_bounds _ _ _ H) as B. pose proof (inj_le _ _ D2) as B2.
    destruct (rne_nearest m l y (2 ^ 52) H) as [N1 _]. fold r in N1.
    assert (A1 : Qabs (inject_Z (2 ^ 52) - y) == y - inject_Z (2 ^ 52)) by (rewrite Qabs_neg by lra; ring).
    assert (A2 : Qabs (q - x) == x - q) by (rewrite Qabs_neg by (rewrite Y; nra); ring).
    rewrite A1 in N1. rewrite A2.
    assert (LT : Qabs (inject_Z r - y) * p2 e < x - q) by (rewrite Y; nra).
    split; [lra|]. intros X. exfalso. lra.
Qed.

Lemma signed_abs s a b : Qabs (signed s a - signed s b) == Qabs (a - b).
Proof. destruct s; cbn [signed]; [|reflexivity]. setoid_replace (- a - - b) with (- (a - b)) by ring. apply Qabs_opp. Qed.
Lemma signed_invol s a : signed s (signed s a) == a.
Proof. destruct s; cbn [signed]; ring. Qed.
Lemma signed_comp s a b : a == b -> signed s a == signed s b.
Proof. intros E. destruct s; cbn [signed]; now rewrite E. Qed.
Lemma representable_comp a b : a == b -> representable a -> representable b.
Proof. intros E (m & e & A & B & C). exists m, e. rewrite <- E. auto. Qed.
Lemma representable_signed s q : representable q -> representable (signed s q).
Proof.
  intros (m & e & A & B & C). destruct s; cbn [signed]; [|exists m, e; auto].
  exists (- m)%Z, e. split; [lia|]. split; [auto|]. rewrite C, inject_Z_opp. ring.
Qed.
(** a float whose value is the rounded grid point *)
Lemma grid_rounds s f m l e x : (0 <= m)%Z -> loc_in m l (x / p2 e) ->
  (e = -1074 \/ -1074 < e /\ 2 ^ 52 <= m)%Z -> let r := round_nearest_even m l in
  is_finite f -> q_value f == signed s (inject_Z r * p2 e) -> representable (q_value f) ->
  (Z.even r = true -> even_mantissa f) -> nearest (signed s x) f.
Proof.
  intros M H D r F V R Ev. split; [auto|]. split; [auto|]. intros q Hq.
  destruct (grid_nearest m l e x (signed s q) M H D (representable_signed s q Hq)) as [N1 N2]. fold r in N1, N2.
  assert (A1 : Qabs (q_value f - signed s x) == Qabs (inject_Z r * p2 e - x)) by (rewrite V; apply signed_abs).
  assert (A2 : Qabs (q - signed s x) == Qabs (signed s q - x)).
  { rewrite <- (signed_abs s (signed s q) x), signed_invol. reflexivity. }
  rewrite A1, A2. split; [auto|]. intros X. destruct (N2 X) as [N|N]; [left|right; auto].
  transitivity (signed s (signed s q)); [symmetry; apply signed_invol|]. rewrite V. now apply signed_comp.
Qed.

Lemma overflow_val : overflow == inject_Z (2 ^ 54 - 1) * p2 970.
Proof. reflexivity. Qed.
Lemma finite_value s m e : q_value (S754_finite s m e) == signed s (inject_Z (Zpos m) * p2 e).
Proof. unfold q_value, signed. destruct s; ring. Qed.

(** an infinity is an error for ParseFloat *)
Definition keep (r : spec_float) : option spec_float := match r with S754_infinity _ => None | _ => Some r end.
Lemma round_aux_rounds s mx ex l x : (0 <= mx)%Z -> (ex <= Z.max (Zdigits2 mx + ex - 53) (-1074))%Z ->
  loc_in mx l (x / p2 ex) ->
  rounds s x (keep (binary_round_aux prec emax s mx ex l)).
Proof.
  intros H L X. unfold binary_round_aux.
  destruct (shr_fexp_loc mx ex l _ _ H X eq_refl ltac:(lia)) as (r & -> & R & Lr).
  set (d := Zdigits2 mx) in *. set (n := (Z.max _ _ - ex)%Z) in *.
  set (m1 := round_nearest_even _ _).
  assert (Hn : (0 <= n)%Z) by lia.
  pose proof (Z.pow_pos_nonneg 2 n ltac:(lia) Hn) as P.
  assert (U : (shr_m r < 2 ^ 53)%Z).
  { rewrite R. apply Z.div_lt_upper_bound; [lia|]. rewrite <- Z.pow_add_r by lia.
    destruct (Z.eq_dec mx 0) as [->|]; [apply Z.pow_pos_nonneg; lia|].
    destruct (Zdigits2_bounds mx ltac:(lia)) as [B B0]. fold d in B, B0.
    pose proof (Z.pow_le_mono_r 2 d (n + 53) ltac:(lia) ltac:(lia)). lia. }
  assert (Lo : (0 <= shr_m r)%Z) by (rewrite R; apply Z.div_pos; lia).
  assert (N : (ex + n = -1074 \/ -1074 < ex + n /\ 2 ^ 52 <= shr_m r)%Z).
  { destruct (Z.eq_dec (ex + n) (-1074)) as [|Q]; [left; auto|right]. split; [lia|].
    destruct (Z.eq_dec mx 0) as [->|].
    - exfalso. unfold n, d in *. cbn [Zdigits2] in *. lia.
    - destruct (Zdigits2_bounds mx ltac:(lia)) as [B B0]. fold d in B, B0. rewrite R.
      apply Z.div_le_lower_bound; [lia|]. rewrite <- Z.pow_add_r by lia.
      replace (n + 52)%Z with (d - 1)%Z by lia. lia. }
  assert (Lx : loc_in (shr_m r) (loc_of_shr_record r) (x / p2 (ex + n))).
  { eapply loc_in_ext; [|exact Lr]. rewrite p2_add. field. split; intros Z0; pose proof (p2_pos ex); pose proof (p2_pos n); lra. }
  set (e1 := (ex + n)%Z) in *. clearbody e1. clear R P Hn L n d H mx ex l X Lr.
  set (m := shr_m r) in *. set (l := loc_of_shr_record r) in *. clearbody m l. clear r.
  pose proof (grid_rounds s) as G.
  assert (M : (m1 = m \/ m1 = m + 1)%Z).
  { unfold m1, round_nearest_even. destruct l as [|[]]; auto. destruct (Z.even _); auto. }
  (* the number lies below the next grid point *)
  pose proof (p2_pos e1) as P1. pose proof (loc_bounds _ _ _ Lx) as B.
  set (y := x / p2 e1) in *.
  assert (Y : x == y * p2 e1) by (unfold y; field; lra). 
  pose proof (p2_pos 970) as P970.
  assert (T : inject_Z (2 ^ 54 - 1) == (2 # 1) * inject_Z (2 ^ 53) - 1) by reflexivity.
  assert (T2 : (4 # 1) * inject_Z (2 ^ 52) == (2 # 1) * inject_Z (2 ^ 53)) by reflexivity.
  assert (T0 : 1 < inject_Z (2 ^ 53)) by reflexivity.
  assert (P971 : p2 971 == (2 # 1) * p2 970) by (change 971%Z with (1 + 970)%Z; rewrite p2_add; reflexivity).
  assert (P972 : p2 972 == (4 # 1) * p2 970) by (change 972%Z with (2 + 970)%Z; rewrite p2_add; reflexivity).
  assert (Small : (e1 <= 970)%Z -> x < overflow).
  { intros E. rewrite overflow_val, Y, T. pose proof (p2_le _ _ E). assert (inject_Z m + 1 <= inject_Z (2 ^ 53)).
    { change 1 with (inject_Z 1). rewrite <- inj_add. apply inj_le. lia. }
    assert (y * p2 e1 < inject_Z (2 ^ 53) * p2 e1) by nra. nra. }
  assert (Big : (972 <= e1)%Z -> overflow <= x).
  { intros E. rewrite overflow_val, Y, T. pose proof (p2_le _ _ E). destruct N as [|[_ N]]; [lia|].
    apply inj_le in N. assert (inject_Z (2 ^ 52) * p2 972 <= y * p2 e1) by nra. nra. }
  destruct m1 as [|p|p] eqn:M1; [| |lia].
  - destruct (shr_fexp_m 0 e1 loc_Exact 0) as (r2 & -> & R2); cbn [Zdigits2]; try lia.
    rewrite R2. rewrite Z.pow_0_r, Z.div_1_r.
    assert (E1 : e1 = (-1074)%Z) by (destruct N as [|[_ N]]; [auto|change (2 ^ 52)%Z with 4503599627370496%Z in N; lia]).
    split; [apply Small; lia|]. split; [|reflexivity].
    apply (G (S754_zero s) m l e1 x Lo Lx N); [exact I| |exists 0%Z, 0%Z; repeat split; lia|intros _; exact I].
    fold m1. rewrite M1. cbn [q_value]. destruct s; cbn [signed]; change (inject_Z 0) with 0; ring.
  - assert (G' : forall f, is_finite f -> q_value f == signed s (inject_Z (Zpos p) * p2 e1) -> representable (q_value f) ->
        (Z.even (Zpos p) = true -> even_mantissa f) -> nearest (signed s x) f).
    { rewrite <- M1. intros f. apply (G f m l e1 x Lo Lx N). }
    clear G. change (2 ^ 53)%Z with 9007199254740992%Z in U. change (2 ^ 52)%Z with 4503599627370496%Z in N.
    destruct (Z.eq_dec (Zpos p) 9007199254740992) as [Q|Q].
    + assert (D : Zpos (digits2_pos p) = 54%Z) by (apply digits_unique; [lia|]; rewrite Q; cbn; lia).
      destruct (shr_fexp_m (Zpos p) e1 loc_Exact 1) as (r2 & -> & R2); cbn [Zdigits2]; try lia.
      rewrite R2, Q. change (9007199254740992 / 2 ^ 1)%Z with (Zpos 4503599627370496). cbv iota.
      destruct (e1 + 1 <=? emax - prec)%Z eqn:C; unfold emax, prec in C.
      * split; [apply Small; lia|]. split; [|reflexivity].
        assert (V : inject_Z 4503599627370496 * p2 (e1 + 1) == inject_Z (Zpos p) * p2 e1).
        { rewrite Q, p2_add. change (p2 1) with (2 # 1). change (inject_Z 9007199254740992) with ((2 # 1) * inject_Z 4503599627370496). ring. }
        apply G'; [exact I| | |intros _; reflexivity].
        -- rewrite finite_value. now apply signed_comp.
        -- eapply representable_comp; [symmetry; apply finite_value|]. apply representable_signed.
           exists 4503599627370496%Z, (e1 + 1)%Z. split; [reflexivity|]. split; [lia|reflexivity].
      * cbn [keep rounds]. assert (e1 = 971 \/ 972 <= e1)%Z as [E|E] by lia; [|auto].
        rewrite overflow_val, Y, T, E, P971. assert (Em : m = 9007199254740991%Z) by lia.
        assert (inject_Z m + (1 # 2) <= y).
        { unfold m1, round_nearest_even in M1. destruct l as [|[]]; cbn [loc_in] in Lx; try lra.
          - exfalso. congruence || lia.
          - exfalso. congruence || lia. }
        rewrite Em in *. change (inject_Z (2 ^ 53)) with (inject_Z 9007199254740991 + 1). nra.
    + assert (D : (Zpos (digits2_pos p) <= 53)%Z)
        by (apply digits_le; [lia|]; change (2 ^ 53)%Z with 9007199254740992%Z; lia).
      assert (D2 : (e1 = -1074 \/ Zpos (digits2_pos p) = 53)%Z).
      { destruct N as [->|[N1 N2]]; [auto|right]. apply digits_unique; [lia|].
        change (2 ^ (53 - 1))%Z with 4503599627370496%Z. change (2 ^ 53)%Z with 9007199254740992%Z. lia. }
      destruct (shr_fexp_m (Zpos p) e1 loc_Exact 0) as (r2 & -> & R2); cbn [Zdigits2]; try lia.
      rewrite R2. rewrite Z.pow_0_r, Z.div_1_r, Z.add_0_r.
      destruct (e1 <=? emax - prec)%Z eqn:C; unfold emax, prec in C.
      * cbn [keep rounds]. split.
        -- assert (e1 <= 970 \/ e1 = 971)%Z as [E|E] by lia; [auto|].
           rewrite overflow_val, Y, T, E, P971.
           assert (m <= 9007199254740990 \/ m = 9007199254740991)%Z as [E2|E2] by lia.
           ++ apply inj_le in E2. change (inject_Z (2 ^ 53)) with (inject_Z 9007199254740990 + (2 # 1)). nra.
           ++ assert (y < inject_Z m + (1 # 2)).
              { unfold m1, round_nearest_even in M1. destruct l as [|[]]; cbn [loc_in] in Lx; try lra.
                - exfalso. rewrite E2 in M1. change (Z.even 9007199254740991) with false in M1. cbv iota in M1. lia.
                - exfalso. lia. }
              rewrite E2 in *. change (inject_Z (2 ^ 53)) with (inject_Z 9007199254740991 + 1). nra.
        -- split; [|reflexivity]. apply G'; [exact I|apply finite_value| |auto].
           eapply representable_comp; [symmetry; apply finite_value|]. apply representable_signed.
           exists (Zpos p), e1. change (2 ^ 53)%Z with 9007199254740992%Z. split; [lia|]. split; [lia|reflexivity].
      * cbn [keep rounds]. apply Big. lia.
Qed.

Lemma round_rounds s m e x : x == inject_Z (Zpos m) * p2 e ->
  rounds s x (keep (binary_round prec emax s m e)).
Proof.
  intros X. assert (N : forall a, ~ p2 a == 0) by (intros a Z0; pose proof (p2_pos a); lra).
  unfold binary_round. rewrite fexp_val. unfold shl_align.
  destruct (_ - e)%Z as [|p|p] eqn:D;
    try (apply round_aux_rounds; [lia|cbn [Zdigits2]; lia|]; cbn [loc_in]; rewrite X; field; apply N).
  set (ex := Z.max _ _) in *. pose proof (shift_pos_spec p m) as Sp.
  apply round_aux_rounds; [lia| |].
  - cbn [Zdigits2]. rewrite (digits_mul m (Zpos p) (shift_pos p m)); [lia|lia|apply Sp].
  - cbn [loc_in]. rewrite X, Sp, inj_mul, <- p2_int by lia. replace e with (Zpos p + ex)%Z at 1 by lia. rewrite p2_add. field. apply N.
Qed.

(** the position of q + r/B *)
Lemma new_location_loc q r B y : (0 < B)%Z -> (0 <= r < B)%Z -> y * inject_Z B == inject_Z q * inject_Z B + inject_Z r ->
  loc_in q (new_location B r) y.
Proof.
  intros HB Hr Y. assert (PB : 0 < inject_Z B) by (apply (inj_lt 0); lia).
  assert (E : forall z, inject_Z (2 * z) == (2 # 1) * inject_Z z) by (intros; now rewrite inj_mul).
  assert (R1 : 0 <= inject_Z r) by (apply (inj_le 0); lia).
  assert (R2 : inject_Z r < inject_Z B) by (apply inj_lt; lia).
  assert (Dv : forall c, (y - inject_Z q - c) * inject_Z B == inject_Z r - c * inject_Z B) by (intros c; nra).
  assert (Lt1 : forall c, inject_Z r < c * inject_Z B -> y < inject_Z q + c).
  { intros c Hc. pose proof (Dv c). apply Qnot_le_lt. intros Z0. nra. }
  assert (Gt1 : forall c, c * inject_Z B < inject_Z r -> inject_Z q + c < y).
  { intros c Hc. pose proof (Dv c). apply Qnot_le_lt. intros Z0. nra. }
  assert (Eq1 : forall c, inject_Z r == c * inject_Z B -> y == inject_Z q + c).
  { intros c Hc. pose proof (Dv c) as D. assert (Z0 : (y - inject_Z q - c) * inject_Z B == 0) by lra.
    apply Qmult_integral in Z0 as [Z0|Z0]; lra. }
  unfold new_location, new_location_even, new_location_odd.
  destruct (Zeq_bool r 0) eqn:R0.
  - apply Zeq_bool_eq in R0. subst r. destruct (Z.even B); change (Zeq_bool 0 0) with true; cbn [loc_in]; (rewrite (Eq1 0); [ring|change (inject_Z 0) with 0; ring]).
  - assert (R3 : (0 < r)%Z) by (apply Zeq_bool_neq in R0; lia). apply inj_lt in R3. change (inject_Z 0) with 0 in R3.
    pose proof (Gt1 0 ltac:(lra)) as G0. pose proof (Lt1 1 ltac:(lra)) as L1.
    destruct (Z.even B) eqn:Ev; rewrite R0.
    + destruct (Z.compare_spec (2 * r) B) as [C|C|C]; cbn [loc_in].
      * apply Eq1. rewrite <- C, E. lra.
      * split; [lra|]. apply Lt1. apply inj_lt in C. rewrite E in C. lra.
      * split; [|lra]. apply Gt1. apply inj_lt in C. rewrite E in C. lra.
    + assert (Od : (2 * r <> B)%Z).
      { intros Z0. rewrite <- Z0, Z.even_mul in Ev. discriminate. }
      destruct (Z.compare_spec (2 * r + 1) B) as [C|C|C]; cbn [loc_in].
      * split; [lra|]. apply Lt1. assert (C' : (2 * r < B)%Z) by lia. apply inj_lt in C'. rewrite E in C'. lra.
      * split; [lra|]. apply Lt1. assert (C' : (2 * r < B)%Z) by lia. apply inj_lt in C'. rewrite E in C'. lra.
      * split; [|lra]. apply Gt1. assert (C' : (B < 2 * r)%Z) by lia. apply inj_lt in C'. rewrite E in C'. lra.
Qed.

Lemma div_rounds s D B x : (0 < D)%Z -> (0 < B)%Z -> x * inject_Z B == inject_Z D ->
  rounds s x (keep (let '(mz, ez, lz) := SFdiv_core_binary prec emax D 0 B 0 in
        binary_round_aux prec emax s mz ez lz)).
Proof.
  intros HD HB X. unfold SFdiv_core_binary. rewrite fexp_val.
  destruct (Zdigits2_bounds D HD) as [BD D0]. destruct (Zdigits2_bounds B HB) as [BB B0].
  set (dD := Zdigits2 D) in *. set (dB := Zdigits2 B) in *.
  set (e' := Z.min _ _).
  assert (L0 : (e' <= 0)%Z) by lia.
  replace (0 - 0 - e')%Z with (- e')%Z by lia.
  replace (match (- e')%Z with Z0 => D | Zpos _ => Z.shiftl D (- e') | Zneg _ => 0%Z end) with (D * 2 ^ (- e'))%Z.
  2:{ destruct (- e')%Z as [|p|p] eqn:Q; try lia. now rewrite Z.shiftl_mul_pow2 by lia. }
  pose proof (Z_div_mod (D * 2 ^ (- e')) B ltac:(lia)) as DM.
  destruct (Z.div_eucl (D * 2 ^ (- e')) B) as [q r]. destruct DM as [Hq Hr].
  pose proof (Z.pow_pos_nonneg 2 (- e') ltac:(lia) ltac:(lia)) as P.
  assert (Q0 : (0 <= q)%Z) by nia.
  apply round_aux_rounds; [auto| |].
  - assert (K : (dD - dB - e' <= Zdigits2 q)%Z).
    { pose proof (Zdigits2_nonneg q Q0). destruct (Z.le_gt_cases (dD - dB - e') 0); [lia|].
      destruct (Z.eq_dec q 0) as [->|].
      - exfalso.
        assert (H1 : (2 ^ (dD - 1 + - e') < 2 ^ dB)%Z) by (rewrite Z.pow_add_r by lia; nia).
        apply Z.pow_lt_mono_r_iff in H1; lia.
      - destruct (Zdigits2_bounds q ltac:(lia)) as [Bq Bq0].
        assert (H1 : (2 ^ (dD - 1 + - e') < 2 ^ (dB + Zdigits2 q))%Z).
        { rewrite !Z.pow_add_r by lia.
          assert (D * 2 ^ (- e') < B * (q + 1))%Z by nia.
          assert (B * (q + 1) <= 2 ^ dB * 2 ^ Zdigits2 q)%Z by (apply Z.mul_le_mono_nonneg; lia). nia. }
        apply Z.pow_lt_mono_r_iff in H1; lia. }
    lia.
  - apply new_location_loc; [auto|auto|].
    rewrite <- inj_mul, <- inj_add, (Z.mul_comm q), <- Hq, inj_mul, <- p2_int, <- X by lia.
    pose proof (p2_pos e') as P'. assert (PP : p2 e' * p2 (- e') == 1) by (rewrite <- p2_add; replace (e' + - e')%Z with 0%Z by lia; reflexivity).
    assert (Iv : / p2 e' == p2 (- e')) by (now rewrite Qpower_opp). unfold Qdiv. rewrite Iv. ring.
Qed.

(** magnitudes below half the smallest float round to zero *)
Lemma tiny_rounds s x : 0 < x -> x < p2 (-1075) -> rounds s x (Some (S754_zero s)).
Proof.
  intros P L. pose proof (p2_pos (-1074)) as P1.
  assert (H : p2 (-1074) == (2 # 1) * p2 (-1075)) by (change (-1074)%Z with (1 + -1075)%Z at 1; rewrite p2_add; reflexivity).
  split.
  - apply (Qlt_trans _ _ _ L). rewrite overflow_val. pose proof (p2_le (-1075) 970 ltac:(lia)). pose proof (p2_pos 970).
    assert (2 # 1 < inject_Z (2 ^ 54 - 1)) by reflexivity. nra.
  - split; [|reflexivity].
    assert (Lx : loc_in 0 (loc_Inexact Lt) (x / p2 (-1074))).
    { cbn [loc_in]. change (inject_Z 0) with 0. split; [apply Qlt_shift_div_l; lra|]. apply Qlt_shift_div_r; lra. }
    apply (grid_rounds s (S754_zero s) 0 (loc_Inexact Lt) (-1074) x ltac:(lia) Lx (or_introl eq_refl)).
    + exact I. + cbn [round_nearest_even q_value]. change (inject_Z 0) with 0. destruct s; cbn [signed]; ring.
    + exists 0%Z, 0%Z. repeat split; lia. + intros _. exact I.
Qed.
Lemma huge_rounds s x : overflow <= x -> rounds s x None.
Proof. auto. Qed.

Notation p10 e := ((10 # 1) ^ e).
Lemma p10_pos e : 0 < p10 e.
Proof. apply Qpower_0_lt. reflexivity. Qed.
Lemma p10_add a b : p10 (a + b) == p10 a * p10 b.
Proof. apply Qpower_plus. discriminate. Qed.
Lemma p10_int n : (0 <= n)%Z -> p10 n == inject_Z (10 ^ n).
Proof. intros H. symmetry. apply (Zpower_Qpower 10 n H). Qed.
Lemma p10_le a b : (a <= b)%Z -> p10 a <= p10 b.
Proof.
  intros H. replace b with (a + (b - a))%Z by lia. rewrite p10_add. rewrite (p10_int (b - a)) by lia.
  assert (1 <= inject_Z (10 ^ (b - a))).
  { change 1 with (inject_Z 1). rewrite <- Zle_Qle. pose proof (Z.pow_pos_nonneg 10 (b - a) ltac:(lia) ltac:(lia)). lia. }
  pose proof (p10_pos a). nra.
Qed.
Lemma p10_neg n : (0 <= n)%Z -> p10 (- n) * inject_Z (10 ^ n) == 1.
Proof. intros H. rewrite <- p10_int by auto. rewrite <- p10_add. replace (- n + n)%Z with 0%Z by lia. reflexivity. Qed.

Lemma ten_310 : overflow <= p10 310.
Proof. rewrite p10_int by lia. unfold overflow. rewrite p2_int by lia. rewrite <- inj_mul. apply inj_le. apply Z.leb_le. vm_compute. reflexivity. Qed.
Lemma ten_330 : p10 (-330) <= p2 (-1075).
Proof.
  pose proof (p10_neg 330 ltac:(lia)) as A. pose proof (p10_pos (-330)) as A0.
  assert (B : p2 (-1075) * inject_Z (2 ^ 1075) == 1).
  { rewrite <- p2_int by lia. rewrite <- p2_add. reflexivity. }
  pose proof (p2_pos (-1075)) as B0. change (- (330))%Z with (-330)%Z in A.
  assert (C : inject_Z (2 ^ 1075) <= inject_Z (10 ^ 330)) by (apply inj_le; apply Z.leb_le; vm_compute; reflexivity).
  set (a := p10 (-330)) in *. set (b := p2 (-1075)) in *. set (u := inject_Z (10 ^ 330)) in *. set (v := inject_Z (2 ^ 1075)) in *.
  clearbody a b u v. assert (b * v <= b * u) by nra. assert (0 < u) by (apply Qnot_le_lt; intros Z0; nra).
  apply Qnot_lt_le. intros Z0. nra.
Qed.

Lemma round_dec_rounds neg D e nd x : (0 < D)%Z -> (10 ^ (nd - 1) <= D < 10 ^ nd)%Z -> (0 < nd)%Z ->
  x == inject_Z D * p10 e -> rounds neg x (round_dec neg D e nd).
Proof.
  intros HD B Hnd X. unfold round_dec. destruct D as [|p|p]; try lia. cbv zeta.
  assert (Lo : p10 (nd - 1 + e) <= x).
  { rewrite p10_add, X, (p10_int (nd - 1)) by lia. destruct B as [B _]. apply inj_le in B. pose proof (p10_pos e). nra. }
  assert (Hi : x < p10 (nd + e)).
  { rewrite p10_add, X, (p10_int nd) by lia. destruct B as [_ B]. apply inj_lt in B. pose proof (p10_pos e). nra. }
  assert (Px : 0 < x) by (pose proof (p10_pos (nd - 1 + e)); lra).
  destruct (310 <? e + nd)%Z eqn:C1.
  - cbn [keep rounds]. apply (Qle_trans _ (p10 310)); [apply ten_310|]. apply (Qle_trans _ (p10 (nd - 1 + e))); [apply p10_le; lia|auto].
  - destruct (e + nd <? -330)%Z eqn:C2.
    + apply tiny_rounds; [auto|]. apply (Qlt_le_trans _ (p10 (nd + e))); [auto|].
      apply (Qle_trans _ (p10 (-330))); [apply p10_le; lia|apply ten_330].
    + destruct (0 <=? e)%Z eqn:C3.
      * apply round_rounds. change (p2 0) with 1. rewrite Qmult_1_r. rewrite Z2Pos.id.
        -- rewrite inj_mul, <- p10_int by lia. exact X.
        -- pose proof (Z.pow_pos_nonneg 10 e ltac:(lia) ltac:(lia)). lia.
      * apply div_rounds; [lia|apply Z.pow_pos_nonneg; lia|].
        rewrite X. pose proof (p10_neg (- e) ltac:(lia)) as A. rewrite Z.opp_involutive in A.
        rewrite <- Qmult_assoc, A. ring.
Qed.

Lemma round_bin_rounds neg M e x : (0 < M)%Z -> x == inject_Z M * p2 e -> rounds neg x (round_bin neg M e).
Proof.
  intros HM X. unfold round_bin. destruct M as [|p|p]; try lia. cbv zeta.
  destruct (Z.log2_spec (Zpos p) HM) as [B1 B2]. set (g := Z.log2 (Zpos p)) in *. pose proof (Z.log2_nonneg (Zpos p)) as G. fold g in G.
  assert (Lo : p2 (g + e) <= x).
  { rewrite p2_add, X, (p2_int g) by lia. apply inj_le in B1. pose proof (p2_pos e). nra. }
  assert (Hi : x < p2 (Z.succ g + e)).
  { rewrite p2_add, X, (p2_int (Z.succ g)) by lia. apply inj_lt in B2. pose proof (p2_pos e). nra. }
  assert (Px : 0 < x) by (pose proof (p2_pos (g + e)); lra).
  destruct (1100 <? e + g)%Z eqn:C1.
  - cbn [keep rounds]. apply (Qle_trans _ (p2 1100)).
    + unfold overflow. rewrite !p2_int by lia. rewrite <- inj_mul. apply inj_le. apply Z.leb_le. vm_compute. reflexivity.
    + apply (Qle_trans _ (p2 (g + e))); [apply p2_le; lia|auto].
  - destruct (e + g <? -1200)%Z eqn:C2.
    + apply tiny_rounds; [auto|]. apply (Qlt_le_trans _ (p2 (Z.succ g + e))); [auto|]. apply p2_le; lia.
    + now apply round_rounds.
Qed.
