(** There is only one shortest decimal (SpecNumber.shortest): the text of a number is determined. *)
From Coq Require Import ZArith NArith QArith Qabs Qpower List Bool Lia Lqa ZifyBool Strings.Byte.
From Verif Require Import Base Float Ext Utf8 Strconv Values Buffer Spec SpecNumber Proofs_Base Proofs_Float Proofs_Number
  Proofs_Round Proofs_Nearest Proofs_Unique Proofs_Numeral Proofs_Shortest.
Import ListNotations.
Open Scope Z_scope.

Lemma app_same_length {A} (a b a' b' : list A) : a ++ b = a' ++ b' -> length a = length a' -> a = a' /\ b = b'.
Proof.
  revert a'. induction a as [|x a IH]; intros [|x' a'] H L; cbn in *; try discriminate; [auto|].
  injection H as <- H. destruct (IH a' H) as [-> ->]; [lia|auto].
Qed.
Lemma layout_fun lo hi pad ds dp u u' : lo <= 0 <= hi -> ds <> [] -> number_layout lo hi pad ds dp u -> number_layout lo hi pad ds dp u' -> u = u'.
Proof.
  intros Lo N H H'. assert (L : 1 <= zlen ds) by (destruct ds; [congruence|rewrite zlen_cons; pose proof (zlen_nonneg ds); lia]).
  destruct H as [d ds dp u C I|ds dp C1 C2|a b dp C1 C2 C3|ds dp C].
  - inversion H' as [d' ds' dp' w C' I' Q1 Q2|ds' dp' C1' C2'|a' b' dp' C1' C2' C3' Q1|ds' dp' C']; subst; try lia.
    now rewrite (int_text_fun _ _ _ I I').
  - inversion H' as [d' ds' dp' w C' I' Q1 Q2|ds' dp' C1' C2'|a' b' dp' C1' C2' C3' Q1|ds' dp' C']; subst; try lia. reflexivity.
  - inversion H' as [d' ds' dp' w C' I' Q1 Q2|ds' dp' C1' C2'|a' b' dp' C1' C2' C3' Q1|ds' dp' C']; subst; try lia.
    + destruct (app_same_length a' b' a b Q1) as [-> ->]; [unfold zlen in *; lia|reflexivity].
    + exfalso. rewrite zlen_app in C'. destruct b as [|x b]; [congruence|]. rewrite zlen_cons in C'. pose proof (zlen_nonneg b). lia.
  - inversion H' as [d' ds' dp' w C' I' Q1 Q2|ds' dp' C1' C2'|a' b' dp' C1' C2' C3' Q1|ds' dp' C']; subst; try lia.
    + exfalso. rewrite zlen_app in C. destruct b' as [|x b]; [congruence|]. rewrite zlen_cons in C. pose proof (zlen_nonneg b). lia.
    + reflexivity.
Qed.

Open Scope Q_scope.
(** what [shortest] says, in numbers *)
Definition best (s : bool) (m : positive) (e n k L : Z) : Prop := let v := inject_Z (Zpos m) * p2 e in let f := S754_finite s m e in
  (10 ^ (L - 1) <= n < 10 ^ L)%Z /\ (1 <= L)%Z /\ rounds s (inject_Z n * p10 k) (Some f) /\
    forall n' k', rounds s (inject_Z n' * p10 k') (Some f) -> (10 ^ (L - 1) <= n')%Z /\
    ((n' < 10 ^ L)%Z -> Qabs (inject_Z n * p10 k - v) <= Qabs (inject_Z n' * p10 k' - v) /\
    (Qabs (inject_Z n * p10 k - v) == Qabs (inject_Z n' * p10 k' - v) -> inject_Z n' * p10 k' == inject_Z n * p10 k \/ Z.even n = true)).
Lemma best_length s m e n k L n' k' L' : best s m e n k L -> best s m e n' k' L' -> (L <= L')%Z.
Proof.
  intros (_ & L1 & _ & Min) (B & L1' & R & _). destruct (Min n' k' R) as [M _].
  destruct (Z.le_gt_cases L L') as [|X]; auto. exfalso. pose proof (pow10_mono L' (L - 1) ltac:(lia)). lia.
Qed.
Lemma same_scale n k n' k' L : (10 ^ (L - 1) <= n < 10 ^ L)%Z -> (10 ^ (L - 1) <= n' < 10 ^ L)%Z -> (1 <= L)%Z ->
  inject_Z n' * p10 k' == inject_Z n * p10 k -> (k <= k')%Z -> n' = n /\ k' = k.
Proof.
  intros B B' HL E K.
  assert (X : n = (n' * 10 ^ (k' - k))%Z).
  { rewrite <- inject_Z_injective, inj_mul, <- p10_int by lia. apply (Qmult_inj_r _ _ (p10 k)); [pose proof (p10_pos k); lra|].
    rewrite <- E, <- Qmult_assoc, <- p10_add. replace (k' - k + k)%Z with k' by lia. reflexivity. }
  assert (P10 : (10 ^ L = 10 * 10 ^ (L - 1))%Z) by (replace L with (Z.succ (L - 1)) at 1 by lia; apply Z.pow_succ_r; lia).
  destruct (Z.eq_dec k' k) as [->|N]; [rewrite Z.sub_diag in X; split; lia|]. exfalso.
  assert (T10 : (10 <= 10 ^ (k' - k))%Z) by (change 10%Z with (10 ^ 1)%Z at 1; apply pow10_mono; lia). nia.
Qed.
Lemma best_order s m e n k n' k' L : f64_valid (S754_finite s m e) = true -> best s m e n k L -> best s m e n' k' L ->
  ~ inject_Z n * p10 k < inject_Z n' * p10 k'.
Proof.
  intros V (B & HL & R & Min) (B' & _ & R' & Min') Lt. set (v := inject_Z (Zpos m) * p2 e) in *.
  destruct (Min n' k' R') as [_ M]. destruct (Min' n k R) as [_ M']. destruct (M (proj2 B')) as [D T]. destruct (M' (proj2 B)) as [D' T'].
  assert (Q : Qabs (inject_Z n * p10 k - v) == Qabs (inject_Z n' * p10 k' - v)) by (apply Qle_antisym; auto).
  destruct (T Q) as [X|Ev]; [lra|]. destruct (T' ltac:(now symmetry)) as [X|Ev']; [lra|].
  set (x := inject_Z n * p10 k) in *. set (x' := inject_Z n' * p10 k') in *.
  assert (W : x < v < x' /\ v - x == x' - v).
  { revert Q. apply (Qabs_case (x - v)); apply (Qabs_case (x' - v)); intros; lra. }
  assert (P10 : (10 ^ L = 10 * 10 ^ (L - 1))%Z) by (replace L with (Z.succ (L - 1)) at 1 by lia; apply Z.pow_succ_r; lia).
  assert (Od : Z.even (n + 1) = false) by (replace (n + 1)%Z with (Z.succ n) by lia; rewrite Z.even_succ, <- Z.negb_even, Ev; reflexivity).
  assert (Nx : (n + 1 < 10 ^ L)%Z).
  { destruct (Z.eq_dec (n + 1) (10 ^ L)) as [X|]; [|lia]. rewrite X, P10, Z.even_mul in Od. discriminate. }
  pose proof (p10_pos k) as Pk.
  assert (Sx : inject_Z (n + 1) * p10 k == x + p10 k) by (unfold x; rewrite inj_add; change (inject_Z 1) with 1; ring).
  assert (Far : x' <= x + p10 k).
  { apply Qnot_lt_le. intros Z0. assert (Rz : rounds s (inject_Z (n + 1) * p10 k) (Some (S754_finite s m e))).
    { destruct (Qlt_le_dec (x + p10 k) v) as [C|C]; [apply (between_rounds s m e x)|apply (between_rounds s m e x')]; auto; fold v; rewrite Sx; lra. }
    destruct (Min _ _ Rz) as [_ M2]. destruct (M2 Nx) as [D2 _]. rewrite Sx in D2. revert D2.
    apply (Qabs_case (x - v)); apply (Qabs_case (x + p10 k - v)); intros; lra. }
  destruct (Z.le_gt_cases k k') as [K|K].
  - assert (E : x' == inject_Z (n' * 10 ^ (k' - k)) * p10 k).
    { unfold x'. rewrite inj_mul, <- p10_int, <- Qmult_assoc, <- p10_add by lia. replace (k' - k + k)%Z with k' by lia. reflexivity. }
    set (N := (n' * 10 ^ (k' - k))%Z) in *. assert (EvN : Z.even N = true) by (unfold N; rewrite Z.even_mul, Ev'; reflexivity).
    assert (N1 : (n < N)%Z).
    { rewrite Zlt_Qlt. apply Qnot_le_lt. intros Y. apply (Qlt_not_le x x'); [auto|]. rewrite E. unfold x. apply Qmult_le_compat_r; lra. }
    assert (N2 : (N <= n + 1)%Z).
    { rewrite Zle_Qle. apply Qnot_lt_le. intros Y. apply (Qle_not_lt x' (x + p10 k)); [auto|]. rewrite E, <- Sx. apply Qmult_lt_compat_r; auto. }
    assert (N = n + 1)%Z by lia. congruence.
  - apply (Qlt_not_le x x'); [auto|]. apply (Qle_trans _ (inject_Z (10 ^ L) * p10 k')).
    + apply Qmult_le_compat_r; [apply inj_le; lia|]. pose proof (p10_pos k'). lra.
    + rewrite <- p10_int, <- p10_add by lia. apply (Qle_trans _ (p10 (L - 1 + k))); [apply p10_le; lia|].
      rewrite p10_add, p10_int by lia. apply Qmult_le_compat_r; [apply inj_le; lia|lra].
Qed.
Lemma best_one s m e n k L n' k' L' : f64_valid (S754_finite s m e) = true -> best s m e n k L -> best s m e n' k' L' -> n = n' /\ k = k'.
Proof.
  intros V H H'. pose proof (best_length _ _ _ _ _ _ _ _ _ H H'). pose proof (best_length _ _ _ _ _ _ _ _ _ H' H).
  assert (L' = L) by lia. subst L'. pose proof (best_order _ _ _ _ _ _ _ _ V H H') as A. pose proof (best_order _ _ _ _ _ _ _ _ V H' H) as B.
  assert (E : inject_Z n' * p10 k' == inject_Z n * p10 k) by lra.
  destruct H as (B1 & L1 & _), H' as (B2 & _). destruct (Z.le_gt_cases k k').
  - destruct (same_scale n k n' k' L); auto.
  - destruct (same_scale n' k' n k L); auto; [now symmetry|lia].
Qed.
Lemma last_even ds n c : digits_value ds n -> hd_error (rev ds) = Some c -> In c (bs "02468") -> Z.even n = true.
Proof.
  intros D. destruct D as [|ds n c' d D N]; [discriminate|]. rewrite rev_app_distr. cbn [rev app hd_error]. intros X I. injection X as ->.
  rewrite Z.even_add, Z.even_mul. change (Z.even 10) with true. cbn [orb].
  assert (Hd : (d < 10)%nat) by (apply (nth_error_Some (bs "0123456789") d); congruence).
  do 10 (destruct d as [|d]; [cbn in N; injection N as <-; cbn in I; first [reflexivity|exfalso; intuition discriminate]|]). lia.
Qed.
Lemma shortest_best layout s m e t : f64_valid (S754_finite s m e) = true -> shortest_in layout (S754_finite s m e) t ->
  exists n k u, best s m e n k (zlen (itoa n)) /\ (0 < n)%Z /\ layout (itoa n) (zlen (itoa n) + k)%Z u /\ t = (if s then bs "-" else []) ++ u.
Proof.
  intros V (neg & ds & dp & u & x & Sg & -> & Lay & (n & D & X) & H0 & H1 & Ne & _ & R & Min). cbn in Sg. injection Sg as <-.
  pose proof (rounds_comp _ _ _ _ X R) as R'. pose proof (positive_rounds _ _ _ _ V R') as P.
  assert (N0 : (0 < n)%Z).
  { destruct (Z.lt_ge_cases 0 n) as [|Y]; auto. exfalso. pose proof (p10_pos (dp - zlen ds)). assert (inject_Z n <= inject_Z 0) by (apply inj_le; lia).
    change (inject_Z 0) with 0 in *. nra. }
  assert (I : ds = itoa n).
  { apply int_text_itoa. exists ds, n. split; [auto|]. split; [auto|]. split; [congruence|]. now left. }
  destruct (itoa_len n N0) as (B & L1 & _). rewrite <- I in B, L1.
  exists n, (dp - zlen ds)%Z, u. rewrite <- I. split; [|split; [auto|split; [replace (zlen ds + (dp - zlen ds))%Z with dp by lia; auto|reflexivity]]].
  split; [auto|]. split; [auto|]. split; [auto|].
  assert (Av : Qabs (q_value (S754_finite s m e)) == inject_Z (Zpos m) * p2 e).
  { rewrite finite_value. assert (0 < inject_Z (Zpos m) * p2 e) by (pose proof (p2_pos e); assert (0 < inject_Z (Zpos m)) by reflexivity; nra).
    destruct s; cbn [signed]; [rewrite Qabs_opp|]; apply Qabs_pos; lra. }
  intros n' k' Rn. destruct (Min n' k' Rn) as [M1 M2]. split; [auto|]. intros Y. destruct (M2 Y) as [M3 M4]. cbv zeta in M3, M4. rewrite Av, X in M3, M4.
  split; [auto|]. intros Tie. destruct (M4 Tie) as [Q|(c & C1 & C2)]; [left; exact Q|right; eapply last_even; eauto].
Qed.
(** no float64 has two shortest texts *)
Lemma shortest_in_fun lo hi pad f t t' : (lo <= 0 <= hi)%Z -> f64_valid f = true -> shortest_in (number_layout lo hi pad) f t ->
  shortest_in (number_layout lo hi pad) f t' -> t = t'.
Proof.
  intros Lo V H H'. destruct f as [z|z| |s m e].
  - exfalso. destruct H as (neg & ds & dp & u & x & Sg & _ & _ & (n & D & X) & H0 & H1 & Ne & _ & R & Min). cbn in Sg. injection Sg as ->.
    assert (N0 : (0 < n)%Z).
    { pose proof (digits_value_nonneg _ _ D). destruct (Z.eq_dec n 0) as [->|]; [|lia]. exfalso. apply digits_value_zero in D.
      destruct ds as [|c ds]; [congruence|]. inversion D; subst. now apply H0. }
    set (k := (dp - zlen ds)%Z) in *. pose proof (p10_pos k) as Pk. assert (Nq : 0 < inject_Z n) by (apply (inj_lt 0); auto).
    assert (S1 : p10 k == (10 # 1) * p10 (k - 1)) by (replace k with (1 + (k - 1))%Z at 1 by lia; rewrite p10_add; reflexivity).
    pose proof (p10_pos (k - 1)) as Pk1.
    assert (R2 : rounds neg (inject_Z n * p10 (k - 1)) (Some (S754_zero neg))).
    { destruct R as (Ov & (F & Rp & N) & Sb). split; [|split; [split; [auto|split; [auto|]]|auto]].
      - apply (Qle_lt_trans _ x); [|auto]. rewrite X, S1. nra.
      - intros q Q. destruct (N q Q) as [N1 N2]. cbn [q_value] in *.
        assert (Lt : inject_Z n * p10 (k - 1) < x) by (rewrite X, S1; nra). assert (P0 : 0 < inject_Z n * p10 (k - 1)) by nra.
        set (y := inject_Z n * p10 (k - 1)) in *. clearbody y. split; [|intros _; right; exact I].
        revert N1. destruct neg; cbn [signed].
        + apply (Qabs_case (0 - - x)); apply (Qabs_case (q - - x)); apply (Qabs_case (0 - - y)); apply (Qabs_case (q - - y)); intros; lra.
        + apply (Qabs_case (0 - x)); apply (Qabs_case (q - x)); apply (Qabs_case (0 - y)); apply (Qabs_case (q - y)); intros; lra. }
    destruct (Min n (k - 1)%Z R2) as [_ M]. destruct M as [M _].
    + assert (I' : ds = itoa n) by (apply int_text_itoa; exists ds, n; split; [auto|split; [auto|split; [congruence|now left]]]).
      rewrite I'. apply (itoa_len n N0).
    + cbn [q_value] in M. change (Qabs 0) with 0 in M. rewrite X, S1 in M. revert M.
      set (y := p10 (k - 1)) in *. assert (0 < inject_Z n * y) by nra. set (w := inject_Z n) in *.
      apply (Qabs_case (w * ((10 # 1) * y) - 0)); apply (Qabs_case (w * y - 0)); intros; nra.
  - destruct H as (neg & ds & dp & u & x & _ & _ & _ & _ & _ & _ & _ & _ & (_ & ([] & _) & _) & _).
  - destruct H as (neg & ds & dp & u & x & _ & _ & _ & _ & _ & _ & _ & _ & (_ & ([] & _) & _) & _).
  - destruct (shortest_best _ s m e t V H) as (n & k & u & B & N & Lay & ->). destruct (shortest_best _ s m e t' V H') as (n' & k' & u' & B' & _ & Lay' & ->).
    destruct (best_one _ _ _ _ _ _ _ _ _ V B B') as [<- <-]. f_equal. eapply layout_fun; eauto. intros X. destruct (itoa_len n N) as (_ & L & _). rewrite X in L. now apply L.
Qed.
Lemma shortest_fun f t t' : f64_valid f = true -> shortest f t -> shortest f t' -> t = t'.
Proof. now apply shortest_in_fun. Qed.
