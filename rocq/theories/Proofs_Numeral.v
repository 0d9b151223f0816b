(** Numerals: the texts of [SpecNumber] and the model's reading of them. *)
From Coq Require Import ZArith NArith QArith Qabs Qpower List Bool Lia ZifyBool ZifyN Strings.Byte.
From Verif Require Import Base Float Ext Utf8 Strconv Values Buffer Spec SpecNumber Proofs_Base Proofs_Float Proofs_Number Proofs_Round Proofs_Nearest.
Import ListNotations.
Open Scope Z_scope.

(** ** the text of an integer *)
Lemma digit_nth c : is_digit c = true -> exists d, nth_error (bs "0123456789") d = Some c /\ Z.of_nat d = digit_val c.
Proof. destruct c; try discriminate; intros _; [exists 0%nat|exists 1%nat|exists 2%nat|exists 3%nat|exists 4%nat|exists 5%nat|exists 6%nat|exists 7%nat|exists 8%nat|exists 9%nat]; split; reflexivity. Qed.
Lemma horner_snoc a s c : horner a (s ++ [c]) = 10 * horner a s + digit_val c.
Proof. unfold horner. rewrite fold_left_app. cbn [fold_left]. lia. Qed.
Lemma digits_have_value s : digits s -> digits_value s (horner 0 s).
Proof.
  induction s as [|c s IH] using rev_ind; intros D; [constructor|].
  apply Forall_app in D as [D1 D2]. inversion D2 as [|? ? D3 _]; subst.
  destruct (digit_nth c D3) as (d & N & V). rewrite horner_snoc, <- V. constructor; auto.
Qed.
Lemma utoa_text n : int_text (utoa n) (Z.of_N n).
Proof.
  exists (utoa n), (Z.of_N n). pose proof (digits_have_value _ (utoa_digits n)) as V. rewrite utoa_horner in V. split; [auto|].
  destruct (N.eq_dec n 0) as [->|H].
  - split; [discriminate|]. split; [reflexivity|]. left. split; reflexivity.
  - destruct (utoa_head n H) as (c & t & E & Hc & Hc0). rewrite E. split; [discriminate|]. split; [cbn; congruence|].
    left. split; auto.
Qed.
Lemma itoa_text z : int_text (itoa z) z.
Proof.
  destruct (Z.lt_ge_cases z 0) as [L|L].
  - replace (itoa z) with ("-"%byte :: utoa (Z.to_N (- z))).
    2:{ pose proof (itoa_minus true (- z) ltac:(lia)) as I. rewrite Z.opp_involutive in I. now rewrite I. }
    destruct (utoa_text (Z.to_N (- z))) as (ds & n & D & N & H0 & [[E Z]|(E & Z & P)]); [|lia].
    exists ds, n. repeat (split; [assumption|]). right. split; [now rewrite E|]. lia.
  - replace (itoa z) with (utoa (Z.to_N z)).
    2:{ destruct (Z.eq_dec z 0) as [->|]; [reflexivity|]. symmetry. apply (itoa_minus false z ltac:(lia)). }
    pose proof (utoa_text (Z.to_N z)) as U. now rewrite Z2N.id in U by lia.
Qed.
Lemma value_digit s n : digits_value s n -> forall c, In c s -> In c (bs "0123456789").
Proof.
  intros H. induction H as [|s n c d H IH N]; intros x X; [destruct X|].
  apply in_app_iff in X as [X|[<-|[]]]; [auto|]. now apply nth_error_In in N.
Qed.
Lemma int_text_bytes t z c : int_text t z -> In c t -> In c (bs "-0123456789").
Proof.
  intros (ds & n & D & _ & _ & [[-> _]|(-> & _)]) H; [right; eapply value_digit; eauto|].
  destruct H as [<-|H]; [now left|right; eapply value_digit; eauto].
Qed.
(** a text stands for one integer *)
Lemma value_unique s n : digits_value s n -> forall n', digits_value s n' -> n = n'.
Proof.
  intros H. induction H as [|s n c d H IH N]; intros n' H'.
  - inversion H' as [|s ? c ? ? ? X]; auto. now destruct s.
  - inversion H' as [X|s' m c' d' H1 N' X]; [now destruct s|]. apply app_inj_tail in X as [-> ->].
    rewrite (IH m H1). f_equal. f_equal. apply (NoDup_nth_error (bs "0123456789")); [|apply nth_error_Some; congruence|congruence].
    vm_compute. repeat constructor; cbn; intuition discriminate.
Qed.
Lemma int_text_unique t z z' : int_text t z -> int_text t z' -> z = z'.
Proof.
  intros (ds & n & D & _ & _ & H) (ds' & n' & D' & _ & _ & H').
  destruct H as [[-> ->]|(-> & -> & P)], H' as [[E ->]|(E & -> & P')].
  - subst. eapply value_unique; eauto.
  - subst ds. exfalso. pose proof (value_digit _ _ D "-"%byte (or_introl eq_refl)) as X. cbn in X. intuition discriminate.
  - subst ds'. exfalso. pose proof (value_digit _ _ D' "-"%byte (or_introl eq_refl)) as X. cbn in X. intuition discriminate.
  - injection E as ->. f_equal. eapply value_unique; eauto.
Qed.


(** ** reading a decimal numeral *)
Lemma nth_digit c d : nth_error (bs "0123456789") d = Some c -> is_digit c = true /\ digit_val c = Z.of_nat d.
Proof. do 10 (destruct d as [|d]; [intros H; injection H as <-; split; reflexivity|]). now destruct d. Qed.
Lemma value_digits s n : digits_value s n -> digits s /\ n = horner 0 s.
Proof.
  intros H. induction H as [|s n c d H [D ->] N]; [split; [constructor|reflexivity]|].
  apply nth_digit in N as [N1 N2]. split; [apply Forall_app; split; auto|]. rewrite horner_snoc, N2. reflexivity.
Qed.
Definition rf_inv (st : rf) : Prop := (rf_nd st = 0 /\ rf_mant st = 0) \/ (0 < rf_nd st /\ 10 ^ (rf_nd st - 1) <= rf_mant st < 10 ^ rf_nd st).
Lemma read_digits_step s : digits s -> forall st rest, rf_inv st ->
  exists st', read_digits false st (s ++ rest) = read_digits false st' rest /\ rf_inv st' /\
    rf_mant st' = horner (rf_mant st) s /\ rf_dp st' - rf_nd st' = rf_dp st - rf_nd st - zlen s /\
    rf_nd st <= rf_nd st' /\ (rf_dp st' = rf_dp st \/ rf_nd st = 0) /\
    rf_dot st' = rf_dot st /\ rf_us st' = rf_us st /\ rf_dig st' = rf_dig st || (0 <? zlen s).
Proof.
  intros H. induction H as [|c s Hc _ IH]; intros st rest I.
  - exists st. rewrite zlen_nil. split; [reflexivity|]. split; [auto|]. split; [reflexivity|]. split; [lia|]. split; [lia|].
    split; [auto|]. split; [auto|]. split; [auto|]. now rewrite orb_false_r.
  - cbn [app read_digits]. destruct (digit_not c Hc) as (A & B & _). rewrite A, B, Hc.
    pose proof (digit_val_range c Hc) as R. pose proof (zlen_nonneg s) as Zs. rewrite zlen_cons.
    destruct (Byte.eqb c "0" && (rf_nd st =? 0)) eqn:C.
    + apply andb_prop in C as [C1 C2]. apply byte_eqb_eq in C1. subst c. apply Z.eqb_eq in C2.
      destruct I as [[_ M]|[]]; [|lia].
      edestruct (IH {| rf_mant := rf_mant st; rf_nd := rf_nd st; rf_dp := rf_dp st - 1; rf_dot := rf_dot st; rf_dig := true; rf_us := rf_us st |} rest)
        as (st' & E & I' & K1 & K2 & K3 & K4 & K5 & K6 & K7); [left; cbn; auto|].
      cbn [rf_mant rf_nd rf_dp rf_dot rf_dig rf_us] in *. exists st'. split; [exact E|]. split; [auto|].
      split; [rewrite K1, M; reflexivity|]. split; [lia|]. split; [auto|]. split; [auto|]. split; [auto|]. split; [auto|]. rewrite K7. lia.
    + edestruct (IH {| rf_mant := rf_mant st * 10 + digit_val c; rf_nd := rf_nd st + 1; rf_dp := rf_dp st; rf_dot := rf_dot st; rf_dig := true; rf_us := rf_us st |} rest)
        as (st' & E & I' & K1 & K2 & K3 & K4 & K5 & K6 & K7); [assert (N0 : 0 <= rf_nd st) by (destruct I as [[]|[]]; lia)|assert (N0 : 0 <= rf_nd st) by (destruct I as [[]|[]]; lia)].
      { right. cbn [rf_mant rf_nd]. destruct I as [[N M]|[N M]].
        - rewrite N, M in *. assert (digit_val c <> 0).
          { intros X. assert (c = "0"%byte) by (destruct c; try discriminate; reflexivity). subst c. discriminate. }
          change (0 + 1 - 1) with 0. change (0 + 1) with 1. rewrite Z.pow_0_r, Z.pow_1_r. lia.
        - replace (rf_nd st + 1 - 1) with (rf_nd st - 1 + 1) by lia. split; [lia|].
          rewrite !Z.pow_add_r by lia. rewrite Z.pow_1_r. replace (10 ^ rf_nd st) with (10 ^ (rf_nd st - 1) * 10) in *.
          + lia.
          + rewrite <- (Z.pow_1_r 10) at 2. rewrite <- Z.pow_add_r by lia. f_equal. lia. }
      cbn [rf_mant rf_nd rf_dp rf_dot rf_dig rf_us] in *. exists st'. split; [exact E|]. split; [auto|].
      split; [rewrite K1; reflexivity|]. split; [lia|]. split; [lia|]. split; [lia|]. split; [auto|]. split; [auto|]. rewrite K7. lia.
Qed.
Lemma read_exp_exact s : digits s -> forall e, 0 <= e -> horner e s < 100000 -> read_exp e false s = (horner e s, false, []).
Proof.
  intros H. induction H as [|c s Hc Hs IH]; intros e He Hb; [reflexivity|]. cbn [read_exp].
  destruct (digit_not c Hc) as (A & _). rewrite A, Hc. pose proof (digit_val_range c Hc).
  assert (X : horner e (c :: s) = horner (e * 10 + digit_val c) s) by reflexivity. rewrite X in *.
  pose proof (horner_bounds s Hs (e * 10 + digit_val c) ltac:(lia)).
  pose proof (zlen_nonneg s). pose proof (Z.pow_pos_nonneg 10 (zlen s) ltac:(lia) ltac:(lia)).
  replace (e <? 10000) with true by nia. apply IH; auto; lia.
Qed.

Lemma body_not_special c t : is_digit c = true \/ c = "."%byte ->
  eq_fold (c :: t) (bs "inf") = false /\ eq_fold (c :: t) (bs "infinity") = false /\ eq_fold (c :: t) (bs "nan") = false.
Proof. intros H. unfold eq_fold. cbn [map]. destruct H as [H| ->]; [|repeat split; reflexivity]. destruct c; try discriminate; repeat split; reflexivity. Qed.
Lemma special_none neg s c t : sign_text neg s -> is_digit c = true \/ c = "."%byte -> parse_special (s ++ c :: t) = None.
Proof.
  intros S H. destruct (body_not_special c t H) as (F1 & F2 & F3).
  assert (Nc : Byte.eqb c "+" = false /\ Byte.eqb c "-" = false).
  { destruct H as [H| ->]; [|split; reflexivity]. apply digit_not in H. tauto. }
  destruct Nc as [N1 N2]. unfold sign_text in S. destruct neg; [subst s|destruct S as [->| ->]].
  - change (bs "-" ++ c :: t) with ("-"%byte :: c :: t). cbn [parse_special]. replace (Byte.eqb "-" "+" || Byte.eqb "-" "-") with true by reflexivity. cbv zeta. now rewrite F1, F2.
  - cbn [app parse_special]. rewrite N1, N2. cbn [orb]. now rewrite F1, F2, F3.
  - change (bs "+" ++ c :: t) with ("+"%byte :: c :: t). cbn [parse_special]. replace (Byte.eqb "+" "+" || Byte.eqb "+" "-") with true by reflexivity. cbv zeta. now rewrite F1, F2.
Qed.

(** what reading the exponent gives *)
Definition exp_reads (ep : str) (ex : Z) : Prop :=
  ep = [] /\ ex = 0 \/
  exists e s neg ds n, In e (bs "eE") /\ sign_text neg s /\ digits ds /\ ds <> [] /\
    read_exp 0 false ds = (n, false, []) /\ ep = e :: s ++ ds /\ ex = (if neg then - n else n).
Lemma exp_stops ep ex st : exp_reads ep ex -> read_digits false st ep = (st, ep).
Proof.
  intros [[-> _]|(e & s & neg & ds & n & He & _ & _ & _ & _ & -> & _)]; [reflexivity|].
  cbn [read_digits]. destruct He as [<-|[<-|[]]]; reflexivity.
Qed.
Lemma numeral_head ip fp fd ep : digits (ip ++ fd) -> fraction_text fp fd -> ip ++ fd <> [] ->
  exists c u, ip ++ fp ++ ep = c :: u /\ (is_digit c = true \/ c = "."%byte).
Proof.
  intros D F N. destruct ip as [|c ip].
  - destruct F as [[-> ->]| ->]; [now destruct N|]. eexists _, _. split; [reflexivity|auto].
  - cbn [app] in *. inversion D; subst. eexists _, _. split; [reflexivity|auto].
Qed.
Lemma numeral_not_hex ip fp fd ep ex : digits (ip ++ fd) -> fraction_text fp fd -> exp_reads ep ex ->
  match ip ++ fp ++ ep with
  | c0 :: c1 :: (_ :: _) as t =>
    if Byte.eqb c0 "0"%byte && Byte.eqb (lower c1) "x"%byte then (true, skipn 2 (ip ++ fp ++ ep)) else (false, ip ++ fp ++ ep)
  | _ => (false, ip ++ fp ++ ep)
  end = (false, ip ++ fp ++ ep).
Proof.
  intros D F X.
  assert (Dx : forall c, is_digit c = true -> Byte.eqb (lower c) "x" = false) by (intros c; destruct c; try discriminate; reflexivity).
  assert (Ex : forall c u, ep = c :: u -> Byte.eqb (lower c) "x" = false).
  { intros c u ->. destruct X as [[X _]|(e & s & neg & ds & n & He & _ & _ & _ & _ & X & _)]; [discriminate|].
    injection X as -> _. destruct He as [<-|[<-|[]]]; reflexivity. }
  assert (H : forall c0 c1 u, ip ++ fp ++ ep = c0 :: c1 :: u -> Byte.eqb c0 "0" && Byte.eqb (lower c1) "x" = false).
  { intros c0 c1 u H. destruct ip as [|a [|b ip]]; cbn [app] in H.
    - destruct F as [[-> ->]| ->]; cbn [app] in H.
      + destruct X as [[X _]|(e & s & neg & ds & n & He & _ & _ & _ & _ & X & _)]; [congruence|].
        rewrite X in H. injection H as <- _. destruct He as [<-|[<-|[]]]; reflexivity.
      + injection H as <- _. reflexivity.
    - injection H as -> H. rewrite andb_comm. destruct F as [[-> ->]| ->]; cbn [app] in H.
      + now rewrite (Ex _ _ H).
      + injection H as <- _. reflexivity.
    - injection H as -> -> _. cbn [app] in D. inversion D as [|? ? _ D']; subst. inversion D' as [|? ? D'' _]; subst.
      now rewrite (Dx c1 D''), andb_false_r. }
  destruct (ip ++ fp ++ ep) as [|c0 [|c1 [|c2 u]]]; try reflexivity. now rewrite (H _ _ _ eq_refl).
Qed.
Lemma parse_numeral neg s ip fp fd ep ex : sign_text neg s -> fraction_text fp fd -> exp_reads ep ex ->
  ip ++ fd <> [] -> digits (ip ++ fd) -> let n := horner 0 (ip ++ fd) in
  n = 0 /\ parse_float (s ++ ip ++ fp ++ ep) = Some (S754_zero neg) \/
  exists nd, 0 < nd /\ 10 ^ (nd - 1) <= n < 10 ^ nd /\
    parse_float (s ++ ip ++ fp ++ ep) = round_dec neg n (ex - zlen fd) nd.
Proof.
  intros Hs F X N D n.
  destruct (numeral_head ip fp fd ep D F N) as (c & u & E & Hc).
  pose proof (numeral_not_hex ip fp fd ep ex D F X) as NH.
  assert (R : exists st, read_digits false rf0 (ip ++ fp ++ ep) = (st, ep) /\ rf_inv st /\ rf_mant st = n /\ rf_dig st = true /\
     rf_us st = false /\ (if rf_dot st then rf_dp st else rf_nd st) - rf_nd st = - zlen fd).
  { apply Forall_app in D as [D1 D2].
    destruct (read_digits_step ip D1 rf0 (fp ++ ep) (or_introl (conj eq_refl eq_refl))) as (st1 & R1 & I1 & M1 & P1 & N1 & Q1 & O1 & U1 & G1).
    rewrite R1. destruct F as [[-> ->]| ->].
    - cbn [app]. rewrite (exp_stops _ _ _ X). exists st1. rewrite app_nil_r in N. split; [reflexivity|]. split; [auto|]. split; [unfold n; rewrite app_nil_r; auto|].
      split; [rewrite G1; cbn [rf0 rf_dig orb]; destruct ip; [now destruct N|]; rewrite zlen_cons; pose proof (zlen_nonneg ip); lia|].
      split; [auto|]. rewrite O1. cbn [rf0 rf_dot]. change (zlen (@nil byte)) with 0. lia.
    - cbn [app read_digits]. change (Byte.eqb "." "_") with false. change (Byte.eqb "." ".") with true. cbv iota.
      replace (rf_dot st1) with false by now rewrite O1. cbv iota.
      edestruct (read_digits_step fd D2 {| rf_mant := rf_mant st1; rf_nd := rf_nd st1; rf_dp := rf_nd st1; rf_dot := true; rf_dig := rf_dig st1; rf_us := rf_us st1 |} ep I1)
        as (st2 & R2 & I2 & M2 & P2 & N2 & Q2 & O2 & U2 & G2). cbn [rf_mant rf_nd rf_dp rf_dot rf_dig rf_us] in *.
      rewrite R2, (exp_stops _ _ _ X). exists st2. split; [reflexivity|]. split; [auto|].
      split; [unfold n, horner; rewrite fold_left_app; rewrite M2, M1; reflexivity|].
      split.
      { rewrite G2, G1. cbn [rf0 rf_dig orb]. pose proof (zlen_nonneg ip). pose proof (zlen_nonneg fd).
        assert (zlen (ip ++ fd) <> 0) by (intros Z0; apply N; destruct (ip ++ fd); [auto|rewrite zlen_cons in Z0; pose proof (zlen_nonneg l); lia]).
        rewrite zlen_app in *. lia. }
      split; [rewrite U2, U1; reflexivity|]. rewrite O2. cbv iota. lia. }
  destruct R as (st & R & I & M & G & U & DP).
  assert (P : parse_float (s ++ ip ++ fp ++ ep) = round_dec neg n (ex - zlen fd) (rf_nd st)).
  { unfold parse_float. rewrite E at 1. rewrite (special_none neg s c u Hs Hc).
    pair_is (neg, ip ++ fp ++ ep).
    2:{ unfold sign_text in Hs. destruct neg; [subst s; reflexivity|destruct Hs as [->| ->]; [|reflexivity]].
        cbn [app]. rewrite E. destruct Hc as [Hc| ->]; [|reflexivity]. destruct (digit_not c Hc) as (_ & _ & A & B & _). now rewrite A, B. }
    pair_is (false, ip ++ fp ++ ep). fold rf0. rewrite R. rewrite G, U, M. cbn [negb]. cbv zeta.
    destruct X as [[-> ->]|(e & s' & neg' & ds & k & He & Hs' & Dd & Nd & Rd & -> & ->)].
    - cbn [andb]. f_equal. lia.
    - replace (Byte.eqb (lower e) "e") with true by (destruct He as [<-|[<-|[]]]; reflexivity).
      destruct ds as [|d ds]; [now destruct Nd|]. inversion Dd as [|? ? Hd _]; subst.
      destruct (digit_not d Hd) as (_ & _ & A & B & _).
      pair_is ((if neg' then -1 else 1), d :: ds).
      2:{ unfold sign_text in Hs'. destruct neg'; [subst s'; reflexivity|destruct Hs' as [->| ->]; [|reflexivity]].
          cbn [app]. now rewrite A, B. }
      rewrite Hd, Rd. cbn [andb]. f_equal. destruct neg'; lia. }
  rewrite P. destruct I as [[I1 I2]|[I1 I2]].
  - left. rewrite M in I2. rewrite I2. split; reflexivity.
  - right. exists (rf_nd st). rewrite M in I2. repeat (split; [auto|]). reflexivity.
Qed.

(** ** A number has one text *)
Lemma digits_value_nonneg s n : digits_value s n -> 0 <= n.
Proof. induction 1; lia. Qed.
Lemma digit_value_lt d c : nth_error (bs "0123456789") d = Some c -> (d < 10)%nat.
Proof. intros H. apply (nth_error_Some (bs "0123456789") d). congruence. Qed.
Lemma digits_value_zero s : digits_value s 0 -> Forall (eq "0"%byte) s.
Proof.
  remember 0 as n eqn:N. intros H. induction H as [|s n c d H IH D]; [constructor|].
  pose proof (digits_value_nonneg _ _ H). assert (n = 0) by lia. assert (d = 0%nat) by lia. subst.
  apply Forall_app. split; [now apply IH|]. cbn in D. constructor; [congruence|constructor].
Qed.
Definition plain_digits (s : str) : Prop := hd_error s = Some "0"%byte -> s = bs "0".
Lemma digits_value_inj s n : digits_value s n -> forall t, digits_value t n -> plain_digits s -> plain_digits t ->
  (s = [] <-> t = []) -> s = t.
Proof.
  induction 1 as [|s n c d H IH D]; intros t T P Q N.
  - symmetry. now apply N.
  - remember (10 * n + Z.of_nat d) as k eqn:K. destruct T as [|t' n' c' d' T' D'].
    { exfalso. destruct (app_cons_not_nil s [] c). now symmetry; apply N. }
    pose proof (digit_value_lt _ _ D). pose proof (digit_value_lt _ _ D').
    assert (n' = n) by lia. assert (d' = d) by lia. subst n' d'. clear K. rewrite D in D'. injection D' as <-.
    f_equal. 
    assert (K : forall x m, digits_value x m -> plain_digits (x ++ [c]) -> plain_digits x /\ (x <> [] -> 0 < m)).
    { intros x m X Y. destruct x as [|h x].
      - split; [intros Z; discriminate|congruence].
      - assert (Z : h <> "0"%byte).
        { intros ->. specialize (Y eq_refl). cbn in Y. injection Y as Y. destruct x; discriminate. }
        split; [intros W; cbn in W; congruence|intros _]. pose proof (digits_value_nonneg _ _ X).
        destruct (Z.eq_dec m 0) as [->|]; [|lia]. apply digits_value_zero in X. inversion X. congruence. }
    destruct (K _ _ H P) as [P1 P2], (K _ _ T' Q) as [Q1 Q2]. apply IH; auto.
    split; intros ->; [destruct t' as [|a t']|destruct s as [|a s]]; auto; exfalso.
    + inversion H; subst; [|destruct s; discriminate]. specialize (Q2 ltac:(discriminate)). lia.
    + inversion T'; subst; [|destruct s0; discriminate]. specialize (P2 ltac:(discriminate)). lia.
Qed.
Lemma int_text_fun t u z : int_text t z -> int_text u z -> t = u.
Proof.
  intros (ds & n & D & N & P & A) (es & m & D' & N' & P' & A').
  assert (X : n = m -> ds = es).
  { intros ->. eapply digits_value_inj; eauto. split; congruence. }
  pose proof (digits_value_nonneg _ _ D). pose proof (digits_value_nonneg _ _ D').
  destruct A as [[-> ->]|(-> & -> & L)], A' as [[-> B]|(-> & B & L')]; try lia.
  - now apply X.
  - f_equal. apply X. lia.
Qed.
Lemma int_text_itoa t z : int_text t z -> t = itoa z.
Proof. intros H. eapply int_text_fun; eauto using itoa_text. Qed.
