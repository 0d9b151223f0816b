(** Which words are numbers: strconv.ParseFloat as modelled in Strconv and the numerals of
    SpecWord *)
From Coq Require Import ZArith NArith QArith Qabs Qpower List Bool Lia Lqa ZifyBool ZifyN ZifyNat Strings.Byte.
From Verif Require Import Base Float Ext Utf8 Strconv Values Buffer Spec SpecNumber SpecWord
  Proofs_Base Proofs_Float Proofs_Number Proofs_Round Proofs_Nearest Proofs_Numeral Proofs_Shortest.
Import ListNotations.
Open Scope Z_scope.

(** ** digits *)
Definition dig (hex : bool) (c : byte) : bool := is_digit c || (hex && in_range 97 102 (lower c)).
Definition hval (c : byte) : Z := if is_digit c then digit_val c else Z.of_N (byteN (lower c)) - 87.
Definition mixed (hex : bool) (s : str) : Prop := Forall (fun c => dig hex c = true \/ c = "_"%byte) s.
Definition strip (s : str) : str := filter (fun c => negb (Byte.eqb c "_"%byte)) s.
Definition hornb (hex : bool) (acc : Z) (s : str) : Z := fold_left (fun a c => a * base hex + hval c) s acc.
Definition under (s : str) : bool := existsb (fun c => Byte.eqb c "_"%byte) s.

Lemma worth_iff hex c d : digit_worth hex c d <-> dig hex c = true /\ Z.of_nat d = hval c.
Proof.
  split.
  - intros H. unfold digit_worth in H. destruct H as [H|[-> [H|H]]].
    + do 10 (destruct d as [|d]; [injection H as <-; now destruct hex|]). now destruct d.
    + do 16 (destruct d as [|d]; [injection H as <-; now split|]). now destruct d.
    + do 16 (destruct d as [|d]; [injection H as <-; now split|]). now destruct d.
  - intros [D V]. assert (d = Z.to_nat (hval c)) as -> by lia. clear V. unfold digit_worth.
    destruct hex; [|left]; destruct c; try discriminate D; cbn; auto.
Qed.
Lemma dig_under hex : dig hex "_"%byte = false.
Proof. destruct hex; reflexivity. Qed.
Lemma dig_dot hex : dig hex "."%byte = false.
Proof. destruct hex; reflexivity. Qed.
Lemma dig_not hex c : dig hex c = true -> Byte.eqb c "_" = false /\ Byte.eqb c "." = false /\ Byte.eqb c "+" = false /\ Byte.eqb c "-" = false.
Proof. destruct hex, c; try discriminate; repeat split. Qed.
Lemma hval_range hex c : dig hex c = true -> 0 <= hval c < base hex.
Proof. destruct hex, c; try discriminate; intros _; vm_compute; split; congruence. Qed.
Lemma hval_zero hex c : dig hex c = true -> hval c = 0 -> c = "0"%byte.
Proof. destruct hex, c; try discriminate; reflexivity. Qed.
Lemma base_pos hex : 0 < base hex.
Proof. now destruct hex. Qed.

(** ** reading digits *)
Definition inv (hex : bool) (st : rf) : Prop :=
  rf_nd st = 0 /\ rf_mant st = 0 \/ 0 < rf_nd st /\ base hex ^ (rf_nd st - 1) <= rf_mant st < base hex ^ rf_nd st.
Lemma read_run hex s : mixed hex s -> forall st rest, inv hex st ->
  exists st', read_digits hex st (s ++ rest) = read_digits hex st' rest /\ inv hex st' /\
    rf_mant st' = hornb hex (rf_mant st) (strip s) /\ rf_dp st' - rf_nd st' = rf_dp st - rf_nd st - zlen (strip s) /\
    rf_dot st' = rf_dot st /\ rf_us st' = rf_us st || under s /\ rf_dig st' = rf_dig st || (0 <? zlen (strip s)).
Proof.
  intros H. induction H as [|c s Hc _ IH]; intros st rest I.
  - exists st. cbn [strip filter under existsb hornb fold_left app]. rewrite zlen_nil. split; [reflexivity|]. split; [auto|]. split; [reflexivity|]. split; [lia|]. split; [auto|].
    split; [now rewrite orb_false_r|]. now rewrite orb_false_r.
  - cbn [app read_digits]. destruct (Byte.eqb c "_") eqn:U.
    + apply byte_eqb_eq in U as ->.
      edestruct (IH {| rf_mant := rf_mant st; rf_nd := rf_nd st; rf_dp := rf_dp st; rf_dot := rf_dot st; rf_dig := rf_dig st; rf_us := true |} rest I)
        as (st' & E & I' & K1 & K2 & K3 & K4 & K5). cbn [rf_mant rf_nd rf_dp rf_dot rf_dig rf_us] in *.
      exists st'. split; [exact E|]. split; [auto|]. cbn [strip filter under existsb]. change (Byte.eqb "_" "_") with true. cbn [negb orb].
      split; [auto|]. split; [auto|]. split; [auto|]. split; [rewrite K4; now rewrite orb_true_r|auto].
    + destruct Hc as [Hc| ->]; [|discriminate]. destruct (dig_not hex c Hc) as (_ & B & _). rewrite B.
      cbn [strip filter under existsb]. rewrite U. cbn [negb orb]. fold (strip s). fold (under s).
      pose proof (hval_range hex c Hc) as R. pose proof (base_pos hex) as Bp. pose proof (zlen_nonneg (strip s)) as Zs. rewrite zlen_cons.
      assert (Z0 : 0 <= rf_nd st) by (destruct I as [[]|[]]; lia).
      assert (Step : forall st1, rf_mant st1 = rf_mant st * base hex + hval c -> rf_nd st1 = rf_nd st + 1 -> rf_dp st1 = rf_dp st ->
        rf_dot st1 = rf_dot st -> rf_dig st1 = true -> rf_us st1 = rf_us st -> (c = "0"%byte -> rf_nd st <> 0) ->
        exists st', read_digits hex st1 (s ++ rest) = read_digits hex st' rest /\ inv hex st' /\
          rf_mant st' = hornb hex (rf_mant st) (c :: strip s) /\ rf_dp st' - rf_nd st' = rf_dp st - rf_nd st - (1 + zlen (strip s)) /\
          rf_dot st' = rf_dot st /\ rf_us st' = rf_us st || under s /\ rf_dig st' = rf_dig st || (0 <? 1 + zlen (strip s))).
      { intros st1 M1 N1 P1 O1 G1 U1 C1.
        edestruct (IH st1 rest) as (st' & E & I' & K1 & K2 & K3 & K4 & K5).
        { right. rewrite M1, N1. destruct I as [[N M]|[N M]].
          - rewrite N, M. assert (hval c <> 0) by (intros X; exact (C1 (hval_zero hex c Hc X) N)).
            replace (base hex ^ (0 + 1 - 1)) with 1 by reflexivity. replace (base hex ^ (0 + 1)) with (base hex) by (now destruct hex). lia.
          - replace (rf_nd st + 1 - 1) with (rf_nd st - 1 + 1) by lia. split; [lia|].
            rewrite !Z.pow_add_r by lia. rewrite Z.pow_1_r. replace (base hex ^ rf_nd st) with (base hex ^ (rf_nd st - 1) * base hex) in *.
            + nia.
            + rewrite <- (Z.pow_1_r (base hex)) at 2. rewrite <- Z.pow_add_r by lia. f_equal. lia. }
        exists st'. split; [exact E|]. split; [auto|]. split; [rewrite K1, M1; reflexivity|]. split; [lia|]. split; [congruence|]. split; [congruence|].
        rewrite K5, G1. cbn [orb]. replace (0 <? 1 + zlen (strip s)) with true by lia. now rewrite orb_true_r. }
      unfold dig in Hc. destruct (is_digit c) eqn:D.
      * destruct (Byte.eqb c "0" && (rf_nd st =? 0)) eqn:C.
        -- apply andb_prop in C as [C1 C2]. apply byte_eqb_eq in C1. subst c. apply Z.eqb_eq in C2. destruct I as [[_ M]|[]]; [|lia].
           edestruct (IH {| rf_mant := rf_mant st; rf_nd := rf_nd st; rf_dp := rf_dp st - 1; rf_dot := rf_dot st; rf_dig := true; rf_us := rf_us st |} rest)
             as (st' & E & I' & K1 & K2 & K3 & K4 & K5); [left; cbn; auto|]. cbn [rf_mant rf_nd rf_dp rf_dot rf_dig rf_us] in *.
           exists st'. split; [exact E|]. split; [auto|]. split; [rewrite K1, M; reflexivity|]. split; [lia|]. split; [auto|]. split; [auto|].
           rewrite K5. replace (0 <? 1 + zlen (strip s)) with true by lia. cbn [orb]. now rewrite orb_true_r.
        -- apply Step; cbn [rf_mant rf_nd rf_dp rf_dot rf_dig rf_us]; auto.
           ++ unfold hval. rewrite D. now destruct hex.
           ++ intros ->. change (Byte.eqb "0" "0") with true in C. cbn [andb] in C. lia.
      * cbn [orb] in Hc. rewrite Hc. apply andb_prop in Hc as [Hh _]. subst hex.
        apply Step; cbn [rf_mant rf_nd rf_dp rf_dot rf_dig rf_us]; auto.
        -- unfold hval. rewrite D. reflexivity.
        -- intros ->. discriminate D.
Qed.
(** where reading stops *)
Definition halts (hex : bool) (s : str) : Prop := match s with [] => True | c :: _ => dig hex c = false /\ c <> "_"%byte end.
Lemma span hex s : exists a r, s = a ++ r /\ mixed hex a /\ halts hex r.
Proof.
  induction s as [|c s (a & r & -> & M & H)].
  - exists [], []. split; [reflexivity|]. split; [constructor|exact I].
  - destruct (dig hex c || Byte.eqb c "_") eqn:D.
    + exists (c :: a), r. split; [reflexivity|]. split; [constructor; [|auto]|auto].
      apply orb_true_iff in D as [D|D]; [auto|apply byte_eqb_eq in D; auto].
    + exists [], (c :: a ++ r). split; [reflexivity|]. split; [constructor|].
      apply orb_false_iff in D as [D1 D2]. cbn. split; [auto|]. intros ->. discriminate D2.
Qed.
Lemma halts_read hex st s : halts hex s -> (rf_dot st = true \/ forall t, s <> "."%byte :: t) -> read_digits hex st s = (st, s).
Proof.
  destruct s as [|c s]; intros H D; [reflexivity|]. destruct H as [H1 H2]. cbn [read_digits].
  destruct (Byte.eqb c "_") eqn:U; [apply byte_eqb_eq in U; now destruct H2|].
  destruct (Byte.eqb c ".") eqn:P.
  - apply byte_eqb_eq in P as ->. destruct D as [->|D]; [reflexivity|now destruct (D s)].
  - unfold dig in H1. apply orb_false_iff in H1 as [-> ->]. reflexivity.
Qed.
(** all that is read of the digits: [a], or [a.b] *)
Definition dotted (a b : str) (dot : bool) : str := if dot then a ++ "."%byte :: b else a.
Lemma read_all hex a b dot rest : mixed hex a -> mixed hex b -> (dot = false -> b = []) -> halts hex rest -> (dot = true \/ forall t, rest <> "."%byte :: t) ->
  exists st, read_digits hex rf0 (dotted a b dot ++ rest) = (st, rest) /\ inv hex st /\ rf_mant st = hornb hex 0 (strip (a ++ b)) /\
    (if rf_dot st then rf_dp st else rf_nd st) - rf_nd st = - zlen (strip b) /\ rf_us st = under (a ++ b) /\ rf_dig st = (0 <? zlen (strip (a ++ b))).
Proof.
  intros Ma Mb Hb Hr Hd.
  destruct dot; cbn [dotted].
  - rewrite <- app_assoc. cbn [app].
    destruct (read_run hex a Ma rf0 ("."%byte :: b ++ rest) (or_introl (conj eq_refl eq_refl))) as (st & E & I & K1 & K2 & K3 & K4 & K5).
    rewrite E. cbn [read_digits]. change (Byte.eqb "." "_") with false. change (Byte.eqb "." ".") with true. cbv iota.
    rewrite K3. cbn [rf0 rf_dot].
    edestruct (read_run hex b Mb {| rf_mant := rf_mant st; rf_nd := rf_nd st; rf_dp := rf_nd st; rf_dot := true; rf_dig := rf_dig st; rf_us := rf_us st |} rest I)
      as (st' & E' & I' & L1 & L2 & L3 & L4 & L5). cbn [rf_mant rf_nd rf_dp rf_dot rf_dig rf_us] in *.
    rewrite E', halts_read by (auto; left; auto). exists st'. split; [reflexivity|]. split; [auto|].
    split; [rewrite L1, K1; unfold strip, hornb; rewrite filter_app, fold_left_app; reflexivity|].
    rewrite L3. split; [lia|]. split; [rewrite L4, K4; unfold under; rewrite existsb_app; reflexivity|].
    rewrite L5, K5. unfold strip. rewrite filter_app, zlen_app. cbn [rf0 rf_dig orb].
    pose proof (zlen_nonneg (filter (fun c => negb (Byte.eqb c "_")) a)). pose proof (zlen_nonneg (filter (fun c => negb (Byte.eqb c "_")) b)). lia.
  - rewrite (Hb eq_refl), app_nil_r.
    destruct (read_run hex a Ma rf0 rest (or_introl (conj eq_refl eq_refl))) as (st & E & I & K1 & K2 & K3 & K4 & K5).
    rewrite E, halts_read by first [exact Hr|destruct Hd as [Hd|Hd]; [discriminate|right; exact Hd]]. exists st. split; [reflexivity|]. split; [auto|]. split; [auto|].
    rewrite K3. cbn [rf0 rf_dot]. split; [change (zlen (strip [])) with 0; lia|]. split; [auto|]. now rewrite K5.
Qed.
(** every text is of this form *)
Lemma dotted_split hex s : exists a b dot rest, s = dotted a b dot ++ rest /\ mixed hex a /\ mixed hex b /\ (dot = false -> b = []) /\ halts hex rest /\
  (dot = true \/ forall t, rest <> "."%byte :: t).
Proof.
  destruct (span hex s) as (a & r & -> & Ma & Hr). destruct r as [|c r].
  - exists a, [], false, []. split; [reflexivity|]. split; [auto|]. split; [constructor|]. split; [auto|]. split; [exact I|]. right. discriminate.
  - destruct (Byte.eqb c ".") eqn:P.
    + apply byte_eqb_eq in P as ->. destruct (span hex r) as (b & q & -> & Mb & Hq). exists a, b, true, q.
      split; [cbn [dotted]; rewrite <- app_assoc; reflexivity|]. split; [auto|]. split; [auto|]. split; [discriminate|]. split; [auto|]. now left.
    + exists a, [], false, (c :: r). split; [reflexivity|]. split; [auto|]. split; [constructor|]. split; [auto|]. split; [auto|]. right.
      intros t [= -> _]. discriminate P.
Qed.

(** ** reading the exponent *)
Lemma mixed_stops s : halts false s -> forall e us, read_exp e us s = (e, us, s).
Proof.
  destruct s as [|c s]; intros H e us; [reflexivity|]. destruct H as [H1 H2]. cbn [read_exp]. unfold dig in H1. cbn [andb] in H1. rewrite orb_false_r in H1.
  destruct (Byte.eqb c "_") eqn:U; [apply byte_eqb_eq in U; now destruct H2|]. now rewrite H1.
Qed.
Lemma hornb_grows hex s : Forall (fun c => dig hex c = true) s -> forall a, 0 <= a -> a <= hornb hex a s.
Proof.
  induction 1 as [|c s Hc _ IH]; intros a Ha; [cbn; lia|]. cbn [hornb fold_left]. fold (hornb hex (a * base hex + hval c) s).
  pose proof (hval_range hex c Hc). pose proof (base_pos hex). specialize (IH (a * base hex + hval c) ltac:(nia)). nia.
Qed.
Lemma strip_dig hex s : mixed hex s -> Forall (fun c => dig hex c = true) (strip s).
Proof.
  induction 1 as [|c s Hc _ IH]; [constructor|]. cbn [strip filter]. destruct (Byte.eqb c "_") eqn:U; cbn [negb]; [auto|].
  constructor; [|auto]. destruct Hc as [Hc| ->]; [auto|discriminate].
Qed.
(** digits beyond the fifth are not counted *)
Lemma exp_full s : mixed false s -> forall e us rest, halts false rest -> 10000 <= e -> read_exp e us (s ++ rest) = (e, us || under s, rest).
Proof.
  intros H. induction H as [|c s Hc Hs IH]; intros e us rest R E.
  - cbn [app under existsb]. now rewrite mixed_stops, orb_false_r by auto.
  - cbn [app read_exp under existsb]. destruct (Byte.eqb c "_") eqn:U; cbn [orb].
    + rewrite orb_true_r. now rewrite IH.
    + destruct Hc as [Hc| ->]; [|discriminate]. assert (D : is_digit c = true) by (unfold dig in Hc; cbn [andb] in Hc; now rewrite orb_false_r in Hc). rewrite D.
      replace (e <? 10000) with false by lia. now rewrite IH.
Qed.
Lemma exp_run s : mixed false s -> forall e us rest, halts false rest -> 0 <= e < 100000 ->
  exists e', read_exp e us (s ++ rest) = (e', us || under s, rest) /\
    (e' = hornb false e (strip s) \/ 10000 <= e' < 100000 /\ 100000 <= hornb false e (strip s)).
Proof.
  intros H. induction H as [|c s Hc Hs IH]; intros e us rest R E.
  - exists e. cbn [app under existsb]. rewrite mixed_stops, orb_false_r by auto. split; [reflexivity|]. now left.
  - cbn [app read_exp under existsb strip filter]. destruct (Byte.eqb c "_") eqn:U; cbn [negb orb].
    + rewrite orb_true_r. destruct (IH e true rest R E) as (e' & X & V). exists e'. split; [rewrite X; reflexivity|exact V].
    + destruct Hc as [Hc| ->]; [|discriminate]. assert (D : is_digit c = true) by (unfold dig in Hc; cbn [andb] in Hc; now rewrite orb_false_r in Hc). rewrite D.
      pose proof (hval_range false c Hc) as Rg. assert (Hv : hval c = digit_val c) by (unfold hval; now rewrite D).
      change (base false) with 10 in Rg. fold (strip s). change (hornb false e (c :: strip s)) with (hornb false (e * 10 + hval c) (strip s)).
      pose proof (hornb_grows false (strip s) (strip_dig false s Hs) (e * 10 + hval c) ltac:(lia)) as G.
      destruct (e <? 10000) eqn:L.
      * destruct (IH (e * 10 + digit_val c) us rest R ltac:(lia)) as (e' & X & V). exists e'. rewrite Hv in *. split; [exact X|exact V].
      * exists e. rewrite exp_full by (auto; lia). split; [reflexivity|]. right. lia.
Qed.

(** ** underscores *)
Lemma under_app a b : under (a ++ b) = under a || under b.
Proof. apply existsb_app. Qed.
Lemma no_under_ok hex s : under s = false -> forall saw, saw <> 1 -> underscore_loop hex saw s = true.
Proof.
  induction s as [|c s IH]; intros U saw N; cbn [underscore_loop]; [lia|]. cbn [under existsb] in U. apply orb_false_iff in U as [U1 U2]. rewrite U1.
  destruct (is_digit c || hex && in_range 97 102 (lower c)); [apply IH; auto; lia|]. replace (saw =? 1) with false by lia. apply IH; auto; lia.
Qed.
Lemma group_mixed hex t n k : digit_group hex t n k -> mixed hex t /\ hornb hex 0 (strip t) = n /\ zlen (strip t) = k /\ 0 < k /\ hd_error t <> Some "_"%byte.
Proof.
  assert (One : forall c d, digit_worth hex c d -> dig hex c = true /\ strip [c] = [c] /\ hval c = Z.of_nat d).
  { intros c d W. apply worth_iff in W as [D V]. split; [auto|]. split; [|auto]. cbn [strip filter]. now rewrite (proj1 (dig_not hex c D)). }
  assert (Step : forall t n k c d u, mixed hex t /\ hornb hex 0 (strip t) = n /\ zlen (strip t) = k /\ 0 < k /\ hd_error t <> Some "_"%byte -> digit_worth hex c d ->
    mixed hex u -> strip u = [] -> mixed hex (t ++ u ++ [c]) /\ hornb hex 0 (strip (t ++ u ++ [c])) = base hex * n + Z.of_nat d /\ zlen (strip (t ++ u ++ [c])) = k + 1 /\ 0 < k + 1 /\
    hd_error (t ++ u ++ [c]) <> Some "_"%byte).
  { intros t' n' k' c d u (M & V & L & P & H) W Mu Su. destruct (One _ _ W) as (D & Sc & Vc).
    assert (S1 : strip (t' ++ u ++ [c]) = strip t' ++ [c]) by (unfold strip in *; rewrite !filter_app, Su, Sc; reflexivity).
    split; [apply Forall_app; split; [auto|apply Forall_app; split; [auto|constructor; [auto|constructor]]]|].
    rewrite S1. split; [unfold hornb; rewrite fold_left_app; cbn [fold_left]; fold (hornb hex 0 (strip t')); rewrite V, Vc; ring|].
    split; [rewrite zlen_app; change (zlen [c]) with 1; lia|]. split; [lia|]. destruct t'; [cbn in L; lia|exact H]. }
  induction 1 as [c d W|t n k c d _ IH W|t n k c d _ IH W].
  - destruct (One _ _ W) as (D & Sc & Vc). split; [constructor; [auto|constructor]|]. rewrite Sc. split; [cbn; lia|]. split; [reflexivity|]. split; [lia|].
    intros [= ->]. now rewrite dig_under in D.
  - apply (Step t n k c d []); auto. constructor.
  - change (t ++ ["_"%byte; c]) with (t ++ bs "_" ++ [c]). apply (Step t n k c d); auto. constructor; [auto|constructor].
Qed.
Lemma dig_loop hex c s saw : dig hex c = true -> underscore_loop hex saw (c :: s) = underscore_loop hex 0 s.
Proof. intros D. unfold dig in D. cbn [underscore_loop]. now rewrite D. Qed.
Lemma group_loop hex t n k : digit_group hex t n k -> forall saw rest, underscore_loop hex saw (t ++ rest) = underscore_loop hex 0 rest.
Proof.
  induction 1 as [c d W|t n k c d _ IH W|t n k c d _ IH W]; intros saw rest; apply worth_iff in W as [D _].
  - cbn [app]. now apply dig_loop.
  - rewrite <- app_assoc, IH. cbn [app]. now apply dig_loop.
  - rewrite <- app_assoc, IH. cbn [app underscore_loop]. replace (is_digit "_" || hex && in_range 97 102 (lower "_")) with false by (now destruct hex).
    change (Byte.eqb "_" "_") with true. cbv iota. change (0 =? 0) with true. cbv iota. now apply dig_loop.
Qed.
(** what passes is grouped *)
Lemma loop_group hex s rest : mixed hex s -> halts hex rest -> forall t n k, digit_group hex t n k -> underscore_loop hex 0 (s ++ rest) = true ->
  exists n' k', digit_group hex (t ++ s) n' k' /\ underscore_loop hex 0 rest = true.
Proof.
  intros M R. remember (length s) as len eqn:Len. revert s Len M. induction len as [len IH] using lt_wf_ind. intros s Len M t n k G L.
  destruct s as [|c s].
  - exists n, k. rewrite app_nil_r. auto.
  - inversion M as [|? ? Hc Ms]; subst. destruct Hc as [Hc| ->].
    + cbn [app] in L. rewrite dig_loop in L by auto.
      destruct (IH (length s) ltac:(cbn; lia) s eq_refl Ms (t ++ [c]) _ _ (dg_more hex t n k c (Z.to_nat (hval c)) G ltac:(apply worth_iff; split; [auto|pose proof (hval_range hex c Hc); lia])) L)
        as (n' & k' & G' & L'). exists n', k'. rewrite <- app_assoc in G'. auto.
    + cbn [app underscore_loop] in L. replace (is_digit "_" || hex && in_range 97 102 (lower "_")) with false in L by (now destruct hex).
      change (Byte.eqb "_" "_") with true in L. cbv iota in L. change (0 =? 0) with true in L. cbv iota in L.
      destruct s as [|d s].
      * exfalso. destruct rest as [|r rest]; [discriminate L|]. cbn [app underscore_loop] in L. destruct R as [R1 R2]. unfold dig in R1. rewrite R1 in L.
        destruct (Byte.eqb r "_") eqn:U; [apply byte_eqb_eq in U; now destruct R2|discriminate L].
      * inversion Ms as [|? ? Hd Ms']; subst. destruct Hd as [Hd| ->].
        -- cbn [app] in L. rewrite dig_loop in L by auto.
           destruct (IH (length s) ltac:(cbn; lia) s eq_refl Ms' (t ++ ["_"%byte; d]) _ _ (dg_under hex t n k d (Z.to_nat (hval d)) G ltac:(apply worth_iff; split; [auto|pose proof (hval_range hex d Hd); lia])) L)
             as (n' & k' & G' & L'). exists n', k'. rewrite <- app_assoc in G'. auto.
        -- cbn [app underscore_loop] in L. replace (is_digit "_" || hex && in_range 97 102 (lower "_")) with false in L by (now destruct hex). discriminate L.
Qed.
(** from the start of a row of digits; only behind a prefix may it begin with an underscore *)
Lemma loop_start hex s rest saw : mixed hex s -> halts hex rest -> saw <> 1 -> underscore_loop hex saw (s ++ rest) = true ->
  s = [] \/ exists u t n k, s = u ++ t /\ (u = [] \/ u = bs "_" /\ saw = 0) /\ digit_group hex t n k /\ underscore_loop hex 0 rest = true.
Proof.
  intros M R N L. destruct s as [|c s]; [now left|right]. inversion M as [|? ? Hc Ms]; subst.
  assert (Go : forall c s, dig hex c = true -> mixed hex s -> underscore_loop hex 0 (s ++ rest) = true -> exists n k, digit_group hex (c :: s) n k /\ underscore_loop hex 0 rest = true).
  { clear c s M L Hc Ms. intros c s Hc Ms L. apply (loop_group hex s rest Ms R [c] _ _ (dg_one hex c (Z.to_nat (hval c)) ltac:(apply worth_iff; split; [auto|pose proof (hval_range hex c Hc); lia])) L). }
  destruct Hc as [Hc| ->].
  - cbn [app] in L. rewrite dig_loop in L by auto. destruct (Go c s Hc Ms L) as (n & k & G & L'). exists [], (c :: s), n, k. auto.
  - cbn [app underscore_loop] in L. replace (is_digit "_" || hex && in_range 97 102 (lower "_")) with false in L by (now destruct hex).
    change (Byte.eqb "_" "_") with true in L. cbv iota in L. destruct (saw =? 0) eqn:S0; [|discriminate L].
    destruct s as [|d s].
    + exfalso. destruct rest as [|r rest]; [discriminate L|]. cbn [app underscore_loop] in L. destruct R as [R1 R2]. unfold dig in R1. rewrite R1 in L.
      destruct (Byte.eqb r "_") eqn:U; [apply byte_eqb_eq in U; now destruct R2|discriminate L].
    + inversion Ms as [|? ? Hd Ms']; subst. destruct Hd as [Hd| ->].
      * cbn [app] in L. rewrite dig_loop in L by auto. destruct (Go d s Hd Ms' L) as (n & k & G & L'). exists (bs "_"), (d :: s), n, k.
        split; [reflexivity|]. split; [right; split; [reflexivity|lia]|auto].
      * cbn [app underscore_loop] in L. replace (is_digit "_" || hex && in_range 97 102 (lower "_")) with false in L by (now destruct hex). discriminate L.
Qed.

(** ** the parts of a numeral *)
Definition tail (hex : bool) (p : str) (ng : bool) (ds : str) : Prop :=
  p = [] /\ hex = false /\ ds = [] /\ ng = false \/
  exists c s', In c (if hex then bs "pP" else bs "eE") /\ sign_text ng s' /\ mixed false ds /\ (exists d u, ds = d :: u /\ is_digit d = true) /\ p = c :: s' ++ ds.
Definition prefix (hex : bool) (pre : str) : Prop := if hex then exists l, In l (bs "xX") /\ pre = ["0"%byte; l] else pre = [].
Definition parts (hex neg : bool) (t s pre a b : str) (dot : bool) (p : str) (ng : bool) (ds : str) : Prop :=
  t = s ++ pre ++ dotted a b dot ++ p /\ sign_text neg s /\ prefix hex pre /\ mixed hex a /\ mixed hex b /\ (dot = false -> b = []) /\
  strip (a ++ b) <> [] /\ tail hex p ng ds.
Lemma parse_special_sign neg s u : sign_text neg s -> (forall c v, u = c :: v -> (byteN (lower c) <> 105%N /\ byteN (lower c) <> 110%N) /\ Byte.eqb c "+" = false /\ Byte.eqb c "-" = false) ->
  u <> [] -> parse_special (s ++ u) = None.
Proof.
  intros S H N. destruct u as [|c v]; [now destruct N|]. destruct (H c v eq_refl) as ((A & B) & P & M).
  assert (F1 : forall w, eq_fold (c :: v) ("i"%byte :: w) = false).
  { intros w. unfold eq_fold. apply str_eqb_neq. intros [= X _]. apply A. now rewrite X. }
  assert (F2 : forall w, eq_fold (c :: v) ("n"%byte :: w) = false).
  { intros w. unfold eq_fold. apply str_eqb_neq. intros [= X _]. apply B. now rewrite X. }
  unfold sign_text in S. destruct neg; [subst s|destruct S as [->| ->]].
  - change (bs "-" ++ c :: v) with ("-"%byte :: c :: v). cbn [parse_special]. replace (Byte.eqb "-" "+" || Byte.eqb "-" "-") with true by reflexivity. cbv zeta.
    change (bs "inf") with ("i"%byte :: bs "nf"). change (bs "infinity") with ("i"%byte :: bs "nfinity"). now rewrite !F1.
  - cbn [app parse_special]. rewrite P, M. cbn [orb negb andb]. change (bs "inf") with ("i"%byte :: bs "nf"). change (bs "infinity") with ("i"%byte :: bs "nfinity").
    change (bs "nan") with ("n"%byte :: bs "an"). now rewrite !F1, F2.
  - change (bs "+" ++ c :: v) with ("+"%byte :: c :: v). cbn [parse_special]. replace (Byte.eqb "+" "+" || Byte.eqb "+" "-") with true by reflexivity. cbv zeta.
    change (bs "inf") with ("i"%byte :: bs "nf"). change (bs "infinity") with ("i"%byte :: bs "nfinity"). now rewrite !F1.
Qed.

Definition split_sign (s : str) : bool * str :=
  match s with
  | c :: t => if Byte.eqb c "+"%byte then (false, t) else if Byte.eqb c "-"%byte then (true, t) else (false, s)
  | [] => (false, s)
  end.
Definition split_prefix (s1 : str) : bool * str :=
  match s1 with
  | c0 :: c1 :: (_ :: _) as t => if Byte.eqb c0 "0"%byte && Byte.eqb (lower c1) "x"%byte then (true, skipn 2 s1) else (false, s1)
  | _ => (false, s1)
  end.
Definition exp_sign (t : str) : Z * str :=
  match t with
  | c1 :: t' => if Byte.eqb c1 "+"%byte then (1, t') else if Byte.eqb c1 "-"%byte then (-1, t') else (1, t)
  | [] => (1, t)
  end.
Definition finish (s : str) (neg hex : bool) (st : rf) (dp : Z) (us : bool) (rest : str) : option spec_float :=
  match rest with
  | _ :: _ => None
  | [] => if us && negb (underscore_ok s) then None
          else if hex then round_bin neg (rf_mant st) (dp - 4 * rf_nd st) else round_dec neg (rf_mant st) (dp - rf_nd st) (rf_nd st)
  end.
Definition ending (s : str) (neg hex : bool) (st : rf) (s3 : str) : option spec_float :=
  if negb (rf_dig st) then None
  else
    let dp := if rf_dot st then rf_dp st else rf_nd st in
    let dp0 := if hex then 4 * dp else dp in
    match s3 with
    | c :: t =>
      if Byte.eqb (lower c) (if hex then "p"%byte else "e"%byte) then
        let '(esign, t1) := exp_sign t in
        match t1 with
        | d :: _ => if is_digit d then let '(e, us, rest) := read_exp 0 (rf_us st) t1 in finish s neg hex st (dp0 + e * esign) us rest else None
        | [] => None
        end
      else None
    | [] => if hex then None else finish s neg hex st dp0 (rf_us st) []
    end.
Lemma parse_open s : parse_special s = None ->
  parse_float s = let '(neg, s1) := split_sign s in let '(hex, s2) := split_prefix s1 in let '(st, s3) := read_digits hex rf0 s2 in ending s neg hex st s3.
Proof. intros H. unfold parse_float. rewrite H. reflexivity. Qed.
Lemma split_sign_text neg s u : sign_text neg s -> (forall c v, u = c :: v -> Byte.eqb c "+" = false /\ Byte.eqb c "-" = false) -> split_sign (s ++ u) = (neg, u).
Proof.
  intros S H. unfold sign_text in S. destruct neg; [subst s; reflexivity|destruct S as [->| ->]; [|reflexivity]].
  destruct u as [|c v]; [reflexivity|]. destruct (H c v eq_refl) as [A B]. cbn [app split_sign]. now rewrite A, B.
Qed.
Lemma exp_sign_text neg s u : sign_text neg s -> (forall c v, u = c :: v -> Byte.eqb c "+" = false /\ Byte.eqb c "-" = false) -> exp_sign (s ++ u) = (if neg then -1 else 1, u).
Proof.
  intros S H. unfold sign_text in S. destruct neg; [subst s; reflexivity|destruct S as [->| ->]; [|reflexivity]].
  destruct u as [|c v]; [reflexivity|]. destruct (H c v eq_refl) as [A B]. cbn [app exp_sign]. now rewrite A, B.
Qed.
Lemma sign_split s : exists neg g u, s = g ++ u /\ sign_text neg g /\ split_sign s = (neg, u).
Proof.
  destruct s as [|c s]; [exists false, [], []; split; [reflexivity|]; split; [now left|reflexivity]|]. cbn [split_sign].
  destruct (Byte.eqb c "+") eqn:P; [apply byte_eqb_eq in P as ->; exists false, (bs "+"), s; split; [reflexivity|]; split; [now right|reflexivity]|].
  destruct (Byte.eqb c "-") eqn:M; [apply byte_eqb_eq in M as ->; exists true, (bs "-"), s; repeat split|].
  exists false, [], (c :: s). split; [reflexivity|]. split; [now left|reflexivity].
Qed.
Lemma exp_sign_split s : exists neg g u, s = g ++ u /\ sign_text neg g /\ exp_sign s = (if neg then -1 else 1, u).
Proof.
  destruct s as [|c s]; [exists false, [], []; split; [reflexivity|]; split; [now left|reflexivity]|]. cbn [exp_sign].
  destruct (Byte.eqb c "+") eqn:P; [apply byte_eqb_eq in P as ->; exists false, (bs "+"), s; split; [reflexivity|]; split; [now right|reflexivity]|].
  destruct (Byte.eqb c "-") eqn:M; [apply byte_eqb_eq in M as ->; exists true, (bs "-"), s; repeat split|].
  exists false, [], (c :: s). split; [reflexivity|]. split; [now left|reflexivity].
Qed.
Lemma letter_in (hex : bool) c : Byte.eqb (lower c) (if hex then "p"%byte else "e"%byte) = true <-> In c (if hex then bs "pP" else bs "eE").
Proof. split; [destruct hex, c; try discriminate; cbn; tauto|]. destruct hex; cbn; intros [<-|[<-|[]]]; reflexivity. Qed.
(** a part that starts a numeral *)
Lemma mixed_head hex c : dig hex c = true \/ c = "_"%byte \/ c = "."%byte ->
  (byteN (lower c) <> 105%N /\ byteN (lower c) <> 110%N) /\ Byte.eqb c "+" = false /\ Byte.eqb c "-" = false /\ Byte.eqb (lower c) "x" = false /\ Byte.eqb (lower c) "o" = false /\
  (hex = false -> Byte.eqb (lower c) "b" = false).
Proof.
  intros [H|[-> | ->]]; [|repeat split; discriminate..]. destruct hex, c; try discriminate H; repeat split; discriminate.
Qed.
Lemma tail_head hex p ng ds c v : tail hex p ng ds -> p = c :: v -> Byte.eqb (lower c) "x" = false /\ Byte.eqb (lower c) "o" = false /\ Byte.eqb (lower c) "b" = false /\ dig hex c = false /\ c <> "_"%byte /\ c <> "."%byte.
Proof.
  intros [(-> & _)|(d & s' & I & _ & _ & _ & ->)] E; [discriminate|]. injection E as -> _.
  destruct hex; destruct I as [<-|[<-|[]]]; repeat split; discriminate.
Qed.
Lemma dotted_head hex a b dot p ng ds : mixed hex a -> mixed hex b -> (dot = false -> b = []) -> strip (a ++ b) <> [] -> 
  exists c v, dotted a b dot ++ p = c :: v /\ (dig hex c = true \/ c = "_"%byte \/ c = "."%byte) /\
   (tail hex p ng ds -> forall d w, v = d :: w -> Byte.eqb (lower d) "x" = false /\ Byte.eqb (lower d) "o" = false /\ (hex = false -> Byte.eqb (lower d) "b" = false)).
Proof.
  intros Ma Mb Hb N.
  assert (Al : forall c, In c a -> dig hex c = true \/ c = "_"%byte) by (apply Forall_forall; exact Ma).
  assert (Bl : forall c, In c b -> dig hex c = true \/ c = "_"%byte) by (apply Forall_forall; exact Mb).
  assert (Gd : forall d, dig hex d = true \/ d = "_"%byte \/ d = "."%byte -> Byte.eqb (lower d) "x" = false /\ Byte.eqb (lower d) "o" = false /\ (hex = false -> Byte.eqb (lower d) "b" = false)).
  { intros d D. destruct (mixed_head hex d D) as (_ & _ & _ & X & O & B). auto. }
  assert (Td : tail hex p ng ds -> forall d w, p = d :: w -> Byte.eqb (lower d) "x" = false /\ Byte.eqb (lower d) "o" = false /\ (hex = false -> Byte.eqb (lower d) "b" = false)).
  { intros T d w E. destruct (tail_head hex p ng ds d w T E) as (X & O & B & _). auto. }
  destruct a as [|c [|c' a]].
  - destruct dot; [|rewrite (Hb eq_refl) in N; now destruct N]. cbn [dotted app]. exists "."%byte, (b ++ p). split; [reflexivity|]. split; [auto|].
    intros T d w E. destruct b as [|b0 b]; [cbn in E; eauto|]. injection E as <- _. apply Gd. destruct (Bl b0 (or_introl eq_refl)); auto.
  - destruct (Al c (or_introl eq_refl)) as [C|C].
    all: destruct dot; [exists c, ("."%byte :: b ++ p)|exists c, p]; (split; [reflexivity|]); (split; [auto|]).
    all: intros T d w E; first [injection E as <- _; apply Gd; auto|eauto].
  - assert (E0 : exists w, dotted (c :: c' :: a) b dot ++ p = c :: c' :: w) by (destruct dot; eexists; reflexivity). destruct E0 as (w & E0). rewrite E0.
    exists c, (c' :: w). split; [reflexivity|]. split; [destruct (Al c (or_introl eq_refl)); auto|]. intros T d w' E. injection E as <- _. apply Gd.
    destruct (Al c' (or_intror (or_introl eq_refl))); auto.
Qed.
Lemma tail_halts hex p ng ds : tail hex p ng ds -> halts hex p /\ forall t, p <> "."%byte :: t.
Proof.
  intros T. destruct p as [|c v]; [split; [exact I|discriminate]|]. destruct (tail_head hex _ ng ds c v T eq_refl) as (_ & _ & _ & D & U & P).
  split; [split; auto|]. intros t [= -> _]. now destruct P.
Qed.
Lemma prefix_split (hex : bool) pre u c v (ng : bool) : prefix hex pre -> u = c :: v -> (hex = false -> Byte.eqb c "0" && Byte.eqb (lower (hd "0"%byte v)) "x" = false \/ v = []) ->
  split_prefix (pre ++ u) = (hex, u).
Proof.
  intros P -> H. destruct hex.
  - destruct P as (l & L & ->). cbn [app split_prefix]. change (Byte.eqb "0" "0") with true. replace (Byte.eqb (lower l) "x") with true by (destruct L as [<-|[<-|[]]]; reflexivity).
    reflexivity.
  - cbn in P. subst pre. cbn [app split_prefix]. destruct v as [|d [|d' v]]; [reflexivity..|]. destruct (H eq_refl) as [H'|H']; [|discriminate]. cbn [hd] in H'. now rewrite H'.
Qed.
Lemma sign_no_plus (hex : bool) pre c v : prefix hex pre -> (dig hex c = true \/ c = "_"%byte \/ c = "."%byte) ->
  forall c' v', pre ++ c :: v = c' :: v' -> (byteN (lower c') <> 105%N /\ byteN (lower c') <> 110%N) /\ Byte.eqb c' "+" = false /\ Byte.eqb c' "-" = false.
Proof.
  intros P C c' v' E. destruct hex.
  - destruct P as (l & _ & ->). injection E as <- _. repeat split; discriminate.
  - cbn in P. subst pre. injection E as <- _. destruct (mixed_head false c C) as (A & B & D & _). auto.
Qed.
Lemma parts_value hex neg t s pre a b dot p ng ds : parts hex neg t s pre a b dot p ng ds ->
  exists nd e, (nd = 0 /\ hornb hex 0 (strip (a ++ b)) = 0 \/ 0 < nd /\ base hex ^ (nd - 1) <= hornb hex 0 (strip (a ++ b)) < base hex ^ nd) /\
    (e = hornb false 0 (strip ds) \/ 10000 <= e < 100000 /\ 100000 <= hornb false 0 (strip ds)) /\
    parse_special t = None /\
    parse_float t = if under (a ++ b ++ ds) && negb (underscore_ok t) then None
      else if hex then round_bin neg (hornb hex 0 (strip (a ++ b))) ((if ng then - e else e) - 4 * zlen (strip b))
      else round_dec neg (hornb hex 0 (strip (a ++ b))) ((if ng then - e else e) - zlen (strip b)) nd.
Proof.
  intros (E & S & P & Ma & Mb & Hb & N & T).
  destruct (dotted_head hex a b dot p ng ds Ma Mb Hb N) as (c & v & Ed & C & V). specialize (V T).
  assert (Np : parse_special t = None).
  { rewrite E, Ed. apply (parse_special_sign neg s); [exact S|apply (sign_no_plus hex); auto|]. destruct hex; [destruct P as (l & _ & ->)|cbn in P; subst pre]; discriminate. }
  destruct (tail_halts hex p ng ds T) as [Hp Hp'].
  destruct (read_all hex a b dot p Ma Mb Hb Hp (or_intror Hp')) as (st & R & I & K1 & K2 & K3 & K4).
  assert (Dg : rf_dig st = true). { rewrite K4. destruct (strip (a ++ b)) as [|x0 w0]; [now destruct N|]. rewrite zlen_cons. pose proof (zlen_nonneg w0). lia. }
  assert (Op : parse_float t = ending t neg hex st p).
  { rewrite parse_open by exact Np. rewrite E, Ed, (split_sign_text neg s); [|exact S|intros c' v' E'; apply (sign_no_plus hex pre c v P C c' v' E')].
    rewrite (prefix_split hex pre (c :: v) c v true P eq_refl).
    - rewrite <- Ed, R, <- E. reflexivity.
    - intros ->. destruct v as [|d w]; [now right|left]. cbn [hd]. destruct (V d w eq_refl) as (X & _). rewrite X. apply andb_false_r. }
  rewrite Op. unfold ending. rewrite Dg. cbn [negb].
  set (dp := if rf_dot st then rf_dp st else rf_nd st) in *.
  destruct T as [(-> & -> & -> & ->)|(l & s' & L & S' & M & (d & u & -> & D) & ->)].
  - exists (rf_nd st), 0. split; [rewrite <- K1; exact I|]. split; [now left|]. split; [exact Np|]. unfold finish. rewrite K3, K1. rewrite app_nil_r.
    replace (dp - rf_nd st) with (0 - zlen (strip b)) by lia. reflexivity.
  - destruct (exp_run (d :: u) M 0 (rf_us st) [] Logic.I ltac:(lia)) as (e & X & Ve). rewrite app_nil_r in X.
    exists (rf_nd st), e. split; [rewrite <- K1; exact I|]. split; [exact Ve|]. split; [exact Np|]. cbv zeta.
    rewrite (proj2 (letter_in hex l) L). rewrite (exp_sign_text ng s') by first [exact S'|intros c' v' [= <- _]; assert (D' : dig false d = true) by (unfold dig; now rewrite D); destruct (dig_not false d D') as (_ & _ & A & B); auto].
    rewrite D, X. unfold finish. rewrite K3, K1, <- !under_app, app_assoc.
    destruct (under ((a ++ b) ++ d :: u) && negb (underscore_ok t)); [reflexivity|].
    destruct hex; f_equal; destruct ng; lia.
Qed.
Lemma parts_exist t f : parse_special t = None -> parse_float t = Some f -> exists hex neg s pre a b dot p ng ds, parts hex neg t s pre a b dot p ng ds.
Proof.
  intros Np H. rewrite parse_open in H by exact Np. destruct (sign_split t) as (neg & s & s1 & E & S & Es). rewrite Es in H.
  assert (P : exists hex pre s2, s1 = pre ++ s2 /\ prefix hex pre /\ split_prefix s1 = (hex, s2)).
  { destruct s1 as [|c0 [|c1 [|c2 w]]]; [exists false, []; eexists; repeat split..|]. cbn [split_prefix].
    destruct (Byte.eqb c0 "0" && Byte.eqb (lower c1) "x") eqn:X; [|exists false, []; eexists; repeat split].
    apply andb_prop in X as [X1 X2]. apply byte_eqb_eq in X1 as ->. exists true, ["0"%byte; c1], (c2 :: w). split; [reflexivity|]. split; [|reflexivity].
    exists c1. split; [|reflexivity]. clear - X2. destruct c1; try discriminate X2; cbn; auto. }
  destruct P as (hex & pre & s2 & E1 & P & E2). rewrite E2 in H.
  destruct (dotted_split hex s2) as (a & b & dot & p & E3 & Ma & Mb & Hb & Hp & Hd).
  destruct (read_all hex a b dot p Ma Mb Hb Hp Hd) as (st & R & I & K1 & K2 & K3 & K4).
  rewrite E3, R in H. unfold ending in H. destruct (rf_dig st) eqn:D; [|discriminate]. cbn [negb] in H. cbv zeta in H.
  assert (N : strip (a ++ b) <> []). { intros X. rewrite X in K4. discriminate K4. }
  destruct p as [|c p].
  - destruct hex; [discriminate|]. exists false, neg, s, pre, a, b, dot, [], false, []. split; [now rewrite E, E1, E3|]. split; [auto|]. split; [auto|].
    do 3 (split; [auto|]). split; [auto|]. left; auto.
  - destruct (Byte.eqb (lower c) (if hex then "p"%byte else "e"%byte)) eqn:L; [|discriminate]. apply letter_in in L.
    destruct (exp_sign_split p) as (ng & s' & u & -> & S' & Ex). rewrite Ex in H.
    destruct u as [|d u]; [discriminate|]. destruct (is_digit d) eqn:Dd; [|discriminate].
    destruct (span false (d :: u)) as (ds & r & Eu & M & Hr). destruct (exp_run ds M 0 (rf_us st) r Hr ltac:(lia)) as (e & X & _).
    rewrite Eu, X in H. destruct r as [|r0 r]; [|discriminate]. rewrite app_nil_r in Eu.
    exists hex, neg, s, pre, a, b, dot, (c :: s' ++ d :: u), ng, (d :: u). split; [now rewrite E, E1, E3|]. split; [auto|]. split; [auto|].
    do 3 (split; [auto|]). split; [auto|]. right. exists c, s'. split; [auto|]. split; [auto|]. rewrite Eu. split; [auto|]. split; [|reflexivity]. rewrite <- Eu. eauto.
Qed.

(** ** numerals are made of such parts, and the parts with well-placed underscores are numerals *)
Lemma loop_plain hex s : mixed false s -> forall saw, underscore_loop hex saw s = underscore_loop false saw s.
Proof.
  destruct hex; [|reflexivity]. induction 1 as [|c s Hc _ IH]; intros saw; [reflexivity|]. destruct Hc as [Hc| ->].
  - rewrite (dig_loop false) by exact Hc. rewrite (dig_loop true), IH by (unfold dig in *; cbn [andb] in Hc; rewrite orb_false_r in Hc; now rewrite Hc). reflexivity.
  - cbn [underscore_loop]. change (is_digit "_" || true && in_range 97 102 (lower "_")) with false. change (is_digit "_" || false && in_range 97 102 (lower "_")) with false.
    change (Byte.eqb "_" "_") with true. cbv iota. now rewrite IH.
Qed.
Lemma halt_loop hex saw c s : dig hex c = false -> c <> "_"%byte -> saw <> 1 -> underscore_loop hex saw (c :: s) = underscore_loop hex 2 s.
Proof.
  intros D U N. unfold dig in D. cbn [underscore_loop]. rewrite D. destruct (Byte.eqb c "_") eqn:X; [apply byte_eqb_eq in X; now destruct U|].
  now replace (saw =? 1) with false by lia.
Qed.
Lemma halts_loop hex saw p : halts hex p -> saw = 0 \/ saw = 2 \/ saw = 3 -> underscore_loop hex saw p = underscore_loop hex 2 p.
Proof.
  intros H N. destruct p as [|c p]; [destruct N as [->|[->| ->]]; reflexivity|]. destruct H as [D U]. rewrite !halt_loop by (auto; lia). reflexivity.
Qed.
Lemma sign_loop hex neg s ds : sign_text neg s -> underscore_loop hex 2 (s ++ ds) = underscore_loop hex 2 ds.
Proof. unfold sign_text. destruct neg; [intros ->|intros [->| ->]]; destruct hex; reflexivity. Qed.
Lemma ok_loop hex neg t s pre a b dot p ng ds : parts hex neg t s pre a b dot p ng ds ->
  underscore_ok t = underscore_loop hex (if hex then 0 else 3) (dotted a b dot ++ p).
Proof.
  intros (E & S & P & Ma & Mb & Hb & N & T).
  destruct (dotted_head hex a b dot p ng ds Ma Mb Hb N) as (c & v & Ed & C & V). specialize (V T).
  set (s1 := pre ++ dotted a b dot ++ p) in *.
  assert (U : underscore_ok t = match s1 with
    | c0 :: c1 :: w => if Byte.eqb c0 "0" && (Byte.eqb (lower c1) "b" || Byte.eqb (lower c1) "o" || Byte.eqb (lower c1) "x")
       then underscore_loop (Byte.eqb (lower c1) "x") 0 w else underscore_loop false 3 s1
    | _ => underscore_loop false 3 s1 end).
  { unfold underscore_ok. replace (match t with [] => t | c' :: t' => if Byte.eqb c' "-" || Byte.eqb c' "+" then t' else t end) with s1; [reflexivity|].
    rewrite E. unfold sign_text in S. destruct neg; [subst s; reflexivity|destruct S as [->| ->]; [|reflexivity]]. cbn [app].
    destruct s1 as [|c' v'] eqn:X; [reflexivity|]. unfold s1 in X. rewrite Ed in X. destruct (sign_no_plus hex pre c v P C c' v' X) as (_ & A & B). now rewrite A, B. }
  rewrite U. destruct hex.
  - destruct P as (l & L & ->). unfold s1. cbn [app]. change (Byte.eqb "0" "0") with true.
    assert (Lx : Byte.eqb (lower l) "x" = true) by (destruct L as [<-|[<-|[]]]; reflexivity). rewrite Lx, orb_true_r. reflexivity.
  - cbn in P. subst pre. unfold s1. cbn [app]. rewrite Ed. destruct v as [|d w]; [reflexivity|]. destruct (V d w eq_refl) as (X & O & B). rewrite X, O, (B eq_refl).
    cbn [orb]. now rewrite andb_false_r.
Qed.
Lemma hornb_app hex s t acc : hornb hex acc (s ++ t) = hornb hex (hornb hex acc s) t.
Proof. apply fold_left_app. Qed.
Lemma hornb_split hex t : forall acc, hornb hex acc t = acc * base hex ^ zlen t + hornb hex 0 t.
Proof.
  induction t as [|c t IH]; intros acc; [cbn; lia|].
  change (hornb hex acc (c :: t)) with (hornb hex (acc * base hex + hval c) t). change (hornb hex 0 (c :: t)) with (hornb hex (0 * base hex + hval c) t).
  rewrite (IH (acc * base hex + hval c)), (IH (0 * base hex + hval c)). rewrite zlen_cons. pose proof (zlen_nonneg t). replace (1 + zlen t) with (Z.succ (zlen t)) by lia.
  rewrite Z.pow_succ_r by lia. ring.
Qed.
Lemma strip_app a b : strip (a ++ b) = strip a ++ strip b.
Proof. apply filter_app. Qed.
Lemma group_head hex t n k : digit_group hex t n k -> exists c v, t = c :: v /\ dig hex c = true.
Proof.
  intros G. destruct (group_mixed hex t n k G) as (M & _ & L & K & H). destruct t as [|c v]; [cbn in L; lia|]. exists c, v. split; [reflexivity|].
  inversion M as [|? ? [D| ->] ?]; subst; [auto|now destruct H].
Qed.
Lemma point_parts hex m n k : point_text hex m n k -> exists a b dot, m = dotted a b dot /\ mixed hex a /\ mixed hex b /\ (dot = false -> b = []) /\ strip (a ++ b) <> [] /\
  hornb hex 0 (strip (a ++ b)) = n /\ zlen (strip b) = k /\
  forall saw p, saw = 0 \/ saw = 3 \/ saw = 1 /\ hd_error m <> Some "."%byte -> halts hex p -> underscore_loop hex saw (m ++ p) = underscore_loop hex 2 p.
Proof.
  assert (Dot : forall saw s, saw <> 1 -> underscore_loop hex saw ("."%byte :: s) = underscore_loop hex 2 s) by (intros; apply halt_loop; auto; [apply dig_dot|discriminate]).
  assert (Ne : forall t n k, digit_group hex t n k -> strip t <> []) by (intros t n' k' G E; destruct (group_mixed hex t n' k' G) as (_ & _ & L & K & _); rewrite E in L; cbn in L; lia).
  destruct 1 as [t n k G|t n k G|t n k G|a n i b m k Ga Gb]; try destruct (group_mixed hex t n k G) as (M & V & L & K & _).
  - exists t, [], false. rewrite app_nil_r. do 2 (split; [auto|]). split; [constructor|]. split; [auto|]. split; [eauto|]. split; [auto|]. split; [reflexivity|].
    intros saw p _ Hp. rewrite (group_loop hex t n k G). apply halts_loop; auto.
  - exists t, [], true. rewrite app_nil_r. split; [reflexivity|]. split; [auto|]. split; [constructor|]. split; [auto|]. split; [eauto|]. split; [auto|]. split; [reflexivity|].
    intros saw p _ Hp. rewrite <- app_assoc, (group_loop hex t n k G). cbn [app bs]. apply (Dot 0). lia.
  - exists [], t, true. split; [reflexivity|]. split; [constructor|]. split; [auto|]. split; [discriminate|]. cbn [app]. split; [eauto|]. split; [auto|]. split; [auto|].
    intros saw p Hs Hp. rewrite Dot by (destruct Hs as [->|[->|[_ X]]]; [lia..|now destruct X]). rewrite (group_loop hex t n k G). apply halts_loop; auto.
  - destruct (group_mixed hex a n i Ga) as (Ma & Va & La & Ka & _). destruct (group_mixed hex b m k Gb) as (Mb & Vb & Lb & Kb & _).
    exists a, b, true. split; [reflexivity|]. do 2 (split; [auto|]). split; [discriminate|]. rewrite strip_app.
    split; [intros X; apply app_eq_nil in X as [X _]; now apply (Ne a n i Ga)|].
    split; [rewrite hornb_app, hornb_split, Va, Vb, Lb; reflexivity|]. split; [auto|].
    intros saw p Hs Hp. rewrite <- app_assoc, (group_loop hex a n i Ga). cbn [app]. rewrite Dot by lia. rewrite (group_loop hex b m k Gb). apply halts_loop; auto.
Qed.
Lemma power_tail (hex : bool) p ex : power_text (if hex then bs "pP" else bs "eE") p ex -> exists ng ds, tail hex p ng ds /\ ex = (if ng then - hornb false 0 (strip ds) else hornb false 0 (strip ds)) /\
  underscore_loop hex 2 p = true.
Proof.
  intros (c & s & ng & ds & n & k & L & S & G & -> & ->). destruct (group_mixed false ds n k G) as (M & V & _). destruct (group_head false ds n k G) as (d & v & E & D).
  exists ng, ds. assert (T : tail hex (c :: s ++ ds) ng ds).
  { right. exists c, s. split; [auto|]. split; [auto|]. split; [auto|]. split; [|reflexivity]. exists d, v. split; [auto|]. unfold dig in D. cbn [andb] in D. now rewrite orb_false_r in D. }
  split; [exact T|]. split; [rewrite V; reflexivity|]. destruct (tail_head hex _ ng ds c _ T eq_refl) as (_ & _ & _ & Dc & Uc & _).
  rewrite halt_loop by (auto; lia). rewrite (sign_loop hex ng) by auto. rewrite loop_plain by auto. rewrite <- (app_nil_r ds), (group_loop false ds n k G). reflexivity.
Qed.
(** a numeral's parts *)
Definition part_value (hex : bool) (n e k : Z) : Q :=
  if hex then Qmult (inject_Z n) (Qpower (2 # 1) (e - 4 * k)) else Qmult (inject_Z n) (Qpower (10 # 1) (e - k)).
Lemma word_parts t neg ex x : number_word t neg ex x -> exists hex s pre a b dot p ng ds, parts hex neg t s pre a b dot p ng ds /\ underscore_ok t = true /\
  ex = (if ng then - hornb false 0 (strip ds) else hornb false 0 (strip ds)) /\ Qeq x (part_value hex (hornb hex 0 (strip (a ++ b))) ex (zlen (strip b))).
Proof.
  destruct 1 as [s neg m n k p ex x S Pm Pp X|s neg l u m n k p ex x S L U Pm Pp X].
  - destruct (point_parts false m n k Pm) as (a & b & dot & -> & Ma & Mb & Hb & N & V & K & Lo).
    assert (Tp : exists ng ds, tail false p ng ds /\ ex = (if ng then - hornb false 0 (strip ds) else hornb false 0 (strip ds)) /\ underscore_loop false 2 p = true).
    { destruct Pp as [[-> ->]|Pp]; [exists false, []; split; [left; auto|]; split; reflexivity|apply (power_tail false); exact Pp]. }
    destruct Tp as (ng & ds & T & -> & Lp).
    assert (Pa : parts false neg (s ++ dotted a b dot ++ p) s [] a b dot p ng ds) by (repeat (split; [auto|]); auto; split; auto).
    exists false, s, [], a, b, dot, p, ng, ds. split; [exact Pa|]. split; [|split; [reflexivity|]; unfold part_value; rewrite V, K; exact X].
    rewrite (ok_loop _ _ _ _ _ _ _ _ _ _ _ Pa), Lo; auto. apply (proj1 (tail_halts false p ng ds T)).
  - destruct (point_parts true m n k Pm) as (a & b & dot & -> & Ma & Mb & Hb & N & V & K & Lo).
    destruct (power_tail true p ex Pp) as (ng & ds & T & -> & Lp).
    assert (Su : strip (u ++ a) = strip a) by (destruct U as [->|[-> _]]; reflexivity).
    assert (Ed : u ++ dotted a b dot = dotted (u ++ a) b dot) by (destruct dot; cbn [dotted]; [now rewrite app_assoc|reflexivity]).
    assert (Pa : parts true neg (s ++ "0"%byte :: l :: u ++ dotted a b dot ++ p) s ["0"%byte; l] (u ++ a) b dot p ng ds).
    { split; [cbn [app]; now rewrite <- Ed, <- app_assoc|]. split; [auto|]. split; [exists l; auto|]. split; [|split; [auto|split; [auto|split; [|auto]]]].
      - apply Forall_app. split; [|auto]. destruct U as [->|[-> _]]; [constructor|constructor; [auto|constructor]].
      - rewrite strip_app, Su, <- strip_app. exact N. }
    exists true, s, ["0"%byte; l], (u ++ a), b, dot, p, ng, ds. split; [exact Pa|].
    split; [|split; [reflexivity|]; unfold part_value; rewrite !strip_app in *; rewrite Su, V, K; exact X].
    rewrite (ok_loop _ _ _ _ _ _ _ _ _ _ _ Pa), <- Ed, <- app_assoc.
    pose proof (proj1 (tail_halts true p ng ds T)) as Hp. destruct U as [->|[-> Hm]]; [cbn [app]; rewrite Lo; auto|].
    change (bs "_" ++ dotted a b dot ++ p) with ("_"%byte :: dotted a b dot ++ p). cbn [underscore_loop]. change (is_digit "_" || true && in_range 97 102 (lower "_")) with false. change (Byte.eqb "_" "_") with true. cbv iota.
    change (0 =? 0) with true. cbv iota. rewrite Lo; auto.
Qed.
(** parts with well-placed underscores make a numeral *)
Lemma under_loop hex a b dot p ng ds saw : (dot = false -> b = []) -> tail hex p ng ds -> under (a ++ b ++ ds) = false -> saw <> 1 -> underscore_loop hex saw (dotted a b dot ++ p) = true.
Proof.
  intros Hb T U N. apply no_under_ok; [|exact N]. rewrite !under_app in *. apply orb_false_iff in U as [Ua U]. apply orb_false_iff in U as [Ub Ud].
  apply orb_false_iff. split.
  - destruct dot; cbn [dotted]; [rewrite under_app|auto]. rewrite Ua. cbn [orb under existsb]. exact Ub.
  - destruct T as [(-> & _)|(c & s' & L & S & _ & _ & ->)]; [reflexivity|]. cbn [under existsb]. fold (under (s' ++ ds)). rewrite under_app, Ud, orb_false_r.
    apply orb_false_iff. split; [destruct hex; destruct L as [<-|[<-|[]]]; reflexivity|]. unfold sign_text in S. destruct ng; [now subst s'|destruct S as [->| ->]; reflexivity].
Qed.
Lemma tail_power (hex : bool) p ng ds : tail hex p ng ds -> underscore_loop hex 2 p = true ->
  let ex := if ng then - hornb false 0 (strip ds) else hornb false 0 (strip ds) in
  p = [] /\ hex = false /\ ex = 0 \/ power_text (if hex then bs "pP" else bs "eE") p ex.
Proof.
  intros T L. destruct T as [(-> & -> & -> & ->)|(c & s' & I & S & M & (d & u & -> & D) & ->)]; [left; auto|right].
  assert (T : tail hex (c :: s' ++ d :: u) ng (d :: u)) by (right; exists c, s'; split; [auto|]; split; [auto|]; split; [auto|]; split; [eauto|reflexivity]).
  destruct (tail_head hex _ ng _ c _ T eq_refl) as (_ & _ & _ & Dc & Uc & _).
  rewrite halt_loop in L by (auto; lia). rewrite (sign_loop hex ng) in L by auto. rewrite loop_plain in L by auto. rewrite <- (app_nil_r (d :: u)) in L.
  destruct (loop_start false (d :: u) [] 2 M Logic.I ltac:(lia) L) as [X|(v & t & n & k & E & V & G & _)]; [discriminate|].
  destruct V as [->|[_ V]]; [|discriminate]. cbn [app] in E. rewrite <- E in G. destruct (group_mixed false _ n k G) as (_ & Vn & _). rewrite Vn.
  exists c, s', ng, (d :: u), n, k. auto.
Qed.
Lemma parts_point hex a b dot p : mixed hex a -> mixed hex b -> (dot = false -> b = []) -> strip (a ++ b) <> [] -> halts hex p ->
  underscore_loop hex (if hex then 0 else 3) (dotted a b dot ++ p) = true ->
  exists u m, dotted a b dot = u ++ m /\ (u = [] \/ hex = true /\ u = bs "_" /\ hd_error m <> Some "."%byte) /\
    point_text hex m (hornb hex 0 (strip (a ++ b))) (zlen (strip b)) /\ underscore_loop hex 2 p = true.
Proof.
  intros Ma Mb Hb N Hp L. set (saw := if hex then 0 else 3) in *. assert (Ns : saw <> 1) by (unfold saw; destruct hex; lia).
  assert (Dot : forall saw s, saw <> 1 -> underscore_loop hex saw ("."%byte :: s) = underscore_loop hex 2 s) by (intros; apply halt_loop; auto; [apply dig_dot|discriminate]).
  assert (Hd : forall s, halts hex ("."%byte :: s)) by (intros; split; [apply dig_dot|discriminate]).
  assert (Gb : underscore_loop hex 2 (b ++ p) = true -> b = [] /\ underscore_loop hex 2 p = true \/ exists m k, digit_group hex b m k /\ underscore_loop hex 2 p = true).
  { intros X. destruct (loop_start hex b p 2 Mb Hp ltac:(lia) X) as [->|(v & t & n & k & E & V & G & Lp)]; [left; auto|right].
    destruct V as [->|[_ V]]; [|discriminate]. cbn [app] in E. subst t. exists n, k. split; [auto|]. rewrite <- (halts_loop hex 0); auto. }
  destruct dot; cbn [dotted] in *.
  - rewrite <- app_assoc in L. cbn [app] in L. destruct (loop_start hex a ("."%byte :: b ++ p) saw Ma (Hd _) Ns L) as [->|(u & t & n & k & E & U & G & L')].
    + cbn [app] in *. rewrite Dot in L by auto. destruct (Gb L) as [[-> _]|(m & k & G & Lp)]; [now destruct N|].
      exists [], ("."%byte :: b). split; [reflexivity|]. split; [auto|]. destruct (group_mixed hex b m k G) as (_ & V & K & _). rewrite V, K. split; [now apply pt_leading|auto].
    + rewrite Dot in L' by lia. destruct (group_mixed hex t n k G) as (_ & Vt & Kt & _). destruct (group_head hex t n k G) as (c & w & Et & Dc).
      assert (Sa : strip a = strip t) by (rewrite E; destruct U as [->|[-> _]]; reflexivity). rewrite strip_app, Sa.
      exists u, (t ++ "."%byte :: b). split; [rewrite E; now rewrite app_assoc|]. split.
      { destruct U as [->|[-> U]]; [now left|right]. split; [unfold saw in U; destruct hex; [auto|discriminate]|]. split; [auto|]. rewrite Et. cbn. intros [= ->]. now rewrite dig_dot in Dc. }
      destruct (Gb L') as [[-> Lp]|(m & k' & G' & Lp)].
      * cbn [strip filter]. rewrite app_nil_r, Vt. split; [|auto]. change (zlen []) with 0. now apply (pt_trailing hex t n k).
      * destruct (group_mixed hex b m k' G') as (_ & Vb & Kb & _). rewrite hornb_app, hornb_split, Vt, Vb, Kb. split; [|auto]. now apply (pt_both hex t n k b m k').
  - rewrite (Hb eq_refl) in *. rewrite app_nil_r in *. destruct (loop_start hex a p saw Ma Hp Ns L) as [->|(u & t & n & k & E & U & G & L')]; [now destruct N|].
    destruct (group_mixed hex t n k G) as (_ & Vt & Kt & _). destruct (group_head hex t n k G) as (c & w & Et & Dc).
    assert (Sa : strip a = strip t) by (rewrite E; destruct U as [->|[-> _]]; reflexivity). rewrite Sa, Vt.
    exists u, t. split; [auto|]. split.
    { destruct U as [->|[-> U]]; [now left|right]. split; [unfold saw in U; destruct hex; [auto|discriminate]|]. split; [auto|]. rewrite Et. cbn. intros [= ->]. now rewrite dig_dot in Dc. }
    split; [now apply (pt_whole hex t n k)|]. rewrite <- (halts_loop hex 0); auto.
Qed.
Lemma parts_word hex neg t s pre a b dot p ng ds : parts hex neg t s pre a b dot p ng ds -> underscore_ok t = true ->
  let ex := if ng then - hornb false 0 (strip ds) else hornb false 0 (strip ds) in number_word t neg ex (part_value hex (hornb hex 0 (strip (a ++ b))) ex (zlen (strip b))).
Proof.
  intros Pa O. rewrite (ok_loop _ _ _ _ _ _ _ _ _ _ _ Pa) in O. destruct Pa as (E & S & P & Ma & Mb & Hb & N & T).
  destruct (parts_point hex a b dot p Ma Mb Hb N (proj1 (tail_halts hex p ng ds T)) O) as (u & m & Eu & U & Pm & Lp).
  pose proof (tail_power hex p ng ds T Lp) as Tp. cbv zeta in *. rewrite E, Eu. destruct hex.
  - destruct P as (l & L & ->). change (["0"%byte; l] ++ (u ++ m) ++ p) with ("0"%byte :: l :: (u ++ m) ++ p). rewrite <- app_assoc. eapply nw_hexadecimal; [exact S|exact L| |exact Pm| |apply Qeq_refl].
    + destruct U as [->|(_ & -> & U)]; auto.
    + destruct Tp as [(_ & X & _)|Tp]; [discriminate|exact Tp].
  - cbn in P. subst pre. destruct U as [->|[X _]]; [|discriminate]. cbn [app]. eapply nw_decimal; [exact S|exact Pm| |apply Qeq_refl].
    destruct Tp as [(-> & _ & ->)|Tp]; auto.
Qed.

(** ** what numerals are read as *)
Lemma hornb_bound hex s : Forall (fun c => dig hex c = true) s -> 0 <= hornb hex 0 s < base hex ^ zlen s.
Proof.
  induction s as [|c s IH] using rev_ind; intros H; [cbn; lia|]. apply Forall_app in H as [H1 H2]. inversion H2 as [|? ? Hc _]; subst.
  rewrite hornb_app. cbn [hornb fold_left]. fold (hornb hex 0 s). rewrite zlen_app. change (zlen [c]) with 1. pose proof (zlen_nonneg s). rewrite Z.pow_add_r, Z.pow_1_r by lia.
  specialize (IH H1). pose proof (hval_range hex c Hc). nia.
Qed.
Lemma strip_len s : zlen (strip s) <= zlen s.
Proof. unfold strip. induction s as [|c s IH]; [cbn; lia|]. cbn [filter]. destruct (negb (Byte.eqb c "_")); rewrite ?zlen_cons; lia. Qed.
Lemma pow_lt_inv b x y : 1 < b -> 0 <= x -> 0 <= y -> b ^ x < b ^ y -> x < y.
Proof. intros. apply (Z.pow_lt_mono_r_iff b); lia. Qed.
Lemma word_rounds t neg ex x : number_word t neg ex x -> Z.abs ex < 100000 \/ zlen t <= 2000 -> rounds neg x (parse_float t).
Proof.
  intros W B. destruct (word_parts t neg ex x W) as (hex & s & pre & a & b & dot & p & ng & ds & Pa & O & Ex & X).
  destruct (parts_value _ _ _ _ _ _ _ _ _ _ _ Pa) as (nd & e & Nd & Ve & _ & ->). rewrite O. cbn [negb]. rewrite andb_false_r.
  set (M := hornb hex 0 (strip (a ++ b))) in *. set (k := zlen (strip b)) in *.
  assert (Z0 : M = 0 -> (if hex then round_bin neg M ((if ng then - e else e) - 4 * k) else round_dec neg M ((if ng then - e else e) - k) nd) = Some (S754_zero neg) /\ (x == 0)%Q).
  { intros ->. split; [now destruct hex|]. rewrite X. unfold part_value. change (inject_Z 0) with 0%Q. destruct hex; ring. }
  assert (Mb : mixed hex b) by apply Pa. assert (Ma : mixed hex (a ++ b)) by (apply Forall_app; split; apply Pa).
  pose proof (hornb_bound hex _ (strip_dig hex _ Ma)) as Hb. fold M in Hb.
  destruct (Z.eq_dec M 0) as [Mz|Mz]; [destruct (Z0 Mz) as [-> ?]; apply (rounds_comp neg 0); [now symmetry|apply zero_rounds]|]. clear Z0.
  assert (Lt : zlen (strip (a ++ b)) <= zlen t).
  { destruct Pa as (E & _ & _ & _ & _ & Hb' & _). rewrite E, !zlen_app. pose proof (zlen_nonneg s). pose proof (zlen_nonneg pre). pose proof (zlen_nonneg p).
    pose proof (strip_len (a ++ b)) as L. rewrite zlen_app in L. destruct dot; cbn [dotted]; [rewrite zlen_app, zlen_cons; lia|]. rewrite (Hb' eq_refl) in *. change (zlen []) with 0 in *. lia. }
  assert (Lk : 0 <= k <= zlen (strip (a ++ b))).
  { unfold k. rewrite strip_app, zlen_app. pose proof (zlen_nonneg (strip a)). pose proof (zlen_nonneg (strip b)). lia. }
  destruct Nd as [[_ Nd]|[Pn Nd]]; [contradiction|].
  destruct Ve as [Ve|[Ve Vx]].
  - replace (if ng then - e else e) with ex by (rewrite Ex, <- Ve; reflexivity).
    destruct hex; [apply round_bin_rounds; [lia|exact X]|apply round_dec_rounds; [lia|exact Nd|auto|exact X]].
  - assert (Lt' : zlen t <= 2000) by (destruct B as [B|B]; [exfalso; subst ex; destruct ng; lia|auto]). 
    assert (Ne : nd <= 2000).
    { assert (nd - 1 < zlen (strip (a ++ b))); [|lia]. apply (pow_lt_inv (base hex)); [destruct hex; reflexivity|lia|lia|lia]. }
    set (len := zlen (strip (a ++ b))) in *.
    assert (Mp : exists q, M = Zpos q) by (destruct M as [|q|q]; [lia|eauto|lia]). destruct Mp as (q & Mq).
    destruct hex.
    + change (base true) with (2 ^ 4) in Hb. rewrite <- Z.pow_mul_r in Hb by lia.
      assert (Lg : 0 <= Z.log2 M < 4 * len) by (split; [apply Z.log2_nonneg|apply Z.log2_lt_pow2; lia]).
      destruct (Z.log2_spec M ltac:(lia)) as [B1 B2]. unfold part_value in X.
      assert (Lo : (p2 (Z.log2 M + (ex - 4 * k)) <= x)%Q) by (rewrite p2_add, X, (p2_int (Z.log2 M)) by lia; apply inj_le in B1; pose proof (p2_pos (ex - 4 * k)); nra).
      assert (Hi : (x < p2 (Z.succ (Z.log2 M) + (ex - 4 * k)))%Q) by (rewrite p2_add, X, (p2_int (Z.succ (Z.log2 M))) by lia; apply inj_lt in B2; pose proof (p2_pos (ex - 4 * k)); nra).
      assert (Px : (0 < x)%Q) by (pose proof (p2_pos (Z.log2 M + (ex - 4 * k))); lra).
      unfold round_bin. rewrite Mq, <- Mq. cbv zeta. destruct ng.
      * replace (1100 <? - e - 4 * k + Z.log2 M) with false by lia. replace (- e - 4 * k + Z.log2 M <? -1200) with true by lia.
        apply tiny_rounds; [auto|]. eapply Qlt_le_trans; [exact Hi|]. apply p2_le. lia.
      * replace (1100 <? e - 4 * k + Z.log2 M) with true by lia. cbn [rounds]. eapply Qle_trans; [|exact Lo].
        eapply Qle_trans; [apply ten_310|]. apply (Qle_trans _ (p2 1240)); [|apply p2_le; lia]. unfold p10, p2. vm_compute. discriminate.
    + change (base false) with 10 in *. unfold part_value in X.
      assert (Lo : (p10 (nd - 1 + (ex - k)) <= x)%Q) by (rewrite p10_add, X, (p10_int (nd - 1)) by lia; destruct Nd as [Nd _]; apply inj_le in Nd; pose proof (p10_pos (ex - k)); nra).
      assert (Hi : (x < p10 (nd + (ex - k)))%Q) by (rewrite p10_add, X, (p10_int nd) by lia; destruct Nd as [_ Nd]; apply inj_lt in Nd; pose proof (p10_pos (ex - k)); nra).
      assert (Px : (0 < x)%Q) by (pose proof (p10_pos (nd - 1 + (ex - k))); lra).
      unfold round_dec. rewrite Mq, <- Mq. cbv zeta. destruct ng.
      * replace (310 <? - e - k + nd) with false by lia. replace (- e - k + nd <? -330) with true by lia.
        apply tiny_rounds; [auto|]. eapply Qlt_le_trans; [exact Hi|]. eapply Qle_trans; [|apply ten_330]. apply p10_le. lia.
      * replace (310 <? e - k + nd) with true by lia. cbn [rounds]. eapply Qle_trans; [|exact Lo].
        eapply Qle_trans; [apply ten_310|]. apply p10_le. lia.
Qed.
Lemma parsed_word t f : parse_special t = None -> parse_float t = Some f -> exists neg ex x, number_word t neg ex x.
Proof.
  intros Np H. destruct (parts_exist t f Np H) as (hex & neg & s & pre & a & b & dot & p & ng & ds & Pa).
  do 3 eexists. apply (parts_word _ _ _ _ _ _ _ _ _ _ _ Pa).
  destruct (parts_value _ _ _ _ _ _ _ _ _ _ _ Pa) as (nd & e & _ & _ & _ & V). rewrite V in H. destruct (underscore_ok t) eqn:O; [reflexivity|]. cbn [negb] in H. rewrite andb_true_r in H.
  destruct (under (a ++ b ++ ds)) eqn:U; [discriminate|]. rewrite (ok_loop _ _ _ _ _ _ _ _ _ _ _ Pa) in O. rewrite <- O.
  destruct Pa as (_ & _ & _ & _ & _ & Hb & _ & T). apply (under_loop hex a b dot p ng ds); auto. destruct hex; lia.
Qed.
Lemma word_plain t neg ex x : number_word t neg ex x -> parse_special t = None.
Proof. intros W. destruct (word_parts t neg ex x W) as (hex & s & pre & a & b & dot & p & ng & ds & Pa & _). now destruct (parts_value _ _ _ _ _ _ _ _ _ _ _ Pa) as (_ & _ & _ & _ & Np & _). Qed.

(** ** names *)
Lemma lower_case c d : Byte.eqb (lower d) d = true -> is_digit d = false -> Byte.eqb (lower c) d = true <-> either_case c d.
Proof.
  intros Hd Hn. split.
  - intros H. apply byte_eqb_eq in H. unfold either_case. subst d.
    destruct (Byte.eqb (lower c) c) eqn:E; [left; apply byte_eqb_eq in E; auto|right].
    exists (Z.to_nat (Z.of_N (byteN c) - 65)). destruct c; try discriminate E; split; reflexivity.
  - intros [->|(i & A & B)]; [exact Hd|]. do 26 (destruct i as [|i]; [injection A as <-; injection B as <-; reflexivity|]). destruct i; discriminate A.
Qed.
Lemma spells_iff lit : Forall (fun d => Byte.eqb (lower d) d = true /\ is_digit d = false) lit -> forall t, eq_fold t lit = true <-> spells t lit.
Proof.
  intros H t. unfold eq_fold. rewrite str_eqb_eq. unfold spells. revert t. induction H as [|d lit [H1 H2] _ IH]; intros [|c t].
  - split; [constructor|reflexivity].
  - split; [discriminate|inversion 1].
  - split; [discriminate|inversion 1].
  - cbn [map]. split.
    + intros [= E1 E2]. constructor; [apply lower_case; auto; now apply byte_eqb_eq|now apply IH].
    + intros X. inversion X as [|? ? ? ? Y Z]; subst. f_equal; [apply byte_eqb_eq; now apply lower_case|now apply IH].
Qed.
Lemma spell_lits : Forall (fun d => Byte.eqb (lower d) d = true /\ is_digit d = false) (bs "inf") /\ Forall (fun d => Byte.eqb (lower d) d = true /\ is_digit d = false) (bs "infinity") /\
  Forall (fun d => Byte.eqb (lower d) d = true /\ is_digit d = false) (bs "nan").
Proof. repeat split; repeat constructor. Qed.
Lemma spells_head t lit c v : spells t lit -> Forall (fun d => Byte.eqb (lower d) d = true /\ is_digit d = false /\ Byte.eqb d "+" = false /\ Byte.eqb d "-" = false) lit ->
  t = c :: v -> Byte.eqb c "+" = false /\ Byte.eqb c "-" = false.
Proof.
  intros S H ->. inversion S as [|? d ? lit' E _]; subst. inversion H as [|? ? (A & B & P & M) _]; subst. destruct E as [->|(i & I & J)]; [auto|].
  do 26 (destruct i as [|i]; [injection J as <-; auto|]). destruct i; discriminate J.
Qed.
Lemma special_named t f : parse_special t = Some f <-> named_number t f.
Proof.
  destruct spell_lits as (L1 & L2 & L3).
  assert (Q1 : forall u c v, spells u (bs "inf") \/ spells u (bs "infinity") -> u = c :: v -> Byte.eqb c "+" = false /\ Byte.eqb c "-" = false).
  { intros u c v [H|H]; apply (spells_head _ _ _ _ H); repeat constructor. }
  assert (Q2 : forall u c v, spells u (bs "nan") -> u = c :: v -> Byte.eqb c "+" = false /\ Byte.eqb c "-" = false).
  { intros u c v H; apply (spells_head _ _ _ _ H); repeat constructor. }
  assert (I1 : forall u, spells u (bs "inf") \/ spells u (bs "infinity") <-> eq_fold u (bs "inf") || eq_fold u (bs "infinity") = true).
  { intros u. rewrite orb_true_iff, !spells_iff by auto. tauto. }
  split.
  - intros H. destruct t as [|c v]; [discriminate|]. cbn [parse_special] in H. cbv zeta in H.
    destruct (Byte.eqb c "+" || Byte.eqb c "-") eqn:G.
    + destruct (eq_fold v (bs "inf") || eq_fold v (bs "infinity")) eqn:F; [|discriminate]. injection H as <-. apply I1 in F.
      change (c :: v) with ([c] ++ v). apply orb_true_iff in G as [G|G]; apply byte_eqb_eq in G as ->; apply nn_inf; auto; [now right|reflexivity].
    + apply orb_false_iff in G as [_ G]. destruct (eq_fold (c :: v) (bs "inf") || eq_fold (c :: v) (bs "infinity")) eqn:F.
      * injection H as <-. rewrite G. apply I1 in F. change (c :: v) with ([] ++ c :: v). apply nn_inf; auto. now left.
      * cbn [negb andb] in H. destruct (eq_fold (c :: v) (bs "nan")) eqn:N; [|discriminate]. injection H as <-. apply nn_nan. now apply spells_iff.
  - destruct 1 as [s neg t S H|t H].
    + assert (Ne : t <> []) by (intros ->; destruct H as [H|H]; inversion H).
      assert (F := proj1 (I1 t) H). unfold sign_text in S. destruct neg; [subst s|destruct S as [->| ->]].
      * change (bs "-" ++ t) with ("-"%byte :: t). cbn [parse_special]. replace (Byte.eqb "-" "+" || Byte.eqb "-" "-") with true by reflexivity. cbv zeta. now rewrite F.
      * destruct t as [|c v]; [now destruct Ne|]. destruct (Q1 _ c v H eq_refl) as [A B]. cbn [app parse_special]. rewrite A, B. cbn [orb]. cbv zeta. now rewrite F.
      * change (bs "+" ++ t) with ("+"%byte :: t). cbn [parse_special]. replace (Byte.eqb "+" "+" || Byte.eqb "+" "-") with true by reflexivity. cbv zeta. now rewrite F.
    + destruct t as [|c v]; [inversion H|]. destruct (Q2 _ c v H eq_refl) as [A B]. cbn [parse_special]. rewrite A, B. cbn [orb]. cbv zeta.
      assert (N : eq_fold (c :: v) (bs "inf") || eq_fold (c :: v) (bs "infinity") = false).
      { apply not_true_iff_false. intros X. apply I1 in X. destruct X as [X|X]; inversion X as [|? ? ? ? E1 E2]; inversion H as [|? ? ? ? E3 E4]; subst.
        all: apply lower_case in E1; [|reflexivity..]; apply lower_case in E3; [|reflexivity..]; apply byte_eqb_eq in E1; apply byte_eqb_eq in E3; congruence. }
      rewrite N. cbn [negb andb]. now rewrite (proj2 (spells_iff (bs "nan") L3 (c :: v)) H).
Qed.
