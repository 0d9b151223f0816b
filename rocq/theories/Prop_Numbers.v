(** C68: the number a numeral in a script stands for (strconv.ParseFloat as called in
    edlisp/parser/linebased.go:314) and the conversion of integers to numbers
    (edlisp/number.go:32-34), against an independent description of decimal numerals and of
    rounding to the nearest float64. *)
From Coq Require Import ZArith NArith QArith Qabs Qpower List Bool Lia Lqa ZifyBool Strings.Byte.
From Verif Require Import Base Float Ext Utf8 Strconv Values Buffer Builtins Eval Parser RefExt Spec SpecNumber
  Proofs_Base Proofs_Float Proofs_Number Proofs_Round Proofs_Nearest Proofs_Unique Proofs_Numeral Proofs_Shortest.
Import ListNotations.
Open Scope Z_scope.

(** ** C68 *)

(** every decimal numeral reads as the float64 nearest to its value, ties to even, with the
    sign it is written with; it is refused if and only if it is too large for a float64 *)
Theorem numeral_nearest t neg x : numeral 100000 t neg x -> rounds neg x (parse_float t).
Proof. apply numeral_rounds. Qed.
(** in a script: a number, or - when too large - a symbol *)
Theorem numeral_token t neg x : numeral 100000 t neg x ->
  (exists f, parse_token t = POk (VNum f) /\ (x < overflow)%Q /\ nearest (signed neg x) f /\ sign_bit f = Some neg) \/
  (parse_token t = POk (VSym t) /\ (overflow <= x)%Q).
Proof.
  intros H. pose proof (numeral_nearest t neg x H) as R.
  destruct H as (s & ip & fp & fd & ep & n & ex & -> & Hs & F & _ & N & D & _).
  destruct (value_digits _ _ D) as [D1 _].
  destruct (numeral_head ip fp fd ep D1 F N) as (c & u & E & Hc).
  assert (Q : has_prefix (s ++ ip ++ fp ++ ep) (bs """") = false).
  { rewrite E. unfold sign_text in Hs. destruct neg; [subst s; reflexivity|destruct Hs as [->| ->]; [|reflexivity]].
    cbn [app]. destruct Hc as [Hc| ->]; [|reflexivity]. destruct (digit_not c Hc) as (_ & _ & _ & _ & A & _).
    unfold has_prefix. change (bs """") with [""""%byte]. cbn [length firstn]. unfold str_eqb. cbn. 
    destruct c; try discriminate; reflexivity. }
  unfold parse_token. rewrite Q. cbn [andb]. destruct (parse_float (s ++ ip ++ fp ++ ep)) as [f|].
  - left. exists f. destruct R as (A & B & C). auto.
  - right. auto.
Qed.
(** NewIntNumber: the nearest number to an integer *)
Theorem integer_nearest z : Z.abs z < 2 ^ 1000 -> rounds (z <? 0) (inject_Z (Z.abs z)) (Some (f_of_Z z)).
Proof.
  intros B. assert (S : (inject_Z (Z.abs z) < overflow)%Q).
  { unfold overflow. rewrite p2_int by lia. rewrite <- inj_mul. apply inj_lt.
    apply (Z.lt_trans _ (2 ^ 1000)); [auto|]. apply Z.ltb_lt. vm_compute. reflexivity. }
  destruct z as [|p|p]; cbn [Z.abs Z.ltb Z.compare].
  - apply zero_rounds.
  - pose proof (round_rounds false p 0 (inject_Z (Zpos p))) as R. unfold f_of_Z, binary_normalize. revert R.
    generalize (binary_round prec emax false p 0). intros r R. specialize (R ltac:(change (p2 0) with 1%Q; ring)).
    destruct r; cbn [keep rounds] in *; auto. cbn in S. lra.
  - pose proof (round_rounds true p 0 (inject_Z (Zpos p))) as R. unfold f_of_Z, binary_normalize. revert R.
    generalize (binary_round prec emax true p 0). intros r R. specialize (R ltac:(change (p2 0) with 1%Q; ring)).
    destruct r; cbn [keep rounds] in *; auto. cbn in S. lra.
Qed.
(** the description leaves no choice: there is one float64 it allows *)
Theorem rounding_unique neg x r r' : rounds neg x r -> rounds neg x r' ->
  (forall f, r = Some f -> f64_valid f = true) -> (forall f, r' = Some f -> f64_valid f = true) -> r = r'.
Proof. apply rounds_same. Qed.
(** so numerals with the same value and sign are the same number, however they are written *)
Theorem same_value_same_number t t' neg x x' : numeral 100000 t neg x -> numeral 100000 t' neg x' -> (x == x')%Q ->
  parse_float t = parse_float t'.
Proof.
  intros H H' E. apply (rounds_same neg x).
  - now apply numeral_nearest.
  - apply (rounds_comp neg x'); [now symmetry|]. now apply numeral_nearest.
  - intros f. apply parse_float_valid.
  - intros f. apply parse_float_valid.
Qed.

(** examples: a tie goes to the even mantissa; -0 keeps its sign; too large and too small *)
Lemma numeral_intro s ip fp fd ep ex neg x : sign_text neg s -> fraction_text fp fd -> exponent_text 100000 ep ex ->
  ip ++ fd <> [] -> digits (ip ++ fd) -> (x == inject_Z (horner 0 (ip ++ fd)) * (10 # 1) ^ (ex - zlen fd))%Q ->
  numeral 100000 (s ++ ip ++ fp ++ ep) neg x.
Proof.
  intros. exists s, ip, fp, fd, ep, (horner 0 (ip ++ fd)), ex. split; [reflexivity|]. do 4 (split; [auto|]). split; [now apply digits_have_value|auto].
Qed.
Lemma exponent_intro e s neg ds n : In e (bs "eE") -> sign_text neg s -> digits ds -> ds <> [] -> horner 0 ds = n -> n < 100000 ->
  exponent_text 100000 (e :: s ++ ds) (if neg then - n else n).
Proof. intros He Hs D N H L. right. exists e, s, neg, ds, n. split; [auto|]. split; [auto|]. split; [subst; now apply digits_have_value|]. do 2 (split; [auto|]). auto. Qed.
Example numeral_ex :
  numeral 100000 (bs "-12.5e-1") true (125 # 100) /\
  numeral 100000 (bs "9007199254740993") false (inject_Z 9007199254740993) /\
  numeral 100000 (bs "1e400") false (inject_Z (10 ^ 400)) /\
  numeral 100000 (bs "+.5") false (1 # 2).
Proof.
  split; [|split; [|split]].
  - apply (numeral_intro (bs "-") (bs "12") (bs ".5") (bs "5") (bs "e-1") (-1)); [reflexivity|right; reflexivity| |discriminate|repeat constructor|reflexivity].
    apply (exponent_intro "e"%byte (bs "-") true (bs "1") 1); [now left|reflexivity|repeat constructor|discriminate|reflexivity|lia].
  - apply (numeral_intro [] (bs "9007199254740993") [] [] [] 0); [now left|left; auto|left; auto|discriminate|repeat constructor|reflexivity].
  - apply (numeral_intro [] (bs "1") [] [] (bs "e400") 400); [now left|left; auto| |discriminate|repeat constructor|vm_compute; reflexivity].
    apply (exponent_intro "e"%byte [] false (bs "400") 400); [now left|now left|repeat constructor|discriminate|reflexivity|lia].
  - apply (numeral_intro (bs "+") [] (bs ".5") (bs "5") [] 0); [right; reflexivity|right; reflexivity|left; auto|discriminate|repeat constructor|reflexivity].
Qed.
Example numeral_reads_ex :
  parse_float (bs "-12.5e-1") = Some (S754_finite true 5629499534213120 (-52)) /\
  parse_float (bs "9007199254740993") = Some (f_of_Z 9007199254740992) /\
  parse_float (bs "9007199254740995") = Some (f_of_Z 9007199254740996) /\
  parse_float (bs "-0") = Some (S754_zero true) /\
  parse_float (bs "0.1") = Some (S754_finite false 7205759403792794 (-56)) /\
  parse_float (bs "1e-400") = Some (S754_zero false) /\
  parse_token (bs "1e400") = POk (VSym (bs "1e400")).
Proof. repeat split; vm_compute; reflexivity. Qed.

(** without a bound on the exponent the claim is false: a sixth digit of the exponent may be
    dropped, and then a numeral whose value is 1 reads as 0 *)
Lemma horner_zeros k a : horner 0 (repeat "0"%byte k ++ a) = horner 0 a.
Proof. induction k as [|k IH]; [reflexivity|]. unfold horner in *. cbn [repeat app fold_left]. exact IH. Qed.
Lemma long_exponent k : Z.of_nat k = 100000 ->
  exists t, numeral 1000000 t false 1 /\ parse_float t = Some (S754_zero false) /\ ~ rounds false 1 (parse_float t).
Proof.
  intros K.
  remember (repeat "0"%byte k ++ bs "1") as fd eqn:Efd.
  assert (L : zlen fd = 100001) by (rewrite Efd; unfold zlen; rewrite app_length, repeat_length; change (length (bs "1")) with 1%nat; lia).
  assert (D : digits (bs "0" ++ fd)).
  { constructor; [reflexivity|]. rewrite Efd. apply Forall_app. split; [|repeat constructor]. apply Forall_forall. intros c Hc. apply repeat_spec in Hc. now subst. }
  assert (H : horner 0 (bs "0" ++ fd) = 1).
  { change (horner 0 (bs "0" ++ fd)) with (horner 0 fd). rewrite Efd, horner_zeros. reflexivity. }
  clear Efd.
  exists ([] ++ bs "0" ++ ("."%byte :: fd) ++ bs "e100001").
  assert (P : parse_float ([] ++ bs "0" ++ ("."%byte :: fd) ++ bs "e100001") = Some (S754_zero false)).
  { destruct (parse_numeral false [] (bs "0") ("."%byte :: fd) fd (bs "e100001") 10000) as [[X _]|(nd & Pn & B & ->)]; auto.
    - now left.
    - now right.
    - right. exists "e"%byte, [], false, (bs "100001"), 10000. split; [now left|]. split; [now left|]. split; [repeat constructor|].
      split; [discriminate|]. split; reflexivity || (split; reflexivity).
    - discriminate.
    - rewrite H in X. discriminate.
    - rewrite H in *. assert (nd = 1).
      { destruct (Z.eq_dec nd 1); auto. pose proof (Z.pow_le_mono_r 10 1 (nd - 1) ltac:(lia) ltac:(lia)). change (10 ^ 1) with 10 in *. lia. }
      subst nd. rewrite L. vm_compute. reflexivity. }
  split; [|split; [exact P|]].
  - exists [], (bs "0"), ("."%byte :: fd), fd, (bs "e100001"), 1, 100001. split; [reflexivity|]. split; [now left|]. split; [now right|].
    split.
    { right. exists "e"%byte, [], false, (bs "100001"), 100001. split; [now left|]. split; [now left|].
      split; [apply (digits_have_value (bs "100001")); repeat constructor|]. split; [discriminate|]. split; [lia|]. split; reflexivity. }
    split; [discriminate|]. split; [rewrite <- H; now apply digits_have_value|]. rewrite L. vm_compute. reflexivity.
  - rewrite P. intros (_ & (_ & _ & N) & _). destruct (N 1%Q) as [N1 _].
    + exists 1, 0. repeat split; lia.
    + revert N1. cbn. unfold Qle. cbn. lia.
Qed.
Theorem numeral_nearest_every_exponent_refuted :
  exists t, numeral 1000000 t false 1 /\ parse_float t = Some (S754_zero false) /\ ~ rounds false 1 (parse_float t).
Proof. apply (long_exponent (Z.to_nat 100000)). apply Z2Nat.id. discriminate. Qed.

(** ** Assumptions of every theorem above *)
Print Assumptions numeral_nearest.
Print Assumptions numeral_token.
Print Assumptions integer_nearest.
Print Assumptions rounding_unique.
Print Assumptions same_value_same_number.
Print Assumptions numeral_nearest_every_exponent_refuted.
