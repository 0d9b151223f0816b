(** Numerals and the numbers they stand for, independently of the model: decimal digits,
    integers as Go prints them, numerals with a fraction and an exponent, and what it means
    for a float64 to be the one nearest to a rational number. *)
From Coq Require Import ZArith QArith Qabs Qpower List Bool Strings.Byte.
From Verif Require Import Base Float.
Import ListNotations.
Open Scope Z_scope.

(** [digits_value s n]: [s] consists of decimal digits and stands for [n] *)
Inductive digits_value : str -> Z -> Prop :=
| dv_nil : digits_value [] 0
| dv_snoc s n c d : digits_value s n -> nth_error (bs "0123456789") d = Some c ->
    digits_value (s ++ [c]) (10 * n + Z.of_nat d).

(** [int_text t z]: [t] is the usual decimal text of the integer [z]: no superfluous zeros,
    a minus sign if and only if [z] is negative *)
Definition int_text (t : str) (z : Z) : Prop := exists ds n, digits_value ds n /\ ds <> [] /\
  (hd_error ds = Some "0"%byte -> ds = bs "0") /\
  (t = ds /\ z = n \/ t = "-"%byte :: ds /\ z = - n /\ 0 < n).

(** [numeral limit t neg x]: [t] is a decimal numeral, with or without fraction and exponent; [neg]
    tells whether it starts with a minus sign, and [x] is the magnitude it stands for.
    [limit] bounds the exponent. *)
Definition sign_text (neg : bool) (t : str) : Prop := if neg then t = bs "-" else t = [] \/ t = bs "+".
Definition fraction_text (t fd : str) : Prop := t = [] /\ fd = [] \/ t = "."%byte :: fd.
Definition exponent_text (limit : Z) (t : str) (ex : Z) : Prop :=
  t = [] /\ ex = 0 \/
  exists e s neg ds n, In e (bs "eE") /\ sign_text neg s /\ digits_value ds n /\ ds <> [] /\ n < limit /\
    t = e :: s ++ ds /\ ex = (if neg then - n else n).
Definition numeral (limit : Z) (t : str) (neg : bool) (x : Q) : Prop :=
  exists s ip fp fd ep n ex, t = s ++ ip ++ fp ++ ep /\ sign_text neg s /\ fraction_text fp fd /\
    exponent_text limit ep ex /\ ip ++ fd <> [] /\ digits_value (ip ++ fd) n /\
    (x == inject_Z n * (10 # 1) ^ (ex - zlen fd))%Q.

(** ** float64 numbers as rationals *)
Open Scope Q_scope.
(** the finite float64 numbers: 53 bits times a power of two *)
Definition representable (q : Q) : Prop := exists m e : Z, (Z.abs m < 2 ^ 53)%Z /\ (-1074 <= e <= 971)%Z /\
  q == inject_Z m * (2 # 1) ^ e.
Definition q_value (f : spec_float) : Q :=
  match f with
  | S754_finite s m e => (if s then - (1) else 1) * inject_Z (Zpos m) * (2 # 1) ^ e
  | _ => 0
  end.
Definition is_finite (f : spec_float) : Prop := match f with S754_zero _ | S754_finite _ _ _ => True | _ => False end.
Definition sign_bit (f : spec_float) : option bool :=
  match f with S754_zero s | S754_infinity s | S754_finite s _ _ => Some s | S754_nan => None end.
Definition even_mantissa (f : spec_float) : Prop :=
  match f with S754_finite _ m _ => Z.even (Zpos m) = true | _ => True end.
(** [nearest x f]: no float64 is nearer to [x] than [f], and if another one is as near then
    [f] is the one with the even mantissa *)
Definition nearest (x : Q) (f : spec_float) : Prop := is_finite f /\ representable (q_value f) /\
  forall q, representable q -> Qabs (q_value f - x) <= Qabs (q - x) /\
    (Qabs (q_value f - x) == Qabs (q - x) -> q == q_value f \/ even_mantissa f).
(** magnitudes from here on round to an infinity: half a unit above the largest float64 *)
Definition overflow : Q := inject_Z (2 ^ 54 - 1) * (2 # 1) ^ 970.
Definition signed (neg : bool) (x : Q) : Q := if neg then - x else x.
(** [rounds neg x r]: [r] is what the magnitude [x] with a sign rounds to; [None] if it is
    too large *)
Definition rounds (neg : bool) (x : Q) (r : option spec_float) : Prop :=
  match r with
  | Some f => x < overflow /\ nearest (signed neg x) f /\ sign_bit f = Some neg
  | None => overflow <= x
  end.

(** ** Texts of numbers *)
(** [number_layout lo hi pad ds dp t]: [t] shows the digits [ds] with the decimal point after
    the first [dp] of them: with an exponent if that is below [lo] or at least [hi] (of at
    least two digits if [pad]), otherwise without *)
Inductive number_layout (lo hi : Z) (pad : bool) : str -> Z -> str -> Prop :=
| nl_exponent d ds dp u : (dp - 1 < lo \/ hi <= dp - 1)%Z -> int_text u (Z.abs (dp - 1)) ->
    number_layout lo hi pad (d :: ds) dp
      ([d] ++ match ds with [] => [] | _ => "."%byte :: ds end ++
       "e"%byte :: (if (dp - 1 <? 0)%Z then "-"%byte else "+"%byte) :: (if pad && (Z.abs (dp - 1) <? 10)%Z then "0"%byte :: u else u))
| nl_below ds dp : (lo <= dp - 1)%Z -> (dp <= 0)%Z -> number_layout lo hi pad ds dp (bs "0." ++ repeat "0"%byte (Z.to_nat (- dp)) ++ ds)
| nl_inside a b dp : dp = zlen a -> (0 < dp <= hi)%Z -> b <> [] -> number_layout lo hi pad (a ++ b) dp (a ++ "."%byte :: b)
| nl_above ds dp : (zlen ds <= dp <= hi)%Z -> number_layout lo hi pad ds dp (ds ++ repeat "0"%byte (Z.to_nat (dp - zlen ds))).
(** the way of C's %g with six digits *)
Definition g_layout : str -> Z -> str -> Prop := number_layout (-4) 6 true.
(** the way of JavaScript, and so of JSON *)
Definition json_layout : str -> Z -> str -> Prop := number_layout (-6) 21 false.

(** the digits [ds] with the decimal point after the first [dp] of them stand for [x] *)
Definition decimal (ds : str) (dp : Z) (x : Q) : Prop := exists n, digits_value ds n /\ x == inject_Z n * (10 # 1) ^ (dp - zlen ds).
(** [shortest_in layout f t]: [t] shows, with the sign of [f] and in the given layout, a decimal that rounds to [f]; no decimal
    with fewer digits rounds to [f], and none with as many is nearer to [f]; if another one is
    as near, the last digit is even; 17 digits are always enough *)
Definition shortest_in (layout : str -> Z -> str -> Prop) (f : spec_float) (t : str) : Prop := exists neg ds dp u x,
  sign_bit f = Some neg /\ t = (if neg then bs "-" else []) ++ u /\ layout ds dp u /\ decimal ds dp x /\
  hd_error ds <> Some "0"%byte /\ hd_error (rev ds) <> Some "0"%byte /\ ds <> [] /\ (zlen ds <= 17)%Z /\ rounds neg x (Some f) /\
  forall n k, let y := inject_Z n * (10 # 1) ^ k in rounds neg y (Some f) ->
    (10 ^ (zlen ds - 1) <= n)%Z /\
    ((n < 10 ^ zlen ds)%Z -> Qabs (x - Qabs (q_value f)) <= Qabs (y - Qabs (q_value f)) /\
      (Qabs (x - Qabs (q_value f)) == Qabs (y - Qabs (q_value f)) -> y == x \/ exists c, hd_error (rev ds) = Some c /\ In c (bs "02468"))).
Definition shortest : spec_float -> str -> Prop := shortest_in g_layout.
