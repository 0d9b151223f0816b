(** Which words are numbers: decimal and hexadecimal numerals with digits grouped by
    underscores, and the words for infinities and "not a number".  Used to state C73; nothing
    here is used by the model. *)
From Coq Require Import ZArith QArith List Bool Strings.Byte.
From Verif Require Import Base Float SpecNumber.
Import ListNotations.
Open Scope Z_scope.

(** [digit_worth hexa c d]: the character [c] is a digit worth [d] *)
Definition digit_worth (hexa : bool) (c : byte) (d : nat) : Prop :=
  nth_error (bs "0123456789") d = Some c \/
  hexa = true /\ (nth_error (bs "0123456789abcdef") d = Some c \/ nth_error (bs "0123456789ABCDEF") d = Some c).
Definition base (hexa : bool) : Z := if hexa then 16 else 10.

(** [digit_group hexa t n k]: [t] is a row of [k] digits, single underscores between them or
    not, and reads as [n] *)
Inductive digit_group (hexa : bool) : str -> Z -> Z -> Prop :=
| dg_one c d : digit_worth hexa c d -> digit_group hexa [c] (Z.of_nat d) 1
| dg_more t n k c d : digit_group hexa t n k -> digit_worth hexa c d -> digit_group hexa (t ++ [c]) (base hexa * n + Z.of_nat d) (k + 1)
| dg_under t n k c d : digit_group hexa t n k -> digit_worth hexa c d -> digit_group hexa (t ++ ["_"%byte; c]) (base hexa * n + Z.of_nat d) (k + 1).

(** [point_text hexa t n k]: digits with at most one point; [n] is what they read as without
    the point, [k] of them stand behind it *)
Inductive point_text (hexa : bool) : str -> Z -> Z -> Prop :=
| pt_whole t n k : digit_group hexa t n k -> point_text hexa t n 0
| pt_trailing t n k : digit_group hexa t n k -> point_text hexa (t ++ bs ".") n 0
| pt_leading t n k : digit_group hexa t n k -> point_text hexa ("."%byte :: t) n k
| pt_both a n i b m k : digit_group hexa a n i -> digit_group hexa b m k ->
    point_text hexa (a ++ "."%byte :: b) (n * base hexa ^ k + m) k.

(** an exponent: decimal in either case *)
Definition power_text (letters t : str) (ex : Z) : Prop := exists c s neg ds n k,
  In c letters /\ sign_text neg s /\ digit_group false ds n k /\ t = c :: s ++ ds /\ ex = (if neg then - n else n).

(** [number_word t neg ex x]: [t] is a numeral with the sign [neg], the exponent [ex] and the
    magnitude [x].  A hexadecimal numeral always has an exponent, which is a power of two, and may have an
    underscore behind its prefix if a digit follows. *)
Inductive number_word : str -> bool -> Z -> Q -> Prop :=
| nw_decimal s neg m n k p ex x : sign_text neg s -> point_text false m n k -> (p = [] /\ ex = 0 \/ power_text (bs "eE") p ex) ->
    (x == inject_Z n * (10 # 1) ^ (ex - k))%Q -> number_word (s ++ m ++ p) neg ex x
| nw_hexadecimal s neg l u m n k p ex x : sign_text neg s -> In l (bs "xX") -> (u = [] \/ u = bs "_" /\ hd_error m <> Some "."%byte) ->
    point_text true m n k -> power_text (bs "pP") p ex ->
    (x == inject_Z n * (2 # 1) ^ (ex - 4 * k))%Q -> number_word (s ++ "0"%byte :: l :: u ++ m ++ p) neg ex x.

(** words for infinities, with or without a sign, and for "not a number", without; capital
    letters count as small ones *)
Definition either_case (c : byte) (d : byte) : Prop :=
  c = d \/ exists i, nth_error (bs "abcdefghijklmnopqrstuvwxyz") i = Some d /\ nth_error (bs "ABCDEFGHIJKLMNOPQRSTUVWXYZ") i = Some c.
Definition spells (t lit : str) : Prop := Forall2 either_case t lit.
Inductive named_number : str -> spec_float -> Prop :=
| nn_inf s neg t : sign_text neg s -> spells t (bs "inf") \/ spells t (bs "infinity") -> named_number (s ++ t) (S754_infinity neg)
| nn_nan t : spells t (bs "nan") -> named_number t S754_nan.
