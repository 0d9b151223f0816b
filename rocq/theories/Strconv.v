(** The parts of Go's strconv, strings and fmt packages the code relies on:
    strconv.Quote ([%q]), strconv.Unquote, strconv.ParseFloat, [%.0f], [%g],
    strings.ToUpper/ToLower/TrimSpace.  Library code, modelled from its source. *)
From Coq Require Import ZArith NArith List Bool Strings.Byte.
From Verif Require Import Base Float Ext Utf8.
Import ListNotations.

Section Quote.
Open Scope N_scope.

(** strconv.IsPrint: ASCII concretely, the rest from the table *)
Definition is_print (E : Ext) (r : rune) : bool :=
  if r <=? 127 then (32 <=? r) && (r <=? 126) else uc_print E r.

Definition hex_digit (n : N) : byte :=
  byte_of_N (if n <? 10 then 48 + n else 87 + n).

(** [k] lower-case hex digits of [n] *)
Fixpoint hex_digits (k : nat) (n : N) : str :=
  match k with
  | O => []
  | S k' => hex_digits k' (n / 16) ++ [hex_digit (n mod 16)]
  end.

(** strconv.appendEscapedRune with the double quote as delimiter *)
Definition escape_rune (E : Ext) (r : rune) (raw : str) : str :=
  if (r =? 34) || (r =? 92) then "\"%byte :: raw
  else if is_print E r then raw
  else if r =? 7 then bs "\a"
  else if r =? 8 then bs "\b"
  else if r =? 12 then bs "\f"
  else if r =? 10 then bs "\n"
  else if r =? 13 then bs "\r"
  else if r =? 9 then bs "\t"
  else if r =? 11 then bs "\v"
  else if (r <? 32) || (r =? 127) then bs "\x" ++ hex_digits 2 r
  else if r <? 65536 then bs "\u" ++ hex_digits 4 r
  else bs "\U" ++ hex_digits 8 r.

Definition quote_rune (E : Ext) (ra : rune_at) : str :=
  if r_bad ra then bs "\x" ++ hex_digits 2 (byteN (hd x00 (r_bytes ra)))
  else escape_rune E (r_rune ra) (r_bytes ra).

(** strconv.Quote; fmt's %q *)
Definition quote (E : Ext) (s : str) : str :=
  """"%byte :: flat_map (quote_rune E) (runes s) ++ [""""%byte].

Definition unhex (b : byte) : option N :=
  let n := byteN b in
  if (48 <=? n) && (n <=? 57) then Some (n - 48)
  else if (97 <=? n) && (n <=? 102) then Some (n - 87)
  else if (65 <=? n) && (n <=? 70) then Some (n - 55)
  else None.

(** read exactly [k] hex digits *)
Fixpoint read_hex (k : nat) (acc : N) (s : str) : option (N * str) :=
  match k with
  | O => Some (acc, s)
  | S k' =>
    match s with
    | [] => None
    | c :: s' =>
      match unhex c with Some d => read_hex k' (acc * 16 + d) s' | None => None end
    end
  end.

Definition octal (b : byte) : option N :=
  let n := byteN b in if (48 <=? n) && (n <=? 55) then Some (n - 48) else None.

(** strconv.UnquoteChar with the double quote as delimiter, already reduced to the bytes it contributes:
    [byte(r)] when r < 0x80 or not multibyte, the UTF-8 encoding of [r] otherwise. *)
Definition unquote_char (s : str) : option (str * str) :=
  match s with
  | [] => None
  | c :: t =>
    if Byte.eqb c """"%byte then None
    else if 128 <=? byteN c then
      let (ra, rest) := decode_one s in Some (encode_rune (r_rune ra), rest)
    else if negb (Byte.eqb c "\"%byte) then Some ([c], t)
    else
      match t with
      | [] => None
      | e :: u =>
        if Byte.eqb e "a"%byte then Some ([x07], u)
        else if Byte.eqb e "b"%byte then Some ([x08], u)
        else if Byte.eqb e "f"%byte then Some ([x0c], u)
        else if Byte.eqb e "n"%byte then Some ([x0a], u)
        else if Byte.eqb e "r"%byte then Some ([x0d], u)
        else if Byte.eqb e "t"%byte then Some ([x09], u)
        else if Byte.eqb e "v"%byte then Some ([x0b], u)
        else if Byte.eqb e "x"%byte then
          match read_hex 2 0 u with
          | Some (v, u') => Some ([byte_of_N v], u')
          | None => None
          end
        else if Byte.eqb e "u"%byte then
          match read_hex 4 0 u with
          | Some (v, u') => if valid_rune v then Some (encode_rune v, u') else None
          | None => None
          end
        else if Byte.eqb e "U"%byte then
          match read_hex 8 0 u with
          | Some (v, u') => if valid_rune v then Some (encode_rune v, u') else None
          | None => None
          end
        else if Byte.eqb e "\"%byte then Some (["\"%byte], u)
        else if Byte.eqb e """"%byte then Some ([""""%byte], u)
        else
          match octal e with
          | Some d0 =>
            match u with
            | o1 :: o2 :: u' =>
              match octal o1, octal o2 with
              | Some d1, Some d2 =>
                let v := d0 * 64 + d1 * 8 + d2 in
                if v <=? 255 then Some ([byte_of_N v], u') else None
              | _, _ => None
              end
            | _ => None
            end
          | None => None
          end
      end
  end.

(** the loop of strconv.unquote after the opening quote; the closing quote must end the
    input.  Fuel: every step consumes at least one byte. *)
Fixpoint unquote_loop (fuel : nat) (s : str) : option str :=
  match fuel with
  | O => None
  | S fuel' =>
    match s with
    | [] => None
    | c :: t =>
      if Byte.eqb c """"%byte then match t with [] => Some [] | _ => None end
      else if Byte.eqb c nl then None
      else
        match unquote_char s with
        | Some (out, rest) =>
          match unquote_loop fuel' rest with
          | Some r => Some (out ++ r)
          | None => None
          end
        | None => None
        end
    end
  end.

(** strconv.Unquote on a token that starts with a double quote
    (edlisp/parser/linebased.go:306); [None] is ErrSyntax.  Go's fast path for strings
    without escapes computes the same function and is not modelled separately. *)
Definition unquote (s : str) : option str :=
  match s with
  | c :: t => if Byte.eqb c """"%byte then unquote_loop (S (length t)) t else None
  | [] => None
  end.

(** unicode.ToUpper / ToLower *)
Definition rune_upper (E : Ext) (r : rune) : rune :=
  if r <=? 127 then (if (97 <=? r) && (r <=? 122) then r - 32 else r) else uc_upper E r.
Definition rune_lower (E : Ext) (r : rune) : rune :=
  if r <=? 127 then (if (65 <=? r) && (r <=? 90) then r + 32 else r) else uc_lower E r.

(** strings.ToUpper / ToLower = strings.Map of the rune function (the ASCII fast path
    computes the same) *)
Definition to_upper (E : Ext) (s : str) : str :=
  flat_map (fun ra => encode_rune (rune_upper E (r_rune ra))) (runes s).
Definition to_lower (E : Ext) (s : str) : str :=
  flat_map (fun ra => encode_rune (rune_lower E (r_rune ra))) (runes s).

(** strings.TrimLeftFunc(s, unicode.IsSpace) *)
Fixpoint trim_left_fuel (fuel : nat) (s : str) : str :=
  match fuel with
  | O => s
  | S fuel' =>
    match s with
    | [] => []
    | _ => let (ra, rest) := decode_one s in
           if is_space (r_rune ra) then trim_left_fuel fuel' rest else s
    end
  end.
Definition trim_left (s : str) : str := trim_left_fuel (length s) s.

(** strings.TrimSpace: keep everything from the first to the last non-space rune.
    (Go scans backward with DecodeLastRune; on both ends a space rune is a complete
    UTF-8 sequence, so scanning the rune list from the right is the same.) *)
Fixpoint drop_space (l : list rune_at) : list rune_at :=
  match l with
  | [] => []
  | ra :: l' => if is_space (r_rune ra) then drop_space l' else l
  end.
Definition trim_space (s : str) : str :=
  flat_map r_bytes (rev (drop_space (rev (drop_space (runes s))))).
End Quote.

Section Floats.
Open Scope Z_scope.

Definition is_digit (b : byte) : bool := in_range 48 57 b.
Definition digit_val (b : byte) : Z := Z.of_N (byteN b) - 48.
Definition lower (b : byte) : byte :=
  if in_range 65 90 b then byte_of_N (byteN b + 32) else b.

(** case-insensitive comparison with a lower-case literal *)
Definition eq_fold (s lit : str) : bool := str_eqb (map lower s) lit.

(** D * 10^e as float64, round to nearest even; [None] = ErrRange.
    The cut-offs are those of decimal.floatBits (dp > 310, dp < -330); [nd] is the number
    of digits of D. *)
Definition round_dec (neg : bool) (D e nd : Z) : option spec_float :=
  match D with
  | Zpos p =>
    let dp := e + nd in
    let r :=
      if 310 <? dp then S754_infinity neg
      else if dp <? -330 then S754_zero neg
      else if 0 <=? e then binary_round prec emax neg (Z.to_pos (D * 10 ^ e)) 0
      else
        let '(mz, ez, lz) := SFdiv_core_binary prec emax D 0 (10 ^ (- e)) 0 in
        binary_round_aux prec emax neg mz ez lz
    in
    match r with S754_infinity _ => None | _ => Some r end
  | _ => Some (S754_zero neg)
  end.

(** M * 2^e as float64 (strconv.atofHex) *)
Definition round_bin (neg : bool) (M e : Z) : option spec_float :=
  match M with
  | Zpos p =>
    let r :=
      if 1100 <? e + Z.log2 M then S754_infinity neg
      else if e + Z.log2 M <? -1200 then S754_zero neg
      else binary_round prec emax neg p e in
    match r with S754_infinity _ => None | _ => Some r end
  | _ => Some (S754_zero neg)
  end.

(** state of readFloat's digit loop: digits read so far as an integer, number of
    significant digits [nd], decimal point position [dp], flags *)
Record rf := { rf_mant : Z; rf_nd : Z; rf_dp : Z; rf_dot : bool; rf_dig : bool; rf_us : bool }.

Fixpoint read_digits (hex : bool) (st : rf) (s : str) : rf * str :=
  match s with
  | [] => (st, s)
  | c :: t =>
    if Byte.eqb c "_"%byte then
      read_digits hex {| rf_mant := rf_mant st; rf_nd := rf_nd st; rf_dp := rf_dp st;
                         rf_dot := rf_dot st; rf_dig := rf_dig st; rf_us := true |} t
    else if Byte.eqb c "."%byte then
      if rf_dot st then (st, s)
      else read_digits hex {| rf_mant := rf_mant st; rf_nd := rf_nd st; rf_dp := rf_nd st;
                              rf_dot := true; rf_dig := rf_dig st; rf_us := rf_us st |} t
    else if is_digit c then
      if Byte.eqb c "0"%byte && (rf_nd st =? 0) then
        read_digits hex {| rf_mant := rf_mant st; rf_nd := rf_nd st; rf_dp := rf_dp st - 1;
                           rf_dot := rf_dot st; rf_dig := true; rf_us := rf_us st |} t
      else
        read_digits hex {| rf_mant := rf_mant st * (if hex then 16 else 10) + digit_val c;
                           rf_nd := rf_nd st + 1; rf_dp := rf_dp st;
                           rf_dot := rf_dot st; rf_dig := true; rf_us := rf_us st |} t
    else if hex && in_range 97 102 (lower c) then
      read_digits hex {| rf_mant := rf_mant st * 16 + (Z.of_N (byteN (lower c)) - 87);
                         rf_nd := rf_nd st + 1; rf_dp := rf_dp st;
                         rf_dot := rf_dot st; rf_dig := true; rf_us := rf_us st |} t
    else (st, s)
  end.

(** exponent digits: only accumulated while e < 10000 *)
Fixpoint read_exp (e : Z) (us : bool) (s : str) : Z * bool * str :=
  match s with
  | [] => (e, us, s)
  | c :: t =>
    if Byte.eqb c "_"%byte then read_exp e true t
    else if is_digit c then
      read_exp (if e <? 10000 then e * 10 + digit_val c else e) us t
    else (e, us, s)
  end.

(** strconv.underscoreOK: underscores only between digits or after a base prefix.
    [saw]: 0 = a digit (or base prefix), 1 = underscore, 2 = other, 3 = start *)
Fixpoint underscore_loop (hex : bool) (saw : Z) (s : str) : bool :=
  match s with
  | [] => negb (saw =? 1)
  | c :: t =>
    if is_digit c || (hex && in_range 97 102 (lower c)) then underscore_loop hex 0 t
    else if Byte.eqb c "_"%byte then
      if saw =? 0 then underscore_loop hex 1 t else false
    else if saw =? 1 then false
    else underscore_loop hex 2 t
  end.
Definition underscore_ok (s : str) : bool :=
  let s1 := match s with
            | c :: t => if Byte.eqb c "-"%byte || Byte.eqb c "+"%byte then t else s
            | [] => s end in
  match s1 with
  | c0 :: c1 :: t =>
    let l := lower c1 in
    if Byte.eqb c0 "0"%byte && (Byte.eqb l "b"%byte || Byte.eqb l "o"%byte || Byte.eqb l "x"%byte)
    then underscore_loop (Byte.eqb l "x"%byte) 0 t
    else underscore_loop false 3 s1
  | _ => underscore_loop false 3 s1
  end.

(** strconv.special, full string *)
Definition parse_special (s : str) : option spec_float :=
  match s with
  | c :: t =>
    let signed := Byte.eqb c "+"%byte || Byte.eqb c "-"%byte in
    let body := if signed then t else s in
    if eq_fold body (bs "inf") || eq_fold body (bs "infinity")
    then Some (S754_infinity (Byte.eqb c "-"%byte))
    else if negb signed && eq_fold s (bs "nan") then Some S754_nan
    else None
  | [] => None
  end.

(** strconv.ParseFloat(s, 64); [None] is any error (ErrSyntax or ErrRange), which
    edlisp/parser/linebased.go:314 treats alike. *)
Definition parse_float (s : str) : option spec_float :=
  match parse_special s with
  | Some f => Some f
  | None =>
    let '(neg, s1) :=
      match s with
      | c :: t => if Byte.eqb c "+"%byte then (false, t)
                  else if Byte.eqb c "-"%byte then (true, t) else (false, s)
      | [] => (false, s)
      end in
    let '(hex, s2) :=
      match s1 with
      | c0 :: c1 :: (_ :: _) as t =>
        if Byte.eqb c0 "0"%byte && Byte.eqb (lower c1) "x"%byte then (true, skipn 2 s1) else (false, s1)
      | _ => (false, s1)
      end in
    let '(st, s3) := read_digits hex
        {| rf_mant := 0; rf_nd := 0; rf_dp := 0; rf_dot := false; rf_dig := false; rf_us := false |} s2 in
    if negb (rf_dig st) then None
    else
      let dp := if rf_dot st then rf_dp st else rf_nd st in
      let finish (dp : Z) (us : bool) (rest : str) : option spec_float :=
        match rest with
        | _ :: _ => None
        | [] =>
          if us && negb (underscore_ok s) then None
          else if hex then round_bin neg (rf_mant st) (dp - 4 * rf_nd st)
          else round_dec neg (rf_mant st) (dp - rf_nd st) (rf_nd st)
        end in
      let dp0 := if hex then 4 * dp else dp in
      match s3 with
      | c :: t =>
        if Byte.eqb (lower c) (if hex then "p"%byte else "e"%byte) then
          let '(esign, t1) :=
            match t with
            | c1 :: t' => if Byte.eqb c1 "+"%byte then (1, t')
                          else if Byte.eqb c1 "-"%byte then (-1, t') else (1, t)
            | [] => (1, t)
            end in
          match t1 with
          | d :: _ =>
            if is_digit d then
              let '(e, us, rest) := read_exp 0 (rf_us st) t1 in
              finish (dp0 + e * esign) us rest
            else None
          | [] => None
          end
        else None
      | [] => if hex then None else finish dp0 (rf_us st) []
      end
  end.

(** number of decimal digits *)
Definition dec_digits (n : Z) : str := itoa n.

(** fmtE: d.ddde+XX *)
Definition fmt_e (neg : bool) (digits : str) (exp : Z) : str :=
  let mant := match digits with
              | [] => bs "0"
              | [d] => [d]
              | d :: ds => d :: "."%byte :: ds
              end in
  let ae := Z.abs exp in
  (if neg then ["-"%byte] else []) ++ mant ++ ["e"%byte; if exp <? 0 then "-"%byte else "+"%byte]
  ++ (if ae <? 10 then "0"%byte :: itoa ae else itoa ae).

(** fmtF: digits with the decimal point after [dp] digits *)
Definition fmt_f (neg : bool) (digits : str) (dp : Z) : str :=
  let nd := zlen digits in
  let ip := if 0 <? dp
            then firstn (Z.to_nat dp) digits ++ repeat "0"%byte (Z.to_nat (dp - nd))
            else bs "0" in
  let fp := if dp <? nd
            then "."%byte :: repeat "0"%byte (Z.to_nat (- dp)) ++ skipn (Z.to_nat dp) digits
            else [] in
  (if neg then ["-"%byte] else []) ++ ip ++ fp.

(** strip trailing zeros of an integer written as digits * 10^k *)
Fixpoint strip_zeros (fuel : nat) (n k : Z) : Z * Z :=
  match fuel with
  | O => (n, k)
  | S f => if (n mod 10 =? 0) && negb (n =? 0) then strip_zeros f (n / 10) (k + 1) else (n, k)
  end.

(** text for the decimal n * 10^k in %g format: strconv.formatDigits uses the exponent
    form when exp < -4 or exp >= 6 (shortest precision) *)
Definition fmt_g (neg : bool) (n k : Z) : str :=
  let digits := itoa n in
  let dp := zlen digits + k in
  let exp := dp - 1 in
  if (exp <? -4) || (6 <=? exp) then fmt_e neg digits exp else fmt_f neg digits dp.

(** identity of floats (bit patterns, with a single NaN) *)
Definition f_same (x y : spec_float) : bool :=
  match x, y with
  | S754_zero a, S754_zero b => Bool.eqb a b
  | S754_infinity a, S754_infinity b => Bool.eqb a b
  | S754_nan, S754_nan => true
  | S754_finite s m e, S754_finite s' m' e' => Bool.eqb s s' && Pos.eqb m m' && (e =? e')
  | _, _ => false
  end.

Definition parses_to (t : str) (f : spec_float) : bool :=
  match parse_float t with Some g => f_same g f | None => false end.

(** v = num/den as a fraction *)
Definition frac (m : positive) (e : Z) : Z * Z :=
  if 0 <=? e then (Zpos m * 2 ^ e, 1) else (Zpos m, 2 ^ (- e)).

(** decimal point position: 10^(dp-1) <= num/den < 10^dp *)
Fixpoint small_dp (fuel : nat) (num den : Z) (dp : Z) : Z :=
  match fuel with
  | O => dp
  | S f => if num * 10 <? den then small_dp f (num * 10) den (dp - 1) else dp
  end.
Definition dec_point (num den : Z) : Z :=
  if den <=? num then zlen (itoa (num / den)) else small_dp 400 num den 0.

(** candidates with [nd] digits: the two neighbours of the value, nearest first; if they are
    equally near, the even one first (strconv/decimal.go shouldRoundUp, and ryuDigits) *)
Definition candidates (num den dp nd : Z) : list (Z * Z) :=
  let k := dp - nd in
  let '(a, b) := if 0 <=? k then (num, den * 10 ^ k) else (num * 10 ^ (- k), den) in
  let q := a / b in
  let r := a mod b in
  if (2 * r <? b) || ((2 * r =? b) && Z.even q) then [(q, k); (q + 1, k)] else [(q + 1, k); (q, k)].

Definition cand_text (neg : bool) (c : Z * Z) : str :=
  let '(n, k) := strip_zeros 20 (fst c) (snd c) in fmt_g neg n k.

Fixpoint shortest_loop (fuel : nat) (f : spec_float) (neg : bool) (num den dp nd : Z) : option str :=
  match fuel with
  | O => None
  | S fuel' =>
    match find (fun t => parses_to t f) (map (cand_text neg) (candidates num den dp nd)) with
    | Some t => Some t
    | None => shortest_loop fuel' f neg num den dp (nd + 1)
    end
  end.

(** %g of a non-zero finite float: the shortest decimal that reads back as the same
    float (strconv's shortest formatting), found by search over 1..17 digits.  The last
    branch (exact decimal expansion) is never needed for a float64 and only makes the
    function total. *)
Definition fmt_g_finite (neg : bool) (m : positive) (e : Z) : str :=
  let f := S754_finite neg m e in
  let '(num, den) := frac m e in
  match shortest_loop 17 f neg num den (dec_point num den) 1 with
  | Some t => t
  | None =>
    (if neg then ["-"%byte] else []) ++
    (if 0 <=? e then itoa num else itoa (Zpos m * 5 ^ (- e)) ++ "e"%byte :: itoa e)
  end.

(** edlisp/number.go:37-42 Number.String *)
Definition num_string (E : Ext) (f : spec_float) : str :=
  if f_eqb f (f_of_Z (f_to_int E f)) then
    (* "%.0f" of an integral value; the sign of -0 is printed *)
    match f with
    | S754_zero true => bs "-0"
    | _ => match f_trunc f with Some z => itoa z | None => [] end
    end
  else
    match f with
    | S754_nan => bs "NaN"
    | S754_infinity false => bs "+Inf"
    | S754_infinity true => bs "-Inf"
    | S754_zero false => bs "0"
    | S754_zero true => bs "-0"
    | S754_finite s m e => fmt_g_finite s m e
    end.
End Floats.
