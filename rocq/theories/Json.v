(** JSON scripts: edlisp/parser/json.go and edlisp/writer/json.go, with the part of
    Go's encoding/json they use (decoding into interface{}, encoding with HTML escaping).
    Decoder error texts are not modelled (constant text). *)
From Coq Require Import ZArith NArith List Bool Strings.Byte.
From Verif Require Import Base Float Ext Utf8 Strconv Values Parser.
Import ListNotations.
Open Scope Z_scope.

(** interface{} as produced by encoding/json *)
Inductive json :=
| JNull
| JBool (b : bool)
| JNum (f : spec_float)
| JStr (s : str)
| JArr (l : list json)
| JObj.   (* contents are never looked at *)

(** %T of such a value *)
Definition json_type (j : json) : str :=
  match j with
  | JNull => bs "<nil>"
  | JBool _ => bs "bool"
  | JNum _ => bs "float64"
  | JStr _ => bs "string"
  | JArr _ => bs "[]interface {}"
  | JObj => bs "map[string]interface {}"
  end.

(** ** Decoding text *)

Definition json_syntax {A} : presult A := PErr (bs "JSON syntax error").

(** JSON white space *)
Definition json_ws (b : byte) : bool :=
  Byte.eqb b x20 || Byte.eqb b x09 || Byte.eqb b x0d || Byte.eqb b x0a.
Fixpoint skip_ws (s : str) : str :=
  match s with
  | c :: t => if json_ws c then skip_ws t else s
  | [] => []
  end.

Definition is_surrogate (r : rune) : bool := ((55296 <=? r) && (r <=? 57343))%N.
(** utf16.DecodeRune *)
Definition utf16_decode (r1 r2 : rune) : option rune :=
  if ((55296 <=? r1) && (r1 <=? 56319) && (56320 <=? r2) && (r2 <=? 57343))%N
  then Some ((r1 - 55296) * 1024 + (r2 - 56320) + 65536)%N
  else None.

(** after the opening quote; result without the closing quote.
    Mirrors json's unquoteBytes; fuel: every step consumes a byte. *)
Fixpoint json_string (fuel : nat) (s : str) : presult (str * str) :=
  match fuel with
  | O => PFuel
  | S f =>
    match s with
    | [] => json_syntax
    | c :: t =>
      let emit (out rest : str) :=
        match json_string f rest with
        | POk (r, rest') => POk (out ++ r, rest')
        | PErr e => PErr e
        | PFuel => PFuel
        end in
      if Byte.eqb c """"%byte then POk ([], t)
      else if (byteN c <? 32)%N then json_syntax
      else if (128 <=? byteN c)%N then
        let (ra, rest) := decode_one s in emit (encode_rune (r_rune ra)) rest
      else if negb (Byte.eqb c "\"%byte) then emit [c] t
      else
        match t with
        | [] => json_syntax
        | e :: u =>
          if Byte.eqb e """"%byte then emit [""""%byte] u
          else if Byte.eqb e "\"%byte then emit ["\"%byte] u
          else if Byte.eqb e "/"%byte then emit ["/"%byte] u
          else if Byte.eqb e "b"%byte then emit [x08] u
          else if Byte.eqb e "f"%byte then emit [x0c] u
          else if Byte.eqb e "n"%byte then emit [x0a] u
          else if Byte.eqb e "r"%byte then emit [x0d] u
          else if Byte.eqb e "t"%byte then emit [x09] u
          else if Byte.eqb e "u"%byte then
            match read_hex 4 0 u with
            | None => json_syntax
            | Some (r1, u1) =>
              if is_surrogate r1 then
                match u1 with
                | b0 :: b1 :: u2 =>
                  if Byte.eqb b0 "\"%byte && Byte.eqb b1 "u"%byte then
                    match read_hex 4 0 u2 with
                    | Some (r2, u3) =>
                      match utf16_decode r1 r2 with
                      | Some r => emit (encode_rune r) u3
                      | None => emit (encode_rune rune_error) u1
                      end
                    | None => emit (encode_rune rune_error) u1
                    end
                  else emit (encode_rune rune_error) u1
                | _ => emit (encode_rune rune_error) u1
                end
              else emit (encode_rune r1) u1
            end
          else json_syntax
        end
    end
  end.

Fixpoint take_digits (s : str) : str * str :=
  match s with
  | c :: t => if is_digit c then let (d, r) := take_digits t in (c :: d, r) else ([], s)
  | [] => ([], [])
  end.

(** the JSON number grammar; result is the literal and the rest *)
Definition json_number_text (s : str) : option (str * str) :=
  let '(sg, s0) := match s with
                   | c :: t => if Byte.eqb c "-"%byte then (["-"%byte], t) else ([], s)
                   | [] => ([], s) end in
  match take_digits s0 with
  | ([], _) => None
  | (d :: ds, s1) =>
    (* a leading 0 stands alone *)
    let '(ip, s1) := if Byte.eqb d "0"%byte then ([d], ds ++ s1) else (d :: ds, s1) in
    let frac :=
      match s1 with
      | c :: t =>
        if Byte.eqb c "."%byte then
          match take_digits t with
          | ([], _) => None
          | (fs, s2) => Some ("."%byte :: fs, s2)
          end
        else Some ([], s1)
      | [] => Some ([], [])
      end in
    match frac with
    | None => None
    | Some (fp, s2) =>
      match s2 with
      | c :: t =>
        if Byte.eqb (lower c) "e"%byte then
          let '(es, t1) :=
            match t with
            | c1 :: t' => if Byte.eqb c1 "+"%byte || Byte.eqb c1 "-"%byte then ([c1], t') else ([], t)
            | [] => ([], t)
            end in
          match take_digits t1 with
          | ([], _) => None
          | (xs, s3) => Some (sg ++ ip ++ fp ++ c :: es ++ xs, s3)
          end
        else Some (sg ++ ip ++ fp, s2)
      | [] => Some (sg ++ ip ++ fp, [])
      end
    end
  end.

Definition max_nesting : Z := 10000.

(** a JSON value at the given array/object nesting depth *)
Fixpoint json_value (fuel : nat) (depth : Z) (s : str) : presult (json * str) :=
  match fuel with
  | O => PFuel
  | S f =>
    match skip_ws s with
    | [] => json_syntax
    | c :: t =>
      if Byte.eqb c "["%byte then
        if max_nesting <=? depth then json_syntax
        else match skip_ws t with
             | d :: t' => if Byte.eqb d "]"%byte then POk (JArr [], t')
                          else json_elems f (depth + 1) [] t
             | [] => json_syntax
             end
      else if Byte.eqb c "{"%byte then
        if max_nesting <=? depth then json_syntax
        else match skip_ws t with
             | d :: t' => if Byte.eqb d "}"%byte then POk (JObj, t')
                          else json_members f (depth + 1) t
             | [] => json_syntax
             end
      else if Byte.eqb c """"%byte then
        match json_string (S (length t)) t with
        | POk (r, rest) => POk (JStr r, rest)
        | PErr e => PErr e
        | PFuel => PFuel
        end
      else if has_prefix (c :: t) (bs "null") then POk (JNull, skipn 4 (c :: t))
      else if has_prefix (c :: t) (bs "true") then POk (JBool true, skipn 4 (c :: t))
      else if has_prefix (c :: t) (bs "false") then POk (JBool false, skipn 5 (c :: t))
      else
        match json_number_text (c :: t) with
        | Some (txt, rest) =>
          match parse_float txt with
          | Some x => POk (JNum x, rest)
          | None => json_syntax (* number out of range: UnmarshalTypeError *)
          end
        | None => json_syntax
        end
    end
  end
(** elements of an array, at least one; [acc] reversed *)
with json_elems (fuel : nat) (depth : Z) (acc : list json) (s : str) : presult (json * str) :=
  match fuel with
  | O => PFuel
  | S f =>
    match json_value f depth s with
    | POk (v, rest) =>
      match skip_ws rest with
      | c :: t => if Byte.eqb c ","%byte then json_elems f depth (v :: acc) t
                  else if Byte.eqb c "]"%byte then POk (JArr (rev (v :: acc)), t)
                  else json_syntax
      | [] => json_syntax
      end
    | PErr e => PErr e
    | PFuel => PFuel
    end
  end
(** members of an object, at least one *)
with json_members (fuel : nat) (depth : Z) (s : str) : presult (json * str) :=
  match fuel with
  | O => PFuel
  | S f =>
    match skip_ws s with
    | c :: t =>
      if Byte.eqb c """"%byte then
        match json_string (S (length t)) t with
        | POk (_, rest) =>
          match skip_ws rest with
          | c1 :: t1 =>
            if Byte.eqb c1 ":"%byte then
              match json_value f depth t1 with
              | POk (_, rest2) =>
                match skip_ws rest2 with
                | c2 :: t2 => if Byte.eqb c2 ","%byte then json_members f depth t2
                              else if Byte.eqb c2 "}"%byte then POk (JObj, t2)
                              else json_syntax
                | [] => json_syntax
                end
              | PErr e => PErr e
              | PFuel => PFuel
              end
            else json_syntax
          | [] => json_syntax
          end
        | PErr e => PErr e
        | PFuel => PFuel
        end
      else json_syntax
    | [] => json_syntax
    end
  end.

Definition json_fuel (s : str) : nat := S (length s + length s).

(** json.Unmarshal into interface{}: one value and nothing after it *)
Definition json_decode (s : str) : presult json :=
  match json_value (json_fuel s) 0 s with
  | POk (v, rest) => match skip_ws rest with [] => POk v | _ => json_syntax end
  | PErr e => PErr e
  | PFuel => PFuel
  end.

(** ** edlisp/parser/json.go *)

(** json.go:119-137 convertJSONItem, json.go:91-115 convertJSONArray.  (For an object the
    message goes on with its contents in parentheses, left out here.) *)
Fixpoint convert_item (j : json) : presult value :=
  match j with
  | JStr s => POk (VStr s)
  | JNum f => POk (VNum f)
  | JBool _ => PErr (bs "boolean values are not supported in texted JSON")
  | JNull => PErr (bs "null values are not supported in texted JSON")
  | JObj => PErr (bs "unsupported JSON type: map[string]interface {}")
  | JArr [] => POk (VList [])
  | JArr (j0 :: items) =>
    match j0 with
    | JStr name =>
      match (fix go (i : Z) (l : list json) : presult (list value) :=
               match l with
               | [] => POk []
               | x :: l' =>
                 match convert_item x with
                 | POk v => pbind (go (i + 1) l') (fun vs => POk (v :: vs))
                 | PErr e => PErr (bs "error converting array element " ++ itoa i ++ bs ": " ++ e)
                 | PFuel => PFuel
                 end
               end) 1 items with
      | POk vs => POk (VList (VSym name :: vs))
      | PErr e => PErr e
      | PFuel => PFuel
      end
    | _ => PErr (bs "first element of JSON array must be a string (symbol), got " ++ json_type j0)
    end
  end.

(** json.go:71-86 convertJSONValue *)
Definition convert_value (j : json) : presult value :=
  match j with
  | JArr _ => convert_item j
  | JStr s => POk (VSym s)
  | JNum f => POk (VNum f)
  | JBool _ | JNull => PErr (bs "unsupported JSON type: " ++ json_type j)
  | JObj => PErr (bs "unexpected JSON type: " ++ json_type j)
  end.

(** json.go:145-187 validateJSONValue: [None] is no error *)
Fixpoint validate (j : json) (top : bool) : option str :=
  match j with
  | JArr [] => None
  | JArr (j0 :: items) =>
    match j0 with
    | JStr _ =>
      (fix go (i : Z) (l : list json) : option str :=
         match l with
         | [] => None
         | x :: l' =>
           match validate x false with
           | Some e => Some (bs "invalid element at index " ++ itoa i ++ bs ": " ++ e)
           | None => go (i + 1) l'
           end
         end) 1 items
    | _ => Some (bs "first element of array must be string, got " ++ json_type j0)
    end
  | JStr _ => if top then Some (bs "top-level strings are not allowed in texted JSON") else None
  | JNum _ => if top then Some (bs "top-level numbers are not allowed in texted JSON") else None
  | JBool _ | JNull => Some (bs "boolean and null values are not supported in texted JSON")
  | JObj => Some (bs "objects are not supported in texted JSON")
  end.

(** json.go:53-67 the loop of ParseJSONString *)
Fixpoint convert_program (i : Z) (l : list json) : presult (list value) :=
  match l with
  | [] => POk []
  | j :: l' =>
    match validate j true with
    | Some e => PErr (bs "invalid format at index " ++ itoa i ++ bs ": " ++ e)
    | None => pbind (convert_value j) (fun v =>
              pbind (convert_program (i + 1) l') (fun vs => POk (v :: vs)))
    end
  end.

(** encoding/json's names for kinds of values, in UnmarshalTypeError *)
Definition json_kind (j : json) : str :=
  match j with
  | JNull => bs "null"
  | JBool _ => bs "bool"
  | JNum _ => bs "number"
  | JStr _ => bs "string"
  | JArr _ => bs "array"
  | JObj => bs "object"
  end.
(** json.go:46-68 ParseJSONString: the text must be one JSON array (or null, which
    unmarshals into an empty slice) *)
Definition parse_json_string (s : str) : presult (list value) :=
  match json_decode s with
  | POk (JArr l) => convert_program 0 l
  | POk JNull => POk []
  | POk j => PErr (bs "JSON unmarshal error: json: cannot unmarshal " ++ json_kind j ++ bs " into Go value of type []interface {}")
  | PErr e => PErr (bs "JSON unmarshal error: " ++ e)
  | PFuel => PFuel
  end.

(** json.go:20-43 ParseJSONReader on a string reader: values are decoded one after the other,
    and each is converted before the next is decoded; fuel: every value is at least a byte *)
Fixpoint json_loop (fuel : nat) (s : str) : presult (list value) :=
  match fuel with
  | O => PFuel
  | S f =>
    match skip_ws s with
    | [] => POk []
    | s' =>
      match json_value (json_fuel s') 0 s' with
      | POk (j, rest) => pbind (convert_value j) (fun v => pbind (json_loop f rest) (fun vs => POk (v :: vs)))
      | PErr e => PErr (bs "JSON decode error: " ++ e)
      | PFuel => PFuel
      end
    end
  end.
Definition parse_json_reader (s : str) : presult (list value) := json_loop (S (length s)) s.

(** ** edlisp/writer/json.go:40-61 valueToJSON (total on the four kinds) *)
Fixpoint value_to_json (v : value) : json :=
  match v with
  | VList l => JArr (map value_to_json l)
  | VSym n => JStr n
  | VStr s => JStr s
  | VNum f => JNum f
  end.

(** ** Encoding text (encoding/json with HTML escaping, as json.NewEncoder does) *)

Definition json_escape_rune (ra : rune_at) : str :=
  let r := r_rune ra in
  if r_bad ra then bs "\ufffd"
  else if (r =? 34)%N || (r =? 92)%N then "\"%byte :: r_bytes ra
  else if (r =? 8)%N then bs "\b"
  else if (r =? 12)%N then bs "\f"
  else if (r =? 10)%N then bs "\n"
  else if (r =? 13)%N then bs "\r"
  else if (r =? 9)%N then bs "\t"
  else if (r <? 32)%N || (r =? 60)%N || (r =? 62)%N || (r =? 38)%N || (r =? 8232)%N || (r =? 8233)%N
  then bs "\u" ++ hex_digits 4 r
  else r_bytes ra.
Definition json_quote (s : str) : str :=
  """"%byte :: flat_map json_escape_rune (runes s) ++ [""""%byte].

(** encoding/json floatEncoder: shortest digits, exponent form below 1e-6 and from 1e21,
    two-digit negative exponents shortened *)
Definition json_fmt (neg : bool) (n k : Z) : str :=
  let digits := itoa n in
  let dp := zlen digits + k in
  let exp := dp - 1 in
  if (exp <? -6) || (21 <=? exp) then
    let mant := match digits with
                | [] => bs "0"
                | [d] => [d]
                | d :: ds => d :: "."%byte :: ds
                end in
    let ae := Z.abs exp in
    (if neg then ["-"%byte] else []) ++ mant ++
    ["e"%byte; if exp <? 0 then "-"%byte else "+"%byte] ++
    (if (ae <? 10) && (0 <=? exp) then "0"%byte :: itoa ae else itoa ae)
  else fmt_f neg digits dp.
Definition json_cand_text (neg : bool) (c : Z * Z) : str :=
  let '(n, k) := strip_zeros 400 (fst c) (snd c) in json_fmt neg n k.

(** the literal is a complete JSON number that reads back as [f] *)
Definition json_parses_to (t : str) (f : spec_float) : bool :=
  match json_number_text t with
  | Some (txt, []) => parses_to txt f
  | _ => false
  end.
Fixpoint json_shortest (fuel : nat) (f : spec_float) (neg : bool) (num den dp nd : Z) : option str :=
  match fuel with
  | O => None
  | S fuel' =>
    match find (fun t => json_parses_to t f) (map (json_cand_text neg) (candidates num den dp nd)) with
    | Some t => Some t
    | None => json_shortest fuel' f neg num den dp (nd + 1)
    end
  end.

(** [None]: NaN and infinities are an UnsupportedValueError.  The exact-expansion branch
    is as in Strconv.fmt_g_finite. *)
Definition json_number (f : spec_float) : option str :=
  match f with
  | S754_nan | S754_infinity _ => None
  | S754_zero s => Some (if s then bs "-0" else bs "0")
  | S754_finite neg m e =>
    let '(num, den) := frac m e in
    match json_shortest 17 f neg num den (dec_point num den) 1 with
    | Some t => Some t
    | None =>
      Some ((if neg then ["-"%byte] else []) ++
            (if 0 <=? e then itoa num else itoa (Zpos m * 5 ^ (- e)) ++ "e"%byte :: itoa e))
    end
  end.

Fixpoint json_encode (j : json) : option str :=
  match j with
  | JNull => Some (bs "null")
  | JBool b => Some (if b then bs "true" else bs "false")
  | JNum f => json_number f
  | JStr s => Some (json_quote s)
  | JArr l =>
    match (fix go (l : list json) : option (list str) :=
             match l with
             | [] => Some []
             | x :: l' => match json_encode x, go l' with
                          | Some t, Some ts => Some (t :: ts)
                          | _, _ => None
                          end
             end) l with
    | Some ts => Some ("["%byte :: join [","%byte] ts ++ ["]"%byte])
    | None => None
    end
  | JObj => Some (bs "{}") (* never produced by value_to_json *)
  end.

(** encoding/json UnsupportedValueError: the first number (in the order of the text) that JSON
    cannot express, as strconv.FormatFloat(f, 'g', -1, 64) shows it *)
Definition first_some (l : list (option str)) : option str :=
  fold_right (fun o r => match o with Some t => Some t | None => r end) None l.
Fixpoint json_unsupported (j : json) : option str :=
  match j with
  | JNum S754_nan => Some (bs "NaN")
  | JNum (S754_infinity false) => Some (bs "+Inf")
  | JNum (S754_infinity true) => Some (bs "-Inf")
  | JArr l => first_some (map json_unsupported l)
  | _ => None
  end.
