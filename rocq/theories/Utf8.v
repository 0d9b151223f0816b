(** UTF-8, as in Go's unicode/utf8: decoding with U+FFFD (width 1) for invalid bytes. *)
From Coq Require Import NArith List Bool.
From Coq Require Import Strings.Byte.
From Verif Require Import Base.
Import ListNotations.
Open Scope N_scope.

Definition rune := N.
Definition rune_error : rune := 65533. (* U+FFFD *)

(** utf8.ValidRune *)
Definition valid_rune (r : rune) : bool :=
  (r <? 55296) || ((57343 <? r) && (r <=? 1114111)).

(** utf8.AppendRune (string(rune), Builder.WriteRune): invalid runes become U+FFFD *)
Definition encode_valid (r : rune) : str :=
  if r <=? 127 then [byte_of_N r]
  else if r <=? 2047 then
    [byte_of_N (192 + r / 64); byte_of_N (128 + r mod 64)]
  else if r <=? 65535 then
    [byte_of_N (224 + r / 4096); byte_of_N (128 + (r / 64) mod 64); byte_of_N (128 + r mod 64)]
  else
    [byte_of_N (240 + r / 262144); byte_of_N (128 + (r / 4096) mod 64);
     byte_of_N (128 + (r / 64) mod 64); byte_of_N (128 + r mod 64)].
Definition encode_rune (r : rune) : str :=
  encode_valid (if valid_rune r then r else rune_error).

Definition cont (b : byte) : bool := (128 <=? byteN b) && (byteN b <=? 191).

(** utf8.DecodeRuneInString: rune and width; [None] for the empty string.
    Accepts exactly the well-formed sequences (no overlong forms, no surrogates,
    nothing above U+10FFFF); anything else is (U+FFFD, 1). *)
Definition decode_rune (s : str) : option (rune * nat) :=
  match s with
  | [] => None
  | b0 :: t =>
    let n0 := byteN b0 in
    if n0 <=? 127 then Some (n0, 1%nat)
    else if (194 <=? n0) && (n0 <=? 223) then
      match t with
      | b1 :: _ =>
        if cont b1 then Some ((n0 - 192) * 64 + (byteN b1 - 128), 2%nat)
        else Some (rune_error, 1%nat)
      | _ => Some (rune_error, 1%nat)
      end
    else if (224 <=? n0) && (n0 <=? 239) then
      match t with
      | b1 :: b2 :: _ =>
        let lo := if n0 =? 224 then 160 else 128 in
        let hi := if n0 =? 237 then 159 else 191 in
        if (lo <=? byteN b1) && (byteN b1 <=? hi) && cont b2
        then Some ((n0 - 224) * 4096 + (byteN b1 - 128) * 64 + (byteN b2 - 128), 3%nat)
        else Some (rune_error, 1%nat)
      | _ => Some (rune_error, 1%nat)
      end
    else if (240 <=? n0) && (n0 <=? 244) then
      match t with
      | b1 :: b2 :: b3 :: _ =>
        let lo := if n0 =? 240 then 144 else 128 in
        let hi := if n0 =? 244 then 143 else 191 in
        if (lo <=? byteN b1) && (byteN b1 <=? hi) && cont b2 && cont b3
        then Some ((n0 - 240) * 262144 + (byteN b1 - 128) * 4096
                   + (byteN b2 - 128) * 64 + (byteN b3 - 128), 4%nat)
        else Some (rune_error, 1%nat)
      | _ => Some (rune_error, 1%nat)
      end
    else Some (rune_error, 1%nat)
  end.

(** A decoded rune together with the bytes it came from.  [bad] marks an invalid byte
    (the case width = 1 && r = RuneError). *)
Record rune_at := { r_rune : rune; r_bytes : str; r_bad : bool }.

Definition decode_one (s : str) : rune_at * str :=
  match decode_rune s with
  | Some (r, w) =>
    ({| r_rune := r; r_bytes := firstn w s;
        r_bad := (r =? rune_error) && Nat.eqb w 1 |}, skipn w s)
  | None => ({| r_rune := rune_error; r_bytes := []; r_bad := true |}, [])
  end.

(** for i, c := range s: fuel = len(s) suffices since every step consumes a byte. *)
Fixpoint runes_fuel (fuel : nat) (s : str) : list rune_at :=
  match fuel with
  | O => []
  | S fuel' =>
    match s with
    | [] => []
    | _ => let (r, s') := decode_one s in r :: runes_fuel fuel' s'
    end
  end.
Definition runes (s : str) : list rune_at := runes_fuel (length s) s.

(** unicode.IsSpace: the White_Space property (Latin-1 case and the table) *)
Definition is_space (r : rune) : bool :=
  ((9 <=? r) && (r <=? 13)) || (r =? 32) || (r =? 133) || (r =? 160) || (r =? 5760)
  || ((8192 <=? r) && (r <=? 8202)) || (r =? 8232) || (r =? 8233) || (r =? 8239)
  || (r =? 8287) || (r =? 12288).
