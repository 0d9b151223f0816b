(** Behaviour the code takes from outside /repo, as an explicit parameter.

    Go's [regexp] engine, the Unicode case and printability tables and the result
    of converting a float64 outside the int64 range (which the Go language leaves
    to the implementation) are fields of a record.  No axiom is involved: every
    definition and theorem takes the record as an argument. *)
From Coq Require Import ZArith NArith List Bool.
From Verif Require Import Base Float.
Import ListNotations.
Open Scope Z_scope.

Record Ext := {
  (** regexp.Compile: [Some msg] is the error text, [None] means the pattern is valid *)
  re_error : str -> option str;
  (** re.FindStringIndex(s): byte offsets of the leftmost match *)
  re_find : str -> str -> option (Z * Z);
  (** re.FindAllStringIndex(s, -1) *)
  re_find_all : str -> str -> list (Z * Z);
  (** re.ReplaceAllString(src, repl), arguments pattern, src, repl *)
  re_replace_all : str -> str -> str -> str;
  (** unicode.ToUpper / unicode.ToLower for runes >= 0x80 *)
  uc_upper : N -> N;
  uc_lower : N -> N;
  (** strconv.IsPrint for runes >= 0x80 *)
  uc_print : N -> bool;
  (** unicode.IsSpace needs no oracle; the out-of-range float conversion does *)
  f2i_oob : spec_float -> Z
}.

(** A match reported for subject [s] is a range of [s]. *)
Definition match_ok (s : str) (m : Z * Z) : Prop :=
  0 <= fst m /\ fst m <= snd m /\ snd m <= zlen s.

(** What the proofs need from the engine (documented guarantees of Go's regexp). *)
Record ext_ok (E : Ext) : Prop := {
  ok_find : forall p s m, re_find E p s = Some m -> match_ok s m;
  ok_find_all : forall p s m, In m (re_find_all E p s) -> match_ok s m;
  ok_all_none : forall p s, re_find E p s = None <-> re_find_all E p s = [];
  ok_all_first : forall p s m, re_find E p s = Some m ->
                 exists ms, re_find_all E p s = m :: ms
}.

(** Go conversion int(f).  In range: truncation.  Out of range, infinities and NaN:
    implementation-defined (Go spec, "Conversions between numeric types"); some int. *)
Definition f_to_int (E : Ext) (f : spec_float) : Z :=
  match f_trunc f with
  | Some z => if (min_int <=? z) && (z <=? max_int) then z else wrap (f2i_oob E f)
  | None => wrap (f2i_oob E f)
  end.
