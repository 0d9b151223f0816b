(** A concrete instance of the external behaviour, used for examples only.

    The engine treats a pattern without metacharacters as Go's regexp does (leftmost match,
    successive non-overlapping matches) and rejects every other pattern; case conversion
    and printability cover ASCII; floats outside the int64 range convert as on amd64.
    No theorem about all inputs depends on this file. *)
From Coq Require Import ZArith NArith List Bool Strings.Byte.
From Verif Require Import Base Float Ext.
Import ListNotations.
Open Scope Z_scope.

Definition meta (c : byte) : bool :=
  existsb (Byte.eqb c) (bs "\.+*?()|[]{}^$").

Definition lit_error (p : str) : option str :=
  if existsb meta p then Some (bs "unsupported pattern") else None.
Definition lit_find (p s : str) : option (Z * Z) :=
  let i := str_index s p in if i <? 0 then None else Some (i, i + zlen p).
Fixpoint lit_all (fuel : nat) (p s : str) (off : Z) : list (Z * Z) :=
  match fuel with
  | O => []
  | S f =>
    match lit_find p s with
    | None => []
    | Some (i, j) =>
      (off + i, off + j) ::
      (if (j =? 0) && (zlen s =? 0) then []
       else let k := if j =? 0 then 1 else j in
            lit_all f p (skipn (Z.to_nat k) s) (off + k))
    end
  end.
Definition lit_find_all (p s : str) : list (Z * Z) := lit_all (S (length s)) p s 0.
Fixpoint lit_replace (ms : list (Z * Z)) (s r : str) (off : Z) : str :=
  match ms with
  | [] => s
  | (i, j) :: ms' =>
    firstn (Z.to_nat (i - off)) s ++ r ++ lit_replace ms' (skipn (Z.to_nat (j - off)) s) r j
  end.

Definition ref_ext : Ext := {|
  re_error := lit_error;
  re_find := lit_find;
  re_find_all := lit_find_all;
  re_replace_all := fun p s r => lit_replace (lit_find_all p s) s r 0;
  uc_upper := fun r => r;
  uc_lower := fun r => r;
  uc_print := fun _ => true;
  f2i_oob := fun _ => min_int
|}.
