(** float64 as [SpecFloat.spec_float] (precision 53, emax 1024), without axioms. *)
From Coq Require Import ZArith Bool List.
From Coq Require Export Floats.SpecFloat.
From Verif Require Import Base.
Import ListNotations.
Open Scope Z_scope.

Definition prec : Z := 53.
Definition emax : Z := 1024.

Definition f64_valid (f : spec_float) : bool := valid_binary prec emax f.

(** Go conversion float64(i): round to nearest even. *)
Definition f_of_Z (z : Z) : spec_float := binary_normalize prec emax z 0 false.

(** Truncation toward zero of a finite float. *)
Definition f_trunc (f : spec_float) : option Z :=
  match f with
  | S754_zero _ => Some 0
  | S754_finite s m e =>
    let a := if 0 <=? e then Zpos m * 2 ^ e else Zpos m / 2 ^ (- e) in
    Some (if s then - a else a)
  | _ => None
  end.

(** IEEE == (NaN differs from itself, -0 == 0). *)
Definition f_eqb (x y : spec_float) : bool := SFeqb x y.
