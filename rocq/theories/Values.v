(** Values of the script language: edlisp/types.go, symbol.go, string.go, number.go,
    list.go, equal.go. *)
From Coq Require Import ZArith List Bool Strings.Byte.
From Verif Require Import Base Float Ext Utf8 Strconv.
Import ListNotations.
Open Scope Z_scope.

(** edlisp/types.go:11-13 Value; the four kinds implemented in /repo.
    (Value is an open interface; other implementations do not exist in /repo.) *)
Inductive value :=
| VSym (name : str)          (* edlisp/symbol.go:15-17 *)
| VStr (s : str)             (* edlisp/string.go:17-19 *)
| VNum (f : spec_float)      (* edlisp/number.go:17-19 *)
| VList (l : list value).    (* edlisp/list.go:20-22 *)

(** induction with hypotheses for list elements *)
Fixpoint value_ind' (P : value -> Prop)
  (Hsym : forall n, P (VSym n)) (Hstr : forall s, P (VStr s)) (Hnum : forall f, P (VNum f))
  (Hlist : forall l, Forall P l -> P (VList l)) (v : value) : P v :=
  match v with
  | VSym n => Hsym n
  | VStr s => Hstr s
  | VNum f => Hnum f
  | VList l => Hlist l ((fix go l := match l return Forall P l with
                                     | [] => Forall_nil _
                                     | x :: l' => Forall_cons _ (value_ind' P Hsym Hstr Hnum Hlist x) (go l')
                                     end) l)
  end.

(** edlisp/number.go:32-34 NewIntNumber, and NewNumber(float64(i)) *)
Definition VInt (z : Z) : value := VNum (f_of_Z z).

(** The String methods: edlisp/symbol.go:30-32, string.go:32-34 (%q), number.go:37-42,
    list.go:40-50; this is what fmt's %v prints for a Value. *)
Fixpoint show (E : Ext) (v : value) : str :=
  match v with
  | VSym n => n
  | VStr s => quote E s
  | VNum f => num_string E f
  | VList l => match l with
               | [] => bs "()"
               | _ => "("%byte :: join [" "%byte] (map (show E) l) ++ [")"%byte]
               end
  end.

(** edlisp/equal.go:5-57 Equal on non-nil values *)
Fixpoint equal_v (a b : value) : bool :=
  match a, b with
  | VStr x, VStr y => str_eqb x y
  | VNum x, VNum y => f_eqb x y
  | VSym x, VSym y => str_eqb x y
  | VList l, VList m =>
    Nat.eqb (length l) (length m) &&
    (fix go (l m : list value) : bool :=
       match l, m with
       | x :: l', y :: m' => equal_v x y && go l' m'
       | _, _ => true
       end) l m
  | _, _ => false
  end.

(** edlisp/equal.go:5-12: [None] is Go's nil *)
Definition equal (a b : option value) : bool :=
  match a, b with
  | None, None => true
  | Some x, Some y => equal_v x y
  | _, _ => false
  end.
