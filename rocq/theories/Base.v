(** Byte strings, 64-bit integers and the Go string helpers the code uses.

    Go's [string] is a list of bytes; Go's [int] is [Z] with explicit wrap-around
    (64-bit platform).  The string functions of Go's [strings] package are modelled
    from their documentation (they are library code, not part of /repo). *)
From Coq Require String.
From Coq Require Import ZArith NArith List Bool Lia.
From Coq Require Import Strings.Byte.
From Coq Require Decimal DecimalN.
Import ListNotations.
Open Scope Z_scope.

Definition str := list byte.

(** String literals. *)
Definition bs (s : String.string) : str := String.list_byte_of_string s.
Export String.StringSyntax.
Arguments bs s%string_scope.

Definition byteN (b : byte) : N := Byte.to_N b.
Definition byte_of_N (n : N) : byte :=
  match Byte.of_N n with Some b => b | None => x00 end.

(** [ch >= lo && ch <= hi] on bytes. *)
Definition in_range (lo hi : N) (b : byte) : bool :=
  ((lo <=? byteN b) && (byteN b <=? hi))%N.

Fixpoint str_eqb (a b : str) : bool :=
  match a, b with
  | [], [] => true
  | x :: a', y :: b' => Byte.eqb x y && str_eqb a' b'
  | _, _ => false
  end.

Definition zlen {A} (l : list A) : Z := Z.of_nat (length l).

(** Go int arithmetic on a 64-bit platform wraps around. *)
Definition two63 : Z := 9223372036854775808.
Definition two64 : Z := 18446744073709551616.
Definition wrap (z : Z) : Z := (z + two63) mod two64 - two63.
Definition min_int : Z := - two63.
Definition max_int : Z := two63 - 1.
Definition int_ok (z : Z) : Prop := min_int <= z <= max_int.

(** The largest string that can be allocated on a 64-bit machine
    (Go: runtime/malloc.go, maxAlloc = 1<<48 on linux/amd64). *)
Definition max_alloc : Z := 281474976710656.

(** Go slicing [s[a:b]]: [None] is a run-time panic. *)
Definition slice (s : str) (a b : Z) : option str :=
  if (0 <=? a) && (a <=? b) && (b <=? zlen s)
  then Some (firstn (Z.to_nat (b - a)) (skipn (Z.to_nat a) s))
  else None.

(** Go indexing [s[i]]: [None] is a run-time panic. *)
Definition index (s : str) (i : Z) : option byte :=
  if 0 <=? i then nth_error s (Z.to_nat i) else None.

(** strings.HasPrefix / HasSuffix *)
Fixpoint has_prefix (s p : str) : bool :=
  match p, s with
  | [], _ => true
  | x :: p', y :: s' => Byte.eqb x y && has_prefix s' p'
  | _ :: _, [] => false
  end.
Definition has_suffix (s p : str) : bool := has_prefix (rev s) (rev p).

(** strings.Index: offset of the first occurrence or -1. *)
Fixpoint str_index_from (s p : str) (i : Z) : Z :=
  if has_prefix s p then i else
  match s with
  | [] => -1
  | _ :: s' => str_index_from s' p (i + 1)
  end.
Definition str_index (s p : str) : Z := str_index_from s p 0.

(** strings.LastIndex: offset of the last occurrence or -1 (len(s) for the empty needle). *)
Fixpoint str_last_index_from (s p : str) (i best : Z) : Z :=
  let best' := if has_prefix s p then i else best in
  match s with
  | [] => best'
  | _ :: s' => str_last_index_from s' p (i + 1) best'
  end.
Definition str_last_index (s p : str) : Z := str_last_index_from s p 0 (-1).

(** strings.Contains *)
Definition str_contains (s p : str) : bool := 0 <=? str_index s p.

(** strings.Split(s, sep) for a one-byte separator *)
Fixpoint split_byte (sep : byte) (s : str) : list str :=
  match s with
  | [] => [[]]
  | c :: s' =>
    if Byte.eqb c sep then [] :: split_byte sep s'
    else match split_byte sep s' with
         | l :: ls => (c :: l) :: ls
         | [] => [[c]]
         end
  end.

(** strings.Join(parts, sep) *)
Fixpoint join (sep : str) (parts : list str) : str :=
  match parts with
  | [] => []
  | [p] => p
  | p :: ps => p ++ sep ++ join sep ps
  end.

(** %d of a non-negative integer. *)
Fixpoint uint_bytes (d : Decimal.uint) : str :=
  match d with
  | Decimal.Nil => []
  | Decimal.D0 d' => "0"%byte :: uint_bytes d'
  | Decimal.D1 d' => "1"%byte :: uint_bytes d'
  | Decimal.D2 d' => "2"%byte :: uint_bytes d'
  | Decimal.D3 d' => "3"%byte :: uint_bytes d'
  | Decimal.D4 d' => "4"%byte :: uint_bytes d'
  | Decimal.D5 d' => "5"%byte :: uint_bytes d'
  | Decimal.D6 d' => "6"%byte :: uint_bytes d'
  | Decimal.D7 d' => "7"%byte :: uint_bytes d'
  | Decimal.D8 d' => "8"%byte :: uint_bytes d'
  | Decimal.D9 d' => "9"%byte :: uint_bytes d'
  end.
Definition utoa (n : N) : str := uint_bytes (N.to_uint n).

(** %d of an int. *)
Definition itoa (z : Z) : str :=
  match z with
  | Zneg p => "-"%byte :: utoa (Npos p)
  | _ => utoa (Z.to_N z)
  end.

Definition nl : byte := x0a.
Definition is_nl (b : byte) : bool := Byte.eqb b nl.

(** edlisp/helpers.go:4-6 isLetter *)
Definition is_letter (c : byte) : bool :=
  in_range 97 122 c || in_range 65 90 c || in_range 48 57 c.
