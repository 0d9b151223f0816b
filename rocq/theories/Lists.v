(** The methods of edlisp.List (edlisp/list.go) on a heap: list objects hold slices, and
    slices share arrays.  Everywhere else in the model a list is the sequence of its
    elements; here it is a pointer.  Elements are interface values: [None] is nil.
    Receivers are never nil, and arrays of any size can be allocated (simplified). *)
From Coq Require Import ZArith List Bool.
From Verif Require Import Base.
Import ListNotations.
Open Scope Z_scope.

Section Lists.
Variable elem : Type.

(** a Go slice: an array, where it starts there, and its length (the capacity never
    matters: list.go does not use append on Elements) *)
Record slice := mkSlice { s_arr : nat; s_off : nat; s_len : nat }.
(** the arrays and the List structs (list.go:19-22) allocated so far; a pointer is an index *)
Record heap := mkHeap { h_arrays : list (list (option elem)); h_lists : list slice }.

(** the slice held by a list *)
Definition field (h : heap) (p : nat) : slice := nth p (h_lists h) (mkSlice 0 0 0).
(** the elements seen through a slice *)
Definition view (h : heap) (s : slice) : list (option elem) :=
  firstn (s_len s) (skipn (s_off s) (nth (s_arr s) (h_arrays h) [])).
(** list.go:21 list.Elements *)
Definition elements (h : heap) (p : nat) : list (option elem) := view h (field h p).

(** &List{Elements: s} *)
Definition alloc_list (s : slice) (h : heap) : nat * heap :=
  (length (h_lists h), mkHeap (h_arrays h) (h_lists h ++ [s])).
(** a new array, and the slice of all of it *)
Definition alloc_array (a : list (option elem)) (h : heap) : slice * heap :=
  (mkSlice (length (h_arrays h)) 0 (length a), mkHeap (h_arrays h ++ [a]) (h_lists h)).
Fixpoint set_nth {A} (n : nat) (x : A) (l : list A) : list A :=
  match l, n with
  | [], _ => []
  | _ :: t, O => x :: t
  | y :: t, S n' => y :: set_nth n' x t
  end.

(** list.go:30-32 NewList called with a slice (xs...): the list keeps that slice *)
Definition new_list (s : slice) (h : heap) : nat * heap := alloc_list s h.
(** list.go:30-32 NewList called with the elements themselves: Go makes an array of them *)
Definition new_list_of (xs : list (option elem)) (h : heap) : nat * heap :=
  let (s, h1) := alloc_array xs h in alloc_list s h1.
(** list.go:35-37 NewEmptyList *)
Definition new_empty_list (h : heap) : nat * heap :=
  let (s, h1) := alloc_array [] h in alloc_list s h1.
(** list.go:53-55 Len *)
Definition list_len (h : heap) (p : nat) : Z := Z.of_nat (s_len (field h p)).
(** list.go:58-60 IsEmpty *)
Definition list_is_empty (h : heap) (p : nat) : bool := Nat.eqb (s_len (field h p)) 0.
(** s[i] within bounds *)
Definition index (h : heap) (s : slice) (i : nat) : option elem :=
  nth (s_off s + i) (nth (s_arr s) (h_arrays h) []) None.
(** list.go:63-68 First *)
Definition list_first (h : heap) (p : nat) : option elem :=
  if Nat.eqb (s_len (field h p)) 0 then None else index h (field h p) 0.
(** list.go:71-76 Rest *)
Definition list_rest (p : nat) (h : heap) : nat * heap :=
  let s := field h p in
  if Nat.leb (s_len s) 1 then new_empty_list h
  else alloc_list (mkSlice (s_arr s) (s_off s + 1) (s_len s - 1)) h.
(** list.go:79-84 Append: make, copy, assignment to the last element *)
Definition list_append (p : nat) (x : option elem) (h : heap) : nat * heap :=
  let n := s_len (field h p) in
  let made := repeat None (n + 1) in
  let copied := elements h p ++ skipn (length (elements h p)) made in
  let (s, h1) := alloc_array (set_nth n x copied) h in
  alloc_list s h1.
(** list.go:87-92 Get *)
Definition list_get (h : heap) (p : nat) (i : Z) : option elem :=
  if (i <? 0) || (Z.of_nat (s_len (field h p)) <=? i) then None else index h (field h p) (Z.to_nat i).

(** not in list.go: a caller assigns to an element, list.Elements[i] = x *)
Definition assign (p i : nat) (x : option elem) (h : heap) : heap :=
  let s := field h p in
  mkHeap (set_nth (s_arr s) (set_nth (s_off s + i) x (nth (s_arr s) (h_arrays h) [])) (h_arrays h)) (h_lists h).

(** the calls that allocate; the others only look *)
Inductive call :=
| CNew (s : slice)
| CNewOf (xs : list (option elem))
| CEmpty
| CRest (p : nat)
| CAppend (p : nat) (x : option elem).
Definition perform (c : call) : heap -> nat * heap :=
  match c with
  | CNew s => new_list s
  | CNewOf xs => new_list_of xs
  | CEmpty => new_empty_list
  | CRest p => list_rest p
  | CAppend p x => list_append p x
  end.
Fixpoint perform_all (cs : list call) (h : heap) : heap :=
  match cs with
  | [] => h
  | c :: cs' => perform_all cs' (snd (perform c h))
  end.
End Lists.
Arguments mkHeap {elem}.
Arguments h_arrays {elem}.
Arguments h_lists {elem}.
Arguments field {elem}.
Arguments view {elem}.
Arguments elements {elem}.
Arguments alloc_list {elem}.
Arguments alloc_array {elem}.
Arguments new_list {elem}.
Arguments new_list_of {elem}.
Arguments new_empty_list {elem}.
Arguments list_len {elem}.
Arguments list_is_empty {elem}.
Arguments index {elem}.
Arguments list_first {elem}.
Arguments list_rest {elem}.
Arguments list_append {elem}.
Arguments list_get {elem}.
Arguments assign {elem}.
Arguments perform {elem}.
Arguments perform_all {elem}.
Arguments CNew {elem}.
Arguments CNewOf {elem}.
Arguments CEmpty {elem}.
Arguments CRest {elem}.
Arguments CAppend {elem}.
