(** How much a script can make of a text.  Used to state C85; nothing here is used by the
    model, and nothing of the model is used here except the data types. *)
From Coq Require Import ZArith List Bool Strings.Byte.
From Verif Require Import Base Float Ext Values Buffer Eval Spec.
Import ListNotations.
Open Scope Z_scope.

(** the bytes in a value that is at hand; the bytes in all the string literals of an expression *)
Definition bytes_of (v : value) : Z := match v with VStr s => zlen s | _ => 0 end.
Definition total (l : list Z) : Z := fold_right Z.add 0 l.
Fixpoint amount (e : value) : Z :=
  match e with
  | VStr s => zlen s
  | VList l => (fix all l := match l with [] => 0 | x :: l' => amount x + all l' end) l
  | _ => 0
  end.

(** the commands that can make more bytes than they are given: two copy part of the text,
    three replace every character by one of up to four bytes *)
Definition copying : list str := [bs "delete-char"; bs "buffer-substring"].
Definition recoding : list str := [bs "upcase"; bs "downcase"; bs "capitalize"].
Definition multiplier (n : str) : Z :=
  if existsb (str_eqb n) recoding then 4 else if existsb (str_eqb n) copying then 2 else 1.
Fixpoint factor (e : value) : Z :=
  match e with
  | VSym n => multiplier n
  | VList l => (fix all l := match l with [] => 1 | x :: l' => factor x * all l' end) l
  | _ => 1
  end.
Definition amounts (p : list value) : Z := amount (VList p).
Definition factors (p : list value) : Z := factor (VList p).
(** the largest size of a text that the program [p] can make of one of [n] bytes *)
Definition limit (p : list value) (n : Z) : Z := factors p * (n + amounts p).

(** no bound is claimed for replace-regexp-in-string, whose result the regexp engine makes *)
Fixpoint mentions (n : str) (e : value) : Prop :=
  match e with
  | VSym m => m = n
  | VList l => (fix any l := match l with [] => False | x :: l' => mentions n x \/ any l' end) l
  | _ => False
  end.
Definition bounded (p : list value) : Prop := ~ mentions (bs "replace-regexp-in-string") (VList p).
(** programs that only write what they bring along *)
Definition frugal (p : list value) : Prop :=
  bounded p /\ Forall (fun n => ~ mentions n (VList p)) (copying ++ recoding).

(** the commands that may lengthen the text *)
Definition lengthening : list str := [bs "insert"; bs "replace-match"; bs "replace-region"; bs "delete-char"].
(** the instruction that inserts the whole text into itself *)
Definition double : value :=
  VList [VSym (bs "insert"); VList [VSym (bs "buffer-substring"); VInt 1; VInt (-1)]].
