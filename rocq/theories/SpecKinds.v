(** What can be told about a script without running it: which kind of value every expression
    gives, and whether every command is given arguments it accepts.  Used to state C87;
    nothing here is used by the model, and nothing of the model is used here except the data
    types. *)
From Coq Require Import ZArith List Strings.Byte.
From Verif Require Import Base Values Spec.
Import ListNotations.

Delimit Scope string_scope with string.
Local Open Scope string_scope.
(** the commands that give a number, and those that give a symbol (or, for string-match, a
    number); all the others give a text *)
Definition counting : list String.string := [
  "point"; "mark"; "point-min"; "point-max"; "buffer-size"; "line-number-at-pos"; "current-column";
  "region-beginning"; "region-end"; "length" ].
Definition asking : list String.string := [ "looking-at"; "looking-back"; "string-match" ].
(** the commands that may fail although they accept their arguments *)
Definition fallible : list String.string := [
  "search-forward"; "search-backward"; "re-search-forward"; "re-search-backward";
  "replace-match"; "replace-regexp-in-string" ].
Local Close Scope string_scope.

(** [None] is a value that is not known to be a text or a number *)
Inductive yields : String.string -> option kind -> Prop :=
| yi_number name : In name counting -> yields name (Some KNumber)
| yi_answer name : In name asking -> yields name None
| yi_text name : ~ In name counting -> ~ In name asking -> yields name (Some KString).
(** arguments of these kinds are accepted *)
Definition admits (s : signature) (ks : list (option kind)) : Prop :=
  match s with
  | OneOf shapes => exists l, In l shapes /\ ks = map Some l
  | AnyNumberOf k => Forall (eq (Some k)) ks
  end.
(** [checked e k]: [e] is in order and gives a value of the kind [k] *)
Inductive checked : value -> option kind -> Prop :=
| ck_text s : checked (VStr s) (Some KString)
| ck_number f : checked (VNum f) (Some KNumber)
| ck_call name s args ks k : In (name, s) signatures -> all_checked args ks -> admits s ks -> yields name k ->
    checked (VList (VSym (bs name) :: args)) k
with all_checked : list value -> list (option kind) -> Prop :=
| ck_none : all_checked [] []
| ck_more e es k ks : checked e k -> all_checked es ks -> all_checked (e :: es) (k :: ks).
Definition in_order (e : value) : Prop := exists k, checked e k.

(** the value is of the kind *)
Definition of_kind (k : option kind) (v : value) : Prop :=
  match k with Some k => has_kind k v | None => v = VSym (bs "t") \/ v = VSym (bs "nil") \/ has_kind KNumber v end.

(** the answer of string-match is nowhere the argument of a command *)
Inductive plain : value -> Prop :=
| pn_symbol n : plain (VSym n)
| pn_text s : plain (VStr s)
| pn_number f : plain (VNum f)
| pn_list h args : Forall plain args -> (forall l, ~ In (VList (VSym (bs "string-match") :: l)) args) -> plain (VList (h :: args))
| pn_empty : plain (VList []).
(** no command is called that may fail on arguments it accepts *)
Definition certain (e : value) : Prop := forall name, In name fallible -> ~ called (bs name) e.
