(** What a script needs of the Go library.  Used to state C91; nothing here is used by the
    model, and nothing of the model is used here except the data types. *)
From Coq Require Import ZArith NArith List.
From Verif Require Import Base Float Ext Values Spec SpecLines SpecMeaning SpecGrowth.
Import ListNotations.
Open Scope Z_scope.

(** the commands that use regular expressions, those that change case, and those that take
    numbers *)
Definition patterned : list String.string :=
  ["re-search-forward"; "re-search-backward"; "looking-at"; "looking-back"; "string-match"; "replace-regexp-in-string"]%string.
Definition cased : list String.string := ["upcase"; "downcase"; "capitalize"]%string.
Definition counted : list String.string :=
  ["goto-char"; "goto-line"; "forward-char"; "backward-char"; "forward-word"; "backward-word"; "set-mark-command"; "mark-line"; "delete-char";
   "delete-backward-char"; "kill-word"; "backward-kill-word"; "delete-line"; "kill-line"; "substring"; "buffer-substring"]%string.
Definition needs (names : list String.string) (e : value) : Prop := exists n, In n names /\ mentions (bs n) e.

(** two libraries with the same regular expressions, case tables, conversions of numbers
    that are no 64-bit integers, and printable characters *)
Definition same_regexps (E E' : Ext) : Prop := (forall p, re_error E p = re_error E' p) /\ (forall p s, re_find E p s = re_find E' p s) /\
  (forall p s, re_find_all E p s = re_find_all E' p s) /\ (forall p s r, re_replace_all E p s r = re_replace_all E' p s r).
Definition same_case (E E' : Ext) : Prop := (forall r, uc_upper E r = uc_upper E' r) /\ (forall r, uc_lower E r = uc_lower E' r).
Definition same_numbers (E E' : Ext) : Prop := forall f, f2i_oob E f = f2i_oob E' f.
Definition same_print (E E' : Ext) : Prop := forall r, uc_print E r = uc_print E' r.

(** the libraries agree on what the expression needs; names of commands that do not exist are
    printed in messages *)
Definition enough (E E' : Ext) (e : value) : Prop :=
  (needs patterned e -> same_regexps E E') /\ (needs cased e -> same_case E E') /\ (needs counted e -> same_numbers E E') /\
  ((exists n, mentions n e /\ ~ known n) -> same_print E E').
