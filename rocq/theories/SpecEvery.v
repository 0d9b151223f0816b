(** Replacing a text everywhere.  Used to state C86; nothing here is used by the model, and
    nothing of the model is used here except the data types. *)
From Coq Require Import ZArith List Bool Strings.Byte.
From Verif Require Import Base Float Ext Values Buffer Spec.
Import ListNotations.
Open Scope Z_scope.

(** [s] does not occur in [t]; [s] occurs in [t] for the first time between [u] and [v] *)
Definition absent (s t : str) : Prop := forall i, ~ occurs_at t s i.
Definition first_at (s t u v : str) : Prop := t = u ++ s ++ v /\ forall i, 0 <= i < zlen u -> ~ occurs_at t s i.
(** the first [s] in [t] replaced by [r]; this done [n] times, each time from the beginning *)
Definition replaced_once (s r t t' : str) : Prop := exists u v, first_at s t u v /\ t' = u ++ r ++ v.
Inductive replaced_times (s r : str) : nat -> str -> str -> Prop :=
| rt_none t : replaced_times s r 0 t t
| rt_more n t t1 t2 : replaced_once s r t t1 -> replaced_times s r n t1 t2 -> replaced_times s r (S n) t t2.
(** every [s] in [t] replaced by [r] in one pass from left to right, as strings.ReplaceAll does *)
Inductive replaced_everywhere (s r : str) : str -> str -> Prop :=
| re_none t : absent s t -> replaced_everywhere s r t t
| re_more t u v v' : first_at s t u v -> replaced_everywhere s r v v' -> replaced_everywhere s r t (u ++ r ++ v').
(** the program: search for [s] and replace what was found by [r] *)
Definition replacing (s r : str) : list value :=
  [VList [VSym (bs "search-forward"); VStr s]; VList [VSym (bs "replace-match"); VStr r]].
