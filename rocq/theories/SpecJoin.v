(** Two scripts run one after the other, and as one.  Used to state C90; nothing here is used
    by the model, and nothing of the model is used here except the data types. *)
From Coq Require Import ZArith List.
From Verif Require Import Base Ext Values Buffer Eval Spec SpecRewrite.
Import ListNotations.
Open Scope Z_scope.

(** go back to the beginning and put mark there, as at the start of a script *)
Definition start_over : list value := [does "beginning-of-buffer" []; does "set-mark" []].
Definition start_over_line : str := bs "beginning-of-buffer; set-mark".

(** same text, point and mark; the last match may differ as long as the first state has none *)
Definition linked (b b' : buffer) : Prop :=
  content b = content b' /\ point b = point b' /\ mark b = mark b' /\ (last_match b <> [] -> b = b').
(** runs that end alike, but for the last match; the first does not miss a search *)
Inductive follows : eval_result -> eval_result -> Prop :=
| fo_done v b b' : linked b b' -> follows (EvDone v b) (EvDone v b')
| fo_fail x x' b b' : linked b b' -> x_error x = x_error x' -> follows (EvError x b) (EvError x' b')
| fo_no_search x b r : x_error x = bs "no previous search" -> follows (EvError x b) r
| fo_crash : follows EvPanic EvPanic
| fo_memory : follows EvOutOfMemory EvOutOfMemory.
