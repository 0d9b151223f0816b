(** When two runs come to the same.  Used to state C89; nothing here is used by the model,
    and nothing of the model is used here except the data types. *)
From Coq Require Import ZArith List.
From Verif Require Import Base Ext Values Buffer Eval Spec SpecManual.
Import ListNotations.
Open Scope Z_scope.

(** the runs end in the same way and leave the same text, point, mark and match; if they
    fail they give the same reason.  The value and the instruction blamed may differ. *)
Inductive alike : eval_result -> eval_result -> Prop :=
| both_finish v v' b : alike (EvDone v b) (EvDone v' b)
| both_fail x x' b : x_error x = x_error x' -> alike (EvError x b) (EvError x' b)
| both_crash : alike EvPanic EvPanic
| both_lack_memory : alike EvOutOfMemory EvOutOfMemory
| both_endless : alike EvDiverge EvDiverge.

(** an instruction *)
Definition does (name : String.string) (args : list value) : value := VList (VSym (bs name) :: args).
Arguments does name%string_scope args.

(** a state with point in the text *)
Definition inside (b : buffer) : Prop := machine b /\ valid_pos (content b) (point b).
(** the region holds text *)
Definition selecting (b : buffer) : Prop := inside b /\ valid_pos (content b) (mark b) /\ mark b <> point b.

(** instructions that only move point, whatever the state *)
Inductive moves (E : Ext) : value -> Prop :=
| mv_goto_char f : moves E (does "goto-char" [VNum f])
| mv_goto_line f : moves E (does "goto-line" [VNum f])
| mv_forward args n : count_arg E args n -> moves E (does "forward-char" args)
| mv_backward args n : count_arg E args n -> moves E (does "backward-char" args)
| mv_plain name : In name ["beginning-of-buffer"; "end-of-buffer"; "beginning-of-line"; "end-of-line"]%string -> moves E (does name []).
(** those of them for which it does not matter where point was *)
Inductive places : value -> Prop :=
| pl_goto_char f : places (does "goto-char" [VNum f])
| pl_goto_line f : places (does "goto-line" [VNum f])
| pl_beginning : places (does "beginning-of-buffer" [])
| pl_end : places (does "end-of-buffer" []).
(** instructions that only look *)
Definition looks : list String.string :=
  ["point"; "mark"; "point-min"; "point-max"; "buffer-size"; "region-beginning"; "region-end"; "line-number-at-pos"; "current-column"]%string.
