(** The text buffer (edlisp/eval.go:28-86) and the outcome monad. *)
From Coq Require Import ZArith List Bool Strings.Byte.
From Verif Require Import Base.
Import ListNotations.
Open Scope Z_scope.

(** edlisp/eval.go:28-35 Buffer *)
Record buffer := mkBuffer {
  content : str;
  point : Z;
  mark : Z;
  last_match : str;    (* lastSearchMatch *)
  last_start : Z;      (* lastSearchStart *)
  last_end : Z         (* lastSearchEnd *)
}.

(** edlisp/eval.go:38-44 NewBuffer *)
Definition new_buffer (s : str) : buffer := mkBuffer s 1 1 [] 0 0.

(** Result of running something on a buffer: a value, a Go error (with its text), a Go
    run-time panic, running out of memory, or not terminating.  [Done] and [Fail] carry
    the buffer left behind. *)
Inductive outcome (A : Type) :=
| Done (a : A) (b : buffer)
| Fail (e : str) (b : buffer)
| Panic
| OutOfMemory
| Diverge.
Arguments Done {A} a b.
Arguments Fail {A} e b.
Arguments Panic {A}.
Arguments OutOfMemory {A}.
Arguments Diverge {A}.

Definition M (A : Type) := buffer -> outcome A.
Definition ret {A} (a : A) : M A := fun b => Done a b.
Definition fail {A} (e : str) : M A := fun b => Fail e b.
Definition panic {A} : M A := fun _ => Panic.
Definition diverge {A} : M A := fun _ => Diverge.
Definition bind {A B} (m : M A) (k : A -> M B) : M B :=
  fun b => match m b with
           | Done a b' => k a b'
           | Fail e b' => Fail e b'
           | Panic => Panic
           | OutOfMemory => OutOfMemory
           | Diverge => Diverge
           end.
Notation "x <- m ;; k" := (bind m (fun x => k)) (at level 61, m at next level, right associativity).
Notation "m ;;; k" := (bind m (fun _ => k)) (at level 61, right associativity).

(** edlisp/eval.go:47-69 String, Point, Mark, SetPoint, SetMark *)
Definition get_content : M str := fun b => Done (content b) b.
Definition get_point : M Z := fun b => Done (point b) b.
Definition get_mark : M Z := fun b => Done (mark b) b.
Definition set_point (p : Z) : M unit :=
  fun b => Done tt (mkBuffer (content b) p (mark b) (last_match b) (last_start b) (last_end b)).
Definition set_mark (p : Z) : M unit :=
  fun b => Done tt (mkBuffer (content b) (point b) p (last_match b) (last_start b) (last_end b)).
Definition set_search (m : str) (s e : Z) : M unit :=
  fun b => Done tt (mkBuffer (content b) (point b) (mark b) m s e).
Definition get_search : M (str * Z * Z) :=
  fun b => Done (last_match b, last_start b, last_end b) b.

(** Allocating a string beyond the address space fails. *)
Definition alloc (s : str) : M str :=
  fun b => if max_alloc <? zlen s then OutOfMemory else Done s b.

(** buffer.content.Reset(); buffer.content.WriteString(s) *)
Definition set_content (s : str) : M unit :=
  s' <- alloc s ;;
  fun b => Done tt (mkBuffer s' (point b) (mark b) (last_match b) (last_start b) (last_end b)).

(** s[i:j], s[:j], s[i:], s[i] *)
Definition slice_m (s : str) (i j : Z) : M str :=
  match slice s i j with Some t => ret t | None => panic end.
Definition slice_to (s : str) (j : Z) : M str := slice_m s 0 j.
Definition slice_from (s : str) (i : Z) : M str := slice_m s i (zlen s).
Definition index_m (s : str) (i : Z) : M byte :=
  match index s i with Some c => ret c | None => panic end.

(** edlisp/eval.go:72-86 Buffer.Insert *)
Definition buf_insert (text : str) : M unit :=
  c <- get_content ;;
  p <- get_point ;;
  (if p <=? 1 then set_content (text ++ c)
   else if zlen c + 1 <? p then set_content (c ++ text)
   else
     l <- slice_to c (wrap (p - 1)) ;;
     r <- slice_from c (wrap (p - 1)) ;;
     set_content (l ++ text ++ r)) ;;;
  set_point (wrap (p + zlen text)).

(** Loops over the text.  [fuel] bounds the number of iterations; running out is the
    outcome [Diverge], which Proofs_Loops.v shows never happens for [S (length c)]. *)

(** for pos < len(c) && p(c[pos]) { pos++ } *)
Fixpoint scan_fwd (fuel : nat) (c : str) (p : byte -> bool) (pos : Z) : M Z :=
  match fuel with
  | O => diverge
  | S f =>
    if pos <? zlen c then
      ch <- index_m c pos ;;
      if p ch then scan_fwd f c p (pos + 1) else ret pos
    else ret pos
  end.

(** for pos > 0 && p(c[pos-1]) { pos-- } *)
Fixpoint scan_bwd (fuel : nat) (c : str) (p : byte -> bool) (pos : Z) : M Z :=
  match fuel with
  | O => diverge
  | S f =>
    if 0 <? pos then
      ch <- index_m c (pos - 1) ;;
      if p ch then scan_bwd f c p (pos - 1) else ret pos
    else ret pos
  end.

Definition loop_fuel (c : str) : nat := S (length c).
