(** The evaluator: edlisp/eval.go, edlisp/error.go. *)
From Coq Require Import ZArith List Bool Strings.Byte.
From Verif Require Import Base Float Ext Utf8 Strconv Values Buffer Builtins.
Import ListNotations.
Open Scope Z_scope.

(** edlisp/eval.go:22-25 Environment: a map from names to functions *)
Definition env := str -> option builtin.

(** edlisp/eval.go:162-220 NewDefaultEnvironment *)
Definition default_functions (E : Ext) : list (str * builtin) :=
  [ (bs "insert", b_insert);
    (bs "goto-char", b_goto_char E);
    (bs "goto-line", b_goto_line E);
    (bs "search-forward", b_search_forward);
    (bs "search-backward", b_search_backward);
    (bs "re-search-forward", b_re_search_forward E);
    (bs "end-of-buffer", b_end_of_buffer);
    (bs "set-mark", b_set_mark);
    (bs "mark", b_mark);
    (bs "point", b_point);
    (bs "line-number-at-pos", b_line_number_at_pos);
    (bs "replace-match", b_replace_match);
    (bs "delete-region", b_delete_region);
    (bs "buffer-substring", b_buffer_substring E);
    (bs "mark-word", b_mark_word);
    (bs "replace-region", b_replace_region);
    (bs "region-beginning", b_region_beginning);
    (bs "region-end", b_region_end);
    (bs "forward-char", b_forward_char E);
    (bs "length", b_length);
    (bs "substring", b_substring E);
    (bs "string-match", b_string_match E);
    (bs "backward-char", b_backward_char E);
    (bs "beginning-of-buffer", b_beginning_of_buffer);
    (bs "beginning-of-line", b_beginning_of_line);
    (bs "end-of-line", b_end_of_line);
    (bs "buffer-size", b_buffer_size);
    (bs "point-max", b_point_max);
    (bs "point-min", b_point_min);
    (bs "current-column", b_current_column);
    (bs "upcase", b_upcase E);
    (bs "downcase", b_downcase E);
    (bs "capitalize", b_capitalize E);
    (bs "concat", b_concat);
    (bs "set-mark-command", b_set_mark_command E);
    (bs "exchange-point-and-mark", b_exchange_point_and_mark);
    (bs "mark-whole-buffer", b_mark_whole_buffer);
    (bs "delete-char", b_delete_char E);
    (bs "delete-backward-char", b_delete_backward_char E);
    (bs "forward-word", b_forward_word E);
    (bs "backward-word", b_backward_word E);
    (bs "looking-at", b_looking_at E);
    (bs "looking-back", b_looking_back E);
    (bs "mark-line", b_mark_line E);
    (bs "delete-line", b_delete_line E);
    (bs "kill-line", b_kill_line E);
    (bs "kill-word", b_kill_word E);
    (bs "backward-kill-word", b_backward_kill_word E);
    (bs "re-search-backward", b_re_search_backward E);
    (bs "replace-regexp-in-string", b_replace_regexp_in_string E) ].

Fixpoint lookup {A} (l : list (str * A)) (n : str) : option A :=
  match l with
  | [] => None
  | (k, x) :: l' => if str_eqb n k then Some x else lookup l' n
  end.

Definition default_env (E : Ext) : env := lookup (default_functions E).

(** edlisp/eval.go:117-159 evalExpression.  The case split on kinds is the switch of
    lines 118-158 (a symbol reaches the default case). *)
Fixpoint eval_expr (E : Ext) (env : env) (v : value) : M value :=
  match v with
  | VStr _ => ret v
  | VNum _ => ret v
  | VSym _ => fail (bs "unknown expression type")
  | VList l =>
    match l with
    | [] => fail (bs "empty list")
    | VSym n :: args =>
      match env n with
      | None => fail (bs "undefined-function " ++ quote E n)
      | Some fn =>
        vs <- (fix go (l : list value) : M (list value) :=
                 match l with
                 | [] => ret []
                 | x :: l' => a <- eval_expr E env x ;; r <- go l' ;; ret (a :: r)
                 end) args ;;
        fn vs
      end
    | _ :: _ => fail (bs "first element of list must be a symbol")
    end
  end.

(** edlisp/error.go:9-42 ExecutionError (without the environment pointer) *)
Record exec_error := mkExecError {
  x_error : str;            (* OriginalError *)
  x_program : list value;
  x_instruction : value;
  x_index : Z;
  x_content : str;
  x_point : Z;
  x_mark : Z;
  x_match : str;
  x_start : Z;
  x_end : Z
}.

(** edlisp/error.go:78-92 NewExecutionError *)
Definition new_exec_error (e : str) (program : list value) (i : Z) (instr : value) (b : buffer) : exec_error :=
  mkExecError e program instr i (content b) (point b) (mark b) (last_match b) (last_start b) (last_end b).

(** edlisp/error.go:45-70 Error *)
Definition exec_error_text (E : Ext) (x : exec_error) : str :=
  x_error x ++ bs " (at instruction " ++ itoa (x_index x) ++ bs ": " ++ show E (x_instruction x)
  ++ bs ", point=" ++ itoa (x_point x) ++ bs ", mark=" ++ itoa (x_mark x) ++ bs ")".

(** Result of a whole program. *)
Inductive eval_result :=
| EvDone (v : value) (b : buffer)
| EvError (x : exec_error) (b : buffer)
| EvPanic
| EvOutOfMemory
| EvDiverge.

Section Trace.
(** A trace callback (edlisp/eval.go:19) receives the instruction and the buffer, which
    it may also modify; [T] is whatever else it does. *)
Context {T : Type}.
Definition callback := T -> value -> buffer -> T * buffer.

(** the loop of edlisp/eval.go:97-111 from index [i] on *)
Fixpoint eval_from (E : Ext) (env : env) (cb : option callback) (program : list value)
    (i : Z) (rest : list value) (result : value) (t : T) (b : buffer) : eval_result * T :=
  match rest with
  | [] => (EvDone result b, t)
  | expr :: rest' =>
    match eval_expr E env expr b with
    | Done v b' =>
      let '(t', b'') := match cb with Some f => f t expr b' | None => (t, b') end in
      eval_from E env cb program (i + 1) rest' v t' b''
    | Fail e b' => (EvError (new_exec_error e program i expr b') b', t)
    | Panic => (EvPanic, t)
    | OutOfMemory => (EvOutOfMemory, t)
    | Diverge => (EvDiverge, t)
    end
  end.

(** edlisp/eval.go:94-114 EvalWithTrace *)
Definition eval_with_trace (E : Ext) (env : env) (program : list value) (cb : option callback)
    (t : T) (b : buffer) : eval_result * T :=
  eval_from E env cb program 0 program (VStr []) t b.
End Trace.

(** edlisp/eval.go:89-91 Eval *)
Definition eval (E : Ext) (env : env) (program : list value) (b : buffer) : eval_result :=
  fst (eval_with_trace E env program (@None (@callback unit)) tt b).
