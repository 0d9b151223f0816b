(** Vocabulary for runs that touch files. *)
From Coq Require Import ZArith NArith List Bool Strings.Byte.
From Verif Require Import Base Float Ext Utf8 Strconv Values Buffer Builtins Eval Parser Json Writer Files Cli.
Import ListNotations.
Open Scope Z_scope.

(** the same files with the same contents *)
Definition same (s t : fs) : Prop := forall k, s k = t k.
Definition prefix (p s : str) : Prop := exists q, s = p ++ q.

(** [history w w' l]: between [w] and [w'] the file system went through the states [l],
    newest first; a crash in between leaves one of them, or the one of [w], behind *)
Definition history (w w' : world) (l : list fs) : Prop :=
  w_seen w' = l ++ w_seen w /\ w_fs w' = hd (w_fs w) l.
(** not a single write *)
Definition no_write (w w' : world) : Prop := history w w' [].
(** only files in [K] are written *)
Definition writes_only (K : str -> Prop) (w w' : world) : Prop :=
  exists l, history w w' l /\ forall s k, In s l -> ~ K k -> s k = w_fs w k.

(** nothing is printed, standard input is left alone *)
Definition quiet_io (w w' : world) : Prop :=
  w_stdout w' = w_stdout w /\ w_stdin w' = w_stdin w /\ w_stdin_read w' = w_stdin_read w.

(** an operating system on which no operation fails *)
Definition no_faults (os : OS) : Prop :=
  forall n, os_read_err os n = None /\ os_open_err os n = None /\ os_write_err os n = None
    /\ os_stdin_err os n = None /\ os_stdout_err os n = None.

(** the same state of affairs, [n] operations after the start (faults are scheduled by the
    number of operations performed) *)
Definition at_op (n : nat) (w : world) : world :=
  mkWorld (w_fs w) (w_seen w) n (w_stdin w) (w_stdin_read w) (w_stdout w).

(** programs run one after the other on one buffer, with the value of each *)
Inductive session (E : Ext) : list (list value) -> buffer -> list value -> buffer -> Prop :=
| se_nil b : session E [] b [] b
| se_cons p ps b v b1 vs b2 : eval E (default_env E) p b = EvDone v b1 -> session E ps b1 vs b2 ->
    session E (p :: ps) b (v :: vs) b2.

(** [rounds edit k w w']: [k] rounds, each completing with no file failing *)
Inductive rounds (edit : IO (list edit_result)) : nat -> world -> world -> Prop :=
| rs_zero w : rounds edit 0 w w
| rs_next k w w1 w2 rs : rounds edit k w w1 -> edit w1 = (Ok rs, w2) ->
    Forall (fun r => r_err r = None) rs -> rounds edit (S k) w w2.

(** [repeated E script k c c']: the script run [k] times, each time on the previous result *)
Inductive repeated (E : Ext) (script : str) : nat -> str -> str -> Prop :=
| rp_zero c : repeated E script 0 c c
| rp_next k c c1 c2 : repeated E script k c c1 -> execute_script E c1 script = Ok c2 ->
    repeated E script (S k) c c2.

(** ** texted edit *)
(** the script a run of texted edit uses *)
Definition script_of (os : OS) (a : edit_args) (w : world) (script : str) : Prop :=
  (a_script_file a <> [] /\ w_fs w (canon os (a_script_file a)) = Some script) \/
  (a_script_file a = [] /\ a_script a = script /\ script <> []).
(** the format in force *)
Definition format_of (a : edit_args) (format : str) : Prop :=
  a_shell a = true /\ format = bs "shell" \/
  a_shell a = false /\ a_sexp a = true /\ format = bs "sexp" \/
  a_shell a = false /\ a_sexp a = false /\ a_json a = true /\ format = bs "json" \/
  a_shell a = false /\ a_sexp a = false /\ a_json a = false /\ format = a_format a.
(** nothing about progress is printed *)
Definition no_chatter (a : edit_args) : Prop := a_verbose a = false \/ a_quiet a = true.
(** the text a run that is not in place works on: standard input, or the one file *)
Definition input_of (os : OS) (a : edit_args) (w : world) (c : str) : Prop :=
  a_files a = [] /\ c = w_stdin w \/ exists f, a_files a = [f] /\ w_fs w (canon os f) = Some c.

(** ** Tests *)
(** [core] is [s] without its leading and trailing parentheses *)
Definition paren (c : byte) : Prop := c = "("%byte \/ c = ")"%byte.
Definition without_parens (s core : str) : Prop :=
  exists a b, s = a ++ core ++ b /\ Forall paren a /\ Forall paren b /\
    forall c t, core = c :: t \/ core = t ++ [c] -> ~ paren c.

(** the last component of a path: what follows the last slash, trailing slashes ignored *)
Definition last_component (path name : str) : Prop :=
  path = [] /\ name = bs "." \/
  path <> [] /\ (forall c, In c path -> c = "/"%byte) /\ name = bs "/" \/
  exists dir n, path = dir ++ name ++ repeat "/"%byte n /\ name <> [] /\ ~ In "/"%byte name /\
    forall d c, dir = d ++ [c] -> c = "/"%byte.
