(** The library entry points (texted.go) over a model of the file system.

    The file system maps canonical paths to contents; [canon] resolves a file name (two
    names may denote the same file).  Every operation consults an arbitrary fault oracle,
    indexed by the number of operations performed so far, and [w_seen] records every
    durable state the file system went through, newest first: a crash of the process or
    the machine leaves one of them behind. *)
From Coq Require Import ZArith NArith List Bool Strings.Byte.
From Verif Require Import Base Float Ext Utf8 Strconv Values Buffer Builtins Eval Parser Json Writer.
Import ListNotations.
Open Scope Z_scope.

(** What a Go call returns: a value, an error, or it takes the whole process down. *)
Inductive crash := CrashPanic | CrashMemory | CrashHang.
Inductive res (A : Type) :=
| Ok (a : A)
| Err (e : str)
| Crash (c : crash).
Arguments Ok {A} a.
Arguments Err {A} e.
Arguments Crash {A} c.

Definition of_parse (r : presult (list value)) : res (list value) :=
  match r with POk p => Ok p | PErr e => Err e | PFuel => Crash CrashHang end.

(** texted.go:142-149 IsValidFormat *)
Definition is_valid_format (f : str) : bool :=
  str_eqb f (bs "shell") || str_eqb f (bs "sexp") || str_eqb f (bs "json").

(** Parsing and running a program on a fresh buffer: the common part of
    texted.go:20-33 and 42-66 *)
Definition run_program (E : Ext) (input : str) (prog : presult (list value)) : res str :=
  match prog with
  | PErr e => Err (bs "parsing script: " ++ e)
  | PFuel => Crash CrashHang
  | POk p =>
    match eval E (default_env E) p (new_buffer input) with
    | EvDone _ b => Ok (content b)
    | EvError x _ => Err (bs "script execution failed: " ++ exec_error_text E x)
    | EvPanic => Crash CrashPanic
    | EvOutOfMemory => Crash CrashMemory
    | EvDiverge => Crash CrashHang
    end
  end.

(** texted.go:19-34 ExecuteScript *)
Definition execute_script (E : Ext) (input script : str) : res str :=
  run_program E input (parse_string script).

(** texted.go:37-67 ExecuteScriptWithFormat *)
Definition execute_script_fmt (E : Ext) (input script format : str) : res str :=
  if is_valid_format format then
    if str_eqb format (bs "json") then run_program E input (parse_json_string script)
    else run_program E input (parse_string script)
  else Err (bs "invalid script format: " ++ format ++ bs " (must be shell, sexp, or json)").

(** ** The operating system *)
Definition fs := str -> option str.
Definition upd (f : fs) (k : str) (c : str) : fs :=
  fun k' => if str_eqb k' k then Some c else f k'.

(** The behaviour of the operating system: file name resolution and, for the n-th
    operation, whether it fails. *)
Record OS := {
  canon : str -> str;
  (** reading fails although the file exists (permissions, I/O error) *)
  os_read_err : nat -> option str;
  (** error text for a missing file *)
  os_missing : str -> str;
  (** opening for writing fails, nothing happens *)
  os_open_err : nat -> option str;
  (** writing fails after the given number of bytes *)
  os_write_err : nat -> option (nat * str);
  (** reading standard input, writing standard output *)
  os_stdin_err : nat -> option str;
  os_stdout_err : nat -> option str
}.

Record world := mkWorld {
  w_fs : fs;
  w_seen : list fs;      (* durable states so far, newest first, current one included *)
  w_ops : nat;
  w_stdin : str;
  w_stdin_read : bool;   (* has standard input been read? *)
  w_stdout : str
}.
Definition init_world (f : fs) (stdin : str) : world := mkWorld f [f] 0 stdin false [].

Definition IO (A : Type) := world -> res A * world.
Definition io_ret {A} (a : A) : IO A := fun w => (Ok a, w).
Definition io_fail {A} (e : str) : IO A := fun w => (Err e, w).
Definition io_bind {A B} (m : IO A) (k : A -> IO B) : IO B :=
  fun w => match m w with
           | (Ok a, w') => k a w'
           | (Err e, w') => (Err e, w')
           | (Crash c, w') => (Crash c, w')
           end.
(** r, err := m; continue with either *)
Definition io_try {A B} (m : IO A) (k : res A -> IO B) : IO B :=
  fun w => match m w with
           | (Crash c, w') => (Crash c, w')
           | (r, w') => k r w'
           end.
Definition io_res {A} (r : res A) : IO A := fun w => (r, w).

Definition tick (w : world) : world :=
  mkWorld (w_fs w) (w_seen w) (S (w_ops w)) (w_stdin w) (w_stdin_read w) (w_stdout w).
Definition set_fs (f : fs) (w : world) : world :=
  mkWorld f (f :: w_seen w) (w_ops w) (w_stdin w) (w_stdin_read w) (w_stdout w).

(** os.ReadFile *)
Definition os_read_file (os : OS) (name : str) : IO str :=
  fun w =>
    let w' := tick w in
    match w_fs w (canon os name) with
    | None => (Err (os_missing os name), w')
    | Some c =>
      match os_read_err os (w_ops w) with
      | Some e => (Err e, w')
      | None => if max_alloc <? zlen c then (Crash CrashMemory, w') else (Ok c, w')
      end
    end.

(** the durable states while the first [n] bytes of [c] are written to a truncated file *)
Fixpoint write_states (key c : str) (n : nat) (w : world) : world :=
  match n with
  | O => set_fs (upd (w_fs w) key []) w
  | S n' => let w' := write_states key c n' w in set_fs (upd (w_fs w') key (firstn n c)) w'
  end.

(** os.WriteFile(name, c, 0644): open with O_TRUNC|O_CREATE, then write; the file is
    empty, then holds longer and longer prefixes of [c] *)
Definition os_write_file (os : OS) (name c : str) : IO unit :=
  fun w =>
    let w' := tick w in
    match os_open_err os (w_ops w) with
    | Some e => (Err e, w')
    | None =>
      match os_write_err os (w_ops w) with
      | Some (k, e) => (Err e, write_states (canon os name) c (Nat.min k (length c)) w')
      | None => (Ok tt, write_states (canon os name) c (length c) w')
      end
    end.

(** io.ReadAll(os.Stdin) *)
Definition os_read_stdin (os : OS) : IO str :=
  fun w =>
    let w' := mkWorld (w_fs w) (w_seen w) (S (w_ops w)) [] true (w_stdout w) in
    match os_stdin_err os (w_ops w) with
    | Some e => (Err e, w')
    | None => if max_alloc <? zlen (w_stdin w) then (Crash CrashMemory, w') else (Ok (w_stdin w), w')
    end.

(** fmt.Printf to standard output (errors ignored by the callers) *)
Definition print (s : str) : IO unit :=
  fun w => (Ok tt, mkWorld (w_fs w) (w_seen w) (w_ops w) (w_stdin w) (w_stdin_read w) (w_stdout w ++ s)).
(** os.Stdout.WriteString, whose error is reported *)
Definition os_write_stdout (os : OS) (s : str) : IO unit :=
  fun w =>
    let w' := tick w in
    match os_stdout_err os (w_ops w) with
    | Some e => (Err e, w')
    | None => print s w'
    end.

(** ** texted.go *)

(** texted.go:152-158 readFile *)
Definition read_file (os : OS) (name : str) : IO str :=
  io_try (os_read_file os name) (fun r =>
    match r with
    | Err e => io_fail (bs "failed to read file " ++ name ++ bs ": " ++ e)
    | _ => io_res r
    end).

(** texted.go:161-167 writeFile *)
Definition write_file (os : OS) (name c : str) : IO unit :=
  io_try (os_write_file os name c) (fun r =>
    match r with
    | Err e => io_fail (bs "failed to write file " ++ name ++ bs ": " ++ e)
    | _ => io_res r
    end).

(** texted.go:70-82 EditFile *)
Definition edit_file (E : Ext) (os : OS) (name script : str) : IO unit :=
  io_bind (read_file os name) (fun c =>
  io_bind (io_res (execute_script E c script)) (fun m =>
  write_file os name m)).

(** texted.go:85-97 EditFileWithFormat *)
Definition edit_file_fmt (E : Ext) (os : OS) (name script format : str) : IO unit :=
  io_bind (read_file os name) (fun c =>
  io_bind (io_res (execute_script_fmt E c script format)) (fun m =>
  write_file os name m)).

(** texted.go:12-16 EditResult: [None] is success *)
Record edit_result := mkResult { r_file : str; r_err : option str }.

(** texted.go:103-117 the loop over the files *)
Fixpoint edit_loop (edit : str -> IO unit) (files : list str) : IO (list edit_result) :=
  match files with
  | [] => io_ret []
  | f :: fs' =>
    io_try (edit f) (fun r =>
      let one := mkResult f (match r with Err e => Some e | _ => None end) in
      io_bind (edit_loop edit fs') (fun rs => io_ret (one :: rs)))
  end.

(** texted.go:100-118 EditFiles, texted.go:121-139 EditFilesWithFormat.  Both return a nil
    error always. *)
Definition edit_files (E : Ext) (os : OS) (files : list str) (script : str) : IO (list edit_result) :=
  edit_loop (fun f => edit_file E os f script) files.
Definition edit_files_fmt (E : Ext) (os : OS) (files : list str) (script format : str) : IO (list edit_result) :=
  edit_loop (fun f => edit_file_fmt E os f script format) files.
