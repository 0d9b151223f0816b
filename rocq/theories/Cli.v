(** The commands `texted edit` and `texted parse`: commands/edit.go, commands/parse.go.
    The arguments are the parsed flags; CmdLine.v has the parsing. *)
From Coq Require Import ZArith NArith List Bool Strings.Byte.
From Verif Require Import Base Float Ext Utf8 Strconv Values Buffer Builtins Eval Parser Json Writer Files.
Import ListNotations.
Open Scope Z_scope.

(** commands/edit.go:18-33 runEditArgs, plus the --script and --expression flags read in
    lines 213 and 240 *)
Record edit_args := mkEditArgs {
  a_format : str;          (* --format *)
  a_script : str;          (* --script *)
  a_script_file : str;     (* --file *)
  a_expressions : list str;(* --expression *)
  a_in_place : bool;
  a_output : str;          (* --output *)
  a_backup : str;          (* --backup *)
  a_verbose : bool;
  a_quiet : bool;
  a_dry_run : bool;
  a_shell : bool;
  a_sexp : bool;
  a_json : bool;
  a_output_format : str;
  a_files : list str
}.

Definition nonempty (s : str) : bool := match s with [] => false | _ => true end.

(** fmt.Printf guarded by a flag *)
Definition print_if (c : bool) (s : str) : IO unit := if c then print s else io_ret tt.
Definition io_seq {A} (m : IO unit) (k : IO A) : IO A := io_bind m (fun _ => k).

(** ReadFile / WriteFile with the error wrapped as prefix: %w *)
Definition wrap_err {A} (prefix : str) (m : IO A) : IO A :=
  io_try m (fun r => match r with Err e => io_fail (prefix ++ e) | _ => io_res r end).

(** commands/edit.go:338-345 parsing one expression *)
Definition parse_by_format (format s : str) : presult (list value) :=
  if str_eqb format (bs "json") then parse_json_string s
  else if str_eqb format (bs "shell") || str_eqb format (bs "sexp") then parse_string s
  else PErr (bs "unsupported script format: " ++ format).

(** commands/edit.go:329-398 the loop over the expressions; [i] is the 0-based index.
    (The case of an unknown script format at 343-344 is merged with the parse error; it
    cannot occur, the format was validated at 197.) *)
Fixpoint eval_expressions (E : Ext) (format out_format : str) (verbose quiet : bool) (source : str)
    (i : Z) (exprs : list str) (b : buffer) : IO unit :=
  match exprs with
  | [] => io_ret tt
  | e :: es =>
    io_seq (print_if (verbose && negb quiet)
       (bs "Evaluating expression " ++ itoa (i + 1) ++ bs " on " ++ source ++ bs ": " ++ e ++ [nl]))
    match parse_by_format format e with
    | PFuel => io_res (Crash CrashHang)
    | PErr msg =>
      io_seq (print_if (negb quiet) (bs "Error parsing expression " ++ itoa (i + 1) ++ bs ": " ++ msg ++ [nl]))
             (io_fail (bs "parsing expression: " ++ msg))
    | POk prog =>
      match eval E (default_env E) prog b with
      | EvPanic => io_res (Crash CrashPanic)
      | EvOutOfMemory => io_res (Crash CrashMemory)
      | EvDiverge => io_res (Crash CrashHang)
      | EvError x _ =>
        io_seq (print_if (negb quiet) (bs "Error in expression " ++ itoa (i + 1) ++ bs ": " ++ exec_error_text E x ++ [nl]))
               (io_fail (exec_error_text E x))
      | EvDone v b' =>
        if quiet then eval_expressions E format out_format verbose quiet source (i + 1) es b'
        else if negb (is_valid_format out_format) then
          io_fail (bs "invalid output format: " ++ out_format ++ bs " (must be shell, sexp, or json)")
        else
          match write_value E out_format (if str_eqb out_format (bs "shell") then VList [v] else v) with
          | POk t => io_seq (print (t ++ [nl]))
                       (eval_expressions E format out_format verbose quiet source (i + 1) es b')
          | PErr msg => io_fail (bs "writing result: " ++ msg)
          | PFuel => io_res (Crash CrashHang)
          end
      end
    end
  end.

(** commands/edit.go:325-400 evaluateExpressionsOnContent *)
Definition eval_on_content (E : Ext) (a : edit_args) (format : str) (content source : str) : IO unit :=
  eval_expressions E format (a_output_format a) (a_verbose a) (a_quiet a) source 0
    (a_expressions a) (new_buffer content).

(** commands/edit.go:295-320 *)
Fixpoint expressions_on_files (E : Ext) (os : OS) (a : edit_args) (format : str) (files : list str) : IO unit :=
  match files with
  | [] => io_ret tt
  | f :: fs' =>
    io_try (os_read_file os f) (fun r =>
      match r with
      | Ok c =>
        io_seq (print_if ((1 <? zlen (a_files a)) && negb (a_quiet a)) (bs "=== " ++ f ++ bs " ===" ++ [nl]))
        (io_seq (eval_on_content E a format c f) (expressions_on_files E os a format fs'))
      | Err e =>
        io_seq (print_if (negb (a_quiet a)) (bs "Error reading " ++ f ++ bs ": " ++ e ++ [nl]))
               (io_fail (bs "reading " ++ f ++ bs ": " ++ e))
      | Crash c => io_res (Crash c)
      end)
  end.

(** commands/edit.go:276-322 runExpressions *)
Definition run_expressions (E : Ext) (os : OS) (a : edit_args) (format : str) : IO unit :=
  match a_files a with
  | [] => io_bind (wrap_err (bs "reading stdin: ") (os_read_stdin os)) (fun c =>
          eval_on_content E a format c (bs "stdin"))
  | files => expressions_on_files E os a format files
  end.

(** commands/edit.go:403-434 processStdin *)
Definition process_stdin (E : Ext) (os : OS) (a : edit_args) (format script : str) : IO unit :=
  io_bind (wrap_err (bs "reading stdin: ") (os_read_stdin os)) (fun c =>
  io_seq (print_if (a_verbose a && negb (a_quiet a))
            (bs "Processing stdin with script in " ++ format ++ bs " format" ++ [nl]))
  (if a_dry_run a then
     print_if (negb (a_quiet a)) (bs "Would process " ++ itoa (zlen c) ++ bs " bytes from stdin" ++ [nl])
   else
     io_bind (io_res (execute_script_fmt E c script format)) (fun r =>
     if nonempty (a_output a) then
       io_seq (print_if (a_verbose a && negb (a_quiet a)) (bs "Writing output to " ++ a_output a ++ [nl]))
              (os_write_file os (a_output a) r)
     else os_write_stdout os r))).

(** commands/edit.go:479-502 processSingleFileToOutput *)
Definition process_to_output (E : Ext) (os : OS) (a : edit_args) (format script file : str) : IO unit :=
  io_seq (print_if (a_verbose a && negb (a_quiet a))
            (bs "Processing " ++ file ++ bs " -> " ++ a_output a ++ [nl]))
  (if a_dry_run a then
     print_if (negb (a_quiet a)) (bs "Would process " ++ file ++ bs " and write to " ++ a_output a ++ [nl])
   else
     io_bind (wrap_err (bs "reading " ++ file ++ bs ": ") (os_read_file os file)) (fun c =>
     io_bind (wrap_err (bs "processing " ++ file ++ bs ": ") (io_res (execute_script_fmt E c script format))) (fun r =>
     os_write_file os (a_output a) r))).

(** commands/edit.go:505-529 processSingleFileToStdout *)
Definition process_to_stdout (E : Ext) (os : OS) (a : edit_args) (format script file : str) : IO unit :=
  io_seq (print_if (a_verbose a && negb (a_quiet a))
            (bs "Processing " ++ file ++ bs " -> stdout" ++ [nl]))
  (if a_dry_run a then
     print_if (negb (a_quiet a)) (bs "Would process " ++ file ++ bs " and write to stdout" ++ [nl])
   else
     io_bind (wrap_err (bs "reading " ++ file ++ bs ": ") (os_read_file os file)) (fun c =>
     io_bind (wrap_err (bs "processing " ++ file ++ bs ": ") (io_res (execute_script_fmt E c script format))) (fun r =>
     os_write_stdout os r))).

(** commands/edit.go:550-604: one file in place; the result says whether it succeeded.
    [report] prints the failure line unless --quiet. *)
Definition report (a : edit_args) (msg : str) : IO bool :=
  io_seq (print_if (negb (a_quiet a)) (bs "✗ " ++ msg ++ [nl])) (io_ret false).

Definition edit_one_in_place (E : Ext) (os : OS) (a : edit_args) (format script file : str) : IO bool :=
  io_try (os_read_file os file) (fun r =>
    match r with
    | Err e => report a (bs "Failed to read " ++ file ++ bs ": " ++ e)
    | Crash c => io_res (Crash c)
    | Ok c =>
      match execute_script_fmt E c script format with
      | Err e => report a (bs "Failed to process " ++ file ++ bs ": " ++ e)
      | Crash k => io_res (Crash k)
      | Ok result =>
        io_try (os_write_file os file result) (fun r =>
          match r with
          | Err e => report a (bs "Failed to write " ++ file ++ bs ": " ++ e)
          | Crash k => io_res (Crash k)
          | Ok _ =>
            io_seq (print_if (negb (a_quiet a)) (bs "✓ Successfully edited " ++ file ++ [nl])) (io_ret true)
          end)
      end
    end).

(** commands/edit.go:550-573: the backup, then the edit *)
Definition in_place_one (E : Ext) (os : OS) (a : edit_args) (format script file : str) : IO bool :=
  if nonempty (a_backup a) then
    let backup := file ++ a_backup a in
    io_seq (print_if (a_verbose a && negb (a_quiet a)) (bs "Creating backup " ++ backup ++ [nl]))
    (io_try (os_read_file os file) (fun r =>
      match r with
      | Err e => report a (bs "Failed to read " ++ file ++ bs " for backup: " ++ e)
      | Crash c => io_res (Crash c)
      | Ok c =>
        io_try (os_write_file os backup c) (fun r =>
          match r with
          | Err e => report a (bs "Failed to create backup " ++ backup ++ bs ": " ++ e)
          | Crash k => io_res (Crash k)
          | Ok _ => edit_one_in_place E os a format script file
          end)
      end))
  else edit_one_in_place E os a format script file.

(** commands/edit.go:534-605 the loop; the result is whether every file succeeded *)
Fixpoint in_place_loop (E : Ext) (os : OS) (a : edit_args) (format script : str) (files : list str) : IO bool :=
  match files with
  | [] => io_ret true
  | f :: fs' =>
    io_seq (print_if (a_verbose a && negb (a_quiet a)) (bs "Processing " ++ f ++ bs " in place" ++ [nl]))
    (io_bind
      (if a_dry_run a then
         io_seq (print_if (negb (a_quiet a))
                   (bs "Would edit " ++ f ++ bs " in place" ++
                    (if nonempty (a_backup a) then bs " (backup to " ++ f ++ a_backup a ++ bs ")" else []) ++ [nl]))
                (io_ret true)
       else in_place_one E os a format script f)
      (fun ok => io_bind (in_place_loop E os a format script fs') (fun rest => io_ret (ok && rest))))
  end.

(** commands/edit.go:532-612 processFilesInPlace *)
Definition process_in_place (E : Ext) (os : OS) (a : edit_args) (format script : str) : IO unit :=
  io_bind (in_place_loop E os a format script (a_files a)) (fun ok =>
  if ok then io_ret tt else io_fail (bs "some files could not be edited")).

(** commands/edit.go:437-476 processFiles *)
Definition process_files (E : Ext) (os : OS) (a : edit_args) (format script : str) : IO unit :=
  match a_files a with
  | [f] =>
    if nonempty (a_output a) then process_to_output E os a format script f
    else if negb (a_in_place a) then process_to_stdout E os a format script f
    else process_in_place E os a format script
  | _ =>
    if negb (a_in_place a) && negb (nonempty (a_output a))
    then io_fail (bs "multiple files require --in-place or --output flag")
    else process_in_place E os a format script
  end.

(** commands/edit.go:188-194 *)
Definition effective_format (a : edit_args) : str :=
  if a_shell a then bs "shell" else if a_sexp a then bs "sexp"
  else if a_json a then bs "json" else a_format a.

(** commands/edit.go:186-273 runEdit *)
Definition run_edit (E : Ext) (os : OS) (a : edit_args) : IO unit :=
  let format := effective_format a in
  if negb (is_valid_format format) then
    io_fail (bs "invalid script format: " ++ format ++ bs " (must be shell, sexp, or json)")
  else if nonempty (a_output a) && (1 <? zlen (a_files a)) then
    io_fail (bs "--output can only be used with a single file")
  else if nonempty (a_backup a) && negb (a_in_place a) then
    io_fail (bs "--backup can only be used with --in-place")
  else if nonempty (a_output a) && a_in_place a then
    io_fail (bs "--output and --in-place cannot be used together")
  else
    match a_expressions a with
    | _ :: _ => run_expressions E os a format
    | [] =>
      io_bind
        (if nonempty (a_script_file a)
         then wrap_err (bs "reading script file: ") (os_read_file os (a_script_file a))
         else if nonempty (a_script a) then io_ret (a_script a)
         else io_fail (bs "either --script, --file, or --expression must be specified"))
        (fun script =>
           match a_files a with
           | [] => process_stdin E os a format script
           | _ => process_files E os a format script
           end)
    end.

(** commands/parse.go:49-99 runParse, parseInput, writeOutput.  Reading from standard
    input is modelled as reading it completely before parsing. *)
Definition parse_input (format s : str) : presult (list value) :=
  if str_eqb format (bs "json") then parse_json_reader s else parse_string s.

Definition run_parse (E : Ext) (os : OS) (in_format out_format : str) : IO unit :=
  if negb (is_valid_format in_format) then
    io_fail (bs "invalid input format: " ++ in_format ++ bs " (must be shell, sexp, or json)")
  else if negb (is_valid_format out_format) then
    io_fail (bs "invalid output format: " ++ out_format ++ bs " (must be shell, sexp, or json)")
  else
    io_bind (wrap_err (bs "parsing input: ") (os_read_stdin os)) (fun s =>
    match parse_input in_format s with
    | PFuel => io_res (Crash CrashHang)
    | PErr e => io_fail (bs "parsing input: " ++ e)
    | POk p =>
      let '(out, err) := write_program E out_format p in
      io_seq (print out) (match err with None => io_ret tt | Some e => io_fail e end)
    end).
