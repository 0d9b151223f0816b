(** The MCP tools: tools/edit_file.go, tools/texted_eval.go.  A request is modelled by its
    decoded arguments ([None]: missing or of the wrong type); the transport is not. *)
From Coq Require Import ZArith NArith List Bool Strings.Byte.
From Verif Require Import Base Float Ext Utf8 Strconv Values Buffer Builtins Eval Parser Json Writer Files.
Import ListNotations.
Open Scope Z_scope.

(** mcp.NewToolResultText / mcp.NewToolResultError *)
Inductive tool_result := ToolText (s : str) | ToolError (s : str).

Definition failed (r : edit_result) : bool :=
  match r_err r with Some _ => true | None => false end.

(** tools/edit_file.go:100-126 editFilesWithLoop.  The Go loop has no bound: [fuel] is the
    number of rounds we look at, [None] means it is still running after that many.
    [iters] rounds have been completed so far. *)
Fixpoint edit_rounds (fuel : nat) (edit : IO (list edit_result)) (iters : Z) (w : world)
  : option (res (list edit_result * Z) * world) :=
  match fuel with
  | O => None
  | S f =>
    match edit w with
    | (Ok rs, w') =>
      if existsb failed rs then Some (Ok (rs, iters + 1), w')
      else edit_rounds f edit (iters + 1) w'
    | (Err e, w') => Some (Err e, w')
    | (Crash c, w') => Some (Crash c, w')
    end
  end.
Definition edit_files_loop (E : Ext) (os : OS) (fuel : nat) (files : list str) (script : str) (w : world) :=
  edit_rounds fuel (edit_files E os files script) 0 w.

(** tools/edit_file.go:69-96 the report *)
Definition ok_line (r : edit_result) : str :=
  if failed r then [] else bs "✓ Successfully edited " ++ r_file r ++ [nl].
Definition err_line (r : edit_result) : str :=
  match r_err r with
  | Some e => bs "✗ Failed to edit " ++ r_file r ++ bs ": " ++ e ++ [nl]
  | None => []
  end.
Definition edit_report (rs : list edit_result) (iters : Z) : str :=
  if existsb failed rs then
    bs "Completed with errors after " ++ itoa iters ++ bs " iterations:" ++ [nl]
    ++ flat_map ok_line rs ++ flat_map err_line rs
  else
    bs "All files edited successfully after " ++ itoa iters ++ bs " iterations:" ++ [nl]
    ++ flat_map ok_line rs.

(** tools/edit_file.go:37-97 EditFileHandler *)
Record edit_request := mkEditRequest {
  q_script : option str;
  q_files : option (list str);
  q_loop : bool
}.
Definition edit_file_handler (E : Ext) (os : OS) (fuel : nat) (q : edit_request) (w : world)
  : option (res tool_result * world) :=
  match q_script q with
  | None => Some (Ok (ToolError (bs "script parameter required")), w)
  | Some script =>
    match q_files q with
    | None => Some (Ok (ToolError (bs "files parameter required")), w)
    | Some [] => Some (Ok (ToolError (bs "at least one file must be specified")), w)
    | Some files =>
      if q_loop q then
        match edit_files_loop E os fuel files script w with
        | None => None
        | Some (Ok (rs, n), w') => Some (Ok (ToolText (edit_report rs n)), w')
        | Some (Err e, w') => Some (Ok (ToolError (bs "Failed to edit files: " ++ e)), w')
        | Some (Crash c, w') => Some (Crash c, w')
        end
      else
        match edit_files E os files script w with
        | (Ok rs, w') => Some (Ok (ToolText (edit_report rs 1)), w')
        | (Err e, w') => Some (Ok (ToolError (bs "Failed to edit files: " ++ e)), w')
        | (Crash c, w') => Some (Crash c, w')
        end
    end
  end.

(** tools/texted_eval.go:41-89 TextedEvalHandler; [v_output = None] is the default *)
Record eval_request := mkEvalRequest {
  v_input : option str;
  v_script : option str;
  v_output : option str
}.
Definition eval_handler (E : Ext) (q : eval_request) : res tool_result :=
  match v_input q with
  | None => Ok (ToolError (bs "input parameter required"))
  | Some input =>
    match v_script q with
    | None => Ok (ToolError (bs "script parameter required"))
    | Some script =>
      let mode := match v_output q with Some m => m | None => bs "buffer" end in
      if str_eqb mode (bs "buffer") then
        match execute_script E input script with
        | Ok out => Ok (ToolText out)
        | Err e => Ok (ToolError (bs "script execution failed: " ++ e))
        | Crash c => Crash c
        end
      else if str_eqb mode (bs "expression") then
        match parse_string script with
        | PErr e => Ok (ToolError (bs "parsing script: " ++ e))
        | PFuel => Crash CrashHang
        | POk p =>
          match eval E (default_env E) p (new_buffer input) with
          | EvDone v _ => Ok (ToolText (sexp_value E v))
          | EvError x _ => Ok (ToolError (bs "script execution failed: " ++ exec_error_text E x))
          | EvPanic => Crash CrashPanic
          | EvOutOfMemory => Crash CrashMemory
          | EvDiverge => Crash CrashHang
          end
        end
      else Ok (ToolError (bs "output parameter must be 'buffer' or 'expression'"))
    end
  end.
