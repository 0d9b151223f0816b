(** The three writers: edlisp/writer/{sexp,shell,json,writer}.go.
    The io.Writer itself is taken not to fail. *)
From Coq Require Import ZArith NArith List Bool Strings.Byte.
From Verif Require Import Base Float Ext Utf8 Strconv Values Parser Json.
Import ListNotations.
Open Scope Z_scope.

(** writer/sexp.go:27-30 SExpWriter.WriteValue: fmt.Fprint uses the String method *)
Definition sexp_value (E : Ext) (v : value) : str := show E v.

(** %T of a value *)
Definition type_name (v : value) : str :=
  match v with
  | VSym _ => bs "*edlisp.Symbol"
  | VStr _ => bs "*edlisp.String"
  | VNum _ => bs "*edlisp.Number"
  | VList _ => bs "*edlisp.List"
  end.

(** writer/shell.go:62-75 valueToToken *)
Definition shell_token (E : Ext) (v : value) : presult str :=
  match v with
  | VSym n => POk n
  | VStr s => POk (quote E s)
  | VNum f => POk (num_string E f)
  | VList _ => PErr (bs "nested lists are not supported in shell format")
  end.

(** writer/shell.go:49-56 the loop over the elements *)
Fixpoint shell_tokens (E : Ext) (l : list value) : presult (list str) :=
  match l with
  | [] => POk []
  | v :: l' => pbind (shell_token E v) (fun t => pbind (shell_tokens E l') (fun ts => POk (t :: ts)))
  end.

(** writer/shell.go:39-59 valueToShellString *)
Definition shell_value (E : Ext) (v : value) : presult str :=
  match v with
  | VList [] => POk []
  | VList l => pbind (shell_tokens E l) (fun ts => POk (join [" "%byte] ts))
  | _ => PErr (bs "can only convert lists to shell format, got " ++ type_name v)
  end.

(** writer/json.go:30-37 JSONWriter.WriteValue: Encode appends a newline.  NaN and
    infinities are not representable, and nothing is written of a value that contains one. *)
Definition json_write_value (v : value) : presult str :=
  match json_encode (value_to_json v) with
  | Some t => POk (t ++ [nl])
  | None => PErr (bs "json: unsupported value: " ++ match json_unsupported (value_to_json v) with Some t => t | None => [] end)
  end.

(** writer/writer.go:26-37 NewWriter and WriteValue by format name *)
Definition write_value (E : Ext) (format : str) (v : value) : presult str :=
  if str_eqb format (bs "shell") then shell_value E v
  else if str_eqb format (bs "sexp") then POk (sexp_value E v)
  else if str_eqb format (bs "json") then json_write_value v
  else PErr (bs "unsupported format: " ++ format).

(** The Write methods (writer/sexp.go:14-24, shell.go:16-26, json.go:15-27): what has been
    written, and the error that stopped the writer, if any.  [line] is WriteValue followed
    by Fprintln (for JSON the newline is already part of WriteValue). *)
Fixpoint write_loop (line : value -> presult str) (p : list value) : str * option str :=
  match p with
  | [] => ([], None)
  | v :: p' =>
    match line v with
    | POk t => let '(out, err) := write_loop line p' in (t ++ out, err)
    | PErr e => ([], Some e)
    | PFuel => ([], Some [])
    end
  end.
Definition sexp_line (E : Ext) (v : value) : presult str := POk (sexp_value E v ++ [nl]).
Definition shell_line (E : Ext) (v : value) : presult str :=
  pbind (shell_value E v) (fun t => POk (t ++ [nl])).
Definition write_program (E : Ext) (format : str) (p : list value) : str * option str :=
  if str_eqb format (bs "shell") then write_loop (shell_line E) p
  else if str_eqb format (bs "sexp") then write_loop (sexp_line E) p
  else if str_eqb format (bs "json") then write_loop json_write_value p
  else ([], Some (bs "unsupported output format: " ++ format)).
