(** The list-valued flags: --expression/-e of `texted edit` (commands/edit.go:163, read at
    213) and --include/-i of `texted test` (commands/test.go:57).  Both are string slices
    of github.com/spf13/pflag v1.0.6 (go.mod), which reads every value as one record of
    Go's encoding/csv.  The sources of these two libraries are not in /repo; the model
    follows pflag's string_slice.go (readAsCSV, Set) and encoding/csv's Reader.Read with
    the default settings (comma, no comment character, no lazy quotes). *)
From Coq Require Import ZArith NArith List Bool Strings.Byte.
From Verif Require Import Base Float Ext Utf8 Strconv Values Buffer Builtins Eval Parser Json Writer Files Cli.
Import ListNotations.
Open Scope Z_scope.

Inductive csv_error :=
| CsvBareQuote     (* ErrBareQuote: a quote in a field that does not start with one *)
| CsvQuote         (* ErrQuote: a quoted field that does not end properly *)
| CsvEOF.          (* nothing but empty lines *)
Inductive csv_result :=
| CsvRecord (fields : list str)
| CsvError (e : csv_error) (left : str).   (* the error, and what follows it *)

Definition cr : byte := x0d.
Definition comma : byte := ","%byte.
Definition dquote : byte := x22.

(** encoding/csv readLine: \r\n at the end of a line becomes \n, and a \r before the end
    of the input is dropped *)
Fixpoint csv_lines (s : str) : str :=
  match s with
  | [] => []
  | c :: t =>
    if Byte.eqb c cr then
      match t with
      | [] => []
      | d :: _ => if Byte.eqb d nl then csv_lines t else c :: csv_lines t
      end
    else c :: csv_lines t
  end.

(** encoding/csv readRecord, the loop that skips empty lines *)
Fixpoint skip_newlines (s : str) : str :=
  match s with
  | c :: t => if Byte.eqb c nl then skip_newlines t else s
  | [] => []
  end.

(** where the reader stands within a record *)
Inductive csv_mode := AtStart | InPlain | InQuoted | AfterQuote.

Definition csv_cons (f : str) (r : csv_result) : csv_result :=
  match r with CsvRecord fs => CsvRecord (f :: fs) | _ => r end.

(** encoding/csv readRecord, the loop parseField, one byte at a time; [cur] is the current
    field in reverse.  Bytes after the end of the record are left unread. *)
Fixpoint csv_fields (m : csv_mode) (cur : str) (s : str) : csv_result :=
  match s with
  | [] =>
    match m with
    | InQuoted => CsvError CsvQuote []
    | _ => CsvRecord [rev cur]
    end
  | c :: t =>
    match m with
    | InQuoted =>
      if Byte.eqb c dquote then csv_fields AfterQuote cur t else csv_fields InQuoted (c :: cur) t
    | AfterQuote =>
      if Byte.eqb c dquote then csv_fields InQuoted (c :: cur) t
      else if Byte.eqb c comma then csv_cons (rev cur) (csv_fields AtStart [] t)
      else if Byte.eqb c nl then CsvRecord [rev cur]
      else CsvError CsvQuote (dquote :: s)
    | _ =>
      if Byte.eqb c comma then csv_cons (rev cur) (csv_fields AtStart [] t)
      else if Byte.eqb c nl then CsvRecord [rev cur]
      else if Byte.eqb c dquote then
        match m with AtStart => csv_fields InQuoted [] t | _ => CsvError CsvBareQuote s end
      else csv_fields InPlain (c :: cur) t
    end
  end.

(** encoding/csv Reader.Read on a fresh reader *)
Definition csv_read (s : str) : csv_result :=
  match skip_newlines (csv_lines s) with
  | [] => CsvError CsvEOF []
  | l => csv_fields AtStart [] l
  end.

(** pflag string_slice.go readAsCSV *)
Definition read_as_csv (s : str) : csv_result :=
  match s with [] => CsvRecord [] | _ => csv_read s end.

(** pflag string_slice.go Set, for all occurrences of the flag in order.  The default is
    the empty slice, so replacing it at the first occurrence and appending at the later
    ones is appending throughout.  The first value that cannot be read ends flag parsing. *)
Fixpoint string_slice (occurrences : list str) : csv_result :=
  match occurrences with
  | [] => CsvRecord []
  | v :: vs =>
    match read_as_csv v with
    | CsvRecord fs =>
      match string_slice vs with
      | CsvRecord rest => CsvRecord (fs ++ rest)
      | e => e
      end
    | e => e
    end
  end.

(** encoding/csv ErrBareQuote, ErrQuote, and io.EOF *)
Definition csv_reason (e : csv_error) : str :=
  match e with
  | CsvBareQuote => bs "bare "" in non-quoted field"
  | CsvQuote => bs "extraneous or missing "" in quoted-field"
  | CsvEOF => bs "EOF"
  end.
(** encoding/csv: line and column (in bytes) after [k] bytes *)
Fixpoint csv_place (k : nat) (s : str) (line col : Z) : Z * Z :=
  match k, s with
  | S k', c :: t => if Byte.eqb c nl then csv_place k' t (line + 1) 1 else csv_place k' t line (col + 1)
  | _, _ => (line, col)
  end.
(** encoding/csv ParseError.Error: where the record starts, and where it is wrong.  At the
    end of the value the reader has not gone on to another line. *)
Definition csv_error_text (v : str) (e : csv_error) (left : str) : str :=
  match e with
  | CsvEOF => csv_reason e
  | _ =>
    let s := csv_lines v in
    let (first, _) := csv_place (length s - length (skip_newlines s)) s 1 1 in
    let (line, col) :=
      match left with
      | [] => let (l, c) := csv_place (length s - 1) s 1 1 in (l, c + 1)
      | _ => csv_place (length s - length left) s 1 1
      end in
    (if first =? line then [] else bs "record on line " ++ itoa first ++ bs "; ") ++
    bs "parse error on line " ++ itoa line ++ bs ", column " ++ itoa col ++ bs ": " ++ csv_reason e
  end.

(** commands/edit.go:139-158 the edit command with the occurrences of -e as typed: cobra
    parses the flags, and does not call the command when that fails.  (The error text is
    simplified: the position within the value is missing, as is the flag's name.) *)
Definition with_expressions (a : edit_args) (es : list str) : edit_args :=
  mkEditArgs (a_format a) (a_script a) (a_script_file a) es (a_in_place a) (a_output a) (a_backup a)
    (a_verbose a) (a_quiet a) (a_dry_run a) (a_shell a) (a_sexp a) (a_json a) (a_output_format a) (a_files a).
Definition edit_command (E : Ext) (os : OS) (occurrences : list str) (a : edit_args) : IO unit :=
  match string_slice occurrences with
  | CsvRecord es => run_edit E os (with_expressions a es)
  | CsvError e _ => io_fail (bs "invalid argument: " ++ csv_reason e)
  end.
