(** The command line: cmd/texted/main.go and the flag definitions in commands/.  Splitting
    the arguments is done by the libraries cobra v1.9.1 and pflag v1.0.6 (go.mod), modelled
    here as far as texted uses them.  What is printed to standard error besides the error
    text (usage hints, and suggestions for a mistyped command) is left out. *)
From Coq Require Import ZArith NArith List Bool Strings.Byte.
From Verif Require Import Base Float Ext Utf8 Strconv Values Buffer Builtins Eval Parser Json Writer Files Cli Tools
  Testing Docs DocsData Flags TestCmd Serve.
Import ListNotations.
Open Scope Z_scope.

(** ** Flags (pflag) *)
Inductive flag_kind := KBool | KString | KSlice.
Record flag := mkFlag { g_name : str; g_short : option byte; g_kind : flag_kind }.

(** cobra: InitDefaultHelpFlag adds this flag to every command *)
Definition help_flag : flag := mkFlag (bs "help") (Some "h"%byte) KBool.
(** commands/edit.go:161-180 *)
Definition edit_flags : list flag :=
  [mkFlag (bs "script") (Some "s"%byte) KString;
   mkFlag (bs "file") (Some "f"%byte) KString;
   mkFlag (bs "expression") (Some "e"%byte) KSlice;
   mkFlag (bs "in-place") (Some "i"%byte) KBool;
   mkFlag (bs "output") (Some "o"%byte) KString;
   mkFlag (bs "backup") None KString;
   mkFlag (bs "format") None KString;
   mkFlag (bs "shell") None KBool;
   mkFlag (bs "sexp") None KBool;
   mkFlag (bs "json") None KBool;
   mkFlag (bs "verbose") (Some "v"%byte) KBool;
   mkFlag (bs "quiet") (Some "q"%byte) KBool;
   mkFlag (bs "dry-run") (Some "n"%byte) KBool;
   mkFlag (bs "output-format") None KString;
   help_flag].
(** commands/parse.go:42-43 *)
Definition parse_flags : list flag :=
  [mkFlag (bs "input-format") None KString; mkFlag (bs "output-format") None KString; help_flag].
(** commands/test.go:53-57 *)
Definition test_flags : list flag :=
  [mkFlag (bs "verbose") (Some "v"%byte) KBool;
   mkFlag (bs "quiet") (Some "q"%byte) KBool;
   mkFlag (bs "fail-only") None KBool;
   mkFlag (bs "trace") None KBool;
   mkFlag (bs "include") (Some "i"%byte) KSlice;
   help_flag].
(** commands/doc.go:34-35 *)
Definition doc_flags : list flag :=
  [mkFlag (bs "category") None KString; mkFlag (bs "verbose") (Some "v"%byte) KBool; help_flag].
(** commands/mcp.go:34 *)
Definition mcp_flags : list flag := [mkFlag (bs "prefix") None KString; help_flag].

Definition find_long (flags : list flag) (name : str) : option flag :=
  find (fun f => str_eqb (g_name f) name) flags.
Definition find_short (flags : list flag) (c : byte) : option flag :=
  find (fun f => match g_short f with Some d => Byte.eqb d c | None => false end) flags.
(** pflag: a flag whose NoOptDefVal is set, to the text true *)
Definition is_bool (f : flag) : bool := match g_kind f with KBool => true | _ => false end.

(** one setting: which flag, to which text *)
Definition setting := (str * str)%type.

(** pflag: FlagSet.Set, which fails when the text does not suit the flag *)
Definition set_error (E : Ext) (f : flag) (v : str) : option str :=
  let bad why := Some (bs "invalid argument " ++ quote E v ++ bs " for " ++
    quote E (match g_short f with
             | Some c => "-"%byte :: c :: bs ", --" ++ g_name f
             | None => bs "--" ++ g_name f
             end) ++ bs " flag: " ++ why) in
  match g_kind f with
  | KString => None
  | KBool => match parse_bool v with
             | Some _ => None
             | None => bad (bs "strconv.ParseBool: parsing " ++ quote E v ++ bs ": invalid syntax")
             end
  | KSlice => match read_as_csv v with
              | CsvRecord _ => None
              | CsvError e rest => bad (csv_error_text v e rest)
              end
  end.

(** fmt's %q of a byte: strconv.AppendQuoteRune of the rune of that number *)
Definition quote_letter (E : Ext) (c : byte) : str :=
  bs "'" ++ (if Byte.eqb c "'"%byte then ["\"%byte; c]
             else if Byte.eqb c dquote then [c]
             else escape_rune E (byteN c) (encode_rune (byteN c))) ++ bs "'".
(** strings.SplitN(name, "=", 2) *)
Fixpoint split_eq (s : str) : str * option str :=
  match s with
  | [] => ([], None)
  | c :: t => if Byte.eqb c "="%byte then ([], Some t)
              else let (n, v) := split_eq t in (c :: n, v)
  end.

(** pflag: parseShortArg with parseSingleShortArg, on what follows the dash: settings, and
    a flag that still needs an argument, or an error *)
Inductive short_result :=
| ShDone (l : list setting)
| ShNeed (l : list setting) (f : flag) (text : str)
| ShError (e : str).
Definition short_cons (s : setting) (r : short_result) : short_result :=
  match r with
  | ShDone l => ShDone (s :: l)
  | ShNeed l f t => ShNeed (s :: l) f t
  | ShError e => ShError e
  end.
Definition short_set (E : Ext) (f : flag) (v : str) (r : short_result) : short_result :=
  match set_error E f v with
  | Some e => ShError e
  | None => short_cons (g_name f, v) r
  end.
Fixpoint parse_short (E : Ext) (flags : list flag) (s : str) : short_result :=
  match s with
  | [] => ShDone []
  | c :: t =>
    if has_prefix s (bs "test.") then ShDone []
    else
      match find_short flags c with
      | None => ShError (bs "unknown shorthand flag: " ++ quote_letter E c ++ bs " in -" ++ s)
      | Some f =>
        match t with
        | d :: ((_ :: _) as v) =>
          if Byte.eqb d "="%byte then short_set E f v (ShDone [])
          else if is_bool f then short_set E f (bs "true") (parse_short E flags t)
          else short_set E f t (ShDone [])
        | [_] =>
          if is_bool f then short_set E f (bs "true") (parse_short E flags t)
          else short_set E f t (ShDone [])
        | [] =>
          if is_bool f then short_set E f (bs "true") (ShDone [])
          else ShNeed [] f s
        end
      end
  end.

(** what the arguments of a command say *)
Inductive parsed :=
| Parsed (sets : list setting) (files : list str)
| ParseError (e : str).
Definition add_sets (l : list setting) (r : parsed) : parsed :=
  match r with Parsed s p => Parsed (l ++ s) p | ParseError e => ParseError e end.
Definition add_file (a : str) (r : parsed) : parsed :=
  match r with Parsed s p => Parsed s (a :: p) | ParseError e => ParseError e end.
Definition set_then (E : Ext) (f : flag) (v : str) (r : parsed) : parsed :=
  match set_error E f v with
  | Some e => ParseError e
  | None => add_sets [(g_name f, v)] r
  end.

(** pflag: FlagSet.parseArgs with parseLongArg; flags and files may be interspersed *)
Fixpoint parse_args (E : Ext) (flags : list flag) (args : list str) : parsed :=
  match args with
  | [] => Parsed [] []
  | a :: rest =>
    match a with
    | d :: c :: t =>
      if negb (Byte.eqb d "-"%byte) then add_file a (parse_args E flags rest)
      else if Byte.eqb c "-"%byte then
        match t with
        | [] => Parsed [] rest
        | n :: _ =>
          if Byte.eqb n "-"%byte || Byte.eqb n "="%byte then ParseError (bs "bad flag syntax: " ++ a)
          else
            let (name, v) := split_eq t in
            match find_long flags name with
            | None => ParseError (bs "unknown flag: --" ++ name)
            | Some f =>
              match v with
              | Some v => set_then E f v (parse_args E flags rest)
              | None =>
                if is_bool f then set_then E f (bs "true") (parse_args E flags rest)
                else match rest with
                     | v :: rest' => set_then E f v (parse_args E flags rest')
                     | [] => ParseError (bs "flag needs an argument: " ++ a)
                     end
              end
            end
        end
      else
        match parse_short E flags (c :: t) with
        | ShError e => ParseError e
        | ShDone l => add_sets l (parse_args E flags rest)
        | ShNeed l f s =>
          match rest with
          | v :: rest' => add_sets l (set_then E f v (parse_args E flags rest'))
          | [] => ParseError (bs "flag needs an argument: " ++ quote_letter E (hd "-"%byte s) ++ bs " in -" ++ s)
          end
        end
    | _ => add_file a (parse_args E flags rest)
    end
  end.

(** the texts a flag was set to, in order; a later one replaces an earlier one, except for
    flags that collect *)
Definition set_texts (sets : list setting) (name : str) : list str :=
  map snd (filter (fun s => str_eqb (fst s) name) sets).
Definition get_str (sets : list setting) (name default : str) : str := last (set_texts sets name) default.
Definition get_flag (sets : list setting) (name : str) : bool :=
  match parse_bool (get_str sets name (bs "false")) with Some b => b | None => false end.
Definition get_list (sets : list setting) (name : str) : list str :=
  match string_slice (set_texts sets name) with CsvRecord l => l | CsvError _ _ => [] end.

(** commands/edit.go:140-157, with 161-180 for the defaults *)
Definition edit_args_of (sets : list setting) (files : list str) : edit_args :=
  mkEditArgs
    (get_str sets (bs "format") (bs "shell")) (get_str sets (bs "script") []) (get_str sets (bs "file") [])
    (get_list sets (bs "expression")) (get_flag sets (bs "in-place")) (get_str sets (bs "output") [])
    (get_str sets (bs "backup") []) (get_flag sets (bs "verbose")) (get_flag sets (bs "quiet"))
    (get_flag sets (bs "dry-run")) (get_flag sets (bs "shell")) (get_flag sets (bs "sexp")) (get_flag sets (bs "json"))
    (get_str sets (bs "output-format") (bs "shell")) files.
(** commands/test.go:41-50 *)
Definition test_args_of (sets : list setting) (files : list str) : test_args :=
  mkTestArgs files (get_list sets (bs "include")) (get_flag sets (bs "verbose")) (get_flag sets (bs "quiet"))
    (get_flag sets (bs "fail-only")) (get_flag sets (bs "trace")).

(** ** The program *)
(** exit status, and the error reported on standard error *)
Record exit := mkExit { x_status : Z; x_error : option str }.

(** everything texted takes from outside besides files and standard streams: the XML
    decoder and glob of texted test, map orders and title casing of texted doc, the
    protocol loop of texted mcp, and the help texts *)
Record outer := mkOutside {
  o_decode : str -> test_case + str;
  o_glob : list str;
  o_title : str -> str;
  o_maps : map_orders;
  o_serve : str -> IO unit;
  o_help : str -> str
}.

(** cmd/texted/main.go:25-27: an error returned by a command means exit status 1 *)
Definition exit_of (m : IO unit) : IO exit :=
  io_try m (fun r =>
    match r with
    | Ok _ => io_ret (mkExit 0 None)
    | Err e => io_ret (mkExit 1 (Some e))
    | Crash c => io_res (Crash c)
    end).

(** cobra: Command.execute: parse the flags, answer --help, run *)
Definition with_flags (E : Ext) (o : outer) (name : str) (flags : list flag) (args : list str)
    (run : list setting -> list str -> IO exit) : IO exit :=
  match parse_args E flags args with
  | ParseError e => io_ret (mkExit 1 (Some e))
  | Parsed sets files =>
    if get_flag sets (bs "help") then io_seq (print (o_help o name)) (io_ret (mkExit 0 None))
    else run sets files
  end.

(** commands/edit.go:140-157, commands/parse.go:34-39, commands/test.go:41-50,
    commands/doc.go:29-31, commands/mcp.go:29-31 *)
Definition run_command (E : Ext) (os : OS) (o : outer) (name : str) (args : list str) : option (IO exit) :=
  if str_eqb name (bs "edit") then
    Some (with_flags E o name edit_flags args (fun sets files => exit_of (run_edit E os (edit_args_of sets files))))
  else if str_eqb name (bs "parse") then
    Some (with_flags E o name parse_flags args (fun sets _ => exit_of
      (run_parse E os (get_str sets (bs "input-format") (bs "shell")) (get_str sets (bs "output-format") (bs "sexp")))))
  else if str_eqb name (bs "test") then
    Some (with_flags E o name test_flags args (fun sets files =>
      io_bind (run_tests (o_decode o) E os (o_glob o) (test_args_of sets files)) (fun z => io_ret (mkExit z None))))
  else if str_eqb name (bs "doc") then
    Some (with_flags E o name doc_flags args (fun sets files => exit_of
      (io_bind (io_res (run_doc (o_title o) (o_maps o) registered files (get_str sets (bs "category") [])
                          (get_flag sets (bs "verbose")))) print)))
  else if str_eqb name (bs "mcp") then
    Some (with_flags E o name mcp_flags args (fun sets _ => exit_of (o_serve o (get_str sets (bs "prefix") []))))
  else None.

(** commands that cobra adds by itself *)
Definition cobra_commands : list str :=
  [bs "help"; bs "completion"; bs "__complete"; bs "__completeNoDesc"].

(** cmd/texted/main.go:11-28 main, on os.Args[1:].  [None]: left to cobra and not modelled
    (arguments that start with a flag or an empty argument, and cobra's own commands). *)
Definition texted (E : Ext) (os : OS) (o : outer) (args : list str) : option (IO exit) :=
  match args with
  | [] => Some (io_seq (print (o_help o [])) (io_ret (mkExit 0 None)))
  | name :: rest =>
    if str_eqb name [] || has_prefix name (bs "-") || existsb (str_eqb name) cobra_commands then None
    else match run_command E os o name rest with
         | Some m => Some m
         | None => Some (io_ret (mkExit 1 (Some (bs "unknown command " ++ quote E name ++ bs " for ""texted"""))))
         end
  end.
