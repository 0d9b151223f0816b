(** The command `texted test`: commands/test.go and the reporting half of
    edlisp/testing/testing.go. *)
From Coq Require Import ZArith NArith List Bool Strings.Byte.
From Verif Require Import Base Float Ext Utf8 Strconv Values Buffer Builtins Eval Parser Json Writer Files Cli Testing.
Import ListNotations.
Open Scope Z_scope.

(** testing.go:44-50 TestResult; [tr_error] is [None] for a nil error *)
Record test_result := mkTestResult {
  tr_name : str;
  tr_passed : bool;
  tr_error : option str;
  tr_expected : str;
  tr_actual : str
}.

(** testing.go:233-262 formatValue and commands/test.go:179-207 formatInstruction, which
    are the same function.  (The default case for other kinds of values does not occur.) *)
Definition fmt_number (E : Ext) (f : spec_float) : str :=
  if f_eqb f (f_of_Z (f_to_int E f)) then itoa (f_to_int E f) else num_string E f.
Fixpoint fmt_value (E : Ext) (v : value) : str :=
  match v with
  | VStr s => x22 :: s ++ [x22]
  | VNum f => fmt_number E f
  | VSym n => n
  | VList l => "("%byte :: join [" "%byte] (map (fmt_value E) l) ++ [")"%byte]
  end.
(** formatValue(nil) *)
Definition fmt_option (E : Ext) (v : option value) : str :=
  match v with None => bs "nil" | Some v => fmt_value E v end.

(** filepath.Base (Unix) *)
Definition slash : byte := "/"%byte.
Fixpoint strip_slashes (r : str) : str :=
  match r with c :: t => if Byte.eqb c slash then strip_slashes t else r | [] => [] end.
Fixpoint until_slash (r : str) : str :=
  match r with c :: t => if Byte.eqb c slash then [] else c :: until_slash t | [] => [] end.
Definition base_name (path : str) : str :=
  match path with
  | [] => bs "."
  | _ => match strip_slashes (rev path) with
         | [] => bs "/"
         | r => rev (until_slash r)
         end
  end.

(** commands/test.go:169-176 the trace callback; [T] is the text printed so far *)
Definition trace_text (E : Ext) (i : value) (b : buffer) : str :=
  bs "TRACE: Executed instruction: " ++ fmt_value E i ++ [nl] ++
  bs "  Buffer content: " ++ quote E (content b) ++ [nl] ++
  bs "  Point: " ++ itoa (point b) ++ bs ", Mark: " ++ itoa (mark b) ++ [nl] ++ [nl].
Definition trace_callback (E : Ext) : callback := fun out i b => (out ++ trace_text E i b, b).

Definition failure (name e : str) : test_result := mkTestResult name false (Some e) [] [].
Definition success (name : str) : test_result := mkTestResult name true None [] [].

(** testing.go:142-210, what follows the evaluation *)
Definition judge (E : Ext) (name : str) (t : test_case) (v : value) (b : buffer) : res test_result :=
  let want := trim_space (t_result t) in
  let out := t_output t in
  match out, want with
  | [], [] => Ok (failure name (bs "test case must specify at least one of <output> or <result> elements"))
  | _, _ =>
    if match out with [] => true | _ => str_eqb out (content b) end then
      match want with
      | [] => Ok (success name)
      | _ =>
        let lang := match t_result_lang t with [] => bs "sexp" | l => l end in
        match parse_format lang want with
        | PFuel => Crash CrashHang
        | PErr e => Ok (failure name (bs "parsing expected result with format " ++ lang ++ bs ": " ++ e))
        | POk ((_ :: _ :: _) as l) =>
          Ok (failure name (bs "expected result should contain exactly one expression, got " ++ itoa (zlen l)))
        | POk l =>
          let e := match l with x :: _ => Some x | [] => None end in
          if equal e (Some v) then Ok (success name)
          else Ok (mkTestResult name false
                 (Some (bs "result mismatch:" ++ [nl] ++ bs "expected: " ++ quote E (fmt_option E e) ++ [nl] ++
                        bs "actual: " ++ quote E (fmt_value E v)))
                 (fmt_option E e) (fmt_value E v))
        end
      end
    else Ok (mkTestResult name false
           (Some (bs "output mismatch:" ++ [nl] ++ bs "expected: " ++ quote E out ++ [nl] ++
                  bs "actual: " ++ quote E (content b)))
           out (content b))
  end.

(** testing.go:102-210 RunTestWithTrace with the name set by RunTestFileWithTrace (228);
    the second component is what the trace callback printed *)
Definition run_test_full (E : Ext) (env : env) (trace : bool) (name : str) (t : test_case) : res test_result * str :=
  let program := match trim_space (t_input t) with [] => POk [] | s => parse_string s end in
  match program with
  | PErr e => (Ok (failure name (bs "parsing input: " ++ e)), [])
  | PFuel => (Crash CrashHang, [])
  | POk prog =>
    let '(r, out) := eval_with_trace E env prog (if trace then Some (trace_callback E) else None) [] (new_buffer (t_buffer t)) in
    (match r with
     | EvPanic => Crash CrashPanic
     | EvOutOfMemory => Crash CrashMemory
     | EvDiverge => Crash CrashHang
     | EvError x _ =>
       match trim_space (t_error t) with
       | [] => Ok (failure name (bs "unexpected error: " ++ exec_error_text E x))
       | expected =>
         if str_contains (exec_error_text E x) (trim_parens expected) then Ok (success name)
         else Ok (failure name (bs "expected error containing " ++ quote E expected ++ bs " but got " ++ quote E (exec_error_text E x)))
       end
     | EvDone v b =>
       match trim_space (t_error t) with
       | [] => judge E name t v b
       | expected => Ok (failure name (bs "expected error " ++ quote E expected ++ bs " but got none"))
       end
     end, out)
  end.

Section Command.
(** XML decoding (testing.go:60-82, encoding/xml) is a parameter: the decoded test case or
    an error text *)
Variable decode : str -> test_case + str.

(** testing.go:218-230 RunTestFileWithTrace with 86-94 ParseTestFile.  (A failure while
    reading the opened file is reported like a failure to open it.) *)
Definition run_test_file (E : Ext) (os : OS) (trace : bool) (file : str) : IO test_result :=
  io_try (os_read_file os file) (fun r =>
    match r with
    | Crash c => io_res (Crash c)
    | Err e => io_ret (failure (base_name file) (bs "opening test file " ++ file ++ bs ": " ++ e))
    | Ok c =>
      match decode c with
      | inr e => io_ret (failure (base_name file) (bs "parsing test case: " ++ e))
      | inl t =>
        let '(r, out) := run_test_full E (default_env E) trace (base_name file) t in
        io_seq (print out) (io_res r)
      end
    end).

(** commands/test.go:110-123 the loop *)
Fixpoint run_test_files (E : Ext) (os : OS) (trace : bool) (files : list str) : IO (list test_result) :=
  match files with
  | [] => io_ret []
  | f :: fs' =>
    io_bind (run_test_file E os trace f) (fun r =>
    io_bind (run_test_files E os trace fs') (fun rs => io_ret (r :: rs)))
  end.

(** commands/test.go:144-166 printTestResult *)
Definition result_text (E : Ext) (verbose : bool) (r : test_result) : str :=
  bs "[" ++ (if tr_passed r then bs "PASS" else bs "FAIL") ++ bs "] " ++ tr_name r ++ [nl] ++
  match tr_error r with
  | Some e => bs "  Error: " ++ e ++ [nl]
  | None =>
    let both := bs "  Expected: " ++ quote E (tr_expected r) ++ [nl] ++ bs "  Actual:   " ++ quote E (tr_actual r) ++ [nl] in
    if negb (tr_passed r) || verbose then
      if verbose && nonempty (tr_expected r) && nonempty (tr_actual r) then both
      else if negb (tr_passed r) then both else []
    else []
  end.

(** commands/test.go:83-93 the patterns tried on one file; [inr] stands for os.Exit(1)
    after an invalid pattern *)
Fixpoint includes (E : Ext) (patterns : list str) (name : str) : bool + (str * str) :=
  match patterns with
  | [] => inl false
  | p :: ps =>
    match re_error E p with
    | Some e => inr (p, e)
    | None => match re_find E p name with Some _ => inl true | None => includes E ps name end
    end
  end.
(** commands/test.go:80-95 the selected files, or the invalid pattern *)
Fixpoint select (E : Ext) (patterns : list str) (files : list str) : list str + (str * str) :=
  match files with
  | [] => inl []
  | f :: fs' =>
    match includes E patterns (base_name f) with
    | inr e => inr e
    | inl keep =>
      match select E patterns fs' with
      | inr e => inr e
      | inl l => inl (if keep then f :: l else l)
      end
    end
  end.

(** commands/test.go:17-24 runTestsArgs *)
Record test_args := mkTestArgs {
  ta_files : list str;
  ta_include : list str;
  ta_verbose : bool;
  ta_quiet : bool;
  ta_fail_only : bool;
  ta_trace : bool
}.

(** commands/test.go:63-141 runTests; the result is the exit status.  [globbed] is what
    filepath.Glob finds for tests/*.xml (67-73; this pattern is never malformed). *)
Definition run_tests (E : Ext) (os : OS) (globbed : list str) (a : test_args) : IO Z :=
  let files := match ta_files a with [] => globbed | l => l end in
  match (match ta_include a with [] => inl files | ps => select E ps files end) with
  | inr (p, e) => io_seq (print (bs "Error: invalid pattern " ++ p ++ bs ": " ++ e ++ [nl])) (io_ret 1)
  | inl [] => io_seq (print (bs "No test files found" ++ [nl])) (io_ret 0)
  | inl selected =>
    io_bind (run_test_files E os (ta_trace a) selected) (fun results =>
    let passed := zlen (filter tr_passed results) in
    let total := zlen results in
    let shown := if ta_fail_only a then filter (fun r => negb (tr_passed r)) results else results in
    io_seq (print_if (negb (ta_quiet a)) (flat_map (result_text E (ta_verbose a)) shown))
    (io_seq (print ([nl] ++ bs "Tests: " ++ itoa passed ++ bs " passed, " ++ itoa (total - passed) ++ bs " failed, " ++
                    itoa total ++ bs " total" ++ [nl]))
    (io_ret (if passed <? total then 1 else 0))))
  end.
End Command.
