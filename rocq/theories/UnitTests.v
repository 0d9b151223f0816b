(** The repository's own unit tests (nine files named ..._test.go), run on the model.  As in
    RepoTests.v these are tests of the model, not proofs: each check is one assertion of the
    Go test named beside it, or several of them taken together.  Left out are the
    assertions about Go's nil where a [value] is expected (the model has no nil there), the
    round trip through encoding/json's own decoder, and ParseTestCase (XML decoding is not
    modelled). *)
From Coq Require Import Strings.String.
From Coq Require Import ZArith NArith Bool Strings.Byte List.
From Coq Require Import Floats.SpecFloat.
From Verif Require Import Base Float Ext Utf8 Strconv Values Buffer Builtins Eval Parser Json Writer Files Tools Testing TestCmd RefExt RefRegex.
Import ListNotations.
Open Scope Z_scope.

Local Definition sym (s : String.string) : value := VSym (bs s).
Local Definition txt (s : String.string) : value := VStr (bs s).
Local Definition lst (l : list value) : value := VList l.
Local Definition pi_ish : value := VNum (S754_finite false 7070651414971679 (-51)).   (* 3.14 *)
Local Definition refused {A} (r : presult A) : bool := match r with PErr _ => true | _ => false end.
Local Definition says_err {A} (part : String.string) (r : presult A) : bool :=
  match r with PErr e => str_contains e (bs part) | _ => false end.
(** the cases of a table that do not behave *)
Local Definition wrong {A} (ok : A -> bool) (l : list A) : list A := filter (fun c => negb (ok c)) l.

(** ** edlisp/parser/linebased_test.go *)

Example go_parse_empty : parse_string [] = POk [].
Proof. reflexivity. Qed.
Example go_parse_shell : parse_string (bs "search-forward ""doIt""") = POk [lst [sym "search-forward"; txt "doIt"]].
Proof. vm_compute. reflexivity. Qed.
Example go_parse_sexp : parse_string (bs "(search-forward ""doIt"")") = POk [lst [sym "search-forward"; txt "doIt"]].
Proof. vm_compute. reflexivity. Qed.
Example go_parse_lines :
  parse_string (bs "search-forward ""doIt""" ++ nl :: bs "set-mark" ++ nl :: bs "search-forward ""(""" ++ nl :: bs "replace-region ""helloWorld""") =
  POk [lst [sym "search-forward"; txt "doIt"]; lst [sym "set-mark"]; lst [sym "search-forward"; txt "("]; lst [sym "replace-region"; txt "helloWorld"]].
Proof. vm_compute. reflexivity. Qed.
Example go_parse_numbers : parse_string (bs "move-point 42") = POk [lst [sym "move-point"; VInt 42]] /\
  parse_string (bs "set-value 3.14") = POk [lst [sym "set-value"; pi_ish]].
Proof. vm_compute. split; reflexivity. Qed.
Example go_parse_nested : parse_string (bs "(progn (search-forward ""test"") (set-mark))") =
  POk [lst [sym "progn"; lst [sym "search-forward"; txt "test"]; lst [sym "set-mark"]]].
Proof. vm_compute. reflexivity. Qed.
Example go_parse_escapes : parse_string (bs "search-forward ""say \""hello\""""") = POk [lst [sym "search-forward"; txt "say ""hello"""]].
Proof. vm_compute. reflexivity. Qed.
Example go_parse_leading_space : parse_string (bs "   search-forward ""test""" ++ nl :: "009"%byte :: bs "set-mark") =
  POk [lst [sym "search-forward"; txt "test"]; lst [sym "set-mark"]].
Proof. vm_compute. reflexivity. Qed.
Example go_parse_empty_lines : parse_string (bs "search-forward ""test""" ++ nl :: nl :: bs "set-mark" ++ nl :: nl :: bs "replace-match ""hello""") =
  POk [lst [sym "search-forward"; txt "test"]; lst [sym "set-mark"]; lst [sym "replace-match"; txt "hello"]].
Proof. vm_compute. reflexivity. Qed.
Example go_parse_errors : wrong (fun s => refused (parse_string s))
  [bs "search-forward ""unterminated"; bs "(search-forward ""test"""; bs "search-forward ""test"")"; bs "search-forward ""invalid\x"""] = [].
Proof. vm_compute. reflexivity. Qed.
Example go_parse_reader : parse_string (bs "search-forward ""test""" ++ nl :: bs "(set-mark)" ++ nl :: bs "replace-match ""hello""") =
  POk [lst [sym "search-forward"; txt "test"]; lst [sym "set-mark"]; lst [sym "replace-match"; txt "hello"]].
Proof. vm_compute. reflexivity. Qed.
Example go_tokenize :
  map tokenize [bs "search-forward ""test"""; bs "(set-mark)"; bs "func arg1 arg2"; bs """quoted string"""; bs """string with spaces"""; bs "(nested (list))"] =
  [POk [bs "search-forward"; bs """test"""]; POk [bs "("; bs "set-mark"; bs ")"]; POk [bs "func"; bs "arg1"; bs "arg2"];
   POk [bs """quoted string"""]; POk [bs """string with spaces"""]; POk [bs "("; bs "nested"; bs "("; bs "list"; bs ")"; bs ")"]].
Proof. vm_compute. reflexivity. Qed.
Example go_parse_token :
  map parse_token [bs """hello"""; bs """hello world"""; bs "42"; bs "3.14"; bs "symbol"; bs "search-forward"] =
  map POk [txt "hello"; txt "hello world"; VInt 42; pi_ish; sym "symbol"; sym "search-forward"].
Proof. vm_compute. reflexivity. Qed.
Example go_parse_nested_arguments : parse_string (bs "buffer-substring (region-beginning) (region-end)") =
  POk [lst [sym "buffer-substring"; lst [sym "region-beginning"]; lst [sym "region-end"]]].
Proof. vm_compute. reflexivity. Qed.
Example go_parse_deep : parse_string (bs "(outer (middle (inner ""value"")) 42)") =
  POk [lst [sym "outer"; lst [sym "middle"; lst [sym "inner"; txt "value"]]; VInt 42]].
Proof. vm_compute. reflexivity. Qed.
Example go_parse_multiple_nested : parse_string (bs "(replace-region (buffer-substring (region-beginning) (region-end)))") =
  POk [lst [sym "replace-region"; lst [sym "buffer-substring"; lst [sym "region-beginning"]; lst [sym "region-end"]]]].
Proof. vm_compute. reflexivity. Qed.
Example go_parse_mixed : parse_string (bs "(goto-char (+ (point) 10))") =
  POk [lst [sym "goto-char"; lst [sym "+"; lst [sym "point"]; VInt 10]]].
Proof. vm_compute. reflexivity. Qed.
Example go_parse_semicolons :
  parse_string (bs "goto-char 6; delete-char 2") = POk [lst [sym "goto-char"; VInt 6]; lst [sym "delete-char"; VInt 2]] /\
  parse_string (bs "set-mark ; goto-char 10 ; delete-char 1") =
    POk [lst [sym "set-mark"]; lst [sym "goto-char"; VInt 10]; lst [sym "delete-char"; VInt 1]] /\
  parse_string (bs "search-forward ""text;with;semicolons""; replace-match ""new""") =
    POk [lst [sym "search-forward"; txt "text;with;semicolons"]; lst [sym "replace-match"; txt "new"]] /\
  parse_string (bs "goto-char 5;; delete-char 1; ; set-mark") =
    POk [lst [sym "goto-char"; VInt 5]; lst [sym "delete-char"; VInt 1]; lst [sym "set-mark"]].
Proof. vm_compute. repeat split; reflexivity. Qed.
Example go_split_on_semicolons :
  map split_semi [bs "command1; command2"; bs "cmd ""arg;with;semi""; cmd2"; bs "cmd1;;cmd2"; bs "single-command"; bs "cmd ""escaped\""semicolon;here""; cmd2"] =
  [[bs "command1"; bs " command2"]; [bs "cmd ""arg;with;semi"""; bs " cmd2"]; [bs "cmd1"; []; bs "cmd2"]; [bs "single-command"];
   [bs "cmd ""escaped\""semicolon;here"""; bs " cmd2"]].
Proof. vm_compute. reflexivity. Qed.

(** ** edlisp/parser/json_test.go *)

Example go_json_single : parse_json_string (bs "[[""search-forward"", ""doIt""]]") = POk [lst [sym "search-forward"; txt "doIt"]].
Proof. vm_compute. reflexivity. Qed.
Example go_json_multiple :
  parse_json_string (bs "[" ++ nl :: bs "  [""search-forward"", ""doIt""]," ++ nl :: bs "  [""set-mark""]," ++ nl ::
                     bs "  [""search-forward"", ""(""]," ++ nl :: "009"%byte :: bs "[""replace-region"", ""helloWorld""]" ++ nl :: bs "]") =
  POk [lst [sym "search-forward"; txt "doIt"]; lst [sym "set-mark"]; lst [sym "search-forward"; txt "("]; lst [sym "replace-region"; txt "helloWorld"]].
Proof. vm_compute. reflexivity. Qed.
Example go_json_numbers : parse_json_string (bs "[[""move-point"", 42], [""set-value"", 3.14]]") =
  POk [lst [sym "move-point"; VInt 42]; lst [sym "set-value"; pi_ish]].
Proof. vm_compute. reflexivity. Qed.
Example go_json_nested : parse_json_string (bs "[[""progn"", [""search-forward"", ""test""], [""set-mark""]]]") =
  POk [lst [sym "progn"; lst [sym "search-forward"; txt "test"]; lst [sym "set-mark"]]].
Proof. vm_compute. reflexivity. Qed.
Example go_json_empty_array : parse_json_string (bs "[[]]") = POk [lst []].
Proof. vm_compute. reflexivity. Qed.
Example go_json_reader :
  parse_json_reader (bs "[""search-forward"", ""test""]" ++ nl :: bs "[""set-mark""]" ++ nl :: bs "[""replace-match"", ""hello""]") =
  POk [lst [sym "search-forward"; txt "test"]; lst [sym "set-mark"]; lst [sym "replace-match"; txt "hello"]].
Proof. vm_compute. reflexivity. Qed.
Example go_json_errors : wrong (fun s => refused (parse_json_string s))
  [bs "[[42, ""test""]]"; bs "[""not-array""]"; bs "[42]"; bs "[[""command"", true]]"; bs "[[""command"", null]]";
   bs "[[""command"", {""key"": ""value""}]]"; bs "[[""command"", ""test"""] = [].
Proof. vm_compute. reflexivity. Qed.
Local Definition jstr (s : String.string) : json := JStr (bs s).
Local Definition j42 : json := JNum (f_of_Z 42).
Example go_convert_value :
  wrong (fun j => negb (refused (convert_value j))) [JArr [jstr "search-forward"; jstr "test"]; JArr [jstr "move"; j42]; JArr []; jstr "symbol"; j42] = [] /\
  wrong (fun j => refused (convert_value j)) [JBool true; JNull] = [].
Proof. vm_compute. split; reflexivity. Qed.
Example go_convert_array :
  wrong (fun j => negb (refused (convert_item j))) [JArr [jstr "search-forward"; jstr "test"]; JArr [jstr "move"; j42]; JArr []] = [] /\
  wrong (fun j => refused (convert_item j)) [JArr [j42; jstr "test"]; JArr [jstr "command"; JBool true]] = [].
Proof. vm_compute. split; reflexivity. Qed.
Example go_convert_item :
  map convert_item [jstr "hello"; j42; JArr [jstr "command"; jstr "arg"]] = map POk [txt "hello"; VInt 42; lst [sym "command"; txt "arg"]] /\
  wrong (fun j => refused (convert_item j)) [JBool true; JNull] = [].
Proof. vm_compute. split; reflexivity. Qed.
Example go_validate :
  map (fun j => validate j true) [JArr [jstr "command"; jstr "arg"]; JArr []; JArr [jstr "progn"; JArr [jstr "search"; jstr "text"]]] = [None; None; None] /\
  wrong (fun j => match validate j true with Some _ => true | None => false end)
    [jstr "not-allowed"; j42; JArr [j42; jstr "arg"]; JArr [jstr "command"; JBool true]; JArr [jstr "command"; JNull]; JObj] = [].
Proof. vm_compute. split; reflexivity. Qed.
Example go_json_reader_edges : parse_json_reader [] = POk [] /\ refused (parse_json_reader (bs "[""command"", ""arg""")) = true.
Proof. vm_compute. split; reflexivity. Qed.

(** ** edlisp/eval_test.go *)

Example go_buffer : exists b1 b2,
  buf_insert (bs " text") (new_buffer (bs "initial")) = Done tt b1 /\ content b1 = bs " textinitial" /\
  bind (set_point 11) (fun _ => buf_insert (bs "added")) b1 = Done tt b2 /\ content b2 = bs " textinitiaddedal".
Proof. eexists. eexists. vm_compute. repeat split; reflexivity. Qed.
Local Definition go_eval (p : list value) (b : buffer) := eval ref_ext (default_env ref_ext) p b.
Example go_eval_atoms : go_eval [txt "hello"] (new_buffer []) = EvDone (txt "hello") (new_buffer []) /\
  go_eval [VInt 42] (new_buffer []) = EvDone (VInt 42) (new_buffer []).
Proof. vm_compute. split; reflexivity. Qed.
Example go_eval_insert : exists v b, go_eval [lst [sym "insert"; txt "hello, world"]] (new_buffer []) = EvDone v b /\ content b = bs "hello, world".
Proof. eexists. eexists. vm_compute. split; reflexivity. Qed.
Example go_eval_undefined : match go_eval [lst [sym "undefined-function"]] (new_buffer []) with
  | EvError x _ => str_contains (exec_error_text ref_ext x) (bs "undefined-function ""undefined-function""")
  | _ => false end = true.
Proof. vm_compute. reflexivity. Qed.
Example go_eval_recursive :
  match go_eval [lst [sym "buffer-substring"; lst [sym "region-beginning"]; lst [sym "region-end"]]] (mkBuffer (bs "hello world") 1 6 [] 0 0) with
  | EvDone v _ => v = txt "hello" | _ => False end.
Proof. vm_compute. reflexivity. Qed.
Example go_eval_nested : match go_eval [lst [sym "length"; lst [sym "concat"; txt "a"; txt "b"]]] (new_buffer (bs "test")) with
  | EvDone v _ => v = VInt 2 | _ => False end.
Proof. vm_compute. reflexivity. Qed.

(** ** edlisp/equal_test.go *)

Local Definition deep (n : Z) : value := lst [txt "level1"; lst [txt "level2"; lst [txt "level3"; VInt n]]].
Example go_equal :
  equal None None = true /\ equal None (Some (txt "test")) = false /\ equal (Some (txt "test")) None = false /\
  wrong (fun c => equal_v (fst c) (snd c))
    [(txt "hello", txt "hello"); (txt "", txt ""); (VInt 42, VInt 42); (pi_ish, pi_ish); (VInt 5, VNum (S754_finite false 5629499534213120 (-50)));
     (VInt 0, VInt 0); (VInt (-10), VInt (-10)); (sym "test", sym "test"); (sym "", sym ""); (lst [], lst []);
     (lst [txt "hello"], lst [txt "hello"]); (lst [txt "hello"; VInt 42; sym "test"], lst [txt "hello"; VInt 42; sym "test"]);
     (lst [txt "outer"; lst [txt "inner"]], lst [txt "outer"; lst [txt "inner"]]); (deep 42, deep 42)] = [] /\
  wrong (fun c => negb (equal_v (fst c) (snd c)))
    [(txt "hello", txt "world"); (txt "", txt "hello"); (VInt 42, VInt 43); (sym "foo", sym "bar"); (lst [txt "hello"], lst [txt "world"]);
     (lst [txt "hello"], lst [txt "hello"; VInt 42]); (lst [txt "hello"; VInt 42], lst [txt "hello"; VInt 43]);
     (lst [txt "outer"; lst [txt "inner1"]], lst [txt "outer"; lst [txt "inner2"]]); (txt "42", VInt 42); (txt "test", sym "test");
     (VInt 42, sym "42"); (lst [txt "hello"], txt "hello"); (lst [VInt 42], VInt 42); (lst [sym "test"], sym "test"); (deep 42, deep 43)] = [].
Proof. vm_compute. repeat split; reflexivity. Qed.

(** ** edlisp/testing/testing_test.go *)

(** the mock environments of TestRunTestSuccess, ...OutputMismatch, ...ExpectedError and
    ...UnexpectedError *)
Local Definition mock_env : env := fun name =>
  if str_eqb name (bs "mock-good") then Some (fun _ => bind (set_point 1) (fun _ => bind (buf_insert (bs "success output")) (fun _ => ret (VStr []))))
  else if str_eqb name (bs "mock-command") then Some (fun _ => bind (set_point 1) (fun _ => bind (buf_insert (bs "actual output")) (fun _ => ret (VStr []))))
  else if str_eqb name (bs "error-command") then Some (fun _ => fail (bs "undefined-function ""error-command"""))
  else if str_eqb name (bs "broken-command") then Some (fun _ => fail (bs "unexpected system error"))
  else None.
Local Definition go_test (t : test_case) := fst (run_test_full ref_ext mock_env false [] t).
Example go_test_success : go_test (mkTest [] (bs "mock-good") (bs "success output") [] [] []) = Ok (mkTestResult [] true None [] []).
Proof. vm_compute. reflexivity. Qed.
Example go_test_mismatch : match go_test (mkTest [] (bs "mock-command") (bs "expected output") [] [] []) with
  | Ok r => tr_passed r = false /\ tr_error r <> None /\ tr_expected r = bs "expected output" /\ tr_actual r = bs "actual output"
  | _ => False end.
Proof. vm_compute. repeat split; congruence. Qed.
Example go_test_expected_error :
  go_test (mkTest [] (bs "error-command") [] [] [] (bs "(undefined-function ""error-command"")")) = Ok (mkTestResult [] true None [] []).
Proof. vm_compute. reflexivity. Qed.
Example go_test_unexpected_error : match go_test (mkTest [] (bs "broken-command") (bs "some output") [] [] []) with
  | Ok r => tr_passed r = false /\ match tr_error r with Some e => str_contains e (bs "unexpected error") = true | None => False end
  | _ => False end.
Proof. vm_compute. split; reflexivity. Qed.
Example go_test_parse_error : match fst (run_test_full ref_ext (default_env ref_ext) false [] (mkTest [] (bs """unclosed string") [] [] [] [])) with
  | Ok r => tr_passed r = false /\ match tr_error r with Some e => str_contains e (bs "parsing input") = true | None => False end
  | _ => False end.
Proof. vm_compute. split; reflexivity. Qed.

(** ** edlisp/writer/sexp_test.go, shell_test.go, json_test.go *)

Local Definition four : list value :=
  [lst [sym "search-forward"; txt "doIt"]; lst [sym "set-mark"]; lst [sym "search-forward"; txt "("]; lst [sym "replace-region"; txt "helloWorld"]].
Local Definition progn : value := lst [sym "progn"; lst [sym "search-forward"; txt "text"]; lst [sym "replace-match"; txt "replacement"]].
Local Definition messy : str := bs "text with ""quotes"" and " ++ nl :: bs " newlines".
Example go_write_sexp :
  map (sexp_value ref_ext)
    [sym "search-forward"; txt "hello world"; VInt 42; pi_ish; VInt 0; VInt (-123); VNum (S754_finite false 5429686605511341 (-42)); lst [];
     lst [sym "search-forward"; txt "text"]; lst [sym "move"; VInt 5]; progn; lst [sym "set-mark"]; VStr messy;
     lst [sym "if"; lst [sym "search-forward"; txt "pattern"]; lst [sym "progn"; lst [sym "set-mark"]; lst [sym "replace-match"; txt "replacement"]]]] =
  [bs "search-forward"; bs """hello world"""; bs "42"; bs "3.14"; bs "0"; bs "-123"; bs "1234.5678"; bs "()"; bs "(search-forward ""text"")"; bs "(move 5)";
   bs "(progn (search-forward ""text"") (replace-match ""replacement""))"; bs "(set-mark)"; bs """text with \""quotes\"" and \n newlines""";
   bs "(if (search-forward ""pattern"") (progn (set-mark) (replace-match ""replacement"")))"] /\
  write_program ref_ext (bs "sexp") four =
    (bs "(search-forward ""doIt"")" ++ nl :: bs "(set-mark)" ++ nl :: bs "(search-forward ""("")" ++ nl :: bs "(replace-region ""helloWorld"")" ++ [nl], None).
Proof. vm_compute. split; reflexivity. Qed.
Example go_write_shell :
  map (shell_value ref_ext)
    [lst [sym "search-forward"; txt "text"]; lst []; lst [sym "set-mark"]; lst [sym "move"; VInt 42]; lst [sym "move"; pi_ish]; lst [sym "move"; VInt 0];
     lst [sym "move"; VInt (-5)]; lst [sym "test"; txt "hello"]; lst [sym "test"; txt "hello world"]; lst [sym "test"; txt "hello ""world"""];
     lst [sym "test"; VStr (bs "hello" ++ nl :: bs "world")]; lst [sym "test"; txt "hello\world"]; lst [sym "test"; txt ""];
     lst [sym "command"; txt "arg1"; VInt 42; txt "arg3"]] =
  map POk
    [bs "search-forward ""text"""; []; bs "set-mark"; bs "move 42"; bs "move 3.14"; bs "move 0"; bs "move -5"; bs "test ""hello"""; bs "test ""hello world""";
     bs "test ""hello \""world\"""""; bs "test ""hello\nworld"""; bs "test ""hello\\world"""; bs "test """""; bs "command ""arg1"" 42 ""arg3"""] /\
  write_program ref_ext (bs "shell") four =
    (bs "search-forward ""doIt""" ++ nl :: bs "set-mark" ++ nl :: bs "search-forward ""(""" ++ nl :: bs "replace-region ""helloWorld""" ++ [nl], None) /\
  says_err "can only convert lists to shell format" (shell_value ref_ext (sym "standalone-symbol")) = true /\
  says_err "nested lists are not supported" (shell_value ref_ext (lst [sym "command"; lst [sym "nested"; txt "arg"]])) = true.
Proof. vm_compute. repeat split; reflexivity. Qed.
Example go_write_json :
  map json_write_value
    [sym "search-forward"; txt "hello world"; VInt 42; pi_ish; VInt 0; VInt (-123); lst []; lst [sym "search-forward"; txt "text"]; lst [sym "move"; VInt 5]; progn] =
  map (fun s => POk (s ++ [nl]))
    [bs """search-forward"""; bs """hello world"""; bs "42"; bs "3.14"; bs "0"; bs "-123"; bs "[]"; bs "[""search-forward"",""text""]"; bs "[""move"",5]";
     bs "[""progn"",[""search-forward"",""text""],[""replace-match"",""replacement""]]"] /\
  write_program ref_ext (bs "json") four =
    (bs "[""search-forward"",""doIt""]" ++ nl :: bs "[""set-mark""]" ++ nl :: bs "[""search-forward"",""(""]" ++ nl :: bs "[""replace-region"",""helloWorld""]" ++ [nl], None).
Proof. vm_compute. split; reflexivity. Qed.

(** ** tools/edit_file_test.go *)

Example go_execute_script :
  map (fun c => execute_script ref_ext (fst c) (snd c))
    [(bs "world", bs "beginning-of-buffer" ++ nl :: bs "insert ""hello """); (bs "old text", bs "mark-whole-buffer" ++ nl :: bs "replace-region ""new text""");
     (bs "hello", bs "end-of-buffer" ++ nl :: bs "insert "" world""")] =
  [Ok (bs "hello world"); Ok (bs "new text"); Ok (bs "hello world")] /\
  match execute_script ref_ext (bs "test") (bs "invalid-function") with Err _ => True | _ => False end.
Proof. vm_compute. split; [reflexivity|exact I]. Qed.

Local Definition go_os : OS :=
  {| canon := fun n => n; os_read_err := fun _ => None; os_missing := fun _ => bs "no such file or directory";
     os_open_err := fun _ => None; os_write_err := fun _ => None; os_stdin_err := fun _ => None; os_stdout_err := fun _ => None |}.
Local Definition go_fs : world := init_world (fun n => if str_eqb n (bs "/tmp/test.txt") then Some (bs "hello world") else None) [].
Example go_edit_file_handler :
  match edit_file_handler ref_ext go_os 1 (mkEditRequest (Some (bs "mark-whole-buffer" ++ nl :: bs "replace-region ""HELLO WORLD""")) (Some [bs "/tmp/test.txt"]) false) go_fs with
  | Some (Ok (ToolText t), w) => w_fs w (bs "/tmp/test.txt") = Some (bs "HELLO WORLD") /\ str_contains t (bs "Successfully edited") = true
  | _ => False end.
Proof. vm_compute. split; reflexivity. Qed.
Example go_edit_file_missing :
  match edit_file_handler ref_ext go_os 1 (mkEditRequest (Some (bs "insert ""test""")) (Some [bs "/nonexistent/file.txt"]) false) go_fs with
  | Some (Ok (ToolText t), _) => str_contains t (bs "Failed to edit") = true
  | _ => False end.
Proof. vm_compute. reflexivity. Qed.
Example go_test_file_missing :
  match fst (run_test_file (fun _ => inr []) ref_ext go_os false (bs "nonexistent.xml") go_fs) with
  | Ok r => tr_passed r = false /\ tr_error r <> None /\ tr_name r = bs "nonexistent.xml"
  | _ => False end.
Proof. vm_compute. repeat split; congruence. Qed.
