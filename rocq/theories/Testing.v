(** The test runner: edlisp/testing/testing.go.  XML decoding is not modelled: a test case
    is the decoded record. *)
From Coq Require Import ZArith NArith List Bool Strings.Byte.
From Verif Require Import Base Float Ext Utf8 Strconv Values Buffer Builtins Eval Parser Json.
Import ListNotations.
Open Scope Z_scope.

(** testing.go:17-41 TestCase (the lang attribute of <input> and <error> is never used) *)
Record test_case := mkTest {
  t_buffer : str;
  t_input : str;
  t_output : str;
  t_result_lang : str;
  t_result : str;
  t_error : str
}.

(** strings.Trim(s, "()") *)
Definition is_paren (c : byte) : bool := Byte.eqb c "("%byte || Byte.eqb c ")"%byte.
Fixpoint drop_parens (s : str) : str :=
  match s with
  | c :: t => if is_paren c then drop_parens t else s
  | [] => []
  end.
Definition trim_parens (s : str) : str := rev (drop_parens (rev (drop_parens s))).

(** linebased.go:88-100 ParseFormat *)
Definition parse_format (format s : str) : presult (list value) :=
  if str_eqb format (bs "shell") then parse_string s
  else if str_eqb format (bs "json") then parse_json_string s
  else parse_sexp s.

Inductive verdict := Passed | Failed | Crashed.

(** testing.go:102-210 RunTestWithTrace without callback: the Passed flag *)
Definition run_test (E : Ext) (env : env) (t : test_case) : verdict :=
  let program := match trim_space (t_input t) with
                 | [] => POk []
                 | s => parse_string s
                 end in
  match program with
  | PErr _ => Failed
  | PFuel => Crashed
  | POk prog =>
    match eval E env prog (new_buffer (t_buffer t)) with
    | EvPanic | EvOutOfMemory | EvDiverge => Crashed
    | EvError x _ =>
      match trim_space (t_error t) with
      | [] => Failed
      | expected => if str_contains (exec_error_text E x) (trim_parens expected) then Passed else Failed
      end
    | EvDone v b =>
      match trim_space (t_error t) with
      | _ :: _ => Failed
      | [] =>
        let want := trim_space (t_result t) in
        match t_output t, want with
        | [], [] => Failed
        | out, _ =>
          if match out with [] => true | _ => str_eqb out (content b) end then
            match want with
            | [] => Passed
            | _ =>
              match parse_format (t_result_lang t) want with
              | PErr _ => Failed
              | PFuel => Crashed
              | POk [] => if equal None (Some v) then Passed else Failed
              | POk [e] => if equal (Some e) (Some v) then Passed else Failed
              | POk _ => Failed
              end
            end
          else Failed
        end
      end
    end
  end.
