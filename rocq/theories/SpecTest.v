(** Vocabulary for the command texted test. *)
From Coq Require Import ZArith NArith List Bool Strings.Byte.
From Verif Require Import Base Float Ext Utf8 Strconv Values Buffer Builtins Eval Parser Json Writer Files Cli Testing Spec SpecFiles.
Import ListNotations.
Open Scope Z_scope.

(** the test in file [f] passes: the file is there, holds a test case, and that passes
    ([test_passes] says what this means) *)
Definition file_passes (E : Ext) (os : OS) (decode : str -> test_case + str) (s : fs) (f : str) : Prop :=
  exists c t, s (canon os f) = Some c /\ decode c = inl t /\ run_test E (default_env E) t = Passed.
(** a file is chosen if its name matches one of the patterns *)
Definition chosen (E : Ext) (patterns : list str) (f : str) : Prop :=
  exists p name, In p patterns /\ last_component f name /\ re_find E p name <> None.
Definition valid_pattern (E : Ext) (p : str) : Prop := re_error E p = None.
(** [part_of P l m]: [m] holds the elements of [l] that satisfy [P], in the same order *)
Inductive part_of {A} (P : A -> Prop) : list A -> list A -> Prop :=
| po_nil : part_of P [] []
| po_take x l m : P x -> part_of P l m -> part_of P (x :: l) (x :: m)
| po_leave x l m : ~ P x -> part_of P l m -> part_of P (x :: l) m.
(** the number of elements of [l] that satisfy [P] *)
Definition how_many {A} (P : A -> Prop) (l : list A) (n : Z) : Prop := exists m, part_of P l m /\ zlen m = n.

(** ** How values are shown in reports and traces *)
(** pieces separated by single blanks *)
Inductive spaced : list str -> str -> Prop :=
| sp_nil : spaced [] []
| sp_one s : spaced [s] s
| sp_more s s' l t : spaced (s' :: l) t -> spaced (s :: s' :: l) (s ++ x20 :: t).
Inductive shows (E : Ext) : value -> str -> Prop :=
| sh_str s : shows E (VStr s) (x22 :: s ++ [x22])
| sh_sym n : shows E (VSym n) n
| sh_whole f n : int_arg E f n -> f_eqb f (f_of_Z n) = true -> shows E (VNum f) (itoa n)
| sh_other f n : int_arg E f n -> f_eqb f (f_of_Z n) = false -> shows E (VNum f) (num_string E f)
| sh_list l ls t : Forall2 (shows E) l ls -> spaced ls t -> shows E (VList l) (bs "(" ++ t ++ bs ")").
(** the value of a result that was left out is shown as nil *)
Inductive shows_result (E : Ext) : option value -> str -> Prop :=
| sr_nothing : shows_result E None (bs "nil")
| sr_value v t : shows E v t -> shows_result E (Some v) t.

(** ** What a failing test complains about *)
(** the program a test runs *)
Definition test_program (t : test_case) (r : presult (list value)) : Prop :=
  trim_space (t_input t) = [] /\ r = POk [] \/ trim_space (t_input t) <> [] /\ parse_string (trim_space (t_input t)) = r.
(** a text for a person to read: the value as an expression, numbers that are whole without point *)
Definition compared (want got : str) : str := bs "expected: " ++ want ++ x0a :: bs "actual: " ++ got.
(** [complaint E env t m x y]: the test fails with the message [m], having expected [x] and
    found [y] *)
Inductive complaint (E : Ext) (env : env) (t : test_case) : str -> str -> str -> Prop :=
| co_parse e : test_program t (PErr e) -> complaint E env t (bs "parsing input: " ++ e) [] []
| co_no_error p v b want : test_program t (POk p) -> eval E env p (new_buffer (t_buffer t)) = EvDone v b ->
    trim_space (t_error t) = want -> want <> [] ->
    complaint E env t (bs "expected error " ++ quote E want ++ bs " but got none") [] []
| co_other_error p x b want core : test_program t (POk p) -> eval E env p (new_buffer (t_buffer t)) = EvError x b ->
    trim_space (t_error t) = want -> want <> [] -> without_parens want core ->
    (forall u v, exec_error_text E x <> u ++ core ++ v) ->
    complaint E env t (bs "expected error containing " ++ quote E want ++ bs " but got " ++ quote E (exec_error_text E x)) [] []
| co_error p x b : test_program t (POk p) -> eval E env p (new_buffer (t_buffer t)) = EvError x b ->
    trim_space (t_error t) = [] -> complaint E env t (bs "unexpected error: " ++ exec_error_text E x) [] []
| co_nothing p v b : test_program t (POk p) -> eval E env p (new_buffer (t_buffer t)) = EvDone v b ->
    trim_space (t_error t) = [] -> t_output t = [] -> trim_space (t_result t) = [] ->
    complaint E env t (bs "test case must specify at least one of <output> or <result> elements") [] []
| co_output p v b : test_program t (POk p) -> eval E env p (new_buffer (t_buffer t)) = EvDone v b ->
    trim_space (t_error t) = [] -> t_output t <> [] -> content b <> t_output t ->
    complaint E env t (bs "output mismatch:" ++ x0a :: compared (quote E (t_output t)) (quote E (content b)))
      (t_output t) (content b)
| co_result_unreadable p v b lang e : test_program t (POk p) -> eval E env p (new_buffer (t_buffer t)) = EvDone v b ->
    trim_space (t_error t) = [] -> (t_output t <> [] -> content b = t_output t) -> trim_space (t_result t) <> [] ->
    (t_result_lang t = [] /\ lang = bs "sexp" \/ t_result_lang t <> [] /\ lang = t_result_lang t) ->
    parse_format lang (trim_space (t_result t)) = PErr e ->
    complaint E env t (bs "parsing expected result with format " ++ lang ++ bs ": " ++ e) [] []
| co_result_several p v b l : test_program t (POk p) -> eval E env p (new_buffer (t_buffer t)) = EvDone v b ->
    trim_space (t_error t) = [] -> (t_output t <> [] -> content b = t_output t) -> trim_space (t_result t) <> [] ->
    parse_format (t_result_lang t) (trim_space (t_result t)) = POk l -> (2 <= length l)%nat ->
    complaint E env t (bs "expected result should contain exactly one expression, got " ++ itoa (Z.of_nat (length l))) [] []
| co_result p v b l x y : test_program t (POk p) -> eval E env p (new_buffer (t_buffer t)) = EvDone v b ->
    trim_space (t_error t) = [] -> (t_output t <> [] -> content b = t_output t) -> trim_space (t_result t) <> [] ->
    parse_format (t_result_lang t) (trim_space (t_result t)) = POk l -> (length l <= 1)%nat ->
    equal (hd_error l) (Some v) = false -> shows_result E (hd_error l) x -> shows_result E (Some v) y ->
    complaint E env t (bs "result mismatch:" ++ x0a :: compared (quote E x) (quote E y)) x y.

(** why the test in file [f] cannot pass: the file cannot be read, or holds no test case, or the
    test case fails *)
Inductive file_complaint (E : Ext) (os : OS) (decode : str -> test_case + str) (s : fs) (f : str) : str -> Prop :=
| fc_missing : s (canon os f) = None -> file_complaint E os decode s f (bs "opening test file " ++ f ++ bs ": " ++ os_missing os f)
| fc_unread c n e : s (canon os f) = Some c -> os_read_err os n = Some e -> file_complaint E os decode s f (bs "opening test file " ++ f ++ bs ": " ++ e)
| fc_no_test c e : s (canon os f) = Some c -> decode c = inr e -> file_complaint E os decode s f (bs "parsing test case: " ++ e)
| fc_test c t m x y : s (canon os f) = Some c -> decode c = inl t -> complaint E (default_env E) t m x y -> file_complaint E os decode s f m.
(** the lines shown for a file *)
Inductive file_lines (E : Ext) (os : OS) (decode : str -> test_case + str) (fail_only : bool) (s : fs) (f : str) : str -> Prop :=
| fl_pass name : last_component f name -> file_passes E os decode s f ->
    file_lines E os decode fail_only s f (if fail_only then [] else bs "[PASS] " ++ name ++ [x0a])
| fl_fail name m : last_component f name -> file_complaint E os decode s f m ->
    file_lines E os decode fail_only s f (bs "[FAIL] " ++ name ++ x0a :: bs "  Error: " ++ m ++ [x0a]).
