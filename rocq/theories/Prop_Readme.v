(** C53: the worked examples of README.md, docs/spec.md and the command's help text. *)
From Coq Require Import ZArith NArith List Bool Lia ZifyBool ZifyN ZifyNat Strings.Byte.
From Verif Require Import Base Float Ext Utf8 Strconv Values Buffer Builtins Eval Parser Json Writer Files
  Spec SpecText RefExt Proofs_Base Proofs_Exec Proofs_Effects Proofs_Token Proofs_Lines Proofs_Script Prop_Eval Prop_Script Prop_Edit Prop_Lines.
Import ListNotations.
Open Scope Z_scope.

(** ** C53 *)
(** a sequence of calls with literal arguments *)
Inductive calls (E : Ext) : list (String.string * list value) -> buffer -> buffer -> Prop :=
| calls_nil b : calls E [] b b
| calls_cons n args cs b v b1 b2 : Forall (fun a => match a with VStr _ | VNum _ => True | _ => False end) args ->
    call E n args b = Done v b1 -> calls E cs b1 b2 -> calls E ((n, args) :: cs) b b2.
Definition program_of (cs : list (String.string * list value)) : list value :=
  map (fun c => VList (VSym (bs (fst c)) :: snd c)) cs.
Lemma literal_args env args b : Forall (fun a => match a with VStr _ | VNum _ => True | _ => False end) args -> evaluates_all env args b args b.
Proof. induction 1 as [|a args A _ IH]; [constructor|]. econstructor; eauto. destruct a; try contradiction; constructor. Qed.
Lemma call_evaluates E n args b v b' : Forall (fun a => match a with VStr _ | VNum _ => True | _ => False end) args ->
  call E n args b = Done v b' -> evaluates (default_env E) (VList (VSym (bs n) :: args)) b v b'.
Proof.
  intros L H. unfold call in H. destruct (default_env E (bs n)) as [f|] eqn:D; [|discriminate]. econstructor; eauto. now apply literal_args.
Qed.
Lemma calls_run E cs b b' : calls E cs b b' -> exists v, forall p b0 v0, Spec.runs (default_env E) p b0 v0 b -> Spec.runs (default_env E) (p ++ program_of cs) b0 (match cs with [] => v0 | _ => v end) b'.
Proof.
  induction 1 as [b|n args cs b v b1 b2 L C _ (w & IH)].
  - exists (VStr []). intros p b0 v0 R. cbn. now rewrite app_nil_r.
  - exists (match cs with [] => v | _ => w end). intros p b0 v0 R. pose proof (call_evaluates E n args b v b1 L C) as Ev.
    pose proof (run_snoc _ p _ b0 v0 b v b1 R Ev) as R'. specialize (IH _ _ _ R'). rewrite <- app_assoc in IH. exact IH.
Qed.
Lemma script_calls E input script cs b' : parse_string script = POk (program_of cs) -> calls E cs (new_buffer input) b' ->
  execute_script E input script = Ok (content b').
Proof.
  intros P C. destruct (calls_run E cs _ _ C) as (v & R). specialize (R [] _ _ (run_nil _ _)). cbn [app] in R. apply (eval_runs E) in R.
  unfold execute_script, run_program. rewrite P, R. reflexivity.
Qed.
Lemma parses_closed l p : fits_line l -> parse_string l = POk p -> closed l.
Proof.
  intros F P. destruct (qrun (false, false) (rune_list l)) as [[|] [|]] eqn:Q; try (apply closed_iff; exact Q).
  all: exfalso; destruct (open_literal_rejected l F) as (m & M); [|congruence]; rewrite closed_iff, Q; discriminate.
Qed.
Lemma parse_two E n1 s1 n2 s2 : token_symbol n1 -> token_symbol n2 ->
  let script := n1 ++ bs " " ++ quote E s1 ++ bs "; " ++ n2 ++ bs " " ++ quote E s2 in
  fits_line script -> parse_string script = POk [VList [VSym n1; VStr s1]; VList [VSym n2; VStr s2]].
Proof.
  cbv zeta. intros T1 T2 F. set (a := n1 ++ bs " " ++ quote E s1) in *. set (c := n2 ++ bs " " ++ quote E s2) in *.
  assert (X : n1 ++ bs " " ++ quote E s1 ++ bs "; " ++ c = a ++ bs ";" ++ (bs " " ++ c)) by (unfold a; rewrite <- !app_assoc; reflexivity).
  rewrite X in *. pose proof F as [N L]. unfold no_newline in N. rewrite !in_app_iff in N. revert L. lens. intros L. pose proof (zlen_nonneg a). pose proof (zlen_nonneg c).
  change (zlen (bs ";")) with 1 in L. change (zlen (bs " ")) with 1 in L.
  assert (Fa : fits_line a) by (split; [intros I; apply N; tauto|lia]). assert (Fc : fits_line c) by (split; [intros I; apply N; tauto|lia]).
  assert (Fb : fits_line (bs " " ++ c)) by (split; [intros I; apply N; apply in_app_iff in I; tauto|revert L; lens; change (zlen (bs " ")) with 1; lia]).
  pose proof (literal_argument E n1 s1 T1 Fa) as P1. pose proof (literal_argument E n2 s2 T2 Fc) as P2. fold a in P1. fold c in P2.
  rewrite semicolon_separates; auto; [|eapply parses_closed; eauto]. rewrite newline_separates, P1.
  pose proof (blanks_ignored (bs " ") c [] ltac:(repeat constructor) ltac:(constructor)) as B. rewrite app_nil_r in B. rewrite B, P2 by auto. reflexivity.
Qed.
Lemma command_name n : In n [bs "search-forward"; bs "search-backward"; bs "replace-match"; bs "replace-region"; bs "re-search-forward"] -> token_symbol n.
Proof.
  assert (S : forall r, (r = 45 \/ 97 <= r <= 122)%N -> symbol_rune r).
  { intros r R. split; [unfold valid_rune; lia|]. split; [cbn; lia|]. unfold is_space. lia. }
  cbn [In]. intros H. repeat (destruct H as [<-|H]; [|]); [..|contradiction].
  all: match goal with |- token_symbol (bs ?s) => let l := eval vm_compute in (map byteN (bs s)) in exists l end.
  all: split; [discriminate|]; split; [repeat (constructor; [apply S; lia|]); constructor|]; split; [reflexivity|vm_compute; reflexivity].
Qed.
(** search and replace, the first example: the first occurrence of any text is replaced by
    any other text, whatever bytes the two consist of *)
Theorem search_and_replace E input p r pre post :
  let script := bs "search-forward " ++ quote E p ++ bs "; replace-match " ++ quote E r in
  fits_line script -> p <> [] -> input = pre ++ p ++ post -> (forall i, 0 <= i < zlen pre -> ~ occurs_at input p i) ->
  fits input -> fits (pre ++ r ++ post) ->
  execute_script E input script = Ok (pre ++ r ++ post).
Proof.
  cbv zeta. intros F Np -> First Fi Fo.
  pose proof (parse_two E (bs "search-forward") p (bs "replace-match") r (command_name (bs "search-forward") ltac:(cbn [In]; auto 9)) (command_name (bs "replace-match") ltac:(cbn [In]; auto 9)) F) as P.
  assert (S : splits (new_buffer (pre ++ p ++ post)) 1 [] (pre ++ p ++ post)) by (split; reflexivity).
  pose proof (search_forward_finds_first E (new_buffer (pre ++ p ++ post)) p [] pre post Fi S ltac:(destruct pre, p; discriminate || congruence) First) as C1. cbv zeta in C1.
  destruct (search_forward_then_replace E (new_buffer (pre ++ p ++ post)) p r [] pre post _ _ Fi Np S First Fo C1) as (b2 & C2 & Cb & _). cbn [app] in Cb. rewrite <- Cb.
  eapply script_calls with (cs := [("search-forward"%string, [VStr p]); ("replace-match"%string, [VStr r])]); [exact P|].
  econstructor; [repeat constructor|exact C1|]. econstructor; [repeat constructor|exact C2|constructor].
Qed.
Example search_and_replace_witness :
  execute_script ref_ext (bs "hello world") (bs "search-forward ""world""; replace-match ""universe""") = Ok (bs "hello universe").
Proof. vm_compute. reflexivity. Qed.
Example search_and_replace_witness_bytes : let script := bs "search-forward " ++ quote ref_ext (bs "a;""") ++ bs "; replace-match " ++ quote ref_ext [x0a; xff] in
  fits_line script /\ execute_script ref_ext (bs "xa;""y") script = Ok ([x78; x0a; xff; x79]).
Proof.
  cbv zeta. split; [|vm_compute; reflexivity]. split; [|vm_compute; reflexivity]. intros H. vm_compute in H. repeat destruct H as [H|H]; try discriminate H; contradiction.
Qed.
(** and when the text does not occur, the script fails and says so *)
Theorem search_and_replace_absent E input p r :
  let script := bs "search-forward " ++ quote E p ++ bs "; replace-match " ++ quote E r in
  fits_line script -> p <> [] -> (forall i, ~ occurs_at input p i) -> fits input ->
  exists details, execute_script E input script = Err (bs "script execution failed: search failed" ++ details).
Proof.
  cbv zeta. intros F Np N Fi.
  pose proof (parse_two E (bs "search-forward") p (bs "replace-match") r (command_name (bs "search-forward") ltac:(cbn [In]; auto 9)) (command_name (bs "replace-match") ltac:(cbn [In]; auto 9)) F) as P.
  assert (S : splits (new_buffer input) 1 [] input) by (split; reflexivity).
  pose proof (search_forward_fails E (new_buffer input) p [] input Fi S (or_intror N)) as C. unfold call in C.
  eexists. unfold execute_script, run_program.
  change (parse_string (bs "search-forward " ++ quote E p ++ bs "; replace-match " ++ quote E r) = POk [VList [VSym (bs "search-forward"); VStr p]; VList [VSym (bs "replace-match"); VStr r]]) in P. rewrite P. unfold eval, eval_with_trace. cbn [eval_from eval_expr].
  change (default_env E (bs "search-forward")) with (Some b_search_forward) in *. cbv iota beta in *.
  change (bind (bind (ret (VStr p)) (fun a => bind (ret []) (fun r0 => ret (a :: r0)))) (fun vs => b_search_forward vs) (new_buffer input))
    with (b_search_forward [VStr p] (new_buffer input)). rewrite C. cbn [fst]. unfold exec_error_text. cbn [x_error new_exec_error].
  rewrite app_assoc. reflexivity.
Qed.
Example search_and_replace_absent_witness : exists details,
  execute_script ref_ext (bs "hello") (bs "search-forward ""world""; replace-match ""universe""") = Err (bs "script execution failed: search failed" ++ details).
Proof. eexists. vm_compute. reflexivity. Qed.

(** replacing the whole text *)
Theorem whole_text_replaced E input : input <> [] -> fits input ->
  execute_script E input (bs "mark-whole-buffer; replace-region ""PROCESSED""") = Ok (bs "PROCESSED").
Proof.
  intros N F. set (b := at_point (new_buffer input) (zlen input + 1)).
  assert (C1 : call E "mark-whole-buffer" [] (new_buffer input) = Done (VStr []) b).
  { call. exe. unwrap. reflexivity. }
  assert (R : region b [] input []).
  { split; [now rewrite app_nil_r|]. unfold b, clamp. cbn [mark point at_point new_buffer content]. pose proof (zlen_nonneg input). lens. split; lia. }
  pose proof (replace_region_replaces E b [] input [] (bs "PROCESSED")) as C2. destruct input as [|c t]; [congruence|].
  specialize (C2 ltac:(unfold b, ints_ok; ints; cbn [mark point at_point new_buffer content] in *; pose proof (zlen_nonneg t); revert F; lens; lia) R ltac:(vm_compute; discriminate)).
  change (Ok (bs "PROCESSED")) with (Ok (content (with_text b ([] ++ bs "PROCESSED" ++ []) (zlen (@nil byte) + zlen (bs "PROCESSED") + 1)))).
  eapply script_calls with (cs := [("mark-whole-buffer"%string, []); ("replace-region"%string, [VStr (bs "PROCESSED")])]); [vm_compute; reflexivity|].
  econstructor; [constructor|exact C1|]. econstructor; [repeat constructor|exact C2|constructor].
Qed.
Example whole_text_replaced_witness : execute_script ref_ext (bs "one two") (bs "mark-whole-buffer; replace-region ""PROCESSED""") = Ok (bs "PROCESSED").
Proof. vm_compute. reflexivity. Qed.
(** except that an empty text stays empty *)
Theorem whole_text_replaced_refuted : exists input, forall E,
  execute_script E input (bs "mark-whole-buffer; replace-region ""PROCESSED""") = Ok input /\ input <> bs "PROCESSED".
Proof.
  exists []. intros E. split; [|discriminate]. unfold execute_script.
  replace (parse_string (bs "mark-whole-buffer; replace-region ""PROCESSED""")) with
    (POk [VList [VSym (bs "mark-whole-buffer")]; VList [VSym (bs "replace-region"); VStr (bs "PROCESSED")]]) by (vm_compute; reflexivity). reflexivity.
Qed.
(** a line put in front *)
Theorem header_inserted E input : fits (bs "Header" ++ nl :: input) ->
  execute_script E input (bs "(goto-line 1)" ++ nl :: bs "(insert ""Header\n"")") = Ok (bs "Header" ++ nl :: input).
Proof.
  intros F. assert (Fi : fits input) by (unfold fits in *; revert F; lens; pose proof (zlen_nonneg input); lia).
  pose proof (goto_line_moves E (new_buffer input) (f_of_Z 1) 1 [] input) as C1.
  specialize (C1 ltac:(left; split; [exists 1; vm_compute; repeat split; discriminate|unfold int_ok; vm_compute; split; discriminate]) Fi eq_refl (or_introl eq_refl)).
  specialize (C1 ltac:(cbn [content new_buffer]; pose proof (newlines_nonneg input); change (newlines []) with 0; unfold clamp; lia)).
  set (b1 := at_point (new_buffer input) (zlen (@nil byte) + 1)) in *.
  pose proof (insert_splices E b1 (bs "Header" ++ [nl]) [] input ltac:(split; reflexivity)) as C2. cbn [app] in C2. rewrite <- app_assoc in C2. specialize (C2 F).
  change (Ok (bs "Header" ++ nl :: input)) with (Ok (content (with_text b1 (bs "Header" ++ [nl] ++ input) (point b1 + zlen (bs "Header" ++ [nl]))))).
  eapply script_calls with (cs := [("goto-line"%string, [VNum (f_of_Z 1)]); ("insert"%string, [VStr (bs "Header" ++ [nl])])]); [vm_compute; reflexivity|].
  econstructor; [repeat constructor|exact C1|]. econstructor; [repeat constructor|exact C2|constructor].
Qed.
Example header_inserted_witness : execute_script ref_ext (bs "a") (bs "(goto-line 1)" ++ nl :: bs "(insert ""Header\n"")") = Ok (bs "Header" ++ nl :: bs "a").
Proof. vm_compute. reflexivity. Qed.
(** a comment line put before the first line with func in it *)
Theorem comment_inserted E u l rest : let input := u ++ l ++ bs "func " ++ rest in let comment := bs "// TODO: Add documentation" ++ [nl] in
  whole_lines u -> no_newline l -> (forall i, 0 <= i < zlen (u ++ l) -> ~ occurs_at input (bs "func ") i) -> fits (u ++ comment ++ l ++ bs "func " ++ rest) ->
  execute_script E input (bs "search-forward ""func """ ++ nl :: bs "beginning-of-line" ++ nl :: bs "insert ""// TODO: Add documentation\n""") =
  Ok (u ++ comment ++ l ++ bs "func " ++ rest).
Proof.
  cbv zeta. set (comment := bs "// TODO: Add documentation" ++ [nl]). intros U L First F. set (input := u ++ l ++ bs "func " ++ rest) in *.
  assert (Fi : fits input) by (unfold fits, input in *; revert F; lens; pose proof (zlen_nonneg comment); lia).
  assert (I : input = (u ++ l) ++ bs "func " ++ rest) by (unfold input; now rewrite <- app_assoc).
  pose proof (search_forward_finds_first E (new_buffer input) (bs "func ") [] (u ++ l) rest Fi ltac:(split; [exact I|reflexivity]) ltac:(destruct u, l; discriminate)
    ltac:(rewrite <- I; exact First)) as C1. cbv zeta in C1. set (b1 := with_match _ _ _ _ _) in C1.
  pose proof (beginning_of_line_moves E b1 u (l ++ bs "func ") rest Fi) as C2.
  specialize (C2 ltac:(split; [unfold b1; cbn [content with_match new_buffer]; unfold input; now rewrite <- !app_assoc|unfold b1; cbn [point with_match new_buffer]; lens; lia]) U).
  specialize (C2 ltac:(intros H; apply in_app_iff in H as [H|H]; [now apply L|vm_compute in H; repeat destruct H as [H|H]; try discriminate H; contradiction]) ltac:(left; destruct l; discriminate)).
  set (b2 := at_point b1 (zlen u + 1)) in *.
  pose proof (insert_splices E b2 comment u (l ++ bs "func " ++ rest) ltac:(split; reflexivity) F) as C3.
  change (Ok (u ++ comment ++ l ++ bs "func " ++ rest)) with (Ok (content (with_text b2 (u ++ comment ++ l ++ bs "func " ++ rest) (point b2 + zlen comment)))).
  eapply script_calls with (cs := [("search-forward"%string, [VStr (bs "func ")]); ("beginning-of-line"%string, []); ("insert"%string, [VStr comment])]); [vm_compute; reflexivity|].
  econstructor; [repeat constructor|exact C1|]. econstructor; [constructor|exact C2|]. econstructor; [repeat constructor|exact C3|constructor].
Qed.
Example comment_inserted_witness :
  execute_script ref_ext (bs "a" ++ nl :: bs "  func b") (bs "search-forward ""func """ ++ nl :: bs "beginning-of-line" ++ nl :: bs "insert ""// TODO: Add documentation\n""")
  = Ok (bs "a" ++ nl :: bs "// TODO: Add documentation" ++ nl :: bs "  func b").
Proof. vm_compute. reflexivity. Qed.
(** lines 10 to 14 deleted *)
Theorem lines_deleted E u t rest : whole_lines u -> whole_lines t -> newlines u = 9 -> newlines t = 5 -> fits (u ++ t ++ rest) ->
  execute_script E (u ++ t ++ rest) (bs "goto-line 10" ++ nl :: bs "set-mark" ++ nl :: bs "goto-line 15" ++ nl :: bs "delete-region") = Ok (u ++ rest).
Proof.
  intros U T Nu Nt F. set (input := u ++ t ++ rest) in *.
  assert (Ni : newlines input = newlines u + newlines t + newlines rest) by (unfold input, newlines; rewrite !count_occ_app; lia).
  pose proof (newlines_nonneg rest).
  pose proof (goto_line_moves E (new_buffer input) (f_of_Z 10) 10 u (t ++ rest)) as C1.
  specialize (C1 ltac:(left; split; [exists 10; vm_compute; repeat split; discriminate|unfold int_ok; vm_compute; split; discriminate]) F eq_refl U).
  specialize (C1 ltac:(cbn [content new_buffer]; unfold clamp; lia)).
  set (b1 := at_point (new_buffer input) (zlen u + 1)) in *. set (b2 := with_mark b1 (zlen u + 1)).
  assert (C2 : call E "set-mark" [] b1 = Done (VStr []) b2) by (call; reflexivity).
  pose proof (goto_line_moves E b2 (f_of_Z 15) 15 (u ++ t) rest) as C3.
  specialize (C3 ltac:(left; split; [exists 15; vm_compute; repeat split; discriminate|unfold int_ok; vm_compute; split; discriminate]) F).
  specialize (C3 ltac:(unfold b2, b1, input; cbn [content with_mark at_point new_buffer]; now rewrite <- app_assoc)).
  assert (T' : t <> []) by (intros ->; vm_compute in Nt; discriminate).
  specialize (C3 ltac:(right; destruct T as [T|(x & ->)]; [congruence|]; exists (u ++ x); now rewrite app_assoc)).
  assert (Nut : newlines (u ++ t) = 14) by (unfold newlines in *; rewrite count_occ_app; lia).
  specialize (C3 ltac:(unfold b2, b1; cbn [content with_mark at_point new_buffer]; unfold clamp; lia)).
  set (b3 := at_point b2 (zlen (u ++ t) + 1)) in *.
  assert (R : region b3 u t rest).
  { split; [reflexivity|]. unfold b3, b2, b1, input, clamp. cbn [mark point with_mark at_point new_buffer content]. lens. pose proof (zlen_nonneg u). pose proof (zlen_nonneg t). pose proof (zlen_nonneg rest). split; lia. }
  pose proof (delete_region_deletes E b3 u t rest) as C4.
  specialize (C4 ltac:(unfold b3, b2, b1, input, ints_ok in *; cbn [mark point with_mark at_point new_buffer content] in *; pose proof (zlen_nonneg u); pose proof (zlen_nonneg t); pose proof (zlen_nonneg rest);
     ints; revert F; lens; lia) R).
  destruct t as [|c t]; [congruence|].
  change (Ok (u ++ rest)) with (Ok (content (with_text b3 (u ++ rest) (zlen u + 1)))).
  eapply script_calls with (cs := [("goto-line"%string, [VNum (f_of_Z 10)]); ("set-mark"%string, []); ("goto-line"%string, [VNum (f_of_Z 15)]); ("delete-region"%string, [])]); [vm_compute; reflexivity|].
  econstructor; [repeat constructor|exact C1|]. econstructor; [constructor|exact C2|]. econstructor; [repeat constructor|exact C3|]. econstructor; [constructor|exact C4|constructor].
Qed.
Example lines_deleted_witness : let line c := [c; nl] in
  let u := flat_map line (bs "123456789") in let t := flat_map line (bs "abcde") in
  newlines u = 9 /\ newlines t = 5 /\
  execute_script ref_ext (u ++ t ++ bs "z") (bs "goto-line 10" ++ nl :: bs "set-mark" ++ nl :: bs "goto-line 15" ++ nl :: bs "delete-region") = Ok (u ++ bs "z").
Proof. vm_compute. repeat split; reflexivity. Qed.

(** *** Examples that do not work *)
Lemma undefined_first E env n args rest b : env n = None ->
  exists x, eval E env (VList (VSym n :: args) :: rest) b = EvError x b /\ x_error x = bs "undefined-function " ++ quote E n.
Proof. intros H. eexists. unfold eval, eval_with_trace. cbn [eval_from eval_expr]. rewrite H. split; reflexivity. Qed.
(** no script of README.md that starts with a comment runs: a line with a hash is a call of
    the command # *)
Theorem comment_line_refuted E input rest : exists e, execute_script E input (bs "# Simple commands" ++ nl :: rest) = Err e.
Proof.
  unfold execute_script. rewrite newline_separates.
  replace (parse_string (bs "# Simple commands")) with (POk [VList [VSym (bs "#"); VSym (bs "Simple"); VSym (bs "commands")]]) by (vm_compute; reflexivity).
  destruct (parsing_total rest) as [(q & ->)|(m & ->)]; cbn [pseq app run_program]; [|eauto].
  destruct (undefined_first E (default_env E) (bs "#") [VSym (bs "Simple"); VSym (bs "commands")] q (new_buffer input)) as (x & -> & _); [reflexivity|eauto].
Qed.
(** nor is a semicolon the start of a comment (README.md:85) *)
Theorem semicolon_comment_refuted E input before rest :
  (exists e, execute_script E input (before ++ nl :: bs "; Multiple commands as separate expressions" ++ nl :: rest) = Err e) \/
  (exists c, execute_script E input (before ++ nl :: bs "; Multiple commands as separate expressions" ++ nl :: rest) = Crash c).
Proof.
  unfold execute_script. rewrite !newline_separates.
  replace (parse_string (bs "; Multiple commands as separate expressions")) with
    (POk [VList [VSym (bs "Multiple"); VSym (bs "commands"); VSym (bs "as"); VSym (bs "separate"); VSym (bs "expressions")]]) by (vm_compute; reflexivity).
  destruct (parsing_total before) as [(p & ->)|(m & ->)]; cbn [pseq run_program]; [|eauto].
  destruct (parsing_total rest) as [(q & ->)|(m & ->)]; cbn [pseq run_program]; [|eauto].
  set (words := [VSym (bs "commands"); VSym (bs "as"); VSym (bs "separate"); VSym (bs "expressions")]). rewrite eval_sequence.
  destruct (eval E (default_env E) p (new_buffer input)) as [v b|x b| | |]; [|cbn [relabel]; eauto..].
  destruct (undefined_first E (default_env E) (bs "Multiple") words q b) as (x & X & _); [reflexivity|].
  change ([VList (VSym (bs "Multiple") :: words)] ++ q) with (VList (VSym (bs "Multiple") :: words) :: q). rewrite X. cbn [relabel]. eauto.
Qed.
(** the command line of README.md:48 and 134 never works: a JSON script is an array of
    arrays *)
Theorem json_example_refuted E input : exists e,
  execute_script_fmt E input (bs "[""search-forward"", ""pattern""]") (bs "json") = Err e.
Proof.
  eexists. unfold execute_script_fmt. change (is_valid_format (bs "json")) with true. change (str_eqb (bs "json") (bs "json")) with true. cbv iota.
  replace (parse_json_string (bs "[""search-forward"", ""pattern""]")) with (@PErr (list value) (bs "invalid format at index 0: top-level strings are not allowed in texted JSON"))
    by (vm_compute; reflexivity). reflexivity.
Qed.
(** the example of the help text (commands/edit.go:137) never works: hello is not a string *)
Theorem help_example_refuted E input : exists e, execute_script E input (bs "search-forward hello") = Err e.
Proof.
  eexists. unfold execute_script. replace (parse_string (bs "search-forward hello")) with (POk [VList [VSym (bs "search-forward"); VSym (bs "hello")]]) by (vm_compute; reflexivity).
  reflexivity.
Qed.
(** the program of docs/spec.md:38-43 does not produce what docs/spec.md:30-33 says *)
Definition spec_input : str := bs "function doIt() {" ++ nl :: bs "  console.log(""doing the thing"")" ++ nl :: bs "}" ++ [nl].
Definition spec_output : str := bs "function helloWorld() {" ++ nl :: bs "  console.log(""hello, world"")" ++ nl :: bs "}" ++ [nl].
Definition spec_script : str := bs "search-forward ""doIt""" ++ nl :: bs "set-mark" ++ nl :: bs "search-forward ""(""" ++ nl :: bs "replace-region ""helloWorld"""
  ++ nl :: bs "search-forward ""doing the thing""" ++ nl :: bs "replace-match ""hello, world""".
Theorem spec_example_refuted E : exists out, execute_script E spec_input spec_script = Ok out /\ out <> spec_output.
Proof.
  exists (bs "function doIthelloWorld) {" ++ nl :: bs "  console.log(""hello, world"")" ++ nl :: bs "}" ++ [nl]). split; [|discriminate].
  eapply script_calls with (cs := [("search-forward"%string, [VStr (bs "doIt")]); ("set-mark"%string, []); ("search-forward"%string, [VStr (bs "(")]);
    ("replace-region"%string, [VStr (bs "helloWorld")]); ("search-forward"%string, [VStr (bs "doing the thing")]); ("replace-match"%string, [VStr (bs "hello, world")])])
    (b' := mkBuffer (bs "function doIthelloWorld) {" ++ nl :: bs "  console.log(""hello, world"")" ++ nl :: bs "}" ++ [nl]) 55 14 (bs "doing the thing") 43 58); [vm_compute; reflexivity|].
  repeat (econstructor; [repeat constructor|call; vm_compute; reflexivity|]). constructor.
Qed.

(** ** Assumptions of every theorem above *)
Print Assumptions search_and_replace.
Print Assumptions search_and_replace_absent.
Print Assumptions whole_text_replaced.
Print Assumptions whole_text_replaced_refuted.
Print Assumptions header_inserted.
Print Assumptions comment_inserted.
Print Assumptions lines_deleted.
Print Assumptions comment_line_refuted.
Print Assumptions semicolon_comment_refuted.
Print Assumptions json_example_refuted.
Print Assumptions help_example_refuted.
Print Assumptions spec_example_refuted.
