(** C67: what an error report says, and where it appears (edlisp/error.go:45-70,
    texted.go:19-67, commands/edit.go:329-398, tools/texted_eval.go:41-89); writers for
    unknown formats (edlisp/writer/writer.go:26-37). *)
From Coq Require Import ZArith NArith List Bool Lia Strings.Byte ZifyBool.
From Verif Require Import Base Float Ext Utf8 Strconv Values Buffer Builtins Eval Parser Json Writer Files Cli Tools RefExt
  Spec SpecNumber Proofs_Base Proofs_Exec Proofs_Number Proofs_Numeral Prop_Edit Prop_Eval.
Import ListNotations.
Open Scope Z_scope.

(** ** C67 *)

(** ** what the report says *)
(** [report E msg n i p m t]: the text of an error [msg] in instruction [i], number [n],
    with point [p] and mark [m] *)
Definition report (E : Ext) (msg : str) (n : Z) (i : value) (p m : Z) (t : str) : Prop :=
  exists tn tp tm, int_text tn n /\ int_text tp p /\ int_text tm m /\
    t = msg ++ bs " (at instruction " ++ tn ++ bs ": " ++ show E i ++ bs ", point=" ++ tp ++ bs ", mark=" ++ tm ++ bs ")".

(** the report names the first instruction that failed, counted from 0, the message of the
    function, and the point and mark as the failing instruction left them *)
Theorem error_report E env prog b x b' : eval E env prog b = EvError x b' ->
  exists before i after v b1 msg, prog = before ++ i :: after /\ runs env before b v b1 /\ errs E env i b1 msg b' /\
    report E msg (zlen before) i (point b') (mark b') (exec_error_text E x).
Proof.
  intros H. apply eval_stops_at_first_error in H as (p1 & i & p2 & v & b1 & -> & R & F & _ & Hi & Hn & _ & Hp & Hm & _).
  exists p1, i, p2, v, b1, (x_error x). repeat (split; [auto|]). exists (itoa (zlen p1)), (itoa (point b')), (itoa (mark b')).
  repeat (split; [apply itoa_text|]). unfold exec_error_text. rewrite Hi, Hn, Hp, Hm. reflexivity.
Qed.

Lemma split_last (c : byte) : forall a a' t t' : str, ~ In c t -> ~ In c t' -> a ++ c :: t = a' ++ c :: t' -> a = a' /\ t = t'.
Proof.
  induction a as [|x a IH]; intros [|x' a'] t t' N N' H; cbn in H.
  - injection H as ->. auto.
  - injection H as -> H. exfalso. apply N. rewrite H. apply in_app_iff. right. now left.
  - injection H as -> H. exfalso. apply N'. rewrite <- H. apply in_app_iff. right. now left.
  - injection H as -> H. destruct (IH a' t t' N N' H) as [-> ->]. auto.
Qed.
Lemma no_equals t z s : int_text t z -> ~ In "="%byte s -> ~ In "="%byte (t ++ s).
Proof.
  intros H N X. apply in_app_iff in X as [X|X]; [|auto].
  pose proof (int_text_bytes _ _ _ H X) as Y. cbn in Y. intuition discriminate.
Qed.
(** whatever the messages and instructions contain, the report determines point and mark *)
Theorem report_determines_position E msg n i p m msg' n' i' p' m' t :
  report E msg n i p m t -> report E msg' n' i' p' m' t -> p = p' /\ m = m'.
Proof.
  intros (tn & tp & tm & Hn & Hp & Hm & ->) (tn' & tp' & tm' & Hn' & Hp' & Hm' & H).
  set (a := msg ++ bs " (at instruction " ++ tn ++ bs ": " ++ show E i) in *.
  set (a' := msg' ++ bs " (at instruction " ++ tn' ++ bs ": " ++ show E i') in *.
  assert (H1 : (a ++ bs ", point=" ++ tp ++ bs ", mark") ++ "="%byte :: (tm ++ bs ")") =
               (a' ++ bs ", point=" ++ tp' ++ bs ", mark") ++ "="%byte :: (tm' ++ bs ")")).
  { unfold a, a'. revert H. change (bs ", mark=") with (bs ", mark" ++ ["="%byte]). rewrite <- !app_assoc. auto. }
  apply split_last in H1 as [H1 H2]; try (eapply no_equals; eauto; cbn; intuition discriminate).
  assert (H3 : (a ++ bs ", point") ++ "="%byte :: (tp ++ bs ", mark") = (a' ++ bs ", point") ++ "="%byte :: (tp' ++ bs ", mark")).
  { revert H1. change (bs ", point=") with (bs ", point" ++ ["="%byte]). rewrite <- !app_assoc. auto. }
  apply split_last in H3 as [_ H3]; try (eapply no_equals; eauto; cbn; intuition discriminate).
  apply app_inv_tail in H2, H3. subst. split; eapply int_text_unique; eauto.
Qed.

(** ** where it appears *)
Theorem script_error_reported E input script prog x b : parse_string script = POk prog ->
  eval E (default_env E) prog (new_buffer input) = EvError x b ->
  execute_script E input script = Err (bs "script execution failed: " ++ exec_error_text E x) /\
  eval_handler E (mkEvalRequest (Some input) (Some script) (Some (bs "expression"))) =
    Ok (ToolError (bs "script execution failed: " ++ exec_error_text E x)).
Proof.
  intros P H. split.
  - unfold execute_script, run_program. now rewrite P, H.
  - unfold eval_handler. cbn [v_input v_script v_output]. change (str_eqb (bs "expression") (bs "buffer")) with false.
    change (str_eqb (bs "expression") (bs "expression")) with true. cbv iota. now rewrite P, H.
Qed.
(** in the buffer mode of the tool the prefix is there twice, and a script that does not
    parse is reported as one whose execution failed *)
Theorem buffer_mode_report E input script msg mode : mode = None \/ mode = Some (bs "buffer") ->
  execute_script E input script = Err msg ->
  eval_handler E (mkEvalRequest (Some input) (Some script) mode) = Ok (ToolError (bs "script execution failed: " ++ msg)).
Proof.
  intros M H. unfold eval_handler. cbn [v_input v_script v_output].
  destruct M as [->| ->]; change (str_eqb (bs "buffer") (bs "buffer")) with true; cbv iota; now rewrite H.
Qed.
Theorem execution_reported_only_when_executed_refuted : exists input script msg e,
  parse_string script = PErr e /\
  eval_handler ref_ext (mkEvalRequest (Some input) (Some script) None) = Ok (ToolError msg) /\
  exists rest, msg = bs "script execution failed: parsing script: " ++ rest.
Proof.
  exists (bs "x"), (bs "(insert"). eexists _, _. split; [vm_compute; reflexivity|]. split; [vm_compute; reflexivity|].
  eexists. vm_compute. reflexivity.
Qed.
(** texted edit -e: the expression is counted from 1, the instruction within it from 0 *)
Theorem expression_error_reported E format out verbose source i e es b prog x b' w :
  parse_by_format format e = POk prog -> eval E (default_env E) prog b = EvError x b' ->
  exists ti, int_text ti (i + 1) /\
  eval_expressions E format out verbose false source i (e :: es) b w =
  io_seq (print_if verbose (bs "Evaluating expression " ++ ti ++ bs " on " ++ source ++ bs ": " ++ e ++ [nl]))
    (io_seq (print (bs "Error in expression " ++ ti ++ bs ": " ++ exec_error_text E x ++ [nl]))
      (io_fail (exec_error_text E x))) w.
Proof.
  intros P H. exists (itoa (i + 1)). split; [apply itoa_text|]. cbn [eval_expressions]. rewrite P, H, andb_true_r. reflexivity.
Qed.

(** ** unknown output formats *)
Lemma format_other format : ~ In format [bs "shell"; bs "sexp"; bs "json"] ->
  str_eqb format (bs "shell") = false /\ str_eqb format (bs "sexp") = false /\ str_eqb format (bs "json") = false.
Proof.
  intros H. repeat split; apply not_true_iff_false; intros X; apply str_eqb_eq in X; apply H; subst; cbn; auto.
Qed.
Theorem unknown_output_refused E format v p : ~ In format [bs "shell"; bs "sexp"; bs "json"] ->
  write_value E format v = PErr (bs "unsupported format: " ++ format) /\
  write_program E format p = ([], Some (bs "unsupported output format: " ++ format)).
Proof.
  intros H. destruct (format_other _ H) as (A & B & C). unfold write_value, write_program. rewrite A, B, C. split; reflexivity.
Qed.
Example error_report_ex : execute_script ref_ext (bs "hello") (bs "goto-char 2; set-mark; goto-char 3; search-forward ""zz""; insert ""x""") =
    Err (bs "script execution failed: search failed (at instruction 3: (search-forward ""zz""), point=3, mark=2)") /\
  eval_handler ref_ext (mkEvalRequest (Some (bs "hello")) (Some (bs "goto-char 3; search-forward ""zz""")) None) =
    Ok (ToolError (bs "script execution failed: script execution failed: search failed (at instruction 1: (search-forward ""zz""), point=3, mark=1)")).
Proof. split; vm_compute; reflexivity. Qed.
(** the message may itself look like a report; point and mark are still the last ones *)
Example report_ex E : report E (bs "bad, point=9, mark=8)") 2 (VSym (bs "f")) 3 (-4)
    (bs "bad, point=9, mark=8) (at instruction 2: f, point=3, mark=-4)").
Proof. exists (bs "2"), (bs "3"), (bs "-4"). split; [apply (itoa_text 2)|]. split; [apply (itoa_text 3)|]. split; [apply (itoa_text (-4))|]. reflexivity. Qed.
(** the second expression fails in its only instruction: expression 2, instruction 0 *)
Example expression_error_ex w : exists w', eval_expressions ref_ext (bs "shell") (bs "sexp") false false (bs "stdin") 1
    [bs "search-forward ""zz"""] (new_buffer (bs "abc")) w = (Err (bs "search failed (at instruction 0: (search-forward ""zz""), point=1, mark=1)"), w').
Proof.
  destruct (expression_error_reported ref_ext (bs "shell") (bs "sexp") false (bs "stdin") 1 (bs "search-forward ""zz""") []
    (new_buffer (bs "abc")) [VList [VSym (bs "search-forward"); VStr (bs "zz")]]
    (new_exec_error (bs "search failed") [VList [VSym (bs "search-forward"); VStr (bs "zz")]] 0 (VList [VSym (bs "search-forward"); VStr (bs "zz")]) (new_buffer (bs "abc")))
    (new_buffer (bs "abc")) w) as (ti & _ & H); [vm_compute; reflexivity|vm_compute; reflexivity|]. rewrite H. eexists. reflexivity.
Qed.
Example unknown_output_ex E : write_value E (bs "yaml") (VStr (bs "x")) = PErr (bs "unsupported format: yaml") /\
  write_value E (bs "") (VStr (bs "x")) = PErr (bs "unsupported format: ").
Proof. split; reflexivity. Qed.

(** ** Assumptions of every theorem above *)
Print Assumptions error_report.
Print Assumptions report_determines_position.
Print Assumptions script_error_reported.
Print Assumptions buffer_mode_report.
Print Assumptions execution_reported_only_when_executed_refuted.
Print Assumptions expression_error_reported.
Print Assumptions unknown_output_refused.
