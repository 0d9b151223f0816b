(** C79: the meaning of expressions, programs and scripts, exactly (edlisp/eval.go:89-224,
    texted.go:19-67, tools/texted_eval.go:41-89, edlisp/error.go:45-70). *)
From Coq Require Import ZArith NArith QArith List Bool Lia Strings.Byte ZifyBool ZifyN ZifyNat.
From Verif Require Import Base Float Ext Utf8 Strconv Values Buffer Builtins Eval Parser Json Writer Files Tools RefExt
  Spec SpecText SpecNumber SpecNumText SpecJson SpecLines SpecRefuse SpecData SpecManual SpecMeaning
  Proofs_Base Proofs_Numeral Proofs_Reread Prop_NumText Prop_Parse Proofs_Manual Proofs_Utf8 Proofs_Json Prop_Grammar Prop_Script Prop_Words Prop_Refuse Prop_Data Proofs_Grammar Proofs_Ref Prop_Calls Prop_Manual Proofs_Meaning Proofs_Meaning2.
Import ListNotations.
Open Scope Z_scope.

(** ** C79 *)
(** the text Go shows for a string, between quotes *)
Theorem quoted_exact E s q : quote E s = q <-> quoted E s q.
Proof. rewrite quoted_iff. split; congruence. Qed.
Example quoted_exact_witness : quoted ref_ext (bs "a b" ++ [x0a; dquote; x01; xff]) (bs """a b\n\""\x01\xff""").
Proof. apply quoted_exact. vm_compute. reflexivity. Qed.

(** every expression has exactly one meaning, and the interpreter computes it *)
Theorem meaning_exact E : ext_ok E -> forall e b o, holds_texts e -> machine b ->
  (eval_expr E (default_env E) e b = o <-> means E e b o).
Proof. intros X e b o. now apply means_iff. Qed.
Theorem meaning_one E : ext_ok E -> forall e b, holds_texts e -> machine b ->
  exists o, means E e b o /\ forall o', means E e b o' -> o' = o.
Proof.
  intros X e b T M. exists (eval_expr E (default_env E) e b). split; [now apply means_iff|].
  intros o' H. apply (means_iff E X) in H; auto.
Qed.
Theorem program_exact E : ext_ok E -> forall p b r, Forall holds_texts p -> machine b ->
  (eval E (default_env E) p b = r <-> plays E p b r).
Proof. intros X p b r. now apply plays_iff. Qed.
(** texts stay below the allocation limit *)
Theorem script_texts s p : script s p -> Forall holds_texts p.
Proof. apply script_holds. Qed.

(** ** The texts of values *)
Lemma in_row_join ts t : in_row ts t <-> t = join [" "%byte] ts.
Proof.
  split.
  - induction 1 as [|s|s s' l t _ IH]; [reflexivity|reflexivity|]. rewrite IH. reflexivity.
  - intros ->. induction ts as [|s [|s' l] IH]; [constructor|constructor|].
    change (join [" "%byte] (s :: s' :: l)) with (s ++ bs " " ++ join [" "%byte] (s' :: l)). now constructor.
Qed.
Theorem written_exact E v t : float64s v -> (show E v = t <-> written E v t).
Proof.
  intros N. revert t. induction v as [n|s|f|l IH] using value_ind'; intros t.
  - cbn [show]. split; [intros <-; constructor|]. intros H. now inversion H.
  - cbn [show]. split; [intros Q; constructor; now apply quoted_exact|]. intros H. inversion H as [|? ? Q| |]; subst. now apply quoted_exact.
  - cbn [show]. split; [intros Q; constructor; now apply number_text_exact|]. intros H. inversion H as [| |? ? Q|]; subst. now apply number_text_exact.
  - assert (S1 : show E (VList l) = bs "(" ++ join [" "%byte] (map (show E) l) ++ bs ")") by (destruct l; reflexivity).
    rewrite S1. clear S1. apply float64s_list in N. split.
    + intros <-. apply (wr_list E l (map (show E) l)); [|now apply in_row_join].
      induction IH as [|v l A _ IHl]; [constructor|]. inversion N as [|? ? N1 N2]; subst. cbn [map]. constructor; [now apply A|now apply IHl].
    + intros H. inversion H as [| | |l' ls u F R]; subst. apply in_row_join in R. subst u.
      assert (K : map (show E) l = ls); [|now rewrite K]. clear H.
      revert ls F. induction IH as [|v l A _ IHl]; intros ls F; [now inversion F|]. inversion N as [|? ? N1 N2]; subst. inversion F as [|? y ? ys P Q]; subst. cbn [map].
      rewrite (proj2 (A N1 y) P). now rewrite (IHl N2 ys Q).
Qed.
Example written_witness : written ref_ext (VList [VSym (bs "f"); VStr (bs "a" ++ [x0a]); VNum (num_of (bs "0.5")); VList []; VNum (f_of_Z 3)]) (bs "(f ""a\n"" 0.5 () 3)").
Proof. apply written_exact; [vm_compute; repeat split|vm_compute; reflexivity]. Qed.
Lemma complaint_text E x i b t : float64s i -> complaint E (x_error x) (x_index x) i b t -> x_instruction x = i -> x_point x = point b -> x_mark x = mark b ->
  exec_error_text E x = t.
Proof.
  intros F (ti & tn & tp & tm & W & N & P & M & ->) I HP HM. apply written_exact in W; [|auto]. subst ti.
  apply int_text_itoa in N, P, M. rewrite N, P, M. unfold exec_error_text. rewrite I, HP, HM. reflexivity.
Qed.
Lemma text_complaint E x i b : float64s i -> x_instruction x = i -> x_point x = point b -> x_mark x = mark b ->
  complaint E (x_error x) (x_index x) i b (exec_error_text E x).
Proof.
  intros F I P M. exists (show E i), (itoa (x_index x)), (itoa (point b)), (itoa (mark b)).
  split; [now apply written_exact|]. repeat (split; [apply itoa_text|]). unfold exec_error_text. rewrite I, P, M. reflexivity.
Qed.
Lemma in_program before i (rest : list value) : Forall float64s (before ++ i :: rest) -> float64s i.
Proof. intros F. apply Forall_app in F as [_ F]. exact (Forall_inv F). Qed.

(** ** Scripts *)
Lemma run_edited E (X : ext_ok E) parsed (reads : list value -> Prop) (refused : str -> Prop) input r :
  (forall p, parsed = POk p <-> reads p) -> (forall m, parsed = PErr m <-> refused m) -> parsed <> PFuel ->
  (forall p, reads p -> Forall holds_texts p) -> (forall p, reads p -> Forall float64s p) -> fits input ->
  (run_program E input parsed = r <-> edited E reads refused input r).
Proof.
  intros A B C T N F. pose proof (machine_begins input F) as M. split.
  - intros <-. destruct parsed as [p|m|]; [|apply ed_refused; now apply B|congruence]. assert (R : reads p) by now apply A.
    cbn [run_program]. pose proof (proj1 (plays_iff E X p (new_buffer input) _ (T p R) M) eq_refl) as P. revert P.
    generalize (eval E (default_env E) p (new_buffer input)). intros res P. inversion P; subst; clear P.
    + eapply ed_done; eauto.
    + eapply ed_error; eauto. match goal with |- complaint E msg ?n ?i ?b (exec_error_text E ?x) => apply (text_complaint E x i b); auto; apply N in R; eapply in_program; eauto end.
    + eapply ed_crash; eauto.
    + eapply ed_memory; eauto.
  - assert (K : forall p res, reads p -> plays E p (new_buffer input) res -> parsed = POk p /\ eval E (default_env E) p (new_buffer input) = res).
    { intros p res R P. split; [now apply A|]. now apply (plays_iff E X p (new_buffer input) res (T p R) M). }
    intros H. inversion H as [p v b R S1|before i rest v b1 msg b2 t R S1 I Q|m R|before i rest v b1 R S1 I|before i rest v b1 R S1 I]; subst; clear H.
    + destruct (K p _ R (pl_done E p _ v b S1)) as [-> Z]. cbn [run_program]. now rewrite Z.
    + destruct (K _ _ R (pl_error E _ _ before i rest v b1 msg b2 eq_refl S1 I)) as [-> Z]. cbn [run_program]. rewrite Z. f_equal. f_equal.
      match goal with |- exec_error_text E ?x = t => apply (complaint_text E x i b2); auto; apply N in R; eapply in_program; eauto end.
    + apply B in R as ->. reflexivity.
    + destruct (K _ _ R (pl_crash E _ _ before i rest v b1 eq_refl S1 I)) as [-> Z]. cbn [run_program]. now rewrite Z.
    + destruct (K _ _ R (pl_memory E _ _ before i rest v b1 eq_refl S1 I)) as [-> Z]. cbn [run_program]. now rewrite Z.
Qed.
Lemma parse_string_fuel s : parse_string s <> PFuel.
Proof. destruct (parsing_total s) as [[p ->]|[m ->]]; discriminate. Qed.
Lemma script_float64s s p : script s p -> Forall float64s p.
Proof. intros H. apply (script_numbers s). left. now apply script_grammar. Qed.
(** what ExecuteScript returns, for every text and every script *)
Theorem script_exact E : ext_ok E -> forall input s r, fits input ->
  (execute_script E input s = r <-> edited E (script s) (bad_script s) input r).
Proof.
  intros X input s r F. apply run_edited; auto; [apply script_grammar|apply script_refused|apply parse_string_fuel|apply script_holds|apply script_float64s].
Qed.
(** what the tool texted_eval answers *)
Theorem tool_value_exact E : ext_ok E -> forall input s r, fits input ->
  (eval_handler E (mkEvalRequest (Some input) (Some s) (Some (bs "expression"))) = r <-> valued E (script s) (bad_script s) input r).
Proof.
  intros X input s r F. pose proof (machine_begins input F) as M.
  set (h := match parse_string s with
    | PErr e => Ok (ToolError (bs "parsing script: " ++ e))
    | PFuel => Crash CrashHang
    | POk p => match eval E (default_env E) p (new_buffer input) with
          | EvDone v _ => Ok (ToolText (sexp_value E v))
          | EvError x _ => Ok (ToolError (bs "script execution failed: " ++ exec_error_text E x))
          | EvPanic => Crash CrashPanic
          | EvOutOfMemory => Crash CrashMemory
          | EvDiverge => Crash CrashHang
          end
    end).
  change (eval_handler E (mkEvalRequest (Some input) (Some s) (Some (bs "expression")))) with h. split.
  - intros <-. unfold h. clear h. destruct (parse_string s) as [p|m|] eqn:Q; [|apply va_refused; now apply script_refused|now apply parse_string_fuel in Q].
    apply script_grammar in Q. pose proof (script_float64s s p Q) as N. pose proof (proj1 (plays_iff E X p (new_buffer input) _ (script_holds s p Q) M) eq_refl) as P. revert P.
    generalize (eval E (default_env E) p (new_buffer input)). intros res P. inversion P; subst; clear P.
    + eapply va_done; eauto. apply written_exact; [eapply sequence_numbers; eauto using script_float64s|reflexivity].
    + eapply va_error; eauto. match goal with |- complaint E msg ?n ?i ?b (exec_error_text E ?x) => apply (text_complaint E x i b); auto; eapply in_program; eauto end.
    + eapply va_crash; eauto.
    + eapply va_memory; eauto.
  - assert (K : forall p res, script s p -> plays E p (new_buffer input) res -> parse_string s = POk p /\ eval E (default_env E) p (new_buffer input) = res).
    { intros p res R P. split; [now apply script_grammar|]. now apply (plays_iff E X p (new_buffer input) res (script_holds s p R) M). }
    intros H. unfold h. clear h. inversion H as [p v b t R S1 W|before i rest v b1 msg b2 t R S1 I Q|m R|before i rest v b1 R S1 I|before i rest v b1 R S1 I]; subst; clear H.
    + destruct (K p _ R (pl_done E p _ v b S1)) as [-> Z]. rewrite Z. apply written_exact in W; [|eapply sequence_numbers; eauto using script_float64s]. unfold sexp_value. now rewrite W.
    + destruct (K _ _ R (pl_error E _ _ before i rest v b1 msg b2 eq_refl S1 I)) as [-> Z]. rewrite Z. do 3 f_equal.
      match goal with |- exec_error_text E ?x = t => apply (complaint_text E x i b2); auto; apply script_float64s in R; eapply in_program; eauto end.
    + apply script_refused in R as ->. reflexivity.
    + destruct (K _ _ R (pl_crash E _ _ before i rest v b1 eq_refl S1 I)) as [-> Z]. now rewrite Z.
    + destruct (K _ _ R (pl_memory E _ _ before i rest v b1 eq_refl S1 I)) as [-> Z]. now rewrite Z.
Qed.

(** ** JSON scripts *)
Lemma hex4_length h n : hex4 h n -> zlen h = 4.
Proof. intros (? & ? & ? & ? & ? & ? & ? & ? & -> & _). reflexivity. Qed.
Lemma body_short t s : body t s -> zlen s <= 3 * zlen t.
Proof.
  assert (R : zlen (encode_rune rune_error) = 3) by reflexivity.
  induction 1; repeat (rewrite zlen_app || rewrite zlen_cons); repeat match goal with
    | H : hex4 ?h ?n |- _ => apply hex4_length in H
  end; rewrite ?R; try (match goal with |- context [zlen (encode_rune ?r)] => pose proof (encode_length r) end); try lia. cbn. lia.
Qed.
Scheme json_arg_mind := Induction for json_arg Sort Prop with json_args_mind := Induction for json_args Sort Prop.
Combined Scheme json_arg_both from json_arg_mind, json_args_mind.
Lemma json_short : (forall d t v, json_arg d t v -> short (3 * zlen t) v) /\ (forall d t vs, json_args d t vs -> Forall (short (3 * zlen t)) vs).
Proof.
  apply json_arg_both.
  - intros d t s B s' Q. injection Q as <-. apply body_short in B. rewrite zlen_cons, zlen_app. change (zlen [dquote]) with 1. lia.
  - intros d t f _ _ s' Q. discriminate.
  - intros d w _ _. apply all_atoms_list. constructor.
  - intros d w1 t name w2 args vs _ _ _ _ _ IH. apply all_atoms_list. constructor; [intros s' Q; discriminate|].
    eapply Forall_short; [|exact IH]. repeat (rewrite zlen_app || rewrite zlen_cons).
    pose proof (zlen_nonneg w1). pose proof (zlen_nonneg t). pose proof (zlen_nonneg w2). pose proof (zlen_nonneg (@nil byte)); pose proof (zlen_nonneg args). lia.
  - intros d. constructor.
  - intros d w1 t v w2 rest vs _ _ IHv _ _ IH.
    assert (L : forall k, k <= zlen t \/ k <= zlen rest -> 3 * k <= 3 * zlen (","%byte :: w1 ++ t ++ w2 ++ rest)).
    { intros k. repeat (rewrite zlen_app || rewrite zlen_cons). pose proof (zlen_nonneg w1). pose proof (zlen_nonneg t). pose proof (zlen_nonneg w2).
      pose proof (zlen_nonneg rest). lia. }
    constructor; [eapply short_more; [|exact IHv]; apply L; lia|eapply Forall_short; [|exact IH]; apply L; lia].
Qed.
Theorem json_script_texts s p : 3 * zlen s <= max_alloc -> json_script s p -> Forall holds_texts p.
Proof.
  intros L H. destruct H as [w1 w2 _ _|w1 w w2 _ _ _|w1 items w2 p _ _ _ A _]; [constructor|constructor|].
  apply json_short in A. rewrite Forall_forall in *. intros v I. apply (short_holds (3 * zlen (","%byte :: items))); [|apply A, I].
  repeat (rewrite zlen_app in * || rewrite zlen_cons in * ). pose proof (zlen_nonneg w1). pose proof (zlen_nonneg w2). lia.
Qed.
Theorem json_script_exact E : ext_ok E -> forall input s r, fits input -> 3 * zlen s <= max_alloc ->
  (execute_script_fmt E input s (bs "json") = r <-> edited E (json_script s) (script_flaw s) input r).
Proof.
  intros X input s r F L. change (execute_script_fmt E input s (bs "json")) with (run_program E input (parse_json_string s)).
  apply run_edited; auto; [intros p; apply json_script_grammar|apply json_script_told|apply script_fuel| |].
  - intros p. now apply json_script_texts.
  - intros p H. apply (script_numbers s). right. right. now apply json_script_grammar.
Qed.

(** ** Concrete cases *)
Example script_exact_witness : edited ref_ext (script (bs "search-forward ""b""; insert ""(x)""; set-mark")) (bad_script (bs "search-forward ""b""; insert ""(x)""; set-mark"))
  (bs "abc") (Ok (bs "ab(x)c")).
Proof. apply script_exact; [apply ref_ext_ok|cbv; discriminate|vm_compute; reflexivity]. Qed.
Example script_error_witness : edited ref_ext (script (bs "goto-char 2; insert (foo ""x"")")) (bad_script (bs "goto-char 2; insert (foo ""x"")")) (bs "abc")
  (Err (bs "script execution failed: undefined-function ""foo"" (at instruction 1: (insert (foo ""x"")), point=2, mark=1)")).
Proof. apply script_exact; [apply ref_ext_ok|cbv; discriminate|vm_compute; reflexivity]. Qed.
Example tool_value_witness : valued ref_ext (script (bs "concat ""a"" (buffer-substring 1 3)")) (bad_script (bs "concat ""a"" (buffer-substring 1 3)"))
  (bs "hello") (Ok (ToolText (bs """ahe"""))).
Proof. apply tool_value_exact; [apply ref_ext_ok|cbv; discriminate|vm_compute; reflexivity]. Qed.
Example json_script_witness : edited ref_ext (json_script (bs "[[""goto-char"", 2], [""insert"", ""é""]]")) (script_flaw (bs "[[""goto-char"", 2], [""insert"", ""é""]]"))
  (bs "ab") (Ok (bs "a" ++ [xc3; xa9] ++ bs "b")).
Proof. apply json_script_exact; [apply ref_ext_ok|cbv; discriminate|cbv; discriminate|vm_compute; reflexivity]. Qed.
Example meaning_witness : means ref_ext (VList [VSym (bs "length"); VList [VSym (bs "buffer-substring"); VNum (f_of_Z 1); VNum (f_of_Z 3)]])
  (new_buffer (bs "hello")) (Done (VNum (f_of_Z 2)) (new_buffer (bs "hello"))).
Proof.
  apply meaning_exact; [apply ref_ext_ok| |apply machine_begins; cbv; discriminate|vm_compute; reflexivity].
  cbn. repeat split; intros s Q; discriminate.
Qed.
Example program_witness : plays ref_ext [VList [VSym (bs "beginning-of-buffer")]; VStr (bs "x")] (new_buffer (bs "hello")) (EvDone (VStr (bs "x")) (new_buffer (bs "hello"))).
Proof.
  apply program_exact; [apply ref_ext_ok| |apply machine_begins; cbv; discriminate|vm_compute; reflexivity].
  repeat constructor; intros s Q; try discriminate. injection Q as <-. cbv. discriminate.
Qed.

(** ** Assumptions of every theorem above *)
Print Assumptions quoted_exact.
Print Assumptions meaning_exact.
Print Assumptions meaning_one.
Print Assumptions program_exact.
Print Assumptions script_texts.
Print Assumptions written_exact.
Print Assumptions script_exact.
Print Assumptions tool_value_exact.
Print Assumptions json_script_texts.
Print Assumptions json_script_exact.
