(** C72: what a failing test reports. *)
From Coq Require Import ZArith NArith List Bool Lia ZifyBool ZifyN ZifyNat Strings.Byte.
From Verif Require Import Base Float Ext Utf8 Strconv Values Buffer Builtins Eval Parser Json Writer Files Cli Testing TestCmd
  Spec SpecText SpecFiles SpecTest RefExt Proofs_Base Proofs_Files Proofs_Cli Proofs_Float Prop_Eval Prop_Tools Prop_Test.
Import ListNotations.
Open Scope Z_scope.

(** ** C72 *)
(** values in reports *)
Lemma join_spaced ls : spaced ls (join [" "%byte] ls).
Proof.
  induction ls as [|s [|s' l] IH]; [constructor|constructor|]. change (join [" "%byte] (s :: s' :: l)) with (s ++ x20 :: join [" "%byte] (s' :: l)). now constructor.
Qed.
Lemma spaced_join ls t : spaced ls t -> t = join [" "%byte] ls.
Proof.
  induction 1 as [|s|s s' l t _ IH]; [reflexivity|reflexivity|]. rewrite IH. reflexivity.
Qed.
Theorem value_shown E v t : fmt_value E v = t <-> shows E v t.
Proof.
  revert t. induction v as [n|s|f|l IH] using value_ind'; intros t; cbn [fmt_value].
  - split; [intros <-; constructor|]. intros H. now inversion H.
  - split; [intros <-; constructor|]. intros H. now inversion H.
  - unfold fmt_number. split.
    + intros <-. pose proof (int_arg_exists E f) as A. destruct (f_eqb f (f_of_Z (f_to_int E f))) eqn:Q; [now apply sh_whole|eapply sh_other; eauto].
    + intros H. inversion H as [| |g n A Q|g n A Q|]; subst; rewrite (int_arg_to_int E f n A), Q; reflexivity.
  - split.
    + intros <-. change ("("%byte :: join [" "%byte] (map (fmt_value E) l) ++ [")"%byte]) with (bs "(" ++ join [" "%byte] (map (fmt_value E) l) ++ bs ")").
      apply (sh_list E l (map (fmt_value E) l)); [|apply join_spaced]. induction IH as [|v l A _ IHl]; [constructor|]. cbn [map]. constructor; [now apply A|exact IHl].
    + intros H. inversion H as [| | | |l' ls u F S]; subst. apply spaced_join in S. subst u.
      assert (M : map (fmt_value E) l = ls); [|now rewrite M]. clear H.
      revert ls F. induction IH as [|v l A _ IHl]; intros ls F; [now inversion F|]. inversion F as [|? y ? ys X Y]; subst. cbn [map].
      rewrite (proj2 (A y) X). now rewrite (IHl ys Y).
Qed.
Theorem whole_number_shown E z : - 2 ^ 53 < z < 2 ^ 53 -> shows E (VNum (f_of_Z z)) (itoa z).
Proof.
  intros H. apply sh_whole; [now apply f_of_Z_int_arg|]. unfold f_eqb, SpecFloat.SFeqb. pose proof (f_of_Z_exact z H) as X.
  destruct (f_of_Z z) as [s|s| |s m e]; try contradiction; try reflexivity; try (now destruct s).
  cbn. destruct s; rewrite ?Z.compare_refl, ?Pos.compare_cont_refl; reflexivity.
Qed.
Example value_shown_witness : shows ref_ext (VList [VSym (bs "insert"); VStr (bs "a""b"); VNum (f_of_Z 12); VList []]) (bs "(insert ""a""b"" 12 ())").
Proof. apply value_shown. vm_compute. reflexivity. Qed.

Lemma result_shown E v t : fmt_option E v = t <-> shows_result E v t.
Proof.
  destruct v as [v|]; cbn [fmt_option].
  - rewrite value_shown. split; [now constructor|intros H; now inversion H].
  - split; [intros <-; constructor|intros H; now inversion H].
Qed.
Lemma program_spec t r : test_program t r <-> match trim_space (t_input t) with [] => POk [] | s => parse_string s end = r.
Proof.
  unfold test_program. destruct (trim_space (t_input t)) as [|c l].
  - split; [intros [[_ ->]|[H _]]; [reflexivity|congruence]|intros <-; now left].
  - split; [intros [[H _]|[_ H]]; [discriminate|auto]|intros H; right; split; [discriminate|auto]].
Qed.
Lemma lang_spec t want : parse_format (match t_result_lang t with [] => bs "sexp" | l => l end) want = parse_format (t_result_lang t) want.
Proof. now destruct (t_result_lang t). Qed.
(** a test that fails says why: its report is one of the nine complaints, the right one *)
Theorem failed_test_report E env trace name t m x y :
  fst (run_test_full E env trace name t) = Ok (mkTestResult name false (Some m) x y) <-> complaint E env t m x y.
Proof.
  unfold run_test_full. split.
  - destruct (match trim_space (t_input t) with [] => POk [] | s => parse_string s end) as [p|e|] eqn:P; apply program_spec in P.
    + pose proof (trace_same E env p trace (new_buffer (t_buffer t))) as S. destruct (eval_with_trace _ _ _ _ _ _) as [q out]. cbn [fst] in *. subst q.
      destruct (eval E env p (new_buffer (t_buffer t))) as [v b|z b| | |] eqn:Ev; try discriminate.
      * destruct (trim_space (t_error t)) as [|c l] eqn:Te.
        2:{ intros H. injection H as <- <- <-. eapply co_no_error; eauto. discriminate. }
        unfold judge. intros H.
        assert (J : (t_output t = [] /\ trim_space (t_result t) = [] /\ Ok (failure name (bs "test case must specify at least one of <output> or <result> elements")) = Ok (mkTestResult name false (Some m) x y)) \/
          (t_output t <> [] /\ content b <> t_output t /\ m = bs "output mismatch:" ++ x0a :: compared (quote E (t_output t)) (quote E (content b)) /\ x = t_output t /\ y = content b) \/
          ((t_output t <> [] -> content b = t_output t) /\ trim_space (t_result t) <> [] /\
            match parse_format (match t_result_lang t with [] => bs "sexp" | l => l end) (trim_space (t_result t)) with
            | PFuel => Crash CrashHang
            | PErr e => Ok (failure name (bs "parsing expected result with format " ++ (match t_result_lang t with [] => bs "sexp" | l => l end) ++ bs ": " ++ e))
            | POk ((_ :: _ :: _) as l) => Ok (failure name (bs "expected result should contain exactly one expression, got " ++ itoa (zlen l)))
            | POk l => let e := match l with x :: _ => Some x | [] => None end in
              if equal e (Some v) then Ok (success name)
              else Ok (mkTestResult name false (Some (bs "result mismatch:" ++ [nl] ++ bs "expected: " ++ quote E (fmt_option E e) ++ [nl] ++ bs "actual: " ++ quote E (fmt_value E v)))
                (fmt_option E e) (fmt_value E v))
            end = Ok (mkTestResult name false (Some m) x y))).
        { destruct (t_output t) as [|o os]; [destruct (trim_space (t_result t)) as [|w ws]; [left; auto|right; right; split; [congruence|split; [discriminate|exact H]]]|].
          right. destruct (str_eqb (o :: os) (content b)) eqn:Q.
          - right. apply str_eqb_eq in Q. split; [auto|]. destruct (trim_space (t_result t)) as [|w ws]; [discriminate H|]. split; [discriminate|exact H].
          - left. apply str_eqb_neq in Q. split; [discriminate|]. split; [congruence|].
            assert (H' : Ok (mkTestResult name false (Some (bs "output mismatch:" ++ [nl] ++ bs "expected: " ++ quote E (o :: os) ++ [nl] ++ bs "actual: " ++ quote E (content b))) (o :: os) (content b)) = Ok (mkTestResult name false (Some m) x y)) by (destruct (trim_space (t_result t)); exact H).
            injection H' as <- <- <-. auto. }
        clear H. destruct J as [(A & B & H)|[(A & B & -> & -> & ->)|(A & B & H)]].
        -- injection H as <- <- <-. eapply co_nothing; eauto.
        -- eapply co_output; eauto.
        -- destruct (parse_format _ _) as [[|e [|e2 es]]|e|] eqn:R; try discriminate.
           ++ cbv zeta in H. destruct (equal None (Some v)) eqn:Eq; [discriminate|]. injection H as <- <- <-. rewrite lang_spec in R. apply (co_result E env t p v b [] (fmt_option E None) (fmt_value E v)); auto; [now apply result_shown|now apply (result_shown E (Some v))].
           ++ cbv zeta in H. destruct (equal (Some e) (Some v)) eqn:Eq; [discriminate|]. injection H as <- <- <-. rewrite lang_spec in R. apply (co_result E env t p v b [e] (fmt_value E e) (fmt_value E v)); auto; [now apply (result_shown E (Some e))|now apply (result_shown E (Some v))].
           ++ injection H as <- <- <-. rewrite lang_spec in R. apply (co_result_several E env t p v b (e :: e2 :: es)); auto. cbn [length]. lia.
           ++ injection H as <- <- <-. eapply co_result_unreadable; eauto. destruct (t_result_lang t); [left; auto|right; split; [discriminate|auto]].
      * destruct (trim_space (t_error t)) as [|c l] eqn:Te.
        -- intros H. injection H as <- <- <-. eapply co_error; eauto.
        -- destruct (str_contains _ _) eqn:C; [discriminate|]. intros H. injection H as <- <- <-. eapply co_other_error; eauto; [discriminate|apply trim_parens_spec|].
           intros u v X. assert (Y : str_contains (exec_error_text E z) (trim_parens (c :: l)) = true) by (apply contains_occurs; eauto). congruence.
    + intros H. injection H as <- <- <-. now apply co_parse.
    + discriminate.
  - intros C.
    assert (Done : forall p, test_program t (POk p) -> fst (let '(r, out) := eval_with_trace E env p (if trace then Some (trace_callback E) else None) [] (new_buffer (t_buffer t)) in
      (match r with
       | EvPanic => Crash CrashPanic | EvOutOfMemory => Crash CrashMemory | EvDiverge => Crash CrashHang
       | EvError x _ => match trim_space (t_error t) with
         | [] => Ok (failure name (bs "unexpected error: " ++ exec_error_text E x))
         | expected => if str_contains (exec_error_text E x) (trim_parens expected) then Ok (success name)
           else Ok (failure name (bs "expected error containing " ++ quote E expected ++ bs " but got " ++ quote E (exec_error_text E x))) end
       | EvDone v b => match trim_space (t_error t) with
         | [] => judge E name t v b
         | expected => Ok (failure name (bs "expected error " ++ quote E expected ++ bs " but got none")) end
       end, out)) = match eval E env p (new_buffer (t_buffer t)) with
       | EvPanic => Crash CrashPanic | EvOutOfMemory => Crash CrashMemory | EvDiverge => Crash CrashHang
       | EvError x _ => match trim_space (t_error t) with
         | [] => Ok (failure name (bs "unexpected error: " ++ exec_error_text E x))
         | expected => if str_contains (exec_error_text E x) (trim_parens expected) then Ok (success name)
           else Ok (failure name (bs "expected error containing " ++ quote E expected ++ bs " but got " ++ quote E (exec_error_text E x))) end
       | EvDone v b => match trim_space (t_error t) with
         | [] => judge E name t v b
         | expected => Ok (failure name (bs "expected error " ++ quote E expected ++ bs " but got none")) end
       end).
    { intros p _. pose proof (trace_same E env p trace (new_buffer (t_buffer t))) as S. destruct (eval_with_trace _ _ _ _ _ _) as [q out]. cbn [fst] in *. now subst q. }
    assert (Judge : forall v b, (t_output t <> [] -> content b = t_output t) -> trim_space (t_result t) <> [] -> judge E name t v b =
      match parse_format (match t_result_lang t with [] => bs "sexp" | l => l end) (trim_space (t_result t)) with
      | PFuel => Crash CrashHang
      | PErr e => Ok (failure name (bs "parsing expected result with format " ++ (match t_result_lang t with [] => bs "sexp" | l => l end) ++ bs ": " ++ e))
      | POk ((_ :: _ :: _) as l) => Ok (failure name (bs "expected result should contain exactly one expression, got " ++ itoa (zlen l)))
      | POk l => let e := match l with x :: _ => Some x | [] => None end in
        if equal e (Some v) then Ok (success name)
        else Ok (mkTestResult name false (Some (bs "result mismatch:" ++ [nl] ++ bs "expected: " ++ quote E (fmt_option E e) ++ [nl] ++ bs "actual: " ++ quote E (fmt_value E v)))
          (fmt_option E e) (fmt_value E v))
      end).
    { intros v b O R. unfold judge. destruct (trim_space (t_result t)) as [|w ws]; [congruence|]. destruct (t_output t) as [|o os]; [reflexivity|].
      rewrite (proj2 (str_eqb_eq (o :: os) (content b))) by (symmetry; apply O; discriminate). reflexivity. }
    inversion C as [e P|p v b want P Ev T N|p z b want core P Ev T N W X|p z b P Ev T|p v b P Ev T O R|p v b P Ev T O R|p v b lang e P Ev T O R L F|p v b l P Ev T O R F Len|p v b l x0 y0 P Ev T O R F Len Eq Sx Sy]; subst;
      pose proof P as P0; apply program_spec in P0; rewrite P0.
    + reflexivity.
    + rewrite Done, Ev by auto. destruct (trim_space (t_error t)); [congruence|reflexivity].
    + rewrite Done, Ev by auto. apply without_parens_trim in W. subst core. clear Done Judge. destruct (trim_space (t_error t)) as [|b0 s]; [congruence|]. cbv zeta.
      destruct (str_contains (exec_error_text E z) (trim_parens (b0 :: s))) eqn:Cn; [|reflexivity]. apply contains_occurs in Cn as (u & v & Cn). now destruct (X u v).
    + rewrite Done, Ev, T by auto. reflexivity.
    + rewrite Done, Ev, T by auto. unfold judge. now rewrite O, R.
    + rewrite Done, Ev, T by auto. unfold judge. destruct (t_output t) as [|o os]; [congruence|].
      rewrite (proj2 (str_eqb_neq (o :: os) (content b))) by congruence. now destruct (trim_space (t_result t)).
    + rewrite Done, Ev, T by auto. rewrite Judge by auto. clear Done Judge C.
      destruct L as [[L ->]|[L ->]]; destruct (t_result_lang t); try congruence; now rewrite F.
    + rewrite Done, Ev, T by auto. rewrite Judge by auto. rewrite lang_spec, F. destruct l as [|e [|e2 es]]; cbn [length] in Len; try lia. reflexivity.
    + rewrite Done, Ev, T by auto. rewrite Judge by auto. rewrite lang_spec, F. destruct l as [|e [|e2 es]]; cbn [length] in Len; try lia; cbn [hd_error] in *; rewrite Eq; apply result_shown in Sx; apply result_shown in Sy; cbn [fmt_option] in Sy; rewrite Sx, Sy; reflexivity.
Qed.
Definition demo_test (input error output result : str) : test_case := mkTest (bs "ab") input output [] result error.
Example failed_test_witness : let r t := fst (run_test_full ref_ext (default_env ref_ext) false (bs "x") t) in
  r (demo_test (bs "(insert ""!"")") [] (bs "ab") []) = Ok (mkTestResult (bs "x") false
    (Some (bs "output mismatch:" ++ x0a :: bs "expected: ""ab""" ++ x0a :: bs "actual: ""!ab""")) (bs "ab") (bs "!ab")) /\
  r (mkTest [] (bs "(point)") [] (bs "shell") (bs "a; b; c") []) = Ok (mkTestResult (bs "x") false
    (Some (bs "expected result should contain exactly one expression, got 3")) [] []) /\
  r (demo_test (bs "(point)") [] [] (bs "2")) = Ok (mkTestResult (bs "x") false
    (Some (bs "result mismatch:" ++ x0a :: bs "expected: ""2""" ++ x0a :: bs "actual: ""1""")) (bs "2") (bs "1")) /\
  r (demo_test (bs "(point)") (bs "(oops)") [] []) = Ok (mkTestResult (bs "x") false
    (Some (bs "expected error ""(oops)"" but got none")) [] []) /\
  r (demo_test (bs "(point)") [] [] []) = Ok (mkTestResult (bs "x") false
    (Some (bs "test case must specify at least one of <output> or <result> elements")) [] []).
Proof. vm_compute. repeat split; reflexivity. Qed.
(** at most one complaint *)
Theorem one_complaint E env t m x y m' x' y' : complaint E env t m x y -> complaint E env t m' x' y' -> m = m' /\ x = x' /\ y = y'.
Proof.
  intros A B. apply (failed_test_report E env false [] t) in A. apply (failed_test_report E env false [] t) in B. rewrite A in B. injection B as <- <- <-. auto.
Qed.
(** a report is a pass, or one of the complaints; or the test program hangs, panics or runs out
    of memory *)
Theorem every_test_report E env trace name t : match fst (run_test_full E env trace name t) with
  | Ok r => r = mkTestResult name true None [] [] /\ run_test E env t = Passed \/
            exists m x y, r = mkTestResult name false (Some m) x y /\ complaint E env t m x y /\ run_test E env t = Failed
  | Err _ => False
  | Crash _ => run_test E env t = Crashed
  end.
Proof.
  pose proof (full_verdict E env trace name t) as V. destruct (run_test E env t) eqn:R; [destruct V as (r & V & W)..|destruct V as [c V]]; rewrite V.
  - left. split; [|reflexivity]. destruct r as [n p e x y]. destruct W as (A & B & C & _). cbn in *. destruct (C eq_refl) as (-> & -> & ->). now subst.
  - right. destruct r as [n p e x y]. destruct W as (A & B & _ & C). cbn in *. destruct e as [m|]; [|now destruct (C eq_refl)]. exists m, x, y. subst.
    split; [reflexivity|]. split; [|reflexivity]. now apply (failed_test_report E env trace name t).
  - reflexivity.
Qed.

(** *** On the screen *)
Section Screen.
Variables (decode : str -> test_case + str) (E : Ext) (os : OS).
Definition exact_report (s : fs) (f : str) (r : test_result) : Prop :=
  r = mkTestResult (base_name f) true None [] [] /\ file_passes E os decode s f \/
  exists m x y, r = mkTestResult (base_name f) false (Some m) x y /\ file_complaint E os decode s f m.
Lemma file_exact trace f w r w' : run_test_file decode E os trace f w = (Ok r, w') -> exact_report (w_fs w) f r.
Proof.
  unfold run_test_file, io_try. intros H. destruct (os_read_file os f w) as [q w1] eqn:R. pose proof R as R'. apply read_spec in R as (_ & _ & C & _). destruct q as [c|e|c].
  - specialize (C c eq_refl). destruct (decode c) as [t|e] eqn:D.
    + pose proof (every_test_report E (default_env E) trace (base_name f) t) as V.
      destruct (run_test_full E (default_env E) trace (base_name f) t) as [y out] eqn:Y. cbn [fst] in V. unfold io_seq, io_bind, io_res in H. rewrite print_runs in H. injection H as -> <-.
      destruct V as [[-> V]|(m & x & z & -> & V & _)]; [left; split; [reflexivity|exists c, t; auto]|right; exists m, x, z; split; [reflexivity|now apply (fc_test _ _ _ _ _ c t m x z)]].
    + injection H as <- <-. right. exists (bs "parsing test case: " ++ e), [], []. split; [reflexivity|]. now apply (fc_no_test _ _ _ _ _ c).
  - injection H as <- <-. right. exists (bs "opening test file " ++ f ++ bs ": " ++ e), [], []. split; [reflexivity|].
    unfold os_read_file in R'. destruct (w_fs w (canon os f)) as [c|] eqn:F; [|injection R' as <- _; now apply fc_missing].
    destruct (os_read_err os (w_ops w)) as [e'|] eqn:X; [|destruct (_ <? _); discriminate]. injection R' as <- _. now apply (fc_unread _ _ _ _ _ c (w_ops w)).
  - discriminate.
Qed.
Lemma files_exact trace files : forall w rs w', run_test_files decode E os trace files w = (Ok rs, w') -> Forall2 (exact_report (w_fs w)) files rs.
Proof.
  induction files as [|f fs' IH]; intros w rs w' H; cbn [run_test_files] in H; [injection H as <- <-; constructor|].
  unfold io_bind at 1 in H. destruct (run_test_file decode E os trace f w) as [q w1] eqn:F. destruct q as [x|e|c]; [|discriminate..]. pose proof F as F'. apply file_exact in F. apply file_run in F' as (A & _).
  unfold io_bind in H. destruct (run_test_files decode E os trace fs' w1) as [q w2] eqn:G. destruct q as [xs|e|c]; [|discriminate..]. injection H as <- <-. constructor; [exact F|].
  apply IH in G. now rewrite (no_write_fs _ _ A) in G.
Qed.
End Screen.
(** what texted test shows: for every file in turn that it passes, or that it does not and
    exactly why; then the summary *)
Theorem tests_printed decode E os globbed a sel w code w' : to_test E a globbed sel -> sel <> [] ->
  ta_quiet a = false -> ta_trace a = false -> run_tests decode E os globbed a w = (Ok code, w') ->
  exists texts p, Forall2 (file_lines E os decode (ta_fail_only a) (w_fs w)) sel texts /\
    w_stdout w' = w_stdout w ++ concat texts ++ summary p (zlen sel - p) (zlen sel).
Proof.
  intros T N Q Tr H. unfold run_tests in H. rewrite (to_test_selected _ _ _ _ T) in H. destruct sel as [|f fs']; [congruence|]. set (sel := f :: fs') in *.
  unfold io_bind at 1 in H. destruct (run_test_files decode E os (ta_trace a) sel w) as [q w1] eqn:F. pose proof F as F'. apply files_run in F' as (A & (out & B & B') & _).
  destruct q as [xs|e|c]; [|discriminate..]. apply files_exact in F. rewrite (B' Tr), app_nil_r in B.
  unfold io_seq, print_if in H. cbv zeta in H. rewrite Q in H. cbn [negb] in H. unfold io_bind, io_ret in H. rewrite ?print_runs in H. injection H as <- <-. cbn [w_stdout]. rewrite B.
  assert (L : zlen xs = zlen sel) by (clear - F; induction F; rewrite ?zlen_cons; auto; lia). rewrite L.
  exists (map (fun x => if ta_fail_only a && tr_passed x then [] else result_text E (ta_verbose a) x) xs), (zlen (filter tr_passed xs)). split.
  - clear - F. induction F as [|g x gs xs R F IH]; [constructor|]. cbn [map]. constructor; auto. destruct R as [[-> P]|(m & y & z & -> & P)]; cbn [tr_passed].
    + rewrite andb_true_r. destruct (ta_fail_only a) eqn:Fo.
      * apply (fl_pass _ _ _ true _ _ (base_name g)); [now apply test_name|auto].
      * unfold result_text. cbn [tr_passed tr_error tr_name tr_expected tr_actual negb orb nonempty]. rewrite !andb_false_r.
        replace (if ta_verbose a then [] else []) with (@nil byte) by (now destruct (ta_verbose a)). rewrite app_nil_r.
        apply (fl_pass _ _ _ false _ _ (base_name g)); [now apply test_name|auto].
    + rewrite andb_false_r. unfold result_text. cbn [tr_passed tr_error tr_name]. apply fl_fail; [now apply test_name|auto].
  - rewrite <- !app_assoc. f_equal. f_equal. destruct (ta_fail_only a); clear; (induction xs as [|x xs IH]; [reflexivity|]); cbn [map concat flat_map filter andb].
    + destruct (tr_passed x); cbn [negb flat_map]; now rewrite IH.
    + now rewrite IH.
Qed.
Example tests_printed_witness : let files := [bs "t/a.xml"; bs "t/b.xml"; bs "t/c.xml"] in let a := mkTestArgs files [] false false false false in
  to_test ref_ext a [] files /\
  w_stdout (snd (run_tests demo_decode ref_ext Prop_Test.demo_os [] a (init_world demo_fs []))) =
  lines [bs "[PASS] a.xml"; bs "[FAIL] b.xml"; bs "  Error: output mismatch:"; bs "expected: ""x"""; bs "actual: """""; bs "[FAIL] c.xml"; bs "  Error: opening test file t/c.xml: open t/c.xml"; [];
    bs "Tests: 1 passed, 2 failed, 3 total"].
Proof.
  cbv zeta. split; [|vm_compute; reflexivity]. exists [bs "t/a.xml"; bs "t/b.xml"; bs "t/c.xml"]. split; [right; split; [discriminate|reflexivity]|]. split; [constructor|]. left. split; reflexivity.
Qed.

(** ** Assumptions of every theorem above *)
Print Assumptions value_shown.
Print Assumptions whole_number_shown.
Print Assumptions failed_test_report.
Print Assumptions one_complaint.
Print Assumptions every_test_report.
Print Assumptions tests_printed.
