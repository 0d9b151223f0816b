(** C71, continued: what each option asks for. *)
From Coq Require Import ZArith NArith List Bool Lia Strings.Byte.
From Verif Require Import Base Float Ext Utf8 Strconv Values Buffer Builtins Eval Parser Json Writer Files Cli Tools
  Testing Docs DocsData Flags TestCmd Serve CmdLine SpecFlags SpecCmd SpecOption RefExt Proofs_Base Proofs_Files Prop_Files Prop_Flags Prop_CmdLine.
Import ListNotations.
Open Scope Z_scope.

(** ** C71 *)
Lemma texts_snoc s n v m : set_texts (s ++ [(n, v)]) m = set_texts s m ++ if str_eqb n m then [v] else [].
Proof. rewrite texts_app. f_equal. unfold set_texts. cbn [filter fst]. now destruct (str_eqb n m). Qed.
Lemma get_str_snoc s n v m d : get_str (s ++ [(n, v)]) m d = if str_eqb n m then v else get_str s m d.
Proof. unfold get_str. rewrite texts_snoc. destruct (str_eqb n m); [apply last_last|now rewrite app_nil_r]. Qed.
Lemma parse_bool_of v (b : bool) : In v (if b then yes else no) -> parse_bool v = Some b.
Proof. intros I. destruct b; [now apply parse_bool_yes|]. repeat (destruct I as [<-|I]; [reflexivity|]). destruct I. Qed.
Lemma get_flag_snoc s n v m : get_flag (s ++ [(n, v)]) m = if str_eqb n m then match parse_bool v with Some b => b | None => false end else get_flag s m.
Proof. unfold get_flag. rewrite get_str_snoc. now destruct (str_eqb n m). Qed.
Lemma slice_app l l' r : string_slice l = CsvRecord r -> string_slice (l ++ l') = match string_slice l' with CsvRecord r' => CsvRecord (r ++ r') | e => e end.
Proof.
  revert r. induction l as [|v l IH]; intros r; cbn [string_slice app].
  - intros H. injection H as <-. now destruct (string_slice l').
  - destruct (read_as_csv v) as [x|e]; [|discriminate]. destruct (string_slice l) as [y|e]; [|discriminate]. intros H. injection H as <-.
    rewrite (IH y eq_refl). destruct (string_slice l'); [now rewrite app_assoc|reflexivity].
Qed.
Definition readable_at (s : list setting) (m : str) : Prop := exists l, string_slice (set_texts s m) = CsvRecord l.
Lemma get_list_snoc s n v m l : readable_at s m -> string_slice [v] = CsvRecord l -> get_list (s ++ [(n, v)]) m = if str_eqb n m then get_list s m ++ l else get_list s m.
Proof.
  intros [r R] V. unfold get_list. rewrite texts_snoc. destruct (str_eqb n m); [|now rewrite app_nil_r]. now rewrite (slice_app _ _ r R), V, R.
Qed.
Lemma get_list_other s n v m : str_eqb n m = false -> get_list (s ++ [(n, v)]) m = get_list s m.
Proof. intros N. unfold get_list. now rewrite texts_snoc, N, app_nil_r. Qed.
Lemma readable_snoc s n v m : readable_at s m -> (n = m -> exists l, string_slice [v] = CsvRecord l) -> readable_at (s ++ [(n, v)]) m.
Proof.
  intros [r R] V. unfold readable_at. rewrite texts_snoc. destruct (str_eqb n m) eqn:N; [|rewrite app_nil_r; eauto]. apply str_eqb_eq in N. destruct (V N) as [l L].
  rewrite (slice_app _ _ r R), L. eauto.
Qed.

Section Line.
  Variables (A : Type) (flags : list flag) (switches : list (str * option byte * (bool -> A -> A)))
    (values : list (str * option byte * (str -> A -> A))) (collectors : list (str * option byte * (list str -> A -> A))) (read : list setting -> A).
  Hypothesis SW : forall n c u, In (n, c, u) switches -> In (mkFlag n c KBool) flags /\ n <> bs "help" /\
    (forall s v b, In v (if b : bool then yes else no) -> read (s ++ [(n, v)]) = u b (read s)) /\ ~ In n (map (fun x => fst (fst x)) collectors).
  Hypothesis VA : forall n c u, In (n, c, u) values -> In (mkFlag n c KString) flags /\ n <> bs "help" /\
    (forall s v, read (s ++ [(n, v)]) = u v (read s)) /\ ~ In n (map (fun x => fst (fst x)) collectors).
  Hypothesis CO : forall n c u, In (n, c, u) collectors -> In (mkFlag n c KSlice) flags /\ n <> bs "help" /\
    (forall s v l, readable_at s n -> string_slice [v] = CsvRecord l -> read (s ++ [(n, v)]) = u l (read s)).
  Definition fine (s : list setting) : Prop := forall n, In n (map (fun x => fst (fst x)) collectors) -> readable_at s n.
  Lemma fine_nil : fine []. Proof. intros n _. exists []. reflexivity. Qed.
  Lemma fine_other s n v : fine s -> ~ In n (map (fun x => fst (fst x)) collectors) -> fine (s ++ [(n, v)]).
  Proof. intros F N m I. apply readable_snoc; [auto|]. intros ->. contradiction. Qed.
  Lemma fine_collector s n v l : fine s -> string_slice [v] = CsvRecord l -> fine (s ++ [(n, v)]).
  Proof. intros F N m I. apply readable_snoc; eauto. Qed.
  Lemma option_says o u : an_option A switches values collectors o u -> exists n v, n <> bs "help" /\
    (forall l s p, says flags l s p -> says flags (o ++ l) ((n, v) :: s) p) /\
    (forall s, fine s -> fine (s ++ [(n, v)]) /\ read (s ++ [(n, v)]) = u (read s)).
  Proof.
    intros O. destruct O as [n c u I|n c u I|n c u v b I V|n c u v I|n c u v I|n c u v I|n c u v I N N2|n c u v l I V|n c u v l I V].
    - destruct (SW n c u I) as (F & H & R & N). exists n, (bs "true"). split; [exact H|]. split.
      + intros l s p S0. apply (sy_bool flags (mkFlag n c KBool) l s p F eq_refl S0).
      + intros s Fs. split; [now apply fine_other|]. apply R. cbn. tauto.
    - destruct (SW n (Some c) u I) as (F & H & R & N). exists n, (bs "true"). split; [exact H|]. split.
      + intros l s p S0. apply (sy_letters flags [c] [(n, bs "true")] l s p); [|exact S0]. apply (lt_bool flags (mkFlag n (Some c) KBool) c F eq_refl eq_refl).
      + intros s Fs. split; [now apply fine_other|]. apply R. cbn. tauto.
    - destruct (SW n c u I) as (F & H & R & N). exists n, v. split; [exact H|]. split.
      + intros l s p S0. apply (sy_equals flags (mkFlag n c KBool) v l s p F); [|exact S0]. cbn. apply (in_or_app yes no). destruct b; [left|right]; exact V.
      + intros s Fs. split; [now apply fine_other|]. now apply R.
    - destruct (VA n c u I) as (F & H & R & N). exists n, v. split; [exact H|]. split.
      + intros l s p S0. apply (sy_next flags (mkFlag n c KString) v l s p F); [discriminate|exact Logic.I|exact S0].
      + intros s Fs. split; [now apply fine_other|apply R].
    - destruct (VA n c u I) as (F & H & R & N). exists n, v. split; [exact H|]. split.
      + intros l s p S0. apply (sy_equals flags (mkFlag n c KString) v l s p F); [exact Logic.I|exact S0].
      + intros s Fs. split; [now apply fine_other|apply R].
    - destruct (VA n (Some c) u I) as (F & H & R & N). exists n, v. split; [exact H|]. split.
      + intros l s p S0. apply (sy_open flags [c] [] (mkFlag n (Some c) KString) v l s p); [|exact Logic.I|exact S0]. now apply (ol_here flags (mkFlag n (Some c) KString) c F eq_refl).
      + intros s Fs. split; [now apply fine_other|apply R].
    - destruct (VA n (Some c) u I) as (F & H & R & N'). exists n, v. split; [exact H|]. split.
      + intros l s p S0. apply (sy_letters flags (c :: v) [(n, v)] l s p); [|exact S0].
        apply (lt_rest flags (mkFlag n (Some c) KString) c v F eq_refl); [discriminate|exact N| |exact Logic.I]. intros t E. now destruct (N2 t).
      + intros s Fs. split; [now apply fine_other|apply R].
    - destruct (CO n c u I) as (F & H & R). exists n, v. split; [exact H|]. split.
      + intros l0 s p S0. apply (sy_next flags (mkFlag n c KSlice) v l0 s p F); [discriminate|exists l; exact V|exact S0].
      + intros s Fs. split; [eapply fine_collector; eauto|]. apply R; [|exact V]. apply Fs. apply in_map_iff. exists (n, c, u). split; [reflexivity|exact I].
    - destruct (CO n (Some c) u I) as (F & H & R). exists n, v. split; [exact H|]. split.
      + intros l0 s p S0. apply (sy_open flags [c] [] (mkFlag n (Some c) KSlice) v l0 s p); [|exists l; exact V|exact S0]. now apply (ol_here flags (mkFlag n (Some c) KSlice) c F eq_refl).
      + intros s Fs. split; [eapply fine_collector; eauto|]. apply R; [|exact V]. apply Fs. apply in_map_iff. exists (n, Some c, u). split; [reflexivity|exact I].
  Qed.
  Lemma asks_says args a b files : asks A switches values collectors args a b files -> forall s0, fine s0 -> read s0 = a ->
    exists s, says flags args s files /\ read (s0 ++ s) = b /\ (forall v, ~ In (bs "help", v) s).
  Proof.
    induction 1 as [a|a files|f l a b files D _ IH|o u l a b files O _ IH]; intros s0 F R.
    - exists []. split; [constructor|]. rewrite app_nil_r. split; [exact R|intros v []].
    - exists []. split; [constructor|]. rewrite app_nil_r. split; [exact R|intros v []].
    - destruct (IH s0 F R) as (s & S0 & B & H). exists s. split; [now apply sy_file|auto].
    - destruct (option_says o u O) as (n & v & Hn & Sy & Up). destruct (Up s0 F) as [F' R']. destruct (IH (s0 ++ [(n, v)]) F') as (s & S0 & B & H); [now rewrite R', R|].
      exists ((n, v) :: s). split; [now apply Sy|]. split; [rewrite <- B, <- app_assoc; reflexivity|]. intros x [X|X]; [congruence|now apply (H x)].
  Qed.
  Lemma asked args a files : read [] = a -> forall b, asks A switches values collectors args a b files ->
    exists s, says flags args s files /\ read s = b /\ get_flag s (bs "help") = false.
  Proof.
    intros R b H. destruct (asks_says args a b files H [] fine_nil R) as (s & S0 & B & N). exists s. split; [exact S0|]. split; [exact B|].
    unfold get_flag, get_str. now rewrite (proj2 (texts_none s (bs "help")) N).
  Qed.
End Line.
Ltac each := repeat match goal with H : In _ (_ :: _) |- _ => destruct H as [H|H]; [apply pair_equal_spec in H as [H ?]; apply pair_equal_spec in H as [? ?]; subst|] | H : In _ [] |- _ => destruct H end.
Ltac member := cbn [In edit_flags test_flags parse_flags doc_flags mcp_flags]; repeat (first [left; reflexivity|right]).
Ltac not_member := cbn; let Q := fresh in intros Q; repeat (destruct Q as [Q|Q]; [discriminate Q|]); exact Q.
Ltac computed := repeat match goal with |- context [str_eqb (bs ?x) (bs ?y)] => let r := eval vm_compute in (str_eqb (bs x) (bs y)) in change (str_eqb (bs x) (bs y)) with r end; cbv iota.
(** the options of texted edit, from left to right *)
Theorem edit_options E os o args a files : asks edit_args edit_switches edit_values edit_collectors args default_edit a files ->
  texted E os o (bs "edit" :: args) = Some (exit_of (run_edit E os (on_files files a))).
Proof.
  intros H. edestruct (asked edit_args edit_flags edit_switches edit_values edit_collectors (fun s => edit_args_of s [])) with (5 := H) as (s & S0 & B & N).
  - intros n c u I. unfold edit_switches in I. each; (split; [member|split; [discriminate|split; [|not_member]]]);
      intros s v b V; unfold edit_args_of; rewrite !get_flag_snoc, !get_str_snoc, get_list_other by reflexivity; computed; rewrite (parse_bool_of v b V); reflexivity.
  - intros n c u I. unfold edit_values in I. each; (split; [member|split; [discriminate|split; [|not_member]]]);
      intros s v; unfold edit_args_of; rewrite !get_flag_snoc, !get_str_snoc, get_list_other by reflexivity; computed; reflexivity.
  - intros n c u I. unfold edit_collectors in I. each; (split; [member|split; [discriminate|]]);
      intros s v l R V; unfold edit_args_of; rewrite !get_flag_snoc, !get_str_snoc, (get_list_snoc s _ v _ l R V); computed; reflexivity.
  - reflexivity.
  - apply texted_runs; [cbn; tauto|]. unfold run_command. change (str_eqb (bs "edit") (bs "edit")) with true. cbv iota. unfold with_flags.
    rewrite (proj2 (command_line_grammar E edit_flags args s files (proj1 flag_tables)) S0), N. do 2 f_equal. rewrite <- B. reflexivity.
Qed.
(** a concrete line: -n -s script --format=sexp -e 'a,b' notes.txt *)
Example edit_options_case : asks edit_args edit_switches edit_values edit_collectors
  [bs "-n"; bs "-s"; bs "buffer-size"; bs "--format=sexp"; bs "-e"; bs "a,b"; bs "notes.txt"] default_edit
  (mkEditArgs (bs "sexp") (bs "buffer-size") [] [bs "a"; bs "b"] false [] [] false false true false false false (bs "shell") []) [bs "notes.txt"].
Proof.
  apply (ak_option _ _ _ _ [bs "-n"] (with_dry_run true)); [apply (op_switch_letter _ _ _ _ (bs "dry-run")); cbn; tauto|].
  apply (ak_option _ _ _ _ [bs "-s"; bs "buffer-size"] (with_script (bs "buffer-size"))); [apply (op_value_letter _ _ _ _ (bs "script")); cbn; tauto|].
  apply (ak_option _ _ _ _ [bs "--format=sexp"] (with_format (bs "sexp"))); [apply (op_value_equals _ _ _ _ (bs "format") None); cbn; tauto|].
  apply (ak_option _ _ _ _ [bs "-e"; bs "a,b"] (with_more_expressions [bs "a"; bs "b"])); [apply (op_collector_letter _ _ _ _ (bs "expression")); [cbn; tauto|reflexivity]|].
  apply ak_file; [intros t; discriminate|]. apply ak_nil.
Qed.
(** the options of texted test *)
Theorem test_options E os o args a files : asks test_args test_switches [] test_collectors args default_test a files ->
  texted E os o (bs "test" :: args) = Some (io_bind (run_tests (o_decode o) E os (o_glob o) (test_on files a)) (fun z => io_ret (mkExit z None))).
Proof.
  intros H. edestruct (asked test_args test_flags test_switches [] test_collectors (fun s => test_args_of s [])) with (5 := H) as (s & S0 & B & N).
  - intros n c u I. unfold test_switches in I. each; (split; [member|split; [discriminate|split; [|not_member]]]);
      intros s v b V; unfold test_args_of; rewrite !get_flag_snoc, get_list_other by reflexivity; computed; rewrite (parse_bool_of v b V); reflexivity.
  - intros n c u [].
  - intros n c u I. unfold test_collectors in I. each; (split; [member|split; [discriminate|]]);
      intros s v l R V; unfold test_args_of; rewrite !get_flag_snoc, (get_list_snoc s _ v _ l R V); computed; reflexivity.
  - reflexivity.
  - apply texted_runs; [cbn; tauto|]. change (run_command E os o (bs "test") args) with (Some (with_flags E o (bs "test") test_flags args (fun sets files =>
      io_bind (run_tests (o_decode o) E os (o_glob o) (test_args_of sets files)) (fun z => io_ret (mkExit z None))))). unfold with_flags.
    rewrite (proj2 (command_line_grammar E test_flags args s files (proj1 (proj2 (proj2 flag_tables)))) S0), N. f_equal. rewrite <- B. reflexivity.
Qed.
Example test_options_case : asks test_args test_switches [] test_collectors [bs "--fail-only"; bs "-i"; bs "kill,yank"; bs "--"; bs "-x.xml"] default_test
  (mkTestArgs [] [bs "kill"; bs "yank"] false false true false) [bs "-x.xml"].
Proof.
  eapply (ak_option _ _ _ _ [bs "--fail-only"]); [eapply (op_switch _ _ _ _ (bs "fail-only") None); right; right; left; reflexivity|].
  eapply (ak_option _ _ _ _ [bs "-i"; bs "kill,yank"]); [eapply (op_collector_letter _ _ _ _ (bs "include") _ _ _ [bs "kill"; bs "yank"]); [left; reflexivity|reflexivity]|].
  apply ak_end.
Qed.
(** the options of texted parse, which ignores files *)
Theorem parse_options E os o args a files : asks (str * str) [] parse_values [] args (bs "shell", bs "sexp") a files ->
  texted E os o (bs "parse" :: args) = Some (exit_of (run_parse E os (fst a) (snd a))).
Proof.
  intros H. edestruct (asked (str * str) parse_flags [] parse_values [] (fun s => (get_str s (bs "input-format") (bs "shell"), get_str s (bs "output-format") (bs "sexp")))) with (5 := H) as (s & S0 & B & N).
  - intros n c u [].
  - intros n c u I. unfold parse_values in I. each; (split; [member|split; [discriminate|split; [|not_member]]]);
      intros s v; rewrite !get_str_snoc; computed; reflexivity.
  - intros n c u [].
  - reflexivity.
  - apply texted_runs; [cbn; tauto|]. change (run_command E os o (bs "parse") args) with (Some (with_flags E o (bs "parse") parse_flags args (fun sets _ => exit_of
      (run_parse E os (get_str sets (bs "input-format") (bs "shell")) (get_str sets (bs "output-format") (bs "sexp")))))). unfold with_flags.
    rewrite (proj2 (command_line_grammar E parse_flags args s files (proj1 (proj2 flag_tables))) S0), N. rewrite <- B. reflexivity.
Qed.
Example parse_options_case : asks (str * str) [] parse_values [] [bs "--output-format"; bs "json"; bs "x"] (bs "shell", bs "sexp") (bs "shell", bs "json") [bs "x"].
Proof.
  eapply (ak_option _ _ _ _ [bs "--output-format"; bs "json"]); [eapply (op_value _ _ _ _ (bs "output-format") None); right; left; reflexivity|]. apply ak_file; [intros t; discriminate|apply ak_nil].
Qed.
(** the options of texted doc *)
Theorem doc_options E os o args a files : asks (str * bool) doc_switches doc_values [] args ([], false) a files ->
  texted E os o (bs "doc" :: args) = Some (exit_of (io_bind (io_res (run_doc (o_title o) (o_maps o) registered files (fst a) (snd a))) print)).
Proof.
  intros H. edestruct (asked (str * bool) doc_flags doc_switches doc_values [] (fun s => (get_str s (bs "category") [], get_flag s (bs "verbose")))) with (5 := H) as (s & S0 & B & N).
  - intros n c u I. unfold doc_switches in I. each; (split; [member|split; [discriminate|split; [|not_member]]]);
      intros s v b V; rewrite !get_flag_snoc, !get_str_snoc; computed; rewrite (parse_bool_of v b V); reflexivity.
  - intros n c u I. unfold doc_values in I. each; (split; [member|split; [discriminate|split; [|not_member]]]);
      intros s v; rewrite !get_flag_snoc, !get_str_snoc; computed; reflexivity.
  - intros n c u [].
  - reflexivity.
  - apply texted_runs; [cbn; tauto|]. change (run_command E os o (bs "doc") args) with (Some (with_flags E o (bs "doc") doc_flags args (fun sets files => exit_of
      (io_bind (io_res (run_doc (o_title o) (o_maps o) registered files (get_str sets (bs "category") []) (get_flag sets (bs "verbose")))) print)))). unfold with_flags.
    rewrite (proj2 (command_line_grammar E doc_flags args s files (proj1 (proj2 (proj2 (proj2 flag_tables))))) S0), N. rewrite <- B. reflexivity.
Qed.
Example doc_options_case : asks (str * bool) doc_switches doc_values [] [bs "-v"; bs "--category=buffer"; bs "--verbose=0"] ([], false) (bs "buffer", false) [].
Proof.
  eapply (ak_option _ _ _ _ [bs "-v"]); [eapply (op_switch_letter _ _ _ _ (bs "verbose")); left; reflexivity|].
  eapply (ak_option _ _ _ _ [bs "--category=buffer"]); [eapply (op_value_equals _ _ _ _ (bs "category") None); left; reflexivity|].
  eapply (ak_option _ _ _ _ [bs "--verbose=0"]); [eapply (op_switch_value _ _ _ _ (bs "verbose") (Some "v"%byte) _ (bs "0") false); [left; reflexivity|left; reflexivity]|]. apply ak_nil.
Qed.
(** the option of texted mcp *)
Theorem mcp_options E os o args a files : asks str [] mcp_values [] args [] a files -> texted E os o (bs "mcp" :: args) = Some (exit_of (o_serve o a)).
Proof.
  intros H. edestruct (asked str mcp_flags [] mcp_values [] (fun s => get_str s (bs "prefix") [])) with (5 := H) as (s & S0 & B & N).
  - intros n c u [].
  - intros n c u I. unfold mcp_values in I. each; (split; [member|split; [discriminate|split; [|not_member]]]);
      intros s v; rewrite !get_str_snoc; computed; reflexivity.
  - intros n c u [].
  - reflexivity.
  - apply texted_runs; [cbn; tauto|]. change (run_command E os o (bs "mcp") args) with (Some (with_flags E o (bs "mcp") mcp_flags args (fun sets _ => exit_of (o_serve o (get_str sets (bs "prefix") []))))). unfold with_flags.
    rewrite (proj2 (command_line_grammar E mcp_flags args s files (proj2 (proj2 (proj2 (proj2 flag_tables))))) S0), N. rewrite <- B. reflexivity.
Qed.
Example mcp_options_case : asks str [] mcp_values [] [bs "--prefix"; bs "ed_"] [] (bs "ed_") [].
Proof. eapply (ak_option _ _ _ _ [bs "--prefix"; bs "ed_"]); [eapply (op_value _ _ _ _ (bs "prefix") None); left; reflexivity|]. apply ak_nil. Qed.

(** ** Assumptions of every theorem above *)
Print Assumptions edit_options.
Print Assumptions test_options.
Print Assumptions parse_options.
Print Assumptions doc_options.
Print Assumptions mcp_options.
