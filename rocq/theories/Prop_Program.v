(** C83: the program texted, from its arguments to its exit status (cmd/texted/main.go,
    commands/edit.go, commands/parse.go, commands/test.go, commands/doc.go). *)
From Coq Require Import ZArith NArith List Bool Lia Strings.Byte ZifyBool.
From Verif Require Import Base Float Ext Utf8 Strconv Values Buffer Builtins Eval Parser Json Writer Files Cli Tools Testing Docs DocsData Flags TestCmd CmdLine RefExt
  Spec SpecText SpecNumber SpecNumText SpecJson SpecLines SpecRefuse SpecData SpecFiles SpecDocs SpecManual SpecMeaning SpecWrite SpecEdit SpecTrial SpecPage SpecFlags SpecCmd SpecUsage SpecProgram
  Proofs_Base Proofs_Numeral Proofs_Files Proofs_Cli Proofs_Told Proofs_Ref Prop_Flags Prop_Docs Prop_CmdLine Prop_Usage Prop_Files Prop_Meaning Prop_Write Prop_Told Prop_Page Prop_Test Prop_Trial Proofs_Program.
Import ListNotations.
Open Scope Z_scope.

(** ** C83 *)
(** texted edit, from its options to the world after it *)
Theorem edit_exact E os a w r w' : ext_ok E -> roomy os a w -> (run_edit E os a w = (r, w') <-> edit_does E os a w r w').
Proof. intros X R. rewrite edit_told. now apply edit_iff. Qed.
(** texted parse likewise *)
Theorem parse_exact E os from to w r w' : run_parse E os from to w = (r, w') <-> parse_does E os from to w r w'.
Proof.
  rewrite parse_told.
  assert (PI : forall t q, (from = bs "json" /\ parse_json_reader t = q \/ from <> bs "json" /\ parse_string t = q) <-> parse_input from t = q).
  { intros t q. unfold parse_input. destruct (str_eqb from (bs "json")) eqn:J; [apply str_eqb_eq in J; intuition congruence|].
    assert (from <> bs "json") by (intros X; rewrite X in J; discriminate). intuition congruence. }
  split.
  - intros [m H|r0 w1 F T R N|t w1 m F T R P|t w1 p out err F T R P W].
    + now apply pd_flags.
    + destruct r0 as [t|e|c]; [now destruct (N t)|now apply pd_unread|now apply pd_dies].
    + apply PI in P. apply (input_not_standing from t m F) in P. eapply pd_flaw; eauto.
    + apply PI in P. pose proof (input_numbers _ _ _ P) as Nu. apply (input_stands from t p F) in P. apply write_program_exact in W; auto.
      destruct err as [e|]; [eapply pd_unwritten|eapply pd_written]; eauto.
  - intros [m H|e w1 F T R|c w1 F T R|t w1 m F T R P|t w1 p out F T R P W|t w1 p out m F T R P W].
    + now apply pr_refused.
    + apply (pr_unread E os from to w (Err e)); auto. discriminate.
    + apply (pr_unread E os from to w (Crash c)); auto. discriminate.
    + apply (input_not_standing from t m F) in P. apply PI in P. eapply pr_unparsed; eauto.
    + apply (input_stands from t p F) in P. pose proof (input_numbers _ _ _ P) as Nu. apply PI in P. apply write_program_exact in W; auto.
      apply (pr_written E os from to w t w1 p out None); auto.
    + apply (input_stands from t p F) in P. pose proof (input_numbers _ _ _ P) as Nu. apply PI in P. apply write_program_exact in W; auto.
      apply (pr_written E os from to w t w1 p out (Some m)); auto.
Qed.

(** *** Options *)
Lemma letters_suited flags t s : letters flags t s -> Forall (Prop_CmdLine.fits flags) s.
Proof.
  induction 1 as [f c I S K|f c d t s I S K N L IH|f c v I S N Su|f c v I S K N Eq Su|t]; auto.
  - constructor; auto. exists f. repeat split; auto. now apply true_suits.
  - constructor; auto. exists f. repeat split; auto. now apply true_suits.
  - constructor; auto. exists f. auto.
  - constructor; auto. exists f. auto.
Qed.
Lemma open_suited flags t s g : open_letters flags t s g -> In g flags /\ Forall (Prop_CmdLine.fits flags) s.
Proof.
  induction 1 as [f c I S K|f c d t s g I S K N L [IH1 IH2]]; auto. split; auto. constructor; auto. exists f. repeat split; auto. now apply true_suits.
Qed.
Lemma says_suited flags args s p : says flags args s p -> Forall (Prop_CmdLine.fits flags) s.
Proof.
  induction 1 as [|p|a l s p N S IH|f v l s p I Su S IH|f l s p I K S IH|f v l s p I K Su S IH|t s1 l s p L S IH|t s1 f v l s p L Su S IH]; auto.
  - constructor; auto. exists f. auto.
  - constructor; auto. exists f. repeat split; auto. now apply true_suits.
  - constructor; auto. exists f. auto.
  - apply Forall_app. split; auto. eapply letters_suited; eauto.
  - apply open_suited in L as [I L]. apply Forall_app. split; auto. constructor; auto. exists f. auto.
Qed.
Lemma lists_iff v l : lists v l <-> string_slice [v] = CsvRecord l.
Proof.
  split.
  - intros [->|u k rest fs N U -> C R]; [reflexivity|]. apply (flag_value_lines v (repeat x0a k ++ rest) fs U N). eauto.
  - intros H. destruct v as [|c v].
    + cbn in H. injection H as <-. now apply ls_empty.
    + destruct (every_value_has_lines (c :: v)) as [u U]. apply (flag_value_lines _ u _ U) in H; [|discriminate]. destruct H as (k & rest & Q & C & R).
      eapply ls_record; eauto. discriminate.
Qed.
Lemma collected_iff s name l : (forall v, In (name, v) s -> exists f, string_slice [v] = CsvRecord f) -> (collected s name l <-> get_list s name = l).
Proof.
  intros A. unfold collected, get_list. split.
  - intros (vs & ls & S & F & ->). apply texts_all in S. rewrite S.
    assert (R : string_slice vs = CsvRecord (concat ls)). { apply flag_occurrences. exists ls. split; [|reflexivity]. clear -F. induction F; constructor; auto. now apply lists_iff. }
    now rewrite R.
  - intros H. exists (set_texts s name). assert (F : exists ls, Forall2 lists (set_texts s name) ls).
    { assert (G : forall v, In v (set_texts s name) -> In (name, v) s).
      { intros v. unfold set_texts. rewrite in_map_iff. intros ([n u] & Q & I). apply filter_In in I as [I N]. cbn [fst snd] in *. apply str_eqb_eq in N. now subst. }
      revert G. generalize (set_texts s name). induction l0 as [|v vs IH]; intros G; [exists []; constructor|]. destruct IH as [ls IH]; [intros u I; apply G; now right|].
      destruct (A v) as [f F]; [apply G; now left|]. exists (f :: ls). constructor; auto. now apply lists_iff. }
    destruct F as [ls F]. exists ls. split; [now apply texts_all|]. split; [exact F|].
    assert (R : string_slice (set_texts s name) = CsvRecord (concat ls)). { apply flag_occurrences. exists ls. split; [|reflexivity]. clear -F. induction F; constructor; auto. now apply lists_iff. }
    rewrite R in H. congruence.
Qed.
Lemma switched_iff s name b : switched s name b <-> get_flag s name = b.
Proof.
  unfold switched. pose proof (proj1 (proj2 (last_setting_counts s name))) as L. split.
  - intros H. destruct b.
    + apply L. now apply H.
    + destruct (get_flag s name); [|reflexivity]. symmetry. apply H. now apply L.
  - intros <-. exact L.
Qed.
Lemma edit_options_iff args s p a : says edit_flags args s p -> (edit_options s p a <-> edit_args_of s p = a).
Proof.
  intros S. apply says_suited in S. rewrite Forall_forall in S.
  assert (C : forall l, collected s (bs "expression") l <-> get_list s (bs "expression") = l).
  { intros l. apply collected_iff. intros v I. destruct (S _ I) as (f & F & N & Su). cbn [fst snd] in N, Su.
    repeat (destruct F as [<-|F]; [try discriminate N; exact Su|]). destruct F. }
  split.
  - intros (A1 & A2 & A3 & A4 & A5 & A6 & A7 & A8 & A9 & A10 & A11 & A12 & A13 & A14 & A15).
    apply get_str_set in A1, A2, A3, A6, A7, A14. apply C in A4. apply switched_iff in A5, A8, A9, A10, A11, A12, A13. unfold edit_args_of.
    rewrite A1, A2, A3, A4, A5, A6, A7, A8, A9, A10, A11, A12, A13, A14, A15. now destruct a.
  - intros <-. unfold edit_options. split; [now apply get_str_set|]. split; [now apply get_str_set|]. split; [now apply get_str_set|]. split; [now apply C|].
    split; [now apply switched_iff|]. split; [now apply get_str_set|]. split; [now apply get_str_set|]. do 6 (split; [now apply switched_iff|]). split; [now apply get_str_set|reflexivity].
Qed.
Lemma test_options_iff args s p a : says test_flags args s p -> (test_options s p a <-> test_args_of s p = a).
Proof.
  intros S. apply says_suited in S. rewrite Forall_forall in S.
  assert (C : forall l, collected s (bs "include") l <-> get_list s (bs "include") = l).
  { intros l. apply collected_iff. intros v I. destruct (S _ I) as (f & F & N & Su). cbn [fst snd] in N, Su.
    repeat (destruct F as [<-|F]; [try discriminate N; exact Su|]). destruct F. }
  split.
  - intros (A1 & A2 & A3 & A4 & A5 & A6). apply C in A2. apply switched_iff in A3, A4, A5, A6. unfold test_args_of. rewrite A1, A2, A3, A4, A5, A6. now destruct a.
  - intros <-. unfold test_options. split; [reflexivity|]. split; [now apply C|]. do 3 (split; [now apply switched_iff|]). now apply switched_iff.
Qed.

(** *** The program *)
Lemma exit_iff (m : IO unit) w x w' : exit_of m w = (x, w') <-> exists r, m w = (r, w') /\ ended r x.
Proof.
  unfold exit_of, io_try, io_ret, io_res. destruct (m w) as [[[]|e|c] w1]; split.
  - intros H. injection H as <- <-. eexists. split; [reflexivity|constructor].
  - intros (r & H & D). injection H as <- <-. now inversion D.
  - intros H. apply pair_equal_spec in H as [<- <-]. eexists. split; [reflexivity|constructor].
  - intros (r & H & D). apply pair_equal_spec in H as [<- <-]. now inversion D.
  - intros H. injection H as <- <-. eexists. split; [reflexivity|constructor].
  - intros (r & H & D). injection H as <- <-. now inversion D.
Qed.
Lemma flags_iff E o name flags args run w x w' : flag_table flags ->
  (with_flags E o name flags args run w = (x, w') <->
   (exists m, args_flaw E flags args m /\ x = Ok (mkExit 1 (Some m)) /\ w' = w) \/
   (exists s p, says flags args s p /\ switched s (bs "help") true /\ x = Ok (mkExit 0 None) /\ w' = told (o_help o name) w) \/
   (exists s p, ready flags args s p /\ run s p w = (x, w'))).
Proof.
  intros T. unfold with_flags, ready. destruct (parse_args E flags args) as [s p|e] eqn:P.
  - assert (S : says flags args s p) by now apply (command_line_grammar E).
    assert (U : forall s' p', says flags args s' p' -> s' = s /\ p' = p) by (intros s' p' H; apply (command_line_grammar E) in H; auto; rewrite P in H; injection H; auto).
    assert (N : forall m, ~ args_flaw E flags args m) by (intros m H; apply command_line_complaint in H; auto; congruence).
    destruct (get_flag s (bs "help")) eqn:H; split.
    + intros Q. right. left. exists s, p. split; auto. split; [now apply switched_iff|]. change (@pair (res exit) world (Ok (mkExit 0 None)) (told (o_help o name) w) = (x, w')) in Q. apply pair_equal_spec in Q as [<- <-]. auto.
    + intros [(m & K & _)|[(s' & p' & K & _ & -> & ->)|(s' & p' & (K & L) & _)]]; [now apply N in K|reflexivity|]. apply U in K as [-> ->]. apply switched_iff in L. congruence.
    + intros Q. right. right. exists s, p. split; [split; [auto|now apply switched_iff]|auto].
    + intros [(m & K & _)|[(s' & p' & K & L & _)|(s' & p' & (K & L) & Q)]]; [now apply N in K| |]; apply U in K as [-> ->]; [apply switched_iff in L; congruence|exact Q].
  - assert (F : args_flaw E flags args e) by now apply command_line_complaint.
    assert (N : forall s p, ~ says flags args s p) by (intros s p H; apply (command_line_grammar E) in H; auto; congruence).
    split.
    + intros Q. left. exists e. unfold io_ret in Q. apply pair_equal_spec in Q as [<- <-]. auto.
    + intros [(m & K & -> & ->)|[(s & p & K & _)|(s & p & (K & _) & _)]]; [|now apply N in K|now apply N in K].
      apply command_line_complaint in K; auto. rewrite P in K. injection K as ->. reflexivity.
Qed.
(** the order in which Go goes through its maps is nobody's choice *)
Definition with_maps (o : outer) (m : map_orders) : outer :=
  mkOutside (o_decode o) (o_glob o) (o_title o) m (o_serve o) (o_help o).

Lemma some_maps : exists m, possible m.
Proof.
  exists (mkOrders (fun r => r) (fun l => l) (fun l => l)). split; [|split]; intros l; apply Permutation.Permutation_refl.
Qed.
Lemma command_table name flags : In (name, flags) commands -> flag_table flags.
Proof.
  destruct flag_tables as (T1 & T2 & T3 & T4 & T5). intros I. repeat (destruct I as [I|I]; [injection I as <- <-; assumption|]). destruct I.
Qed.
Lemma unknown_runs E os o name args : for_texted (name :: args) -> ~ In name (map fst commands) ->
  texted E os o (name :: args) = Some (io_ret (mkExit 1 (Some (bs "unknown command " ++ quote E name ++ bs " for ""texted""")))).
Proof.
  intros F N. destruct (F name args eq_refl) as (A & B & C). destruct (unknown_command_refused E os o name args A B C N) as (m & Q & _). revert Q.
  unfold texted. destruct (_ || _ || _); [discriminate|]. destruct (run_command E os o name args) as [k|] eqn:K; [|reflexivity]. exfalso. revert K. unfold run_command.
  assert (Ne : forall n, In n (map fst commands) -> str_eqb name n = false) by (intros n I; apply str_eqb_neq; congruence).
  rewrite !Ne by (cbn [commands map fst In]; tauto). discriminate.
Qed.
Lemma one_table name flags flags' : In (name, flags) commands -> In (name, flags') commands -> flags = flags'.
Proof.
  intros A B. repeat (destruct A as [A|A]; [injection A as <- <-; repeat (destruct B as [B|B]; [first [discriminate B|now injection B as <-]|]); destruct B|]). destruct A.
Qed.
Section Commands.
Variables (E : Ext) (os : OS) (o : outer) (name : str) (flags : list flag) (args : list str) (w : world) (x : res exit) (w' : world).
Hypothesis I : In (name, flags) commands.
Definition not_run : Prop :=
  (exists m, args_flaw E flags args m /\ x = Ok (mkExit 1 (Some m)) /\ w' = w) \/
  (exists s p, says flags args s p /\ switched s (bs "help") true /\ x = Ok (mkExit 0 None) /\ w' = told (o_help o name) w).
Lemma program_runs (run : map_orders -> list setting -> list str -> IO exit) :
  (forall maps, run_command E os (with_maps o maps) name args = Some (with_flags E (with_maps o maps) name flags args (run maps))) ->
  ((exists maps m, possible maps /\ texted E os (with_maps o maps) (name :: args) = Some m /\ m w = (x, w')) <->
   not_run \/ exists maps s p, possible maps /\ ready flags args s p /\ run maps s p w = (x, w')).
Proof.
  intros R. pose proof (command_table name flags I) as T. destruct some_maps as [m0 M0].
  assert (K : forall maps, texted E os (with_maps o maps) (name :: args) = Some (with_flags E (with_maps o maps) name flags args (run maps))).
  { intros maps. apply texted_runs; [|apply R]. apply (in_map fst) in I. exact I. }
  split.
  - intros (maps & m & P & Q & H). rewrite K in Q. assert (m = with_flags E (with_maps o maps) name flags args (run maps)) by congruence. subst m.
    apply flags_iff in H; auto. destruct H as [H|[H|(s & p & A & B)]]; [left; left; exact H|left; right; exact H|]. right. exists maps, s, p. auto.
  - intros [[H|H]|(maps & s & p & P & A & B)].
    + exists m0. eexists. split; [exact M0|]. split; [apply K|]. apply flags_iff; auto.
    + exists m0. eexists. split; [exact M0|]. split; [apply K|]. apply flags_iff; auto.
    + exists maps. eexists. split; [exact P|]. split; [apply K|]. apply flags_iff; auto. right. right. eauto.
Qed.
Lemma not_run_does : not_run -> texted_does E os o (name :: args) w x w'.
Proof. intros [(m & A & -> & ->)|(s & p & A & B & -> & ->)]; [eapply te_mistyped; eauto|eapply te_help; eauto]. Qed.
Lemma mistyped_not_run m flags' : In (name, flags') commands -> args_flaw E flags' args m -> x = Ok (mkExit 1 (Some m)) -> w' = w -> not_run.
Proof. intros J A -> ->. rewrite <- (one_table _ _ _ I J) in A. left. eauto. Qed.
Lemma help_not_run s p flags' : In (name, flags') commands -> says flags' args s p -> switched s (bs "help") true -> x = Ok (mkExit 0 None) -> w' = told (o_help o name) w -> not_run.
Proof. intros J A B -> ->. rewrite <- (one_table _ _ _ I J) in A. right. eauto 8. Qed.
Lemma known_unknown q : ~ In name (map fst commands) -> x = q -> not_run.
Proof. intros N _. destruct N. apply (in_map fst) in I. exact I. Qed.
End Commands.

Section Each.
Variables (E : Ext) (os : OS) (o : outer) (args : list str) (w : world) (x : res exit) (w' : world).
Hypotheses (X : ext_ok E) (D : decodes_texts (o_decode o)).
Lemma edit_program : (forall s files a, says edit_flags args s files -> edit_options s files a -> roomy os a w) ->
  ((exists maps m, possible maps /\ texted E os (with_maps o maps) (bs "edit" :: args) = Some m /\ m w = (x, w')) <-> texted_does E os o (bs "edit" :: args) w x w').
Proof.
  intros R. assert (I : In (bs "edit", edit_flags) commands) by (cbn [commands In]; tauto).
  rewrite (program_runs E os o (bs "edit") edit_flags args w x w' I (fun _ sets files => exit_of (run_edit E os (edit_args_of sets files))) (fun maps => eq_refl)). split.
  - intros [H|(maps & s & p & P & A & H)]; [eapply not_run_does; eauto|]. apply exit_iff in H as (r & H & N). destruct A as [A B].
    assert (O : edit_options s p (edit_args_of s p)) by (eapply edit_options_iff; eauto). apply edit_exact in H; auto; [|eapply R; eauto]. eapply te_edit; eauto. split; auto.
  - intros H. inversion H as [|? ? q ? N Q|? ? ? m ? J A|? ? ? s p ? J A B|? s p a ? r ? ? [A B] O Ed N| | | | | | ]; subst.
    + left. eapply known_unknown; eauto.
    + left. eapply mistyped_not_run; eauto.
    + left. eapply help_not_run; eauto.
    + right. destruct some_maps as [m0 M0]. exists m0, s, p. split; auto. split; [split; auto|]. apply exit_iff. exists r. split; auto.
      apply edit_exact in Ed; auto; [|eapply R; eauto]. apply (edit_options_iff args) in O; auto. now rewrite O.
Qed.
Lemma parse_program :
  ((exists maps m, possible maps /\ texted E os (with_maps o maps) (bs "parse" :: args) = Some m /\ m w = (x, w')) <-> texted_does E os o (bs "parse" :: args) w x w').
Proof.
  assert (I : In (bs "parse", parse_flags) commands) by (cbn [commands In]; tauto).
  rewrite (program_runs E os o (bs "parse") parse_flags args w x w' I (fun _ sets _ => exit_of
      (run_parse E os (get_str sets (bs "input-format") (bs "shell")) (get_str sets (bs "output-format") (bs "sexp")))) (fun maps => eq_refl)). split.
  - intros [H|(maps & s & p & P & A & H)]; [eapply not_run_does; eauto|]. apply exit_iff in H as (r & H & N). apply parse_exact in H.
    eapply te_parse; eauto; now apply get_str_set.
  - intros H. inversion H as [|? ? q ? N Q|? ? ? m ? J A|? ? ? s p ? J A B| |? s p from to ? r ? ? A F T Pd N| | | | | ]; subst.
    + left. eapply known_unknown; eauto.
    + left. eapply mistyped_not_run; eauto.
    + left. eapply help_not_run; eauto.
    + right. destruct some_maps as [m0 M0]. exists m0, s, p. split; auto. split; auto. apply exit_iff. exists r. split; auto.
      apply get_str_set in F, T. rewrite F, T. now apply parse_exact.
Qed.
Lemma test_program :
  ((exists maps m, possible maps /\ texted E os (with_maps o maps) (bs "test" :: args) = Some m /\ m w = (x, w')) <-> texted_does E os o (bs "test" :: args) w x w').
Proof.
  assert (I : In (bs "test", test_flags) commands) by (cbn [commands In]; tauto).
  rewrite (program_runs E os o (bs "test") test_flags args w x w' I (fun _ sets files =>
      io_bind (run_tests (o_decode o) E os (o_glob o) (test_args_of sets files)) (fun z => io_ret (mkExit z None))) (fun maps => eq_refl)). split.
  - intros [H|(maps & s & p & P & A & H)]; [eapply not_run_does; eauto|]. unfold io_bind, io_ret in H.
    assert (O : test_options s p (test_args_of s p)) by (destruct A; eapply test_options_iff; eauto).
    destruct (run_tests (o_decode o) E os (o_glob o) (test_args_of s p) w) as [[z|e|c] w1] eqn:T; apply pair_equal_spec in H as [<- <-]; apply tests_exact in T; auto.
    + eapply te_test; eauto.
    + exfalso. inversion T.
    + eapply te_test_dies; eauto.
  - intros H. inversion H as [|? ? q ? N Q|? ? ? m ? J A|? ? ? s p ? J A B| | |? s p a ? z ? A O T|? s p a ? c ? A O T| | | ]; subst.
    + left. eapply known_unknown; eauto.
    + left. eapply mistyped_not_run; eauto.
    + left. eapply help_not_run; eauto.
    + right. destruct some_maps as [m0 M0]. exists m0, s, p. split; auto. split; auto. apply (test_options_iff args) in O; [|apply A]. rewrite O. apply tests_exact in T; auto. unfold io_bind. now rewrite T.
    + right. destruct some_maps as [m0 M0]. exists m0, s, p. split; auto. split; auto. apply (test_options_iff args) in O; [|apply A]. rewrite O. apply tests_exact in T; auto. unfold io_bind. now rewrite T.
Qed.
Lemma doc_program :
  ((exists maps m, possible maps /\ texted E os (with_maps o maps) (bs "doc" :: args) = Some m /\ m w = (x, w')) <-> texted_does E os o (bs "doc" :: args) w x w').
Proof.
  assert (I : In (bs "doc", doc_flags) commands) by (cbn [commands In]; tauto).
  assert (Mp : a_map registered) by apply (documentation_complete E).
  rewrite (program_runs E os o (bs "doc") doc_flags args w x w' I (fun maps sets files => exit_of
      (io_bind (io_res (run_doc (o_title o) maps registered files (get_str sets (bs "category") [])
                          (get_flag sets (bs "verbose")))) print)) (fun maps => eq_refl)). split.
  - intros [H|(maps & s & p & P & A & H)]; [eapply not_run_does; eauto|]. apply exit_iff in H as (r & H & N). unfold io_bind, io_res in H.
    set (cat := get_str s (bs "category") []) in *. set (v := get_flag s (bs "verbose")) in *.
    assert (C : set_to s (bs "category") [] cat) by now apply get_str_set. assert (V : switched s (bs "verbose") v) by now apply switched_iff.
    assert (Q : command_answers (o_title o) registered cat v p (run_doc (o_title o) maps registered p cat v)) by (apply command_answers_told; eauto).
    destruct (run_doc (o_title o) maps registered p cat v) as [t|e|c] eqn:T.
    + change (@pair (res unit) world (Ok tt) (told t w) = (r, w')) in H. apply pair_equal_spec in H as [<- <-]. inversion N; subst. eapply te_doc; eauto.
    + apply pair_equal_spec in H as [<- <-]. eapply te_doc_not; eauto. discriminate.
    + apply pair_equal_spec in H as [<- <-]. eapply te_doc_not; eauto. discriminate.
  - intros H. inversion H as [|? ? q ? N Q|? ? ? m ? J A|? ? ? s p ? J A B| | | | |? s p cat v ? t A C V An|? s p cat v ? r ? A C V An NO N| ]; subst.
    + left. eapply known_unknown; eauto.
    + left. eapply mistyped_not_run; eauto.
    + left. eapply help_not_run; eauto.
    + right. apply command_answers_told in An; auto. destruct An as (maps & P & An). exists maps, s, p. split; auto. split; auto. apply exit_iff. exists (Ok tt). split; [|constructor].
      apply get_str_set in C. apply switched_iff in V. rewrite C, V, An. reflexivity.
    + right. apply command_answers_told in An; auto. destruct An as (maps & P & An). exists maps, s, p. split; auto. split; auto. apply exit_iff. exists (ending r). split; auto.
      apply get_str_set in C. apply switched_iff in V. rewrite C, V, An. destruct r as [t|e|c]; [now destruct (NO t)|reflexivity|reflexivity].
Qed.
Lemma mcp_program :
  ((exists maps m, possible maps /\ texted E os (with_maps o maps) (bs "mcp" :: args) = Some m /\ m w = (x, w')) <-> texted_does E os o (bs "mcp" :: args) w x w').
Proof.
  assert (I : In (bs "mcp", mcp_flags) commands) by (cbn [commands In]; tauto).
  rewrite (program_runs E os o (bs "mcp") mcp_flags args w x w' I (fun _ sets _ => exit_of (o_serve o (get_str sets (bs "prefix") []))) (fun maps => eq_refl)). split.
  - intros [H|(maps & s & p & P & A & H)]; [eapply not_run_does; eauto|]. apply exit_iff in H as (r & H & N). eapply te_mcp; eauto. now apply get_str_set.
  - intros H. inversion H as [|? ? q ? N Q|? ? ? m ? J A|? ? ? s p ? J A B| | | | | | |? s p prefix ? r ? ? A C Sv N]; subst.
    + left. eapply known_unknown; eauto.
    + left. eapply mistyped_not_run; eauto.
    + left. eapply help_not_run; eauto.
    + right. destruct some_maps as [m0 M0]. exists m0, s, p. split; auto. split; auto. apply exit_iff. exists r. split; auto. apply get_str_set in C. now rewrite C.
Qed.
End Each.

(** The whole program: whatever the arguments, the files and the input are, what it does, what
    it prints and how it exits. *)
Theorem texted_exact E os o args w x w' : ext_ok E -> decodes_texts (o_decode o) -> for_texted args -> room_for os args w ->
  ((exists maps m, possible maps /\ texted E os (with_maps o maps) args = Some m /\ m w = (x, w')) <-> texted_does E os o args w x w').
Proof.
  intros X D F R. destruct some_maps as [m0 M0].
  destruct args as [|name args].
  { split.
    - intros (maps & m & _ & Q & H). injection Q as <-. change (@pair (res exit) world (Ok (mkExit 0 None)) (told (o_help o []) w) = (x, w')) in H. apply pair_equal_spec in H as [<- <-]. constructor.
    - intros H. inversion H; subst. exists m0. eexists. split; [exact M0|]. split; reflexivity. }
  assert (Kn : forall maps m, In name (map fst commands) -> run_command E os (with_maps o maps) name args = Some m -> texted E os (with_maps o maps) (name :: args) = Some m)
    by (intros maps m I H; now apply texted_runs).
  destruct (in_dec (list_eq_dec byte_eq_dec) name (map fst commands)) as [I|I].
  2:{ split.
    - intros (maps & m & _ & Q & H). rewrite unknown_runs in Q; auto. assert (m = io_ret (mkExit 1 (Some (bs "unknown command " ++ quote E name ++ bs " for ""texted""")))) by congruence. subst m.
      unfold io_ret in H. apply pair_equal_spec in H as [<- <-]. apply te_unknown; auto. now apply quoted_exact.
    - intros H. exists m0. eexists. split; [exact M0|]. split; [now apply unknown_runs|].
      inversion H as [|? ? q ? N Q|? ? ? ? ? K|? ? ? ? ? ? K| | | | | | | ]; subst; try (exfalso; apply I; cbn [commands map fst In]; tauto).
      + apply quoted_exact in Q. subst q. reflexivity.
      + exfalso. apply I, in_map_iff. eexists. split; [|exact K]. reflexivity.
      + exfalso. apply I, in_map_iff. eexists. split; [|exact K]. reflexivity. }
  destruct I as [<-|[<-|[<-|[<-|[<-|[]]]]]].
  - apply edit_program; auto. intros s files a S O. eapply R; eauto.
  - apply parse_program.
  - apply test_program; auto.
  - apply doc_program.
  - apply mcp_program.
Qed.

(** *** Cases that meet the hypotheses *)
Definition demo_args : list str := [bs "edit"; bs "--json"; bs "-i"; bs "-s"; bs "[[""insert"",""!""]]"; bs "--"; bs "f"].
Definition demo_sets : list setting := [(bs "json", bs "true"); (bs "in-place", bs "true"); (bs "script", bs "[[""insert"",""!""]]")].
Lemma demo_says : says edit_flags (tl demo_args) demo_sets [bs "f"].
Proof. apply (command_line_grammar ref_ext); [apply flag_tables|reflexivity]. Qed.
Lemma demo_roomy w : roomy demo_os (edit_args_of demo_sets [bs "f"]) w.
Proof.
  intros _. split; [constructor|]. intros s w1 H. remember (Ok s) as r. destruct H as [s' A B C|A B|f r w1 A B C D|f e w1 A B C]; try discriminate.
  - assert (s' = s) by congruence. subst s' s. vm_compute. discriminate.
  - exfalso. apply B. rewrite <- A. reflexivity.
Qed.
Lemma demo_room w : room_for demo_os demo_args w.
Proof.
  intros rest s files a Q S O. assert (rest = tl demo_args) by (unfold demo_args in *; injection Q as <-; reflexivity). subst rest.
  apply (edit_options_iff _ _ _ _ S) in O. pose proof demo_says as S1. apply (command_line_grammar ref_ext) in S, S1; try apply flag_tables.
  rewrite S1 in S. injection S as <- <-. rewrite <- O. apply demo_roomy.
Qed.
Definition quiet_outer : outer := mkOutside demo_decode [] (fun s => s) (mkOrders (fun _ => []) (fun _ => []) (fun _ => [])) (fun _ => io_ret tt) (fun _ => []).
Example texted_exact_witness : ext_ok ref_ext /\ decodes_texts (o_decode quiet_outer) /\ for_texted demo_args /\
  exists w', room_for demo_os demo_args (Prop_Files.demo [(bs "f", bs "x")]) /\ w_fs w' (bs "f") = Some (bs "!x") /\
    texted_does ref_ext demo_os quiet_outer demo_args (Prop_Files.demo [(bs "f", bs "x")]) (Ok (mkExit 0 None)) w'.
Proof.
  split; [apply ref_ext_ok|]. split; [apply demo_sound|].
  assert (F : for_texted demo_args). { intros name rest H. unfold demo_args in H. injection H as <- _. repeat split; try discriminate. intros H. repeat (destruct H as [H|H]; [discriminate H|]). destruct H. }
  split; [exact F|]. set (w := Prop_Files.demo [(bs "f", bs "x")]).
  set (m := exit_of (run_edit ref_ext demo_os (edit_args_of demo_sets [bs "f"]))). exists (snd (m w)). split; [apply demo_room|]. split; [vm_compute; reflexivity|].
  apply texted_exact; [apply ref_ext_ok|apply demo_sound|exact F|apply demo_room|]. destruct some_maps as [maps P]. exists maps, m. split; [exact P|]. split; [reflexivity|].
  rewrite (surjective_pairing (m w)) at 1. f_equal.
Qed.
Example edit_exact_witness : ext_ok ref_ext /\ exists w', roomy demo_os (edit_args_of demo_sets [bs "f"]) (Prop_Files.demo [(bs "f", bs "x")]) /\
  edit_does ref_ext demo_os (edit_args_of demo_sets [bs "f"]) (Prop_Files.demo [(bs "f", bs "x")]) (Ok tt) w' /\ w_fs w' (bs "f") = Some (bs "!x").
Proof.
  split; [apply ref_ext_ok|]. set (w := Prop_Files.demo [(bs "f", bs "x")]). set (m := run_edit ref_ext demo_os (edit_args_of demo_sets [bs "f"])). exists (snd (m w)).
  split; [apply demo_roomy|]. split; [|vm_compute; reflexivity]. apply edit_exact; [apply ref_ext_ok|apply demo_roomy|].
  fold m. rewrite (surjective_pairing (m w)) at 1. f_equal.
Qed.
Example parse_exact_witness : exists w', parse_does ref_ext demo_os (bs "sexp") (bs "shell") (init_world (fun _ => None) (bs "(a 1)" ++ nl :: bs "(b (c))"))
  (Err (bs "nested lists are not supported in shell format")) w' /\ w_stdout w' = bs "a 1" ++ [nl].
Proof.
  set (w := init_world _ _). set (m := run_parse ref_ext demo_os (bs "sexp") (bs "shell")). exists (snd (m w)). split; [|vm_compute; reflexivity].
  apply parse_exact. fold m. rewrite (surjective_pairing (m w)) at 1. f_equal.
Qed.

(** ** Assumptions of every theorem above *)
Print Assumptions edit_exact.
Print Assumptions parse_exact.
Print Assumptions texted_exact.
