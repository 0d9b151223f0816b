(** C84: the functions of the package texted and the MCP server, exactly (texted.go,
    tools/edit_file.go, tools/texted_eval.go, tools/texted_doc.go, commands/mcp.go). *)
From Coq Require Import ZArith NArith List Bool Lia Strings.Byte ZifyBool ZifyNat.
From Verif Require Import Base Float Ext Utf8 Strconv Values Buffer Builtins Eval Parser Json Writer Files Cli Tools Testing Docs DocsData Serve RefExt
  Spec SpecText SpecNumber SpecNumText SpecJson SpecLines SpecRefuse SpecData SpecFiles SpecDocs SpecManual SpecMeaning SpecEdit SpecPage SpecServe SpecProgram SpecService
  Proofs_Base Proofs_Numeral Proofs_Files Proofs_Cli Proofs_Ref Prop_Docs Prop_Files Prop_Tools Prop_Serve Prop_Meaning Prop_Page Proofs_Program.
Import ListNotations.
Open Scope Z_scope.

(** ** C84 *)
Lemma edited_in_iff E format s t r : ext_ok E -> room format s -> fits t -> (execute_script_fmt E t s format = r <-> edited_in E format s t r).
Proof.
  intros X R F. destruct (in_dec (list_eq_dec byte_eq_dec) format SpecEdit.formats) as [I|I].
  - rewrite (edits_iff E X format s t r I R F). split; [now constructor|]. intros [N|r' _ H]; [contradiction|exact H].
  - assert (V : is_valid_format format = false).
    { destruct (is_valid_format format) eqn:V; auto. exfalso. apply I. unfold is_valid_format in V. unfold SpecEdit.formats. cbn [In].
      repeat (apply orb_true_iff in V as [V|V] || (apply str_eqb_eq in V; subst; tauto)). }
    unfold execute_script_fmt. rewrite V. split; [intros <-; now constructor|]. intros [N|r' N _]; [reflexivity|contradiction].
Qed.

(** *** Files *)
Section Files.
Variables (os : OS) (body : str -> res str) (result : str -> res str -> Prop).
Hypothesis B : forall t r, fits t -> (body t = r <-> result t r).
Definition edits (f : str) : IO unit := io_bind (read_file os f) (fun c => io_bind (io_res (body c)) (fun m => write_file os f m)).
Lemma file_iff f w r w' : edits f w = (r, w') <-> file_edited os result f w r w'.
Proof.
  unfold edits, io_bind, read_file, write_file, io_try, io_res, io_fail. split.
  - destruct (os_read_file os f w) as [[t|e|c] w1] eqn:R.
    + pose proof (read_fits _ _ _ _ _ R) as F. destruct (body t) as [t'|e|c] eqn:T; apply B in T; auto.
      * destruct (os_write_file os f t' w1) as [[[]|e|c] w2] eqn:W; intros H; apply pair_equal_spec in H as [<- <-].
        -- eapply fe_saved; eauto. -- eapply fe_unsaved; eauto. -- eapply fe_save_dies; eauto.
      * intros H; apply pair_equal_spec in H as [<- <-]. eapply fe_unedited; eauto.
      * intros H; apply pair_equal_spec in H as [<- <-]. eapply fe_dies; eauto.
    + intros H; apply pair_equal_spec in H as [<- <-]. now constructor.
    + intros H; apply pair_equal_spec in H as [<- <-]. now constructor.
  - intros [e w1 R|c w1 R|t w1 e R T|t w1 c R T|t w1 t' e w2 R T W|t w1 t' c w2 R T W|t w1 t' w2 R T W]; rewrite R; try reflexivity;
      apply B in T; try (eapply read_fits; exact R); rewrite T; try rewrite W; reflexivity.
Qed.
Lemma files_iff l : forall w r w', edit_loop edits l w = (r, w') <-> files_edited os result l w r w'.
Proof.
  induction l as [|f l IH]; intros w r w'; cbn [edit_loop].
  - unfold io_ret. split; [intros H; apply pair_equal_spec in H as [<- <-]; constructor|]. intros H. inversion H; subst. reflexivity.
  - unfold io_try, io_bind, io_ret. split.
    + destruct (edits f w) as [[[]|e|c] w1] eqn:A; apply file_iff in A.
      * destruct (edit_loop edits l w1) as [[rs|e|c] w2] eqn:L; apply IH in L; intros H; apply pair_equal_spec in H as [<- <-].
        -- now apply fs_good with w1. -- exfalso. inversion L. -- eapply fs_dies_later; eauto. discriminate.
      * destruct (edit_loop edits l w1) as [[rs|e'|c] w2] eqn:L; apply IH in L; intros H; apply pair_equal_spec in H as [<- <-].
        -- now apply fs_bad with w1. -- exfalso. inversion L. -- eapply fs_dies_later; eauto. discriminate.
      * intros H; apply pair_equal_spec in H as [<- <-]. now constructor.
    + intros H. inversion H as [|? ? ? w1 rs ? A L|? ? ? e w1 rs ? A L|? ? ? c ? A|? ? ? r0 w1 c ? A N L]; subst; apply file_iff in A; rewrite A.
      * apply IH in L. now rewrite L.
      * apply IH in L. now rewrite L.
      * reflexivity.
      * apply IH in L. destruct r0 as [[]|e|c0]; [now rewrite L|now rewrite L|now destruct (N c0)].
Qed.
Lemma well_none rs : all_well rs <-> Forall (fun r => r_err r = None) rs.
Proof. unfold all_well. now rewrite Forall_forall. Qed.
Lemma well_some rs : ~ all_well rs <-> Exists (fun r => r_err r <> None) rs.
Proof.
  rewrite well_none, <- failed_none, <- failed_some. destruct (existsb failed rs); intuition congruence.
Qed.
Lemma rounds_iff l k : forall w w', rounds (edit_loop edits l) k w w' <-> rounds_well os result l k w w'.
Proof.
  induction k as [|k IH]; intros w w'; (split; intros H; inversion H as [|? ? w1 ? rs A C D]; subst); try constructor.
  - apply IH in A. apply files_iff in C. apply well_none in D. econstructor; eauto.
  - apply IH in A. econstructor; [exact A|apply files_iff; eassumption|now apply well_none].
Qed.
Lemma rounds_crash fuel edit : forall i w c w', edit_rounds fuel edit i w = Some (Crash c, w') <->
  exists k wk, (k < fuel)%nat /\ rounds edit k w wk /\ edit wk = (Crash c, w').
Proof.
  induction fuel as [|fuel IH]; intros i w c w'; cbn [edit_rounds].
  - split; [discriminate|]. intros (k & wk & L & _). lia.
  - destruct (edit w) as [[rs1|e|c1] w1] eqn:Ed.
    + destruct (existsb failed rs1) eqn:F.
      * split; [discriminate|]. intros (k & wk & L & R & E2). destruct k as [|k]; [inversion R; subst; congruence|].
        apply rounds_back in R as (rs0 & w0 & E0 & F0 & _). rewrite Ed in E0. injection E0 as <- <-. apply failed_none in F0. congruence.
      * rewrite IH. split.
        -- intros (k & wk & L & R & E2). exists (S k), wk. split; [lia|]. split; auto. eapply rounds_front; eauto. now apply failed_none.
        -- intros (k & wk & L & R & E2). destruct k as [|k]; [inversion R; subst; congruence|].
           apply rounds_back in R as (rs0 & w0 & E0 & F0 & R). rewrite Ed in E0. injection E0 as <- <-. exists k, wk. split; [lia|]. auto.
    + split; [discriminate|]. intros (k & wk & L & R & E2). destruct k as [|k]; [inversion R; subst; congruence|].
      apply rounds_back in R as (rs0 & w0 & E0 & _). congruence.
    + split.
      * intros [= <- <-]. exists O, w. split; [lia|]. split; [constructor|exact Ed].
      * intros (k & wk & L & R & E2). destruct k as [|k]; [inversion R; subst; rewrite Ed in E2; now injection E2 as <- <-|].
        apply rounds_back in R as (rs0 & w0 & E0 & _). congruence.
Qed.
Lemma rounds_err fuel edit : (forall w e w', edit w <> (Err e, w')) -> forall i w e w', edit_rounds fuel edit i w <> Some (Err e, w').
Proof.
  intros N. induction fuel as [|fuel IH]; intros i w e w'; cbn [edit_rounds]; [discriminate|].
  destruct (edit w) as [[rs1|e1|c1] w1] eqn:Ed; [destruct (existsb failed rs1); [discriminate|apply IH]|now apply N in Ed|discriminate].
Qed.
End Files.

(** *** The functions of the package *)
Theorem edit_file_exact E os f s w r w' : ext_ok E ->
  (edit_file E os f s w = (r, w') <-> file_edited os (edited E (script s) (bad_script s)) f w r w').
Proof. intros X. apply (file_iff os (fun c => execute_script E c s)). intros t r0 F. now apply script_exact. Qed.
Theorem edit_file_format_exact E os f s format w r w' : ext_ok E -> (format = bs "json" -> 3 * zlen s <= max_alloc) ->
  (edit_file_fmt E os f s format w = (r, w') <-> file_edited os (edited_in E format s) f w r w').
Proof. intros X R. apply (file_iff os (fun c => execute_script_fmt E c s format)). intros t r0 F. now apply edited_in_iff. Qed.
Theorem edit_files_exact E os l s w r w' : ext_ok E ->
  (edit_files E os l s w = (r, w') <-> files_edited os (edited E (script s) (bad_script s)) l w r w').
Proof. intros X. apply (files_iff os (fun c => execute_script E c s)). intros t r0 F. now apply script_exact. Qed.
Theorem edit_files_format_exact E os l s format w r w' : ext_ok E -> (format = bs "json" -> 3 * zlen s <= max_alloc) ->
  (edit_files_fmt E os l s format w = (r, w') <-> files_edited os (edited_in E format s) l w r w').
Proof. intros X R. apply (files_iff os (fun c => execute_script_fmt E c s format)). intros t r0 F. now apply edited_in_iff. Qed.

(** *** Reports *)
Lemma sorted_iff rs g b : sorted_out rs g b <-> g = flat_map ok_line rs /\ b = flat_map err_line rs.
Proof.
  split.
  - induction 1 as [|f rs g b _ [-> ->]|f e rs g b _ [-> ->]]; auto.
  - intros [-> ->]. induction rs as [|[f [e|]] rs IH]; [constructor|apply so_bad|apply so_good]; exact IH.
Qed.
Lemma report_iff rs n t : edit_reported rs n t <-> t = edit_report rs n.
Proof.
  unfold edit_report. split.
  - intros [tn g b W I S|tn g b W I S]; apply int_text_itoa in I; subst tn; apply sorted_iff in S as [-> ->].
    + apply well_none, failed_none in W. now rewrite W.
    + apply well_some, failed_some in W. now rewrite W.
  - intros ->. destruct (existsb failed rs) eqn:F.
    + apply failed_some, well_some in F. apply er_errors; [exact F|apply itoa_text|now apply sorted_iff].
    + apply failed_none, well_none in F. eapply er_well; [exact F|apply itoa_text|]. apply sorted_iff. eauto.
Qed.

(** *** Requests *)
Lemma string_arg_iff a key d v : string_arg a key d v <-> get_string a key d = v.
Proof.
  unfold get_string. split.
  - intros [s H|H]; [now rewrite H|]. destruct (a key) as [[]|]; try reflexivity. now destruct (H s).
  - intros <-. destruct (a key) as [[]|] eqn:K; try (apply sa_not; rewrite K; congruence). now apply sa_given.
Qed.
Lemma flag_arg_iff a key b : flag_arg a key b <-> get_bool a key false = b.
Proof.
  unfold flag_arg. rewrite <- flag_meaning. destruct b, (get_bool a key false); intuition congruence.
Qed.
Lemma flag_off a key : flag_arg a key false <-> ~ exists j, a key = Some j /\ says_yes j.
Proof. unfold flag_arg. intuition congruence. Qed.
Lemma flag_on a key : flag_arg a key true <-> exists j, a key = Some j /\ says_yes j.
Proof. unfold flag_arg. intuition congruence. Qed.
Lemma wrong_quotes E quotes p q m : (forall s, quoted E s (quotes s)) -> wrong_request quotes p q m -> wrong_request (quote E) p q m.
Proof.
  intros Q H. assert (S : forall s, quotes s = quote E s) by (intros s; symmetry; now apply quoted_exact).
  assert (M : forall k, missing quotes k = missing (quote E) k) by (intros k; unfold missing; now rewrite S).
  assert (N1 : forall a k e, no_string quotes a k e -> no_string (quote E) a k e).
  { intros a k e [A|j A B]; [rewrite M; now constructor|rewrite S; econstructor; eauto]. }
  assert (N2 : forall a k e, no_strings quotes a k e -> no_strings (quote E) a k e).
  { intros a k e [A|j A B|l j r i A B C]; [rewrite M; now constructor|rewrite S; eapply nl_other; eauto|rewrite S; eapply nl_item; eauto]. }
  destruct H; [apply wr_edit_script|eapply wr_edit_files|eapply wr_edit_none|apply wr_eval_input|eapply wr_eval_script|eapply wr_eval_output]; eauto.
Qed.
Lemma quotes_quote E s : quoted E s (quote E s).
Proof. now apply quoted_exact. Qed.
Section Calls.
Variables (E : Ext) (os : OS) (p : str).
Hypothesis X : ext_ok E.
Notation how s := (edited E (script s) (bad_script s)).
Lemma how_iff s t r : fits t -> (execute_script E t s = r <-> how s t r).
Proof. intros F. now apply script_exact. Qed.
Lemma well_iff l s k w w' : rounds (edit_files E os l s) k w w' <-> rounds_well os (how s) l k w w'.
Proof. apply (rounds_iff os (fun c => execute_script E c s)). apply how_iff. Qed.
Lemma files_never_err l s w e w' : edit_files E os l s w <> (Err e, w').
Proof. intros H. apply edit_files_exact in H; auto. inversion H. Qed.
(** edit_file: all rounds *)
Lemma all_iff l s w r w' : (exists fuel, edit_files_loop E os fuel l s w = Some (r, w')) <-> edited_all os (how s) l w true r w'.
Proof.
  unfold edit_files_loop. split.
  - intros (fuel & H). destruct r as [[rs n]|e|c].
    + apply edit_rounds_spec in H as (k & wk & _ & -> & R & A & F). replace (0 + Z.of_nat k + 1) with (Z.of_nat k + 1) by lia.
      eapply ea_loop; [apply well_iff; eassumption|apply edit_files_exact; eassumption|now apply well_some].
    + apply rounds_err in H; [destruct H|]. intros w0 e0 w0'. apply files_never_err.
    + apply rounds_crash in H as (k & wk & _ & R & A). eapply ea_loop_dies; [apply well_iff; eassumption|apply edit_files_exact; eassumption].
  - intros H. inversion H as [| |k w1 rs w2 R A F|k w1 c w2 R A]; subst; apply well_iff in R; apply edit_files_exact in A; auto.
    + exists (S k). apply edit_rounds_spec. exists k, w1. apply well_some in F. repeat split; auto; lia.
    + exists (S k). apply rounds_crash. exists k, w1. repeat split; auto.
Qed.
Lemma once_iff l s w r w' : edited_all os (how s) l w false r w' <->
  (exists rs, edit_files E os l s w = (Ok rs, w') /\ r = Ok (rs, 1)) \/ (exists c, edit_files E os l s w = (Crash c, w') /\ r = Crash c).
Proof.
  split.
  - intros H. inversion H as [rs w1 A|c w1 A| | ]; subst; apply edit_files_exact in A; eauto.
  - intros [(rs & A & ->)|(c & A & ->)]; apply edit_files_exact in A; auto; now constructor.
Qed.
Lemma endless_iff l s w : (forall fuel, edit_files_loop E os fuel l s w = None) <-> endless os (how s) l w.
Proof.
  rewrite loop_runs_forever. split; intros H k; destruct (H k) as (wk & R); exists wk; apply well_iff; exact R.
Qed.

Definition asked (q : request) (o : map_orders) : request := mkRequest (r_tool q) (r_args q) o.
Lemma tool_differs a b : In a tool_bases -> In b tool_bases -> a <> b -> p ++ a <> p ++ b.
Proof. intros _ _ N H. apply app_inv_head in H. contradiction. Qed.
Lemma edit_not_eval : p ++ bs "edit_file" <> p ++ bs "texted_eval". Proof. intros H. apply app_inv_head in H. discriminate H. Qed.
Lemma edit_not_doc : p ++ bs "edit_file" <> p ++ bs "texted_doc". Proof. intros H. apply app_inv_head in H. discriminate H. Qed.
Lemma eval_not_doc : p ++ bs "texted_eval" <> p ++ bs "texted_doc". Proof. intros H. apply app_inv_head in H. discriminate H. Qed.
Lemma served_names q : r_tool q = p ++ bs "edit_file" \/ r_tool q = p ++ bs "texted_doc" \/ r_tool q = p ++ bs "texted_eval" \/ ~ In (r_tool q) (map (app p) tool_bases).
Proof.
  destruct (in_dec (list_eq_dec byte_eq_dec) (r_tool q) (map (app p) tool_bases)) as [I|I]; [|tauto]. cbn [tool_bases map In] in I. intuition congruence.
Qed.
Lemma orders_wrong q o e : wrong_request (quote E) p (asked q o) e <-> wrong_request (quote E) p q e.
Proof. split; intros H; destruct H; [apply wr_edit_script|eapply wr_edit_files|eapply wr_edit_none|apply wr_eval_input|eapply wr_eval_script|eapply wr_eval_output|apply wr_edit_script|eapply wr_edit_files|eapply wr_edit_none|apply wr_eval_input|eapply wr_eval_script|eapply wr_eval_output]; eauto. Qed.

(** serve_call of a right request for an edit *)
Lemma call_edit q fuel w s f l loops : r_tool q = p ++ bs "edit_file" -> r_args q (bs "script") = Some (JStr s) ->
  gives_strings (r_args q) (bs "files") (f :: l) -> flag_arg (r_args q) (bs "loopUntilError") loops ->
  serve_call E os fuel p q w =
    match (if loops then edit_files_loop E os fuel (f :: l) s w else Some (match edit_files E os (f :: l) s w with
             | (Ok rs, w') => (Ok (rs, 1), w') | (Err e, w') => (Err e, w') | (Crash c, w') => (Crash c, w') end)) with
    | None => None
    | Some (Ok (rs, n), w') => Some (Ok (Answer (ToolText (edit_report rs n))), w')
    | Some (Err e, w') => None
    | Some (Crash c, w') => Some (Crash c, w')
    end.
Proof.
  intros T S G F. destruct (server_edits E os fuel p q w s f l T S G) as [A B]. destruct loops.
  - apply flag_on in F. specialize (B F). destruct (edit_files_loop E os fuel (f :: l) s w) as [[[[rs n]|e|c] w1]|]; auto. destruct B.
  - apply flag_off in F. specialize (A F). destruct (edit_files E os (f :: l) s w) as [[rs|e|c] w1]; auto. destruct A.
Qed.
Lemma call_edit_iff q w s f l r w' : r_tool q = p ++ bs "edit_file" -> r_args q (bs "script") = Some (JStr s) ->
  gives_strings (r_args q) (bs "files") (f :: l) ->
  ((exists fuel, serve_call E os fuel p q w = Some (r, w')) <->
   exists loops x, flag_arg (r_args q) (bs "loopUntilError") loops /\ edited_all os (how s) (f :: l) w loops x w' /\
     ((exists rs n t, x = Ok (rs, n) /\ edit_reported rs n t /\ r = Ok (Answer (ToolText t))) \/ (exists c, x = Crash c /\ r = Crash c))).
Proof.
  intros T S G. set (loops := get_bool (r_args q) (bs "loopUntilError") false). assert (F : flag_arg (r_args q) (bs "loopUntilError") loops) by now apply flag_arg_iff.
  split.
  - intros (fuel & H). rewrite (call_edit q fuel w s f l loops T S G F) in H. destruct loops eqn:L.
    + destruct (edit_files_loop E os fuel (f :: l) s w) as [[[[rs n]|e|c] w1]|] eqn:A; try discriminate; injection H as <- <-.
      * exists true, (Ok (rs, n)). split; [exact F|]. split; [apply all_iff; eauto|]. left. exists rs, n, (edit_report rs n). split; [reflexivity|]. split; [now apply report_iff|reflexivity].
      * exists true, (Crash c). split; [exact F|]. split; [apply all_iff; eauto|]. right. eauto.
    + destruct (edit_files E os (f :: l) s w) as [[rs|e|c] w1] eqn:A; try discriminate; injection H as <- <-.
      * exists false, (Ok (rs, 1)). split; [exact F|]. split; [apply once_iff; eauto|]. left. exists rs, 1, (edit_report rs 1). split; [reflexivity|]. split; [now apply report_iff|reflexivity].
      * exists false, (Crash c). split; [exact F|]. split; [apply once_iff; eauto|]. right. eauto.
  - intros (lo & x & F' & A & R).
    assert (K : forall fuel, (if lo then edit_files_loop E os fuel (f :: l) s w else Some (match edit_files E os (f :: l) s w with
             | (Ok rs, w') => (Ok (rs, 1), w') | (Err e, w') => (Err e, w') | (Crash c, w') => (Crash c, w') end)) = Some (x, w') -> serve_call E os fuel p q w = Some (r, w')).
    { intros fuel H. rewrite (call_edit q fuel w s f l lo T S G F'), H. destruct R as [(rs & n & t & -> & Rp & ->)|(c & -> & ->)]; [apply report_iff in Rp; now subst t|reflexivity]. }
    destruct lo.
    + apply all_iff in A as (fuel & A). exists fuel. apply K. exact A.
    + exists O. apply K. apply once_iff in A as [(rs & A & ->)|(c & A & ->)]; now rewrite A.
Qed.
Lemma evaluated_iff input s mode r : fits input -> mode = bs "buffer" \/ mode = bs "expression" ->
  (eval_handler E (mkEvalRequest (Some input) (Some s) (Some mode)) = r <-> evaluated E input s mode r).
Proof.
  intros F M. split.
  - intros H. destruct M as [->| ->].
    + cbn [eval_handler v_input v_script v_output] in H. change (str_eqb (bs "buffer") (bs "buffer")) with true in H. cbv iota zeta in H.
      destruct (execute_script E input s) as [t|e|c] eqn:A; apply script_exact in A; auto; subst r; now constructor.
    + apply ev_value. now apply tool_value_exact.
  - intros H. destruct H as [t A|e A|c A|r A].
    + apply script_exact in A; auto. cbn [eval_handler v_input v_script v_output]. now rewrite A.
    + apply script_exact in A; auto. cbn [eval_handler v_input v_script v_output]. now rewrite A.
    + apply script_exact in A; auto. cbn [eval_handler v_input v_script v_output]. now rewrite A.
    + now apply tool_value_exact.
Qed.
Lemma call_eval q fuel w input s : r_tool q = p ++ bs "texted_eval" -> r_args q (bs "input") = Some (JStr input) -> r_args q (bs "script") = Some (JStr s) ->
  serve_call E os fuel p q w = match eval_handler E (mkEvalRequest (Some input) (Some s) (Some (get_string (r_args q) (bs "output") (bs "buffer")))) with
    | Ok t => Some (Ok (Answer t), w) | Err e => Some (Ok (Protocol e), w) | Crash c => Some (Crash c, w) end.
Proof.
  intros T I S. unfold serve_call. destruct (find_here p) as (_ & H & _). rewrite T, H. unfold serve_eval, require_string. now rewrite I, S.
Qed.
Lemma call_doc q fuel w : r_tool q = p ++ bs "texted_doc" -> serve_call E os fuel p q w = Some (Ok (Answer (serve_doc (r_orders q) (r_args q))), w).
Proof. intros T. unfold serve_call. destruct (find_here p) as (_ & _ & H). now rewrite T, H. Qed.

(** A request, exactly: what is answered, and the files after it. *)
Theorem call_exact q w r w' : sized q ->
  ((exists q' fuel, same_request q q' /\ serve_call E os fuel p q' w = Some (r, w')) <-> call_does E os p q w r w').
Proof.
  intros Z. assert (O : exists o, possible o) by (exists (mkOrders (fun r => r) (fun l => l) (fun l => l)); split; [|split]; intros l; apply Permutation.Permutation_refl).
  destruct O as (o0 & P0).
  destruct (served_names q) as [T|[T|[T|T]]].
  - (* edit_file *) split.
    + intros (q' & fuel & (o & P & ->) & H). change (mkRequest (r_tool q) (r_args q) o) with (asked q o) in H.
      assert (I : In (r_tool (asked q o)) (map (app p) [bs "edit_file"; bs "texted_eval"])) by (cbn; auto).
      destruct (right_or_wrong E p (asked q o) I) as [(e & We)|[(_ & s & f & l & S & G)|(T' & _)]]; [| |exfalso; cbn in T'; rewrite T in T'; now apply edit_not_eval].
      * rewrite (wrong_request_answer E os fuel p _ w e We) in H. assert (Q : r = Ok (Answer (ToolError e)) /\ w' = w) by (split; congruence). destruct Q as [-> ->].
        apply (cd_wrong E os p q w (quote E)); [apply quotes_quote|]. now apply orders_wrong in We.
      * destruct (proj1 (call_edit_iff (asked q o) w s f l r w' T S G) (ex_intro _ fuel H)) as (loops & x & F & A & [(rs & n & t & -> & R & ->)|(c & -> & ->)]).
        -- eapply cd_edit; eauto. -- eapply cd_edit_dies; eauto.
    + intros H. inversion H as [N|qs m Q We|s f l loops rs n w1 t T' S G F A R|s f l loops c w1 T' S G F A|? ? ? ? ? T'|? ? ? ? T']; subst.
      * exfalso. apply N. rewrite T. cbn; auto.
      * exists (asked q o0), O. split; [exists o0; auto|]. apply wrong_request_answer. apply orders_wrong. eapply wrong_quotes; eauto.
      * destruct (proj2 (call_edit_iff (asked q o0) w s f l (Ok (Answer (ToolText t))) w' T S G)) as (fuel & K); [exists loops, (Ok (rs, n)); split; [exact F|]; split; [exact A|]; left; eauto 8|].
        exists (asked q o0), fuel. split; [exists o0; auto|exact K].
      * destruct (proj2 (call_edit_iff (asked q o0) w s f l (Crash c) w' T S G)) as (fuel & K); [exists loops, (Crash c); split; [exact F|]; split; [exact A|]; right; eauto 8|].
        exists (asked q o0), fuel. split; [exists o0; auto|exact K].
      * exfalso. rewrite T in T'. now apply edit_not_eval in T'.
      * exfalso. rewrite T in T'. now apply edit_not_doc in T'.
  - (* texted_doc *)
    assert (Mp : a_map registered) by apply (documentation_complete E).
    split.
    + intros (q' & fuel & (o & P & ->) & H). rewrite call_doc in H by exact T. cbn [r_orders r_args] in H.
      assert (Q : r = Ok (Answer (serve_doc o (r_args q))) /\ w' = w) by (split; congruence). destruct Q as [-> ->]. clear H.
      eapply cd_doc; [exact T|now apply string_arg_iff|now apply string_arg_iff|now apply flag_arg_iff|]. apply tool_answers_told; auto. exists o. split; auto.
    + intros H. inversion H as [N|qs m Q We|? ? ? ? ? ? ? ? T'|? ? ? ? ? ? T'|? ? ? ? ? T'|name cat v t T' N C V A]; subst.
      * exfalso. apply N. rewrite T. cbn; auto.
      * exfalso. destruct We as [? T'|? ? T'|? T'|? T'|? ? T'|? ? ? T']; rewrite T in T'; symmetry in T'; first [now apply edit_not_doc in T'|now apply eval_not_doc in T'].
      * exfalso. rewrite T in T'. symmetry in T'. now apply edit_not_doc in T'.
      * exfalso. rewrite T in T'. symmetry in T'. now apply edit_not_doc in T'.
      * exfalso. rewrite T in T'. symmetry in T'. now apply eval_not_doc in T'.
      * apply tool_answers_told in A; auto. destruct A as (o & P & A). exists (asked q o), O. split; [exists o; auto|].
        rewrite call_doc by exact T. apply string_arg_iff in N, C. apply flag_arg_iff in V. unfold serve_doc. cbn [r_orders r_args asked]. now rewrite N, C, V, A.
  - (* texted_eval *) split.
    + intros (q' & fuel & (o & P & ->) & H). change (mkRequest (r_tool q) (r_args q) o) with (asked q o) in H.
      assert (I : In (r_tool (asked q o)) (map (app p) [bs "edit_file"; bs "texted_eval"])) by (cbn; auto).
      destruct (right_or_wrong E p (asked q o) I) as [(e & We)|[(T' & _)|(_ & i & s & A & B & M)]]; [|exfalso; cbn in T'; rewrite T in T'; symmetry in T'; now apply edit_not_eval|].
      * rewrite (wrong_request_answer E os fuel p _ w e We) in H. assert (Q : r = Ok (Answer (ToolError e)) /\ w' = w) by (split; congruence). destruct Q as [-> ->].
        apply (cd_wrong E os p q w (quote E)); [apply quotes_quote|]. now apply orders_wrong in We.
      * rewrite (call_eval (asked q o) fuel w i s T A B) in H. cbn [r_args asked] in *.
        set (mode := get_string (r_args q) (bs "output") (bs "buffer")) in *.
        assert (Mo : mode = bs "buffer" \/ mode = bs "expression"). { unfold mode, get_string. destruct (r_args q (bs "output")) as [[]|] eqn:K; auto. }
        destruct (eval_handler E (mkEvalRequest (Some i) (Some s) (Some mode))) as [t|e|c] eqn:V.
        -- assert (Q : r = Ok (Answer t) /\ w' = w) by (split; congruence). destruct Q as [-> ->]. apply evaluated_iff in V; auto.
           eapply cd_eval; eauto; [now apply string_arg_iff|constructor].
        -- exfalso. now apply eval_handler_no_err in V.
        -- assert (Q : r = Crash c /\ w' = w) by (split; congruence). destruct Q as [-> ->]. apply evaluated_iff in V; auto.
           eapply cd_eval; eauto; [now apply string_arg_iff|constructor].
    + intros H. inversion H as [N|qs m Q We|? ? ? ? ? ? ? ? T'|? ? ? ? ? ? T'|i s mode r0 x T' A B M V An|? ? ? ? T']; subst.
      * exfalso. apply N. rewrite T. cbn; auto.
      * exists (asked q o0), O. split; [exists o0; auto|]. apply wrong_request_answer. apply orders_wrong. eapply wrong_quotes; eauto.
      * exfalso. rewrite T in T'. symmetry in T'. now apply edit_not_eval in T'.
      * exfalso. rewrite T in T'. symmetry in T'. now apply edit_not_eval in T'.
      * exists (asked q o0), O. split; [exists o0; auto|]. rewrite (call_eval (asked q o0) O w' i s T A B). cbn [r_args asked]. apply string_arg_iff in M.
        assert (Mo : mode = bs "buffer" \/ mode = bs "expression") by (inversion V; auto).
        apply evaluated_iff in V; auto. rewrite M, V. destruct An; reflexivity.
      * exfalso. rewrite T in T'. now apply eval_not_doc in T'.
  - (* unknown *) destruct (unknown_tools_refused E os O p q w) as [_ _].
    assert (U : forall o fuel, serve_call E os fuel p (asked q o) w = Some (Ok (Protocol (bs "tool '" ++ r_tool q ++ bs "' not found: tool not found")), w)).
    { intros o fuel. apply (unknown_tools_refused E os fuel p (asked q o) w). cbn [r_tool asked]. destruct (tools_offered p) as [-> _]. exact T. }
    split.
    + intros (q' & fuel & (o & P & ->) & H). change (mkRequest (r_tool q) (r_args q) o) with (asked q o) in H. rewrite (U o fuel) in H.
      assert (Q : r = Ok (Protocol (bs "tool '" ++ r_tool q ++ bs "' not found: tool not found")) /\ w' = w) by (split; congruence). destruct Q as [-> ->]. now apply cd_unknown.
    + intros H. inversion H as [N|qs m Q We|? ? ? ? ? ? ? ? T'|? ? ? ? ? ? T'|? ? ? ? ? T'|? ? ? ? T']; subst; try (exfalso; apply T; rewrite T'; cbn; auto; fail).
      * exists (asked q o0), O. split; [exists o0; auto|apply U].
      * exfalso. apply T. destruct We as [? T'|? ? T'|? T'|? T'|? ? T'|? ? ? T']; rewrite T'; cbn; auto.
Qed.
(** and when it is never answered *)
Theorem call_hangs_exact q w : (forall fuel, serve_call E os fuel p q w = None) <-> call_hangs E os p q w.
Proof.
  split.
  - intros H. pose proof (H O) as H0. destruct (served_names q) as [T|[T|[T|T]]].
    + assert (I : In (r_tool q) (map (app p) [bs "edit_file"; bs "texted_eval"])) by (cbn; auto).
      destruct (right_or_wrong E p q I) as [(e & We)|[(_ & s & f & l & S & G)|(T' & _)]]; [| |exfalso; rewrite T in T'; now apply edit_not_eval].
      * rewrite (wrong_request_answer E os O p _ w e We) in H0. discriminate.
      * set (loops := get_bool (r_args q) (bs "loopUntilError") false). assert (F : flag_arg (r_args q) (bs "loopUntilError") loops) by now apply flag_arg_iff.
        destruct loops eqn:L.
        -- exists s, f, l. repeat (split; [assumption|]). apply endless_iff. intros fuel. specialize (H fuel). rewrite (call_edit q fuel w s f l true T S G F) in H.
           destruct (edit_files_loop E os fuel (f :: l) s w) as [[[[rs n]|e|c] w1]|] eqn:A; try discriminate; auto.
           apply rounds_err in A; [destruct A|]. intros w0 e0 w0'. apply files_never_err.
        -- rewrite (call_edit q O w s f l false T S G F) in H0. destruct (edit_files E os (f :: l) s w) as [[rs|e|c] w1] eqn:A; try discriminate. now apply files_never_err in A.
    + rewrite call_doc in H0 by exact T. discriminate.
    + assert (I : In (r_tool q) (map (app p) [bs "edit_file"; bs "texted_eval"])) by (cbn; auto).
      destruct (right_or_wrong E p q I) as [(e & We)|[(T' & _)|(_ & i & s & A & B & M)]]; [|exfalso; rewrite T in T'; symmetry in T'; now apply edit_not_eval|].
      * rewrite (wrong_request_answer E os O p _ w e We) in H0. discriminate.
      * rewrite (call_eval q O w i s T A B) in H0. destruct (eval_handler E _); discriminate.
    + assert (U := proj2 (unknown_tools_refused E os O p q w)). destruct (tools_offered p) as [L _]. rewrite L in U. rewrite (U T) in H0. discriminate.
  - intros (s & f & l & T & S & G & F & A) fuel. rewrite (call_edit q fuel w s f l true T S G F). apply endless_iff with (fuel := fuel) in A. now rewrite A.
Qed.
End Calls.

(** *** Sessions *)
Lemma rounds_more fuel fuel' edit : (fuel <= fuel')%nat -> forall i w x, edit_rounds fuel edit i w = Some x -> edit_rounds fuel' edit i w = Some x.
Proof.
  revert fuel'. induction fuel as [|fuel IH]; intros fuel' L i w x H; [discriminate|]. destruct fuel' as [|fuel']; [lia|]. cbn [edit_rounds] in *.
  destruct (edit w) as [[rs|e|c] w1]; auto. destruct (existsb failed rs); auto. apply IH; [lia|exact H].
Qed.
Lemma call_more E os p q fuel fuel' w x : (fuel <= fuel')%nat -> serve_call E os fuel p q w = Some x -> serve_call E os fuel' p q w = Some x.
Proof.
  intros L. unfold serve_call. destruct (find_tool (server p) (r_tool q)) as [[| |]|]; auto.
  unfold serve_edit. destruct (require_string E (r_args q) (bs "script")) as [s|e|c]; auto. destruct (require_strings E (r_args q) (bs "files")) as [l|e|c]; auto.
  unfold edit_file_handler. cbn [q_script q_files q_loop]. destruct l as [|f l]; auto. destruct (get_bool (r_args q) (bs "loopUntilError") false); auto.
  unfold edit_files_loop. destruct (edit_rounds fuel (edit_files E os (f :: l) s) 0 w) as [y|] eqn:R; [|discriminate].
  now rewrite (rounds_more fuel fuel' _ L _ _ _ R).
Qed.
Lemma session_more E os p fuel fuel' : (fuel <= fuel')%nat -> forall qs w x, serve_all E os fuel p qs w = Some x -> serve_all E os fuel' p qs w = Some x.
Proof.
  intros L. induction qs as [|q qs IH]; intros w x H; cbn [serve_all] in *; auto.
  destruct (serve_call E os fuel p q w) as [[r w1]|] eqn:C; [|discriminate]. rewrite (call_more E os p q fuel fuel' w _ L C).
  destruct r as [r|e|c]; auto; (destruct (serve_all E os fuel p qs w1) as [[[rs k] w2]|] eqn:A; [|discriminate]; rewrite (IH _ _ A); exact H).
Qed.
(** A session, exactly: the answers to all requests, one after the other, and what ended it *)
Theorem session_exact E os p qs : ext_ok E -> Forall sized qs -> forall w rs c w',
  ((exists qs' fuel, Forall2 same_request qs qs' /\ serve_all E os fuel p qs' w = Some (rs, c, w')) <-> session_does E os p qs w rs c w').
Proof.
  intros X Z. induction Z as [|q qs Zq Z IH]; intros w rs c w'.
  - split.
    + intros (qs' & fuel & F & H). inversion F; subst. cbn [serve_all] in H. injection H as <- <- <-. constructor.
    + intros H. inversion H; subst. exists [], O. split; [constructor|reflexivity].
  - split.
    + intros (qs' & fuel & F & H). inversion F as [|? q' ? qs1 S F1]; subst. cbn [serve_all] in H.
      destruct (serve_call E os fuel p q' w) as [[[r|e|k] w1]|] eqn:C; [| | |discriminate].
      * destruct (serve_all E os fuel p qs1 w1) as [[[rs1 k1] w2]|] eqn:A; [|discriminate]. injection H as <- <- <-.
        eapply sd_next; [apply call_exact; eauto|apply IH; eauto].
      * exfalso. assert (D : call_does E os p q w (Err e) w1) by (apply call_exact; eauto). inversion D as [| | | |? ? ? ? ? _ _ _ _ _ An|]; subst. inversion An.
      * injection H as <- <- <-. apply sd_crash. apply call_exact; eauto.
    + intros H. inversion H as [|? ? ? k w1 C|? ? ? r w1 rs1 k w2 C A]; subst; apply call_exact in C; auto; destruct C as (q' & fuel & S & C).
      * assert (F : exists qs', Forall2 same_request qs qs').
        { clear. induction qs as [|q qs (l & IH)]; [exists []; constructor|]. exists (mkRequest (r_tool q) (r_args q) (mkOrders (fun r => r) (fun l => l) (fun l => l)) :: l).
          constructor; [|exact IH]. eexists. split; [|reflexivity]. split; [|split]; intros x; apply Permutation.Permutation_refl. }
        destruct F as (qs' & F). exists (q' :: qs'), fuel. split; [now constructor|]. cbn [serve_all]. now rewrite C.
      * apply IH in A as (qs' & fuel' & F & A). exists (q' :: qs'), (Nat.max fuel fuel'). split; [now constructor|]. cbn [serve_all].
        rewrite (call_more E os p q' fuel (Nat.max fuel fuel') w _ (Nat.le_max_l _ _) C), (session_more E os p fuel' (Nat.max fuel fuel') (Nat.le_max_r _ _) _ _ _ A). reflexivity.
Qed.

(** *** Cases that meet the hypotheses *)
Definition demo_call : request := ask (bs "edit_file")
  [(bs "script", JStr (bs "search-forward ""a""; backward-char; delete-char 1")); (bs "files", JArr [JStr (bs "f"); JStr (bs "g")]); (bs "loopUntilError", JStr (bs "T"))].
Definition demo_question : request := ask (bs "texted_eval") [(bs "input", JStr (bs "xay")); (bs "script", JStr (bs "insert ""!""; buffer-size")); (bs "output", JStr (bs "expression"))].
Definition demo_answers : list response :=
  [Answer (ToolText (bs "Completed with errors after 2 iterations:" ++ nl :: bs "✓ Successfully edited g" ++ nl ::
     bs "✗ Failed to edit f: script execution failed: search failed (at instruction 0: (search-forward ""a""), point=1, mark=1)" ++ [nl]));
   Answer (ToolText (bs "4"))].
Lemma demo_sized : Forall sized [demo_call; demo_question].
Proof. repeat constructor; intros s; unfold demo_call, demo_question, ask; cbn [r_args]; [discriminate|]. intros H. assert (s = bs "xay") by (vm_compute in H; injection H as <-; reflexivity). subst. apply Z.leb_le. vm_compute. reflexivity. Qed.
Lemma same_self q : r_orders q = plain_orders -> same_request q q.
Proof. destruct q as [t a o]. intros H. exists plain_orders. cbn in H. subst. split; [|reflexivity]. split; [|split]; intros l; apply Permutation.Permutation_refl. Qed.
Example session_exact_witness : ext_ok ref_ext /\ Forall sized [demo_call; demo_question] /\
  exists w', session_does ref_ext demo_os [] [demo_call; demo_question] (demo [(bs "f", bs "xay"); (bs "g", bs "aa")]) demo_answers None w' /\
    w_fs w' (bs "f") = Some (bs "xy") /\ w_fs w' (bs "g") = Some [].
Proof.
  split; [apply ref_ext_ok|]. split; [apply demo_sized|]. set (w := demo _).
  set (run := serve_all ref_ext demo_os 5 [] [demo_call; demo_question] w).
  exists (match run with Some (_, _, w') => w' | None => w end). split; [|split; vm_compute; reflexivity].
  apply session_exact; [apply ref_ext_ok|apply demo_sized|]. exists [demo_call; demo_question], 5%nat. split; [repeat constructor; now apply same_self|].
  fold run. assert (A : match run with Some (rs, c, _) => rs = demo_answers /\ c = None | None => False end) by (vm_compute; split; reflexivity).
  destruct run as [[[rs c] w1]|]; [|destruct A]. destruct A as [-> ->]. reflexivity.
Qed.
Example call_exact_witness : sized demo_question /\ call_does ref_ext demo_os [] demo_question (demo []) (Ok (Answer (ToolText (bs "4")))) (demo []).
Proof.
  assert (S : sized demo_question) by (pose proof demo_sized as F; inversion F as [|? ? ? F']; inversion F'; assumption).
  split; [exact S|]. apply call_exact; [apply ref_ext_ok|exact S|]. exists demo_question, O. split; [now apply same_self|].
  unfold serve_call. change (find_tool (server []) (r_tool demo_question)) with (Some TEval). cbv iota beta zeta.
  replace (serve_eval ref_ext (r_args demo_question)) with (@Ok tool_result (ToolText (bs "4"))) by (vm_compute; reflexivity). reflexivity.
Qed.
Example call_hangs_witness : exists q, call_hangs ref_ext demo_os [] q (demo [(bs "f", bs "x")]).
Proof.
  exists (ask (bs "edit_file") [(bs "script", JStr (bs "goto-char 1")); (bs "files", JArr [JStr (bs "f")]); (bs "loopUntilError", JBool true)]).
  exists (bs "goto-char 1"), (bs "f"), []. split; [reflexivity|]. split; [reflexivity|]. split; [reflexivity|]. split; [apply flag_arg_iff; reflexivity|].
  apply endless_iff; [apply ref_ext_ok|]. intros fuel. apply (loop_never_returns _ _ _ _ _ (eq (bs "x"))).
  - repeat split.
  - intros c <-. split; [apply Z.leb_le; vm_compute; reflexivity|]. exists (bs "x"). split; [vm_compute; reflexivity|reflexivity].
  - intros f [<-|[]]. exists (bs "x"). split; reflexivity.
Qed.
Example files_exact_witness : exists w', files_edited demo_os (edited_in ref_ext (bs "json") (bs "[[""insert"",""!""]]")) [bs "f"; bs "missing"] (demo [(bs "f", bs "x")])
    (Ok [mkResult (bs "f") None; mkResult (bs "missing") (Some (bs "failed to read file missing: no such file"))]) w' /\ w_fs w' (bs "f") = Some (bs "!x") /\
  exists r w2, file_edited demo_os (edited_in ref_ext (bs "yaml") []) (bs "f") (demo [(bs "f", bs "x")]) (Err r) w2 /\
    r = bs "invalid script format: yaml (must be shell, sexp, or json)".
Proof.
  set (w := demo [(bs "f", bs "x")]). set (s := bs "[[""insert"",""!""]]").
  set (run := edit_files_fmt ref_ext demo_os [bs "f"; bs "missing"] s (bs "json") w). exists (snd run). split; [|split; [vm_compute; reflexivity|]].
  - apply edit_files_format_exact; [apply ref_ext_ok|intros _; apply Z.leb_le; vm_compute; reflexivity|]. fold run. rewrite (surjective_pairing run) at 1. f_equal. 
  - exists (bs "invalid script format: yaml (must be shell, sexp, or json)"), (snd (edit_file_fmt ref_ext demo_os (bs "f") [] (bs "yaml") w)). split; [|reflexivity].
    apply edit_file_format_exact; [apply ref_ext_ok|discriminate|]. set (run2 := edit_file_fmt _ _ _ _ _ _). rewrite (surjective_pairing run2) at 1. f_equal.
Qed.
Example file_exact_witness : exists w', file_edited demo_os (edited ref_ext (script (bs "insert ""!""")) (bad_script (bs "insert ""!"""))) (bs "f") (demo [(bs "f", bs "x")]) (Ok tt) w' /\
  w_fs w' (bs "f") = Some (bs "!x").
Proof.
  set (w := demo [(bs "f", bs "x")]). set (run := edit_file ref_ext demo_os (bs "f") (bs "insert ""!""") w). exists (snd run). split; [|vm_compute; reflexivity].
  apply edit_file_exact; [apply ref_ext_ok|]. fold run. rewrite (surjective_pairing run) at 1. f_equal.
Qed.

(** ** Assumptions of every theorem above *)
Print Assumptions edit_file_exact.
Print Assumptions edit_file_format_exact.
Print Assumptions edit_files_exact.
Print Assumptions edit_files_format_exact.
Print Assumptions call_exact.
Print Assumptions call_hangs_exact.
Print Assumptions session_exact.
