(** C64: the MCP server. *)
From Coq Require Import ZArith NArith List Bool Lia ZifyBool ZifyN ZifyNat Strings.Byte Permutation.
From Verif Require Import Base Float Ext Utf8 Strconv Values Buffer Builtins Eval Parser Json Writer Files Cli Tools Docs DocsData Serve
  Spec SpecText SpecFiles SpecServe RefExt Proofs_Base Proofs_Files Proofs_Cli Prop_Eval Prop_Files Prop_Docs Prop_Tools.
Import ListNotations.
Open Scope Z_scope.

(** ** C64 *)
Lemma tool_name_app p b : tool_name p b = p ++ b.
Proof. destruct p; reflexivity. Qed.
Lemma str_ltb_common p a b : str_ltb (p ++ a) (p ++ b) = str_ltb a b.
Proof. induction p as [|x p IH]; [reflexivity|]. cbn [app str_ltb]. now rewrite N.ltb_irrefl. Qed.
Lemma str_eqb_common p a b : str_eqb (p ++ a) (p ++ b) = str_eqb a b.
Proof.
  destruct (str_eqb a b) eqn:Q; [apply str_eqb_eq in Q; subst; apply str_eqb_refl|].
  destruct (str_eqb (p ++ a) (p ++ b)) eqn:R; auto. apply str_eqb_eq, app_inv_head in R. subst. now rewrite str_eqb_refl in Q.
Qed.
Lemma server_table p : server p = [(p ++ bs "texted_doc", TDoc); (p ++ bs "texted_eval", TEval); (p ++ bs "edit_file", TEdit)].
Proof.
  unfold server, add_tool. rewrite !tool_name_app. cbn [filter fst app]. rewrite !str_eqb_common.
  change (str_eqb (bs "edit_file") (bs "texted_eval")) with false. cbn [negb filter fst]. rewrite !str_eqb_common.
  change (str_eqb (bs "edit_file") (bs "texted_doc")) with false. change (str_eqb (bs "texted_eval") (bs "texted_doc")) with false. reflexivity.
Qed.
(** whatever the prefix, the server offers three different tools, listed in order *)
Theorem tools_offered p : list_tools p = map (app p) tool_bases /\ NoDup (list_tools p).
Proof.
  assert (L : list_tools p = map (app p) tool_bases).
  { unfold list_tools. rewrite server_table. cbn [map fst sort_by insert_sorted]. rewrite !str_ltb_common.
    change (str_ltb (bs "edit_file") (bs "texted_eval")) with true. cbn [insert_sorted]. rewrite !str_ltb_common. reflexivity. }
  split; [exact L|]. rewrite L. unfold tool_bases. cbn [map].
  repeat constructor; cbn; intros H; repeat destruct H as [H|H]; try contradiction; apply app_inv_head in H; discriminate H.
Qed.
Lemma find_served p n : find_tool (server p) n <> None <-> In n (map (app p) tool_bases).
Proof.
  rewrite server_table. unfold tool_bases. cbn [find_tool map In].
  destruct (str_eqb (p ++ bs "texted_doc") n) eqn:A; [apply str_eqb_eq in A; split; [auto|discriminate]|].
  destruct (str_eqb (p ++ bs "texted_eval") n) eqn:B; [apply str_eqb_eq in B; split; [auto|discriminate]|].
  destruct (str_eqb (p ++ bs "edit_file") n) eqn:C; [apply str_eqb_eq in C; split; [auto|discriminate]|].
  split; [congruence|]. intros [H|[H|[H|[]]]]; rewrite <- H, str_eqb_refl in *; discriminate.
Qed.
Lemma find_here p : find_tool (server p) (p ++ bs "edit_file") = Some TEdit /\ find_tool (server p) (p ++ bs "texted_eval") = Some TEval
  /\ find_tool (server p) (p ++ bs "texted_doc") = Some TDoc.
Proof. rewrite server_table. cbn [find_tool]. rewrite !str_eqb_common. repeat split; reflexivity. Qed.
Lemma edit_handler_no_err E os fuel q w e w' : edit_file_handler E os fuel q w <> Some (Err e, w').
Proof.
  unfold edit_file_handler. destruct (q_script q); [|discriminate]. destruct (q_files q) as [[|f l]|]; try discriminate. destruct (q_loop q).
  - destruct (edit_files_loop E os fuel (f :: l) s w) as [[[[? ?]|?|?] ?]|]; discriminate.
  - destruct (edit_files E os (f :: l) s w) as [[?|?|?] ?]; discriminate.
Qed.
Lemma eval_handler_no_err E q e : eval_handler E q <> Err e.
Proof.
  unfold eval_handler. destruct (v_input q); [|discriminate]. destruct (v_script q); [|discriminate]. cbv zeta.
  destruct (str_eqb _ (bs "buffer")); [destruct (execute_script E s s0); discriminate|]. destruct (str_eqb _ (bs "expression")); [|discriminate].
  destruct (parse_string s0); try discriminate. destruct (eval E (default_env E) a (new_buffer s)); discriminate.
Qed.
Lemma jstr_inj l : forall l', map JStr l = map JStr l' -> l = l'.
Proof. induction l as [|x l IH]; intros [|y l'] H; try discriminate; auto. cbn in H. injection H as -> H. f_equal. auto. Qed.
Lemma all_strings_spec E key l : forall i r, all_strings E key i l = Ok r <-> l = map JStr r.
Proof.
  induction l as [|x l IH]; intros i r; cbn [all_strings].
  - split; [intros H; injection H as <-; reflexivity|]. destruct r; [reflexivity|discriminate].
  - destruct x as [| | |s| |]; try (split; [discriminate|destruct r; discriminate]). specialize (IH (i + 1)).
    destruct (all_strings E key (i + 1) l) as [r'|e|c].
    + pose proof (proj1 (IH r') eq_refl) as A. split; [intros H; injection H as <-; cbn; now rewrite A|]. destruct r as [|s' r]; [discriminate|]. cbn. intros H. injection H as -> H.
      rewrite A in H. apply jstr_inj in H. now rewrite H.
    + split; [discriminate|]. destruct r as [|s' r]; [discriminate|]. cbn. intros H. injection H as -> H. now apply IH in H.
    + split; [discriminate|]. destruct r as [|s' r]; [discriminate|]. cbn. intros H. injection H as -> H. now apply IH in H.
Qed.
Lemma all_strings_no_crash E key l : forall i c, all_strings E key i l <> Crash c.
Proof. induction l as [|x l IH]; intros i c; cbn [all_strings]; [discriminate|]. destruct x; try discriminate. specialize (IH (i + 1)). destruct (all_strings E key (i + 1) l); try discriminate. now intros H; injection H as ->; apply (IH c). Qed.
Lemma require_strings_spec E a key l : require_strings E a key = Ok l <-> gives_strings a key l.
Proof.
  unfold require_strings, gives_strings. destruct (a key) as [[| | | |l'|]|]; try (split; discriminate).
  rewrite all_strings_spec. split; [now intros ->|now intros H; injection H].
Qed.
Lemma require_strings_cases E a key : (exists l, gives_strings a key l /\ require_strings E a key = Ok l) \/
  (~ (exists l, gives_strings a key l)) /\ exists e, require_strings E a key = Err e.
Proof.
  destruct (require_strings E a key) as [l|e|c] eqn:R.
  - left. exists l. split; auto. now apply require_strings_spec in R.
  - right. split; [|eauto]. intros (l & H). apply (require_strings_spec E) in H. congruence.
  - exfalso. unfold require_strings in R. destruct (a key) as [[| | | |l'|]|]; try discriminate. now apply all_strings_no_crash in R.
Qed.
Lemma require_string_cases E a key : (exists s, a key = Some (JStr s) /\ require_string E a key = Ok s) \/
  (~ exists s, a key = Some (JStr s)) /\ exists e, require_string E a key = Err e.
Proof.
  unfold require_string. destruct (a key) as [[| | |s| |]|]; [right|right|right|left|right|right|right]; try (split; [intros (? & ?); discriminate|eauto]). eauto.
Qed.

(** a name is served exactly when it is one of the three; a request for any other is refused
    and changes nothing *)
Theorem unknown_tools_refused E os fuel p q w : 
  (In (r_tool q) (list_tools p) -> forall e w', serve_call E os fuel p q w <> Some (Ok (Protocol e), w')) /\
  (~ In (r_tool q) (list_tools p) -> serve_call E os fuel p q w = Some (Ok (Protocol (bs "tool '" ++ r_tool q ++ bs "' not found: tool not found")), w)).
Proof.
  destruct (tools_offered p) as [-> _]. rewrite <- find_served. unfold serve_call. cbv zeta. destruct (find_tool (server p) (r_tool q)) as [[| |]|].
  - split; [|intros X; exfalso; apply X; discriminate]. intros _ e w'. destruct (serve_edit E os fuel (r_args q) w) as [[[?|?|?] ?]|] eqn:S; try discriminate. exfalso.
    unfold serve_edit in S. destruct (require_string_cases E (r_args q) (bs "script")) as [(s & _ & X)|(_ & x & X)]; rewrite X in S; [|discriminate].
    destruct (require_strings_cases E (r_args q) (bs "files")) as [(l & _ & Y)|(_ & y & Y)]; rewrite Y in S; [|discriminate]. now apply edit_handler_no_err in S.
  - split; [|intros X; exfalso; apply X; discriminate]. intros _ e w'. destruct (serve_eval E (r_args q)) as [?|?|?] eqn:S; try discriminate. exfalso.
    unfold serve_eval in S. destruct (require_string_cases E (r_args q) (bs "input")) as [(s & _ & X)|(_ & x & X)]; rewrite X in S; [|discriminate].
    destruct (require_string_cases E (r_args q) (bs "script")) as [(l & _ & Y)|(_ & y & Y)]; rewrite Y in S; [|discriminate]. now apply eval_handler_no_err in S.
  - split; [discriminate|]. intros X; exfalso; apply X; discriminate.
  - split; [congruence|]. reflexivity.
Qed.
(** with a prefix, the plain names are not served *)
Theorem plain_names_not_served p : p <> [] -> forall b, In b tool_bases -> ~ In b (list_tools p).
Proof.
  intros N b B H. destruct (tools_offered p) as [L _]. rewrite L in H. clear L.
  unfold tool_bases in *. cbn [map In] in *.
  assert (Len : forall x y, p ++ x = y -> (length x < length y)%nat).
  { intros x y <-. rewrite app_length. destruct p; [congruence|cbn; lia]. }
  assert (Suf : forall x y, p ++ x = y -> x = skipn (length y - length x) y).
  { intros x y <-. rewrite app_length, Nat.add_sub, skipn_app, skipn_all, Nat.sub_diag. reflexivity. }
  destruct B as [<-|[<-|[<-|[]]]]; destruct H as [H|[H|[H|[]]]]; pose proof (Len _ _ H) as K; vm_compute in K; try lia; apply Suf in H; vm_compute in H; discriminate H.
Qed.
Example tools_witness : list_tools (bs "my_") = [bs "my_edit_file"; bs "my_texted_doc"; bs "my_texted_eval"] /\ ~ In (bs "edit_file") (list_tools (bs "my_")).
Proof. split; [vm_compute; reflexivity|]. apply plain_names_not_served; [discriminate|now left]. Qed.

(** what loopUntilError and verbose mean *)
Theorem flag_meaning a key : get_bool a key false = true <-> exists j, a key = Some j /\ says_yes j.
Proof.
  unfold get_bool. destruct (a key) as [[|b|f|s|l|]|].
  - split; [discriminate|]. intros (j & H & Y). injection H as <-. inversion Y.
  - split; [intros ->; eexists; split; [reflexivity|constructor]|]. intros (j & H & Y). injection H as <-. now inversion Y.
  - split.
    + intros H. eexists. split; [reflexivity|]. constructor. intros sg ->. discriminate.
    + intros (j & H & Y). injection H as <-. inversion Y as [| |g N]; subst. destruct f; auto. now destruct (N s).
  - unfold parse_bool. destruct (existsb (str_eqb s) [bs "1"; bs "t"; bs "T"; bs "TRUE"; bs "true"; bs "True"]) eqn:X.
    + split; auto. intros _. eexists. split; [reflexivity|]. constructor. apply existsb_exists in X as (y & I & Q). apply str_eqb_eq in Q. now subst.
    + split; [destruct (existsb (str_eqb s) [bs "0"; bs "f"; bs "F"; bs "FALSE"; bs "false"; bs "False"]); intros Z; discriminate Z|]. intros (j & H & Y). injection H as <-. inversion Y as [|y I|]; subst. exfalso.
      assert (Z : existsb (str_eqb s) [bs "1"; bs "t"; bs "T"; bs "TRUE"; bs "true"; bs "True"] = true) by (apply existsb_exists; exists s; split; auto; apply str_eqb_refl). congruence.
  - split; [discriminate|]. intros (j & H & Y). injection H as <-. inversion Y.
  - split; [discriminate|]. intros (j & H & Y). injection H as <-. inversion Y.
  - split; [discriminate|]. intros (j & H & Y). discriminate.
Qed.

(** edit_file edits the files given, with the script given, once or until something fails *)
Theorem server_edits E os fuel p q w script f files : r_tool q = p ++ bs "edit_file" ->
  r_args q (bs "script") = Some (JStr script) -> gives_strings (r_args q) (bs "files") (f :: files) ->
  ((~ exists j, r_args q (bs "loopUntilError") = Some j /\ says_yes j) ->
     match edit_files E os (f :: files) script w with
     | (Ok rs, w') => serve_call E os fuel p q w = Some (Ok (Answer (ToolText (edit_report rs 1))), w')
     | (Err _, _) => False
     | (Crash c, w') => serve_call E os fuel p q w = Some (Crash c, w')
     end) /\
  ((exists j, r_args q (bs "loopUntilError") = Some j /\ says_yes j) ->
     match edit_files_loop E os fuel (f :: files) script w with
     | None => serve_call E os fuel p q w = None
     | Some (Ok (rs, n), w') => serve_call E os fuel p q w = Some (Ok (Answer (ToolText (edit_report rs n))), w')
     | Some (Err _, _) => False
     | Some (Crash c, w') => serve_call E os fuel p q w = Some (Crash c, w')
     end).
Proof.
  intros T S F. unfold serve_call. cbv zeta. rewrite T. destruct (find_here p) as (-> & _). unfold serve_edit, require_string. rewrite S.
  apply (require_strings_spec E) in F. rewrite F. rewrite <- flag_meaning.
  assert (NE : forall w0 e w', edit_files E os (f :: files) script w0 <> (Err e, w')).
  { generalize (f :: files). clear. intros l. unfold edit_files. induction l as [|g l IH]; intros w0 e w'; cbn [edit_loop]; [discriminate|]. unfold io_try.
    destruct (edit_file E os g script w0) as [[[]|?|?] w1]; try discriminate; unfold io_bind;
    destruct (edit_loop _ l w1) as [[?|?|?] w2] eqn:L; try discriminate; now apply IH in L. }
  split.
  - intros N. apply not_true_is_false in N. rewrite N. unfold edit_file_handler. cbn [q_script q_files q_loop].
    destruct (edit_files E os (f :: files) script w) as [[rs|e|c] w'] eqn:Ed; auto. now apply NE in Ed.
  - intros ->. unfold edit_file_handler. cbn [q_script q_files q_loop].
    destruct (edit_files_loop E os fuel (f :: files) script w) as [[[[rs n]|e|c] w']|] eqn:Ed; auto. exfalso. revert Ed. unfold edit_files_loop. generalize 0, w. clear -NE.
    induction fuel as [|k IH]; intros i w; cbn [edit_rounds]; [discriminate|]. destruct (edit_files E os (f :: files) script w) as [[rs|x|c] w1] eqn:X; try discriminate.
    + destruct (existsb failed rs); [discriminate|apply IH].
    + now apply NE in X.
Qed.
(** texted_eval runs the script given on the text given *)
Theorem server_evals E os fuel p q w input script : r_tool q = p ++ bs "texted_eval" ->
  r_args q (bs "input") = Some (JStr input) -> r_args q (bs "script") = Some (JStr script) -> r_args q (bs "output") = None ->
  match execute_script E input script with
  | Ok out => serve_call E os fuel p q w = Some (Ok (Answer (ToolText out)), w)
  | Err e => serve_call E os fuel p q w = Some (Ok (Answer (ToolError (bs "script execution failed: " ++ e))), w)
  | Crash c => serve_call E os fuel p q w = Some (Crash c, w)
  end.
Proof.
  intros T I S O. unfold serve_call. cbv zeta. rewrite T. destruct (find_here p) as (_ & -> & _). unfold serve_eval, require_string. rewrite I, S.
  unfold get_string. rewrite O. unfold eval_handler. cbn [v_input v_script v_output]. cbv zeta. rewrite str_eqb_refl.
  destruct (execute_script E input script); reflexivity.
Qed.
(** texted_doc answers about the function given *)
Theorem server_documents E os fuel p q w name : r_tool q = p ++ bs "texted_doc" ->
  r_args q (bs "function_name") = Some (JStr name) -> name <> [] -> r_args q (bs "category") = None ->
  match get_doc registered name with
  | Some d => serve_call E os fuel p q w = Some (Ok (Answer (ToolText (format_doc d))), w)
  | None => exists e, serve_call E os fuel p q w = Some (Ok (Answer (ToolError e)), w)
  end.
Proof.
  intros T F N C. unfold serve_call. cbv zeta. rewrite T. destruct (find_here p) as (_ & _ & ->). unfold serve_doc, get_string. rewrite F, C.
  unfold doc_handler. cbv zeta. replace (nonnil name) with true by (destruct name; [congruence|reflexivity]). cbn [nonnil andb].
  destruct (get_doc registered name); [reflexivity|eexists; reflexivity].
Qed.

(** arguments that are missing or of the wrong type: an error the client sees, and nothing is
    touched *)
Theorem bad_arguments_touch_nothing E os fuel p q w : 
  (r_tool q = p ++ bs "edit_file" /\ ((~ exists s, r_args q (bs "script") = Some (JStr s)) \/ (~ exists f l, gives_strings (r_args q) (bs "files") (f :: l)))) \/
  (r_tool q = p ++ bs "texted_eval" /\ ((~ exists s, r_args q (bs "input") = Some (JStr s)) \/ (~ exists s, r_args q (bs "script") = Some (JStr s)) \/
     exists m, r_args q (bs "output") = Some (JStr m) /\ m <> bs "buffer" /\ m <> bs "expression")) ->
  exists e, serve_call E os fuel p q w = Some (Ok (Answer (ToolError e)), w).
Proof.
  unfold serve_call. cbv zeta. intros [[-> H]|[-> H]].
  - destruct (find_here p) as (-> & _). unfold serve_edit.
    destruct (require_string_cases E (r_args q) (bs "script")) as [(s & A & ->)|(_ & e & ->)]; [|eexists; reflexivity].
    destruct (require_strings_cases E (r_args q) (bs "files")) as [(l & B & ->)|(_ & e & ->)]; [|eexists; reflexivity].
    destruct l as [|f l]; [eexists; reflexivity|]. exfalso. destruct H as [H|H]; eauto.
  - destruct (find_here p) as (_ & -> & _). unfold serve_eval.
    destruct (require_string_cases E (r_args q) (bs "input")) as [(s & A & ->)|(_ & e & ->)]; [|eexists; reflexivity].
    destruct (require_string_cases E (r_args q) (bs "script")) as [(l & B & ->)|(_ & e & ->)]; [|eexists; reflexivity].
    destruct H as [H|[H|(m & M & X & Y)]]; [exfalso; eauto..|]. unfold get_string. rewrite M.
    destruct (eval_tool_errors E (mkEvalRequest (Some s) (Some l) (Some m))) as (e & ->); [right; right; exists m; repeat split; auto|]. eexists. reflexivity.
Qed.
(** exactly what is said: the first thing wrong with the request *)
Lemma no_string_iff E a key e : require_string E a key = Err e <-> no_string (quote E) a key e.
Proof.
  unfold require_string. split.
  - destruct (a key) as [[| | |s| |]|] eqn:K; intros H; try discriminate H; injection H as <-; try (eapply ns_other; [exact K|discriminate]). now apply ns_missing.
  - intros [K|j K N]; rewrite K; [reflexivity|]. destruct j; try reflexivity. now destruct (N s).
Qed.
Lemma all_strings_wrong E key l e : forall i, all_strings E key i l = Err e <->
  exists m j r, l = map JStr m ++ j :: r /\ (forall s, j <> JStr s) /\ e = bs "item " ++ itoa (i + zlen m) ++ bs " in argument " ++ quote E key ++ bs " is not a string".
Proof.
  induction l as [|x l IH]; intros i; cbn [all_strings].
  - split; [discriminate|]. intros (m & j & r & H & _). destruct m; discriminate.
  - assert (Bad : (forall s, x <> JStr s) -> @Err (list str) (bs "item " ++ itoa i ++ bs " in argument " ++ quote E key ++ bs " is not a string") = Err e <->
      exists m j r, x :: l = map JStr m ++ j :: r /\ (forall s, j <> JStr s) /\ e = bs "item " ++ itoa (i + zlen m) ++ bs " in argument " ++ quote E key ++ bs " is not a string").
    { intros N. split.
      - intros H. injection H as <-. exists [], x, l. rewrite zlen_nil, Z.add_0_r. auto.
      - intros (m & j & r & H & _ & ->). destruct m as [|y m]; [now rewrite zlen_nil, Z.add_0_r|]. injection H as -> _. now destruct (N y). }
    destruct x as [| | |s| |]; try (apply Bad; discriminate). clear Bad.
    transitivity (all_strings E key (i + 1) l = Err e); [destruct (all_strings E key (i + 1) l); split; congruence|]. rewrite IH. split.
    + intros (m & j & r & -> & N & ->). exists (s :: m), j, r. rewrite zlen_cons. replace (i + (1 + zlen m)) with (i + 1 + zlen m) by lia. auto.
    + intros (m & j & r & H & N & ->). destruct m as [|y m]; [injection H as <- _; now destruct (N s)|]. injection H as -> ->. exists m, j, r.
      rewrite zlen_cons. replace (i + (1 + zlen m)) with (i + 1 + zlen m) by lia. auto.
Qed.
Lemma no_strings_iff E a key e : require_strings E a key = Err e <-> no_strings (quote E) a key e.
Proof.
  unfold require_strings. split.
  - destruct (a key) as [[| | | |l|]|] eqn:K; intros H; try (injection H as <-; try (eapply nl_other; [exact K|discriminate])); [|now apply nl_missing].
    apply all_strings_wrong in H as (m & j & r & -> & N & ->). now apply (nl_item _ _ _ m j r).
  - intros [K|j K N|m j r i K N ->]; rewrite K; [reflexivity|..].
    + destruct j; try reflexivity. now destruct (N l).
    + apply all_strings_wrong. exists m, j, r. auto.
Qed.
Theorem wrong_request_answer E os fuel p q w e : wrong_request (quote E) p q e -> serve_call E os fuel p q w = Some (Ok (Answer (ToolError e)), w).
Proof.
  unfold serve_call. cbv zeta. intros [x T N|s x T S N|s T S N|x T N|i x T I N|i s m T I S M A B]; rewrite T; destruct (find_here p) as (F1 & F2 & _); rewrite ?F1, ?F2; unfold serve_edit, serve_eval.
  - apply no_string_iff in N. now rewrite N.
  - unfold require_string. rewrite S. apply no_strings_iff in N. now rewrite N.
  - unfold require_string. rewrite S. apply (require_strings_spec E) in N. now rewrite N.
  - apply no_string_iff in N. now rewrite N.
  - unfold require_string at 1. rewrite I. apply no_string_iff in N. now rewrite N.
  - unfold require_string, get_string. rewrite I, S, M. unfold eval_handler. cbn [v_input v_script v_output]. cbv zeta. apply str_eqb_neq in A, B. now rewrite A, B.
Qed.
(** every other request is carried out *)
Theorem right_or_wrong E p q : In (r_tool q) (map (app p) [bs "edit_file"; bs "texted_eval"]) ->
  (exists e, wrong_request (quote E) p q e) \/
  (r_tool q = p ++ bs "edit_file" /\ exists s f l, r_args q (bs "script") = Some (JStr s) /\ gives_strings (r_args q) (bs "files") (f :: l)) \/
  (r_tool q = p ++ bs "texted_eval" /\ exists i s, r_args q (bs "input") = Some (JStr i) /\ r_args q (bs "script") = Some (JStr s) /\
     forall m, r_args q (bs "output") = Some (JStr m) -> m = bs "buffer" \/ m = bs "expression").
Proof.
  intros I. cbn [map In] in I. destruct I as [T|[T|[]]]; symmetry in T.
  - destruct (require_string_cases E (r_args q) (bs "script")) as [(s & A & _)|(_ & e & X)]; [|left; eexists; apply wr_edit_script; [exact T|apply no_string_iff; exact X]].
    destruct (require_strings_cases E (r_args q) (bs "files")) as [([|f l] & B & _)|(_ & e & X)].
    + left. eexists. now apply (wr_edit_none _ _ _ s).
    + right. left. split; auto. exists s, f, l. auto.
    + left. eexists. apply (wr_edit_files _ _ _ s); auto. apply no_strings_iff. exact X.
  - destruct (require_string_cases E (r_args q) (bs "input")) as [(i & A & _)|(_ & e & X)]; [|left; eexists; apply wr_eval_input; [exact T|apply no_string_iff; exact X]].
    destruct (require_string_cases E (r_args q) (bs "script")) as [(s & B & _)|(_ & e & X)]; [|left; eexists; apply (wr_eval_script _ _ _ i); [exact T|exact A|apply no_string_iff; exact X]].
    assert (D : {m | r_args q (bs "output") = Some (JStr m)} + {forall m, r_args q (bs "output") <> Some (JStr m)}).
    { destruct (r_args q (bs "output")) as [[| | |m| |]|]; try (right; discriminate). left. now exists m. }
    destruct D as [[m M]|M].
    + destruct (str_eqb m (bs "buffer")) eqn:E1; [apply str_eqb_eq in E1|apply str_eqb_neq in E1; destruct (str_eqb m (bs "expression")) eqn:E2; [apply str_eqb_eq in E2|apply str_eqb_neq in E2]].
      * right. right. split; auto. exists i, s. repeat split; auto. intros m' M'. left. congruence.
      * right. right. split; auto. exists i, s. repeat split; auto. intros m' M'. right. congruence.
      * left. eexists. now apply (wr_eval_output _ _ _ i s m).
    + right. right. split; auto. exists i, s. repeat split; auto. intros m' M'. now apply M in M'.
Qed.
Example wrong_request_witness :
  wrong_request (quote ref_ext) (bs "t_") (mkRequest (bs "t_edit_file") (fun k => if str_eqb k (bs "script") then Some (JStr []) else Some (JArr [JStr (bs "f"); JStr (bs "g"); JBool true; JStr []])) (mkOrders (fun r => r) (fun r => r) (fun r => r)))
    (bs "files parameter required: item 2 in argument ""files"" is not a string").
Proof.
  apply (wr_edit_files (quote ref_ext) (bs "t_") _ [] (bs "item 2 in argument ""files"" is not a string")); [reflexivity..|].
  apply (nl_item (quote ref_ext) _ (bs "files") [bs "f"; bs "g"] (JBool true) [JStr []] 2); [reflexivity|discriminate|reflexivity].
Qed.
(** requests to the other tools touch nothing, and their answers do not depend on the files *)
Theorem only_edits_touch_files E p q : r_tool q <> p ++ bs "edit_file" ->
  exists r, (forall e, r <> Err e) /\ forall os' fuel' w', serve_call E os' fuel' p q w' = Some (r, w').
Proof.
  intros N. unfold serve_call. cbv zeta. destruct (find_tool (server p) (r_tool q)) as [[| |]|] eqn:F.
  - exfalso. rewrite server_table in F. cbn [find_tool] in F. destruct (str_eqb (p ++ bs "texted_doc") (r_tool q)); [discriminate|]. destruct (str_eqb (p ++ bs "texted_eval") (r_tool q)); [discriminate|].
    destruct (str_eqb (p ++ bs "edit_file") (r_tool q)) eqn:Q; [|discriminate]. apply str_eqb_eq in Q. now rewrite <- Q in N.
  - destruct (serve_eval E (r_args q)) as [r|e|c]; refine (ex_intro _ _ (conj _ (fun _ _ _ => eq_refl))); discriminate.
  - refine (ex_intro _ _ (conj _ (fun _ _ _ => eq_refl))); discriminate.
  - refine (ex_intro _ _ (conj _ (fun _ _ _ => eq_refl))); discriminate.
Qed.

Lemma edit_files_touches E os script k : forall files w, ~ In k (map (canon os) files) -> w_fs (snd (edit_files E os files script w)) k = w_fs w k.
Proof.
  unfold edit_files. induction files as [|f files IH]; intros w N; cbn [edit_loop]; [reflexivity|]. cbn [map In] in N. unfold io_try.
  assert (T : w_fs (snd (edit_file E os f script w)) k = w_fs w k).
  { change (edit_file E os f script) with (edit_with os f (fun c => execute_script E c script)). apply edit_with_touches. intros ->. tauto. }
  destruct (edit_file E os f script w) as [[[]|e|c] w1]; cbn [snd] in T; unfold io_bind;
    [pose proof (IH w1 ltac:(tauto)) as X; destruct (edit_loop _ files w1) as [[?|?|?] w2]; cbn [snd io_ret] in *; congruence..|exact T].
Qed.
Lemma edit_loop_touches E os script k files : ~ In k (map (canon os) files) -> forall fuel i w r w', 
  edit_rounds fuel (edit_files E os files script) i w = Some (r, w') -> w_fs w' k = w_fs w k.
Proof.
  intros N. induction fuel as [|fuel IH]; intros i w r w'; cbn [edit_rounds]; [discriminate|]. pose proof (edit_files_touches E os script k files w N) as T.
  destruct (edit_files E os files script w) as [[rs|e|c] w1]; cbn [snd] in T; [destruct (existsb failed rs)|..]; intros H.
  2:{ apply IH in H. congruence. }
  all: injection H as <- <-; exact T.
Qed.
Lemma serve_call_touches E os fuel p q w r w' k : ~ asks_for os p q k -> serve_call E os fuel p q w = Some (r, w') -> w_fs w' k = w_fs w k.
Proof.
  intros N S. destruct (str_eqb (r_tool q) (p ++ bs "edit_file")) eqn:T.
  2:{ assert (X : r_tool q <> p ++ bs "edit_file") by (intros X; rewrite X, str_eqb_refl in T; discriminate).
      destruct (only_edits_touch_files E p q X) as (r' & _ & Y). rewrite Y in S. now injection S as _ <-. }
  apply str_eqb_eq in T. unfold serve_call in S. cbv zeta in S. rewrite T in S. destruct (find_here p) as (F & _). rewrite F in S. clear F.
  assert (G : forall x, serve_edit E os fuel (r_args q) w = Some x -> w_fs (snd x) k = w_fs w k).
  { unfold serve_edit. destruct (require_string_cases E (r_args q) (bs "script")) as [(s & A & ->)|(_ & e & ->)]; [|intros x H; injection H as <-; reflexivity].
    destruct (require_strings_cases E (r_args q) (bs "files")) as [(l & B & ->)|(_ & e & ->)]; [|intros x H; injection H as <-; reflexivity].
    assert (Nl : ~ In k (map (canon os) l)). { intros I. apply in_map_iff in I as (f & <- & I). apply N. split; auto. exists l, f. auto. }
    unfold edit_file_handler. cbn [q_script q_files q_loop]. destruct l as [|f l]; [intros x H; injection H as <-; reflexivity|].
    destruct (get_bool (r_args q) (bs "loopUntilError") false).
    - destruct (edit_files_loop E os fuel (f :: l) s w) as [[r0 w0]|] eqn:L; [|discriminate]. apply edit_loop_touches with (1 := Nl) in L.
      destruct r0 as [[rs n]|e|c]; intros x H; injection H as <-; exact L.
    - pose proof (edit_files_touches E os s k (f :: l) w Nl) as L. destruct (edit_files E os (f :: l) s w) as [[rs|e|c] w0]; intros x H; injection H as <-; exact L. }
  destruct (serve_edit E os fuel (r_args q) w) as [[[x|x|x] w0]|]; [..|discriminate]; injection S as _ <-; apply (G _ eq_refl).
Qed.
(** whatever a client asks for, only files it named in an edit_file request change *)
Theorem session_frame E os fuel p k : forall qs w rs c w', serve_all E os fuel p qs w = Some (rs, c, w') ->
  (forall q, In q qs -> ~ asks_for os p q k) -> w_fs w' k = w_fs w k.
Proof.
  induction qs as [|q qs IH]; intros w rs c w'; cbn [serve_all].
  - intros H _. now injection H as _ _ <-.
  - destruct (serve_call E os fuel p q w) as [[[r|r|r] w1]|] eqn:S; [..|discriminate]; intros H N;
      apply serve_call_touches with (k := k) in S; try (apply N; now left).
    + destruct (serve_all E os fuel p qs w1) as [[[rs' c'] w2]|] eqn:A; [|discriminate]. injection H as <- <- <-. rewrite (IH _ _ _ _ A); auto. intros q' I. apply N. now right.
    + destruct (serve_all E os fuel p qs w1) as [[[rs' c'] w2]|] eqn:A; [|discriminate]. injection H as <- <- <-. rewrite (IH _ _ _ _ A); auto. intros q' I. apply N. now right.
    + injection H as <- <- <-. exact S.
Qed.
Lemma serve_call_no_err E os fuel p q w e w' : serve_call E os fuel p q w <> Some (Err e, w').
Proof.
  unfold serve_call. cbv zeta. destruct (find_tool (server p) (r_tool q)) as [[| |]|]; try discriminate.
  - destruct (serve_edit E os fuel (r_args q) w) as [[[?|?|?] ?]|]; discriminate.
  - destruct (serve_eval E (r_args q)); discriminate.
Qed.
(** every request is answered, in order, as if the server had just been started on the files
    as they are at that point: the files are all that requests share *)
Theorem session_answers E os fuel p : forall qs w rs w', serve_all E os fuel p qs w = Some (rs, None, w') <->
  exists ws, length ws = S (length qs) /\ length rs = length qs /\ nth 0 ws w = w /\ nth (length qs) ws w = w' /\
    forall i q r, nth_error qs i = Some q -> nth_error rs i = Some r -> serve_call E os fuel p q (nth i ws w) = Some (Ok r, nth (S i) ws w).
Proof.
  induction qs as [|q qs IH]; intros w rs w'; cbn [serve_all].
  - split.
    + intros H. injection H as <- <-. exists [w]. repeat split; auto. intros [|i] q r; discriminate.
    + intros (ws & L & M & A & B & _). destruct rs; [|discriminate]. cbn [length] in B. congruence.
  - split.
    + destruct (serve_call E os fuel p q w) as [[[r|e|c] w1]|] eqn:Sc; [| |discriminate|discriminate]; [|now apply serve_call_no_err in Sc].
      destruct (serve_all E os fuel p qs w1) as [[[rs' c'] w2]|] eqn:A; [|discriminate]. intros H. injection H as <- -> ->. apply IH in A as (ws & L & M & A & B & C).
      destruct ws as [|w0 ws]; [discriminate|]. cbn [nth] in A. subst w0. exists (w :: w1 :: ws). cbn [length] in *. split; [lia|]. split; [lia|]. split; [reflexivity|]. split.
      * rewrite <- B. cbn [nth]. destruct (length qs) as [|n] eqn:N; [reflexivity|]. cbn [nth]. apply nth_indep. lia.
      * intros [|i] q' r' Q R; cbn [nth_error] in Q, R.
        -- injection Q as <-. injection R as <-. exact Sc.
        -- specialize (C i q' r' Q R). cbn [nth] in C |- *. assert (I : (i < length qs)%nat) by (apply nth_error_Some; congruence).
           destruct i as [|i]; cbn [nth] in C |- *; rewrite (nth_indep ws w w1) in * by lia; try rewrite (nth_indep ws w w1) by lia; exact C.
    + intros (ws & L & M & A & B & C). destruct rs as [|r rs]; [discriminate|]. destruct ws as [|w0 [|w1 ws]]; try discriminate. cbn [nth] in A. subst w0.
      pose proof (C 0%nat q r eq_refl eq_refl) as Sc. cbn [nth] in Sc. rewrite Sc.
      assert (X : serve_all E os fuel p qs w1 = Some (rs, None, w')).
      { apply IH. exists (w1 :: ws). cbn [length] in *. split; [lia|]. split; [lia|]. split; [reflexivity|]. split.
        - rewrite <- B. cbn [nth]. destruct (length qs) as [|n] eqn:N; [reflexivity|]. cbn [nth]. apply nth_indep. lia.
        - intros i q' r' Q R. specialize (C (S i) q' r' Q R). cbn [nth] in C |- *. assert (I : (i < length qs)%nat) by (apply nth_error_Some; congruence).
          destruct i as [|i]; cbn [nth] in C |- *; rewrite (nth_indep ws w1 w) in * by lia; try rewrite (nth_indep ws w1 w) by lia; exact C. }
      now rewrite X.
Qed.
Definition args_of (l : list (str * json)) : arguments :=
  fun k => option_map snd (find (fun e => str_eqb (fst e) k) l).
Definition plain_orders : map_orders := mkOrders (fun r => r) (fun r => r) (fun r => r).
Definition ask (tool : str) (l : list (str * json)) : request := mkRequest tool (args_of l) plain_orders.
Example session_witness :
  let qs := [ask (bs "t_texted_eval") [(bs "input", JStr (bs "ab")); (bs "script", JStr (bs "delete-char 1"))];
             ask (bs "edit_file") [(bs "script", JStr (bs "delete-char 1")); (bs "files", JArr [JStr (bs "f")])];
             ask (bs "t_edit_file") [(bs "script", JStr (bs "delete-char 1")); (bs "files", JArr [JStr (bs "f"); JBool true])];
             ask (bs "t_edit_file") [(bs "script", JStr (bs "delete-char 1")); (bs "files", JArr [JStr (bs "f")]); (bs "loopUntilError", JStr (bs "no"))];
             ask (bs "t_texted_doc") [(bs "function_name", JStr (bs "nope"))]] in
  match serve_all ref_ext demo_os 5 (bs "t_") qs (demo [(bs "f", bs "xay"); (bs "g", bs "1")]) with
  | Some (rs, None, w') => w_fs w' (bs "f") = Some (bs "ay") /\ w_fs w' (bs "g") = Some (bs "1") /\
      rs = [Answer (ToolText (bs "b")); Protocol (bs "tool 'edit_file' not found: tool not found");
            Answer (ToolError (bs "files parameter required: item 1 in argument ""files"" is not a string"));
            Answer (ToolText (bs "All files edited successfully after 1 iterations:" ++ nl :: bs "✓ Successfully edited f" ++ [nl]));
            Answer (ToolError (bs "Function 'nope' not found"))]
  | _ => False
  end.
Proof. vm_compute. repeat split; reflexivity. Qed.
Example server_edits_witness : gives_strings (args_of [(bs "files", JArr [JStr (bs "f")])]) (bs "files") [bs "f"] /\
  says_yes (JStr (bs "T")) /\ says_yes (JNum (f_of_Z 3)) /\ ~ says_yes (JStr (bs "yes")) /\ ~ says_yes (JNum (f_of_Z 0)).
Proof.
  split; [reflexivity|]. split; [constructor; cbn; tauto|]. split; [constructor; intros sg H; vm_compute in H; discriminate H|].
  split; intros H; inversion H as [|s I|f N]; subst.
  - cbn in I. repeat destruct I as [I|I]; try discriminate I. exact I.
  - now destruct (N false).
Qed.
(** one request is enough to end the server: the requests after it get no answer *)
Theorem server_survives_refuted : exists q w, r_tool q = bs "texted_eval" /\
  (exists i s, r_args q (bs "input") = Some (JStr i) /\ r_args q (bs "script") = Some (JStr s)) /\
  forall os fuel qs, serve_all ref_ext os fuel [] (q :: qs) w = Some ([], Some CrashPanic, w).
Proof.
  exists (ask (bs "texted_eval") [(bs "input", JStr (bs "abc")); (bs "script", JStr (bs "delete-char -1"))]), (demo []).
  split; [reflexivity|]. split; [exists (bs "abc"), (bs "delete-char -1"); split; reflexivity|]. intros os fuel qs. cbn [serve_all].
  pose proof (server_evals ref_ext os fuel [] (ask (bs "texted_eval") [(bs "input", JStr (bs "abc")); (bs "script", JStr (bs "delete-char -1"))]) (demo []) (bs "abc") (bs "delete-char -1") eq_refl eq_refl eq_refl eq_refl) as S.
  replace (execute_script ref_ext (bs "abc") (bs "delete-char -1")) with (@Crash str CrashPanic) in S by (vm_compute; reflexivity). now rewrite S.
Qed.
(** and one request can keep it busy for ever *)
Theorem server_answers_refuted : exists q w, r_tool q = bs "edit_file" /\
  forall fuel qs, serve_all ref_ext demo_os fuel [] (q :: qs) w = None.
Proof.
  set (q := ask (bs "edit_file") [(bs "script", JStr (bs "goto-char 1")); (bs "files", JArr [JStr (bs "f")]); (bs "loopUntilError", JBool true)]).
  exists q, (demo [(bs "f", bs "x")]). split; [reflexivity|]. intros fuel qs. cbn [serve_all].
  destruct (server_edits ref_ext demo_os fuel [] q (demo [(bs "f", bs "x")]) (bs "goto-char 1") (bs "f") [] eq_refl eq_refl eq_refl) as [_ S].
  specialize (S (ex_intro _ (JBool true) (conj eq_refl yes_bool))).
  assert (L : edit_files_loop ref_ext demo_os fuel [bs "f"] (bs "goto-char 1") (demo [(bs "f", bs "x")]) = None).
  { apply (loop_never_returns _ _ _ _ _ (eq (bs "x"))).
    - repeat split.
    - intros c <-. split; [apply Z.leb_le; vm_compute; reflexivity|]. exists (bs "x"). split; [vm_compute; reflexivity|reflexivity].
    - intros f [<-|[]]. exists (bs "x"). split; reflexivity. }
  rewrite L in S. now rewrite S.
Qed.

(** ** Assumptions of every theorem above *)
Print Assumptions tools_offered.
Print Assumptions unknown_tools_refused.
Print Assumptions plain_names_not_served.
Print Assumptions flag_meaning.
Print Assumptions server_edits.
Print Assumptions server_evals.
Print Assumptions server_documents.
Print Assumptions bad_arguments_touch_nothing.
Print Assumptions wrong_request_answer.
Print Assumptions right_or_wrong.
Print Assumptions only_edits_touch_files.
Print Assumptions session_frame.
Print Assumptions session_answers.
Print Assumptions server_survives_refuted.
Print Assumptions server_answers_refuted.
