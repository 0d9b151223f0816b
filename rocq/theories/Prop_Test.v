(** C54, C55: the command texted test. *)
From Coq Require Import ZArith NArith List Bool Lia ZifyBool ZifyN ZifyNat Strings.Byte.
From Verif Require Import Base Float Ext Utf8 Strconv Values Buffer Builtins Eval Parser Json Writer Files Cli Testing TestCmd
  Spec SpecText SpecFiles SpecTest RefExt RefRegex Proofs_Base Proofs_Files Proofs_Cli Prop_Eval.
Import ListNotations.
Open Scope Z_scope.

(** ** C54 *)
Lemma trace_same E env prog (trace : bool) b : fst (eval_with_trace E env prog (if trace then Some (trace_callback E) else None) [] b) = eval E env prog b.
Proof.
  destruct trace; [apply observing_does_not_change_the_result; intros t v b'; reflexivity|].
  unfold eval, eval_with_trace. generalize (VStr []) as r, 0 as i. generalize prog at 1 3 as p. intros p. revert b. generalize (@nil byte) as t.
  induction prog as [|e q IH]; intros t b r i; cbn [eval_from]; [reflexivity|]. destruct (eval_expr E env e b); try reflexivity. apply IH.
Qed.
(** what a report can be: a pass without any detail, or a failure with an error *)
Definition report (name : str) (ok : bool) (r : test_result) : Prop :=
  tr_name r = name /\ tr_passed r = ok /\
  (ok = true -> tr_error r = None /\ tr_expected r = [] /\ tr_actual r = []) /\
  (ok = false -> tr_error r <> None).
Lemma report_success name : report name true (success name).
Proof. repeat split; discriminate. Qed.
Lemma report_failure name e x y : report name false (mkTestResult name false (Some e) x y).
Proof. repeat split; discriminate. Qed.
Local Hint Resolve report_success report_failure : core.

Lemma full_verdict E env trace name t : match run_test E env t with
  | Passed => exists r, fst (run_test_full E env trace name t) = Ok r /\ report name true r
  | Failed => exists r, fst (run_test_full E env trace name t) = Ok r /\ report name false r
  | Crashed => exists c, fst (run_test_full E env trace name t) = Crash c
  end.
Proof.
  unfold run_test, run_test_full. destruct (match trim_space (t_input t) with [] => _ | _ => _ end) as [prog|e|]; [|cbn [fst]; unfold failure; eauto..].
  pose proof (trace_same E env prog trace (new_buffer (t_buffer t))) as S. destruct (eval_with_trace _ _ _ _ _ _) as [q out]. cbn [fst] in *. subst q.
  destruct (eval E env prog (new_buffer (t_buffer t))) as [v b|x b| | |]; eauto.
  - destruct (trim_space (t_error t)); [|unfold failure; eauto]. unfold judge. destruct (t_output t) as [|o out'].
    + destruct (trim_space (t_result t)) as [|c l]; [unfold failure; eauto|].
      assert (L : parse_format (match t_result_lang t with [] => bs "sexp" | l0 => l0 end) (c :: l) = parse_format (t_result_lang t) (c :: l)) by (now destruct (t_result_lang t)).
      rewrite L. destruct (parse_format (t_result_lang t) (c :: l)) as [[|e [|e2 es]]|m|]; unfold failure; eauto.
      all: destruct (equal _ _); eauto.
    + replace (match trim_space (t_result t) with [] | _ => if str_eqb (o :: out') (content b) then _ else _ end) with
        (if str_eqb (o :: out') (content b) then match trim_space (t_result t) with [] => Passed | _ :: _ =>
          match parse_format (t_result_lang t) (trim_space (t_result t)) with
          | POk [] => if equal None (Some v) then Passed else Failed
          | POk [e] => if equal (Some e) (Some v) then Passed else Failed
          | POk (e :: _ :: _) => Failed
          | PErr _ => Failed | PFuel => Crashed end end else Failed) by (now destruct (trim_space (t_result t))).
      destruct (str_eqb (o :: out') (content b)); [|eauto]. destruct (trim_space (t_result t)) as [|c l]; [eauto|].
      assert (L : parse_format (match t_result_lang t with [] => bs "sexp" | l0 => l0 end) (c :: l) = parse_format (t_result_lang t) (c :: l)) by (now destruct (t_result_lang t)).
      rewrite L. destruct (parse_format (t_result_lang t) (c :: l)) as [[|e [|e2 es]]|m|]; unfold failure; eauto.
      all: destruct (equal _ _); eauto.
  - destruct (trim_space (t_error t)); [unfold failure; eauto|]. destruct (str_contains _ _); unfold failure; eauto.
Qed.

(** *** File names *)
Lemma strip_spec r : exists n, r = repeat slash n ++ strip_slashes r /\ forall c t, strip_slashes r = c :: t -> c <> slash.
Proof.
  induction r as [|c t (n & A & B)]; [exists 0%nat; split; [reflexivity|discriminate]|]. cbn [strip_slashes]. destruct (Byte.eqb c slash) eqn:C.
  - apply byte_eqb_eq in C as ->. exists (S n). split; auto. cbn [repeat app]. congruence.
  - exists 0%nat. split; [reflexivity|]. intros d u H. injection H as <- <-. now apply byte_eqb_neq.
Qed.
Lemma until_spec r : exists rest, r = until_slash r ++ rest /\ ~ In slash (until_slash r) /\ forall c t, rest = c :: t -> c = slash.
Proof.
  induction r as [|c t (rest & A & B & C)]; [exists []; repeat split; auto; discriminate|]. cbn [until_slash]. destruct (Byte.eqb c slash) eqn:X.
  - apply byte_eqb_eq in X as ->. exists (slash :: t). repeat split; auto. intros d u H. now injection H as <- <-.
  - exists rest. cbn [app]. split; [congruence|]. split; auto. intros [H|H]; auto. subst c. now rewrite byte_eqb_refl in X.
Qed.
Lemma rev_repeat {A} (x : A) n : rev (repeat x n) = repeat x n.
Proof.
  induction n as [|n IH]; [reflexivity|]. cbn [repeat rev]. rewrite IH. clear IH. induction n as [|n IH]; [reflexivity|]. cbn [repeat app]. now rewrite IH.
Qed.
Lemma strip_repeat n r : (forall c t, r = c :: t -> c <> slash) -> strip_slashes (repeat slash n ++ r) = r.
Proof.
  intros H. induction n as [|n IH]; [|exact IH]. cbn [repeat app]. destruct r as [|c t]; [reflexivity|]. cbn [strip_slashes].
  replace (Byte.eqb c slash) with false; [reflexivity|]. symmetry. apply byte_eqb_neq. eauto.
Qed.
Lemma until_app a r : ~ In slash a -> (forall c t, r = c :: t -> c = slash) -> until_slash (a ++ r) = a.
Proof.
  intros N H. induction a as [|c a IH].
  - destruct r as [|c t]; [reflexivity|]. rewrite (H c t eq_refl). reflexivity.
  - cbn [app until_slash]. replace (Byte.eqb c slash) with false.
    + rewrite IH; [reflexivity|]. intros X. apply N. now right.
    + symmetry. apply byte_eqb_neq. intros ->. apply N. now left.
Qed.
(** the name of a test is the last component of its path *)
Theorem test_name path name : last_component path name <-> name = base_name path.
Proof.
  unfold last_component. split.
  - intros [[-> ->]|[(N & A & ->)|(dir & n & -> & N & S & D)]]; [reflexivity| |].
    + unfold base_name. destruct path as [|c t]; [congruence|]. replace (strip_slashes (rev (c :: t))) with (@nil byte); [reflexivity|].
      assert (F : forall c', In c' (rev (c :: t)) -> c' = slash) by (intros c' I; apply A, in_rev, I). symmetry. revert F. generalize (rev (c :: t)). intros s.
      induction s as [|x s IH]; intros F; [reflexivity|]. cbn [strip_slashes]. rewrite (F x (or_introl eq_refl)). cbn. apply IH. intros y I. apply F. now right.
    + assert (P : strip_slashes (rev (dir ++ name ++ repeat "/"%byte n)) = rev name ++ rev dir).
      { rewrite !rev_app_distr, rev_repeat, <- app_assoc. apply strip_repeat. intros c t H.
        destruct (rev name) as [|x l] eqn:R; [apply (f_equal (@rev byte)) in R; rewrite rev_involutive in R; cbn in R; congruence|].
        cbn [app] in H. injection H as <- _. intros ->. apply S. apply in_rev. rewrite R. now left. }
      unfold base_name. destruct (dir ++ name ++ repeat "/"%byte n) as [|c t] eqn:Z.
      { apply app_eq_nil in Z as [_ Z]. apply app_eq_nil in Z as [Z _]. congruence. }
      rewrite P. destruct (rev name ++ rev dir) as [|x l] eqn:Y.
      { apply app_eq_nil in Y as [Y _]. apply (f_equal (@rev byte)) in Y. rewrite rev_involutive in Y. cbn in Y. congruence. }
      rewrite <- Y. rewrite until_app; [now rewrite rev_involutive|intros I; apply S, in_rev, I|].
      intros d u H. apply (D (rev u)). apply (f_equal (@rev byte)) in H. now rewrite rev_involutive in H.
  - intros ->. destruct path as [|c t]; [left; auto|]. right. unfold base_name.
    destruct (strip_spec (rev (c :: t))) as (n & A & B). destruct (strip_slashes (rev (c :: t))) as [|x l] eqn:R.
    + left. split; [discriminate|]. split; auto. intros d I. apply in_rev in I. rewrite A, app_nil_r in I. now apply repeat_spec in I.
    + right. destruct (until_spec (x :: l)) as (rest & U & V & W). exists (rev rest), n.
      split; [|split; [|split]].
      * apply (f_equal (@rev byte)) in A. rewrite rev_involutive in A. rewrite A, rev_app_distr, rev_repeat. rewrite U at 1. rewrite rev_app_distr, <- app_assoc. reflexivity.
      * cbn [until_slash]. replace (Byte.eqb x slash) with false; [|symmetry; apply byte_eqb_neq; eauto]. cbn [rev]. intros H. now apply app_eq_nil in H as [_ H].
      * intros I. apply in_rev in I. auto.
      * intros d e H. apply (f_equal (@rev byte)) in H. rewrite rev_involutive, rev_app_distr in H. cbn in H. eapply W, H.
Qed.
Example test_name_witness : base_name (bs "tests/a.xml") = bs "a.xml" /\ base_name (bs "b//") = bs "b" /\ base_name (bs "//") = bs "/" /\ base_name [] = bs ".".
Proof. vm_compute. repeat split; reflexivity. Qed.

(** *** Selection *)
Lemma includes_spec E ps name keep : includes E ps name = inl keep ->
  (keep = true <-> exists p, In p ps /\ re_find E p name <> None) \/ keep = true /\ exists p, In p ps /\ re_find E p name <> None.
Proof.
  induction ps as [|p ps IH]; cbn [includes].
  - intros H. injection H as <-. left. split; [discriminate|]. intros (p & [] & _).
  - destruct (re_error E p); [discriminate|]. destruct (re_find E p name) eqn:F.
    + intros H. injection H as <-. right. split; auto. exists p. split; [now left|congruence].
    + intros H. apply IH in H as [H|[-> (q & I & N)]].
      * left. rewrite H. split; intros (q & I & N); exists q; split; auto; [now right|]. destruct I as [<-|I]; [congruence|auto].
      * right. split; auto. exists q. split; auto. now right.
Qed.
Lemma includes_iff E ps f keep : includes E ps (base_name f) = inl keep -> (keep = true <-> chosen E ps f).
Proof.
  intros H. assert (C : chosen E ps f <-> exists p, In p ps /\ re_find E p (base_name f) <> None).
  { split; [intros (p & n & I & L & N); apply test_name in L as ->; eauto|intros (p & I & N); exists p, (base_name f); repeat split; auto; now apply test_name]. }
  rewrite C. apply includes_spec in H as [H|[-> H]]; [auto|tauto].
Qed.
Lemma select_spec E ps files sel : select E ps files = inl sel -> part_of (chosen E ps) files sel.
Proof.
  revert sel. induction files as [|f fs' IH]; intros sel; cbn [select]; [intros H; injection H as <-; constructor|].
  destruct (includes E ps (base_name f)) as [keep|] eqn:I; [|discriminate]. destruct (select E ps fs') as [l|]; [|discriminate]. intros H. injection H as <-.
  apply includes_iff in I. destruct keep; constructor; auto; [now apply I|]. intros C. apply I in C. discriminate.
Qed.
Lemma select_valid E ps files : Forall (valid_pattern E) ps -> exists sel, select E ps files = inl sel.
Proof.
  intros V. assert (I : forall n, exists k, includes E ps n = inl k).
  { intros n. induction V as [|p ps P V IH]; [eexists; reflexivity|]. cbn [includes]. rewrite P. destruct (re_find E p n); eauto. }
  induction files as [|f fs' (l & IH)]; [eexists; reflexivity|]. cbn [select]. destruct (I (base_name f)) as (k & ->). rewrite IH. eauto.
Qed.
Lemma part_of_fun {A} (P : A -> Prop) l m m' : part_of P l m -> part_of P l m' -> m = m'.
Proof. intros H. revert m'. induction H; intros m' H'; inversion H'; subst; try tauto; try f_equal; auto. Qed.

(** *** Running *)
Section Runs.
Variables (decode : str -> test_case + str) (E : Ext) (os : OS).

Lemma print_runs s w : print s w = (Ok tt, mkWorld (w_fs w) (w_seen w) (w_ops w) (w_stdin w) (w_stdin_read w) (w_stdout w ++ s)).
Proof. reflexivity. Qed.
Lemma file_run trace f w r w' : run_test_file decode E os trace f w = (r, w') ->
  no_write w w' /\ (exists out, w_stdout w' = w_stdout w ++ out /\ (trace = false -> out = [])) /\
  match r with
  | Ok x => exists ok, report (base_name f) ok x /\ (ok = true -> file_passes E os decode (w_fs w) f) /\ (no_faults os -> file_passes E os decode (w_fs w) f -> ok = true)
  | Err _ => False
  | Crash _ => True
  end.
Proof.
  unfold run_test_file, io_try. intros H. destruct (os_read_file os f w) as [q w1] eqn:R. pose proof R as R'. apply read_spec in R as (A & (B & _) & C & _).
  assert (Out0 : exists out, w_stdout w1 = w_stdout w ++ out /\ (trace = false -> out = [])) by (exists []; rewrite app_nil_r; auto).
  destruct q as [c|e|c].
  - specialize (C c eq_refl). destruct (decode c) as [t|e] eqn:D.
    + pose proof (full_verdict E (default_env E) trace (base_name f) t) as V. pose proof (eq_refl (run_test_full E (default_env E) trace (base_name f) t)) as F.
      destruct (run_test_full E (default_env E) trace (base_name f) t) as [y out] eqn:Y. cbn [fst] in V. unfold io_seq, io_bind, io_res in H. rewrite print_runs in H. injection H as <- <-.
      split; [split; [apply A|apply A]|]. cbn [w_stdout]. split.
      { exists out. split; [congruence|]. intros ->. unfold run_test_full in Y. destruct (match trim_space (t_input t) with [] => _ | _ => _ end); [|congruence..].
        assert (G : forall env0 prog p i v t0 b, snd (eval_from (T := str) E env0 None prog i p v t0 b) = t0).
        { intros env0 prog p. induction p as [|e q IH]; intros i v t0 b; cbn [eval_from]; [reflexivity|]. destruct (eval_expr E env0 e b); try reflexivity. apply IH. }
        unfold eval_with_trace in Y. specialize (G (default_env E) a a 0 (VStr []) [] (new_buffer (t_buffer t))). destruct (eval_from _ _ _ _ _ _ _ _ _). cbn [snd] in G. congruence. }
      destruct (run_test E (default_env E) t) eqn:Rt; destruct V as (x & V).
      * destruct V as [V1 V2]. rewrite V1. exists true. split; auto. split; auto. intros _. exists c, t. auto.
      * destruct V as [V1 V2]. rewrite V1. exists false. split; auto. split; [discriminate|]. intros _ (c' & t' & P1 & P2 & P3). congruence.
      * rewrite V. exact I.
    + injection H as <- <-. split; auto. split; auto. exists false. split; [apply report_failure|]. split; [discriminate|]. intros _ (c' & t' & P1 & P2 & P3). congruence.
  - injection H as <- <-. split; auto. split; auto. exists false. split; [apply report_failure|]. split; [discriminate|]. intros NF (c' & t' & P1 & P2 & P3).
    unfold os_read_file in R'. rewrite P1 in R'. destruct (NF (w_ops w)) as (NR & _). rewrite NR in R'. destruct (_ <? _); discriminate.
  - injection H as <- <-. auto.
Qed.
Definition fits_report (s : fs) (f : str) (x : test_result) : Prop :=
  exists ok, report (base_name f) ok x /\ (ok = true -> file_passes E os decode s f) /\ (no_faults os -> file_passes E os decode s f -> ok = true).
Lemma files_run trace files : forall w r w', run_test_files decode E os trace files w = (r, w') ->
  no_write w w' /\ (exists out, w_stdout w' = w_stdout w ++ out /\ (trace = false -> out = [])) /\
  match r with Ok xs => Forall2 (fits_report (w_fs w)) files xs | Err _ => False | Crash _ => True end.
Proof.
  induction files as [|f fs' IH]; intros w r w' H; cbn [run_test_files] in H.
  - injection H as <- <-. split; [apply history_refl|]. split; [exists []; rewrite app_nil_r; auto|constructor].
  - unfold io_bind at 1 in H. destruct (run_test_file decode E os trace f w) as [q w1] eqn:F. apply file_run in F as (A & (o1 & B1 & B2) & C). destruct q as [x|e|c].
    + unfold io_bind in H. destruct (run_test_files decode E os trace fs' w1) as [q w2] eqn:G. apply IH in G as (A' & (o2 & B1' & B2') & C').
      assert (NW : no_write w w2) by (eapply no_write_trans; eauto).
      assert (O : exists out, w_stdout w2 = w_stdout w ++ out /\ (trace = false -> out = [])).
      { exists (o1 ++ o2). split; [rewrite B1', B1; now rewrite app_assoc|]. intros T. now rewrite B2, B2'. }
      destruct q as [xs|e|c]; [|contradiction|injection H as <- <-; auto]. injection H as <- <-. split; auto. split; auto. constructor; auto.
      rewrite (no_write_fs _ _ A) in C'. exact C'.
    + contradiction.
    + injection H as <- <-. split; auto. split; auto. exists o1. auto.
Qed.
End Runs.

(** the files a run is asked to test *)
Definition candidates (a : test_args) (globbed files : list str) : Prop :=
  ta_files a = [] /\ files = globbed \/ ta_files a <> [] /\ files = ta_files a.
(** the files it does test *)
Definition to_test (E : Ext) (a : test_args) (globbed sel : list str) : Prop :=
  exists files, candidates a globbed files /\ Forall (valid_pattern E) (ta_include a) /\
    (ta_include a = [] /\ sel = files \/ ta_include a <> [] /\ part_of (chosen E (ta_include a)) files sel).
Definition summary (passed failed total : Z) : str :=
  [nl] ++ bs "Tests: " ++ itoa passed ++ bs " passed, " ++ itoa failed ++ bs " failed, " ++ itoa total ++ bs " total" ++ [nl].

Lemma to_test_selected E a globbed sel : to_test E a globbed sel ->
  (match ta_include a with [] => inl (match ta_files a with [] => globbed | l => l end) | ps => select E ps (match ta_files a with [] => globbed | l => l end) end) = inl sel.
Proof.
  intros (files & C & V & S). assert (F : match ta_files a with [] => globbed | l => l end = files).
  { destruct C as [[-> ->]|[N ->]]; [reflexivity|]. now destruct (ta_files a). }
  rewrite F. destruct S as [[-> ->]|[N P]]; [reflexivity|]. destruct (select_valid E (ta_include a) files V) as (l & L).
  destruct (ta_include a) as [|p ps] eqn:I; [congruence|]. rewrite L. f_equal. apply select_spec in L. eapply part_of_fun; eauto.
Qed.
Lemma run_tests_run decode E os globbed a sel w r w' : to_test E a globbed sel -> sel <> [] -> run_tests decode E os globbed a w = (r, w') ->
  no_write w w' /\
  match r with
  | Err _ => False
  | Crash _ => True
  | Ok code => exists xs out, Forall2 (fits_report decode E os (w_fs w)) sel xs /\ (ta_trace a = false -> out = []) /\
    let passed := zlen (filter tr_passed xs) in let total := zlen xs in
    let shown := if ta_fail_only a then filter (fun r => negb (tr_passed r)) xs else xs in
    w_stdout w' = w_stdout w ++ out ++ (if ta_quiet a then [] else flat_map (result_text E (ta_verbose a)) shown) ++ summary passed (total - passed) total /\
    code = if passed <? total then 1 else 0
  end.
Proof.
  intros T N. unfold run_tests. rewrite (to_test_selected _ _ _ _ T). destruct sel as [|f fs']; [congruence|]. set (sel := f :: fs') in *. intros H.
  unfold io_bind at 1 in H. destruct (run_test_files decode E os (ta_trace a) sel w) as [q w1] eqn:F. apply files_run in F as (A & (out & B & B') & C).
  destruct q as [xs|e|c]; [|contradiction|injection H as <- <-; auto].
  unfold io_seq, print_if in H. cbv zeta in H. destruct (ta_quiet a); cbn [negb] in H; unfold io_bind, io_ret in H; rewrite ?print_runs in H; injection H as <- <-.
  - split; [split; apply A|]. exists xs, out. split; auto. split; auto. cbv zeta. cbn [w_stdout]. split; auto. rewrite B, <- app_assoc. reflexivity.
  - split; [split; apply A|]. exists xs, out. split; auto. split; auto. cbv zeta. cbn [w_stdout]. split; auto. rewrite B, <- !app_assoc. reflexivity.
Qed.
Lemma report_passed name ok x : report name ok x -> tr_passed x = ok.
Proof. intros (_ & H & _). exact H. Qed.
Lemma all_passed xs : zlen (filter tr_passed xs) <= zlen xs /\ (zlen (filter tr_passed xs) = zlen xs <-> Forall (fun x => tr_passed x = true) xs).
Proof.
  induction xs as [|x xs [A B]]; [split; [reflexivity|split; auto]|]. cbn [filter]. pose proof (zlen_nonneg xs). destruct (tr_passed x) eqn:P.
  - rewrite !zlen_cons. split; [lia|]. split.
    + intros H1. constructor; auto. apply B. lia.
    + intros H1. inversion H1; subst. apply B in H4. lia.
  - rewrite !zlen_cons. split; [lia|]. split; [lia|]. intros H1. inversion H1; subst. congruence.
Qed.

(** Nothing is written, and the exit status is 0 exactly if every selected test passes.
    (A script that takes the process down ends the run without a status, C09.) *)
Theorem tests_exit_status decode E os globbed a sel w r w' : to_test E a globbed sel ->
  run_tests decode E os globbed a w = (r, w') ->
  no_write w w' /\
  match r with
  | Err _ => False
  | Crash _ => True
  | Ok code => (code = 0 \/ code = 1) /\ (code = 0 -> Forall (file_passes E os decode (w_fs w)) sel) /\
      (no_faults os -> Forall (file_passes E os decode (w_fs w)) sel -> code = 0)
  end.
Proof.
  intros T H. destruct sel as [|f fs'] eqn:S.
  { unfold run_tests in H. rewrite (to_test_selected _ _ _ _ T) in H. unfold io_seq, io_bind in H. rewrite print_runs in H. injection H as <- <-.
    split; [split; reflexivity|]. repeat split; auto. }
  rewrite <- S in *. apply (run_tests_run _ _ _ _ _ sel) in H; [|auto|congruence]. destruct H as (A & B). split; auto. destruct r as [code|e|c]; auto.
  destruct B as (xs & out & F & _ & B). cbv zeta in B. destruct B as (_ & ->). destruct (all_passed xs) as [L M].
  assert (Code : (if zlen (filter tr_passed xs) <? zlen xs then 1 else 0) = 0 <-> Forall (fun x => tr_passed x = true) xs).
  { rewrite <- M. destruct (zlen (filter tr_passed xs) <? zlen xs) eqn:Q; lia. }
  split; [destruct (_ <? _); auto|]. rewrite Code. clear - F. split.
  - intros H. induction F as [|g x gs xs (ok & R & P & _) F IH]; [constructor|]. inversion H; subst. constructor; auto. apply P. apply report_passed in R. congruence.
  - intros NF H. induction F as [|g x gs xs (ok & R & _ & P) F IH]; [constructor|]. inversion H; subst. constructor; auto. apply report_passed in R. rewrite R. auto.
Qed.
Lemma passes_counted decode E os s sel xs : no_faults os -> Forall2 (fits_report decode E os s) sel xs ->
  how_many (file_passes E os decode s) sel (zlen (filter tr_passed xs)).
Proof.
  intros NF F. induction F as [|f x fs' xs (ok & R & P & Q) F (m & IH & L)]; [exists []; split; [constructor|reflexivity]|].
  cbn [filter]. rewrite (report_passed _ _ _ R). destruct ok.
  - exists (f :: m). split; [constructor; auto|]. rewrite !zlen_cons. lia.
  - exists m. split; auto. constructor; auto. intros H. apply Q in H; auto. discriminate.
Qed.
(** the last thing printed is the number of selected tests that passed and that failed *)
Theorem tests_counted decode E os globbed a sel w code w' : to_test E a globbed sel -> sel <> [] -> no_faults os ->
  run_tests decode E os globbed a w = (Ok code, w') ->
  exists before p, how_many (file_passes E os decode (w_fs w)) sel p /\
    w_stdout w' = w_stdout w ++ before ++ summary p (zlen sel - p) (zlen sel).
Proof.
  intros T N NF H. apply (run_tests_run _ _ _ _ _ sel) in H; auto. destruct H as (_ & xs & out & F & _ & B). cbv zeta in B. destruct B as (B & _).
  assert (L : zlen xs = zlen sel) by (clear - F; induction F; rewrite ?zlen_cons; auto; lia). rewrite L in B.
  revert B. match goal with |- _ = _ ++ out ++ ?x ++ _ -> _ => set (listing := x) end. intros B.
  exists (out ++ listing), (zlen (filter tr_passed xs)). split; [now apply passes_counted|]. rewrite B, <- !app_assoc. reflexivity.
Qed.
(** no pattern matches, or there are no tests: that counts as success *)
Theorem no_tests_succeed decode E os globbed a w : to_test E a globbed [] ->
  fst (run_tests decode E os globbed a w) = Ok 0 /\ w_stdout (snd (run_tests decode E os globbed a w)) = w_stdout w ++ bs "No test files found" ++ [nl].
Proof. intros T. unfold run_tests. rewrite (to_test_selected _ _ _ _ T). split; reflexivity. Qed.
(** a first pattern that is not a regular expression is reported, no test is run *)
Theorem invalid_pattern_reported decode E os globbed a p ps f files e w : ta_include a = p :: ps -> re_error E p = Some e ->
  candidates a globbed (f :: files) ->
  fst (run_tests decode E os globbed a w) = Ok 1 /\
  w_stdout (snd (run_tests decode E os globbed a w)) = w_stdout w ++ bs "Error: invalid pattern " ++ p ++ bs ": " ++ e ++ [nl].
Proof.
  intros I R C. unfold run_tests. rewrite I. assert (F : match ta_files a with [] => globbed | l => l end = f :: files).
  { destruct C as [[-> ->]|[N ->]]; [reflexivity|]. now destruct (ta_files a). }
  rewrite F. cbn [select includes]. rewrite R. split; reflexivity.
Qed.

Definition demo_test : test_case := mkTest (bs "ab") (bs "insert ""!""") (bs "!ab") [] [] [].
Definition demo_decode (c : str) : test_case + str := if str_eqb c (bs "good") then inl demo_test else if str_eqb c (bs "bad") then inl (mkTest [] [] (bs "x") [] [] []) else inr (bs "EOF").
Definition demo_os : OS := Build_OS (fun n => n) (fun _ => None) (fun n => bs "open " ++ n) (fun _ => None) (fun _ => None) (fun _ => None) (fun _ => None).
Definition demo_fs : fs := fun n => if str_eqb n (bs "t/a.xml") then Some (bs "good") else if str_eqb n (bs "t/b.xml") then Some (bs "bad") else None.
(** an invalid pattern goes unnoticed if an earlier one matches every file, or if there are
    no files *)
Theorem invalid_pattern_refuted : exists decode os a w code, exists p, In p (ta_include a) /\ re_error ref_ext p <> None /\
  ta_files a <> [] /\ fst (run_tests decode ref_ext os [] a w) = Ok code /\ code = 0.
Proof.
  exists demo_decode, demo_os, (mkTestArgs [bs "t/a.xml"] [bs "a"; bs "("] false false false false), (init_world demo_fs []), 0, (bs "(").
  split; [right; left; reflexivity|]. split; [vm_compute; discriminate|]. split; [discriminate|]. split; [vm_compute; reflexivity|reflexivity].
Qed.
Definition demo_args : test_args := mkTestArgs [] [bs ".xml"] false false true false.
Definition lines (l : list str) : str := flat_map (fun s => s ++ [nl]) l.
Example tests_witness : let E := rx_ext in let files := [bs "t/a.xml"; bs "README"; bs "t/b.xml"; bs "t/c.xml"] in
  let run := run_tests demo_decode E demo_os files demo_args (init_world demo_fs []) in
  to_test E demo_args files [bs "t/a.xml"; bs "t/b.xml"; bs "t/c.xml"] /\
  file_passes E demo_os demo_decode demo_fs (bs "t/a.xml") /\ ~ file_passes E demo_os demo_decode demo_fs (bs "t/b.xml") /\
  fst run = Ok 1 /\ w_stdout (snd run) = lines [bs "[FAIL] b.xml"; bs "  Error: output mismatch:"; bs "expected: ""x"""; bs "actual: """"";
    bs "[FAIL] c.xml"; bs "  Error: opening test file t/c.xml: open t/c.xml"; []; bs "Tests: 1 passed, 2 failed, 3 total"].
Proof.
  cbv zeta. split; [|split; [|split; [|split; vm_compute; reflexivity]]].
  - exists [bs "t/a.xml"; bs "README"; bs "t/b.xml"; bs "t/c.xml"]. split; [left; split; reflexivity|]. split; [repeat constructor|]. right. split; [discriminate|].
    apply select_spec. vm_compute. reflexivity.
  - exists (bs "good"), demo_test. split; [reflexivity|]. split; [reflexivity|]. vm_compute. reflexivity.
  - intros (c & t & A & B & C). vm_compute in A. injection A as <-. injection B as <-. vm_compute in C. discriminate.
Qed.
Example no_tests_witness : let a := mkTestArgs [bs "t/b.xml"] [bs "zzz"] false false false false in
  to_test rx_ext a [] [] /\ fst (run_tests demo_decode rx_ext demo_os [] a (init_world demo_fs [])) = Ok 0.
Proof.
  cbv zeta. split; [|vm_compute; reflexivity]. exists [bs "t/b.xml"]. split; [right; split; [discriminate|reflexivity]|]. split; [repeat constructor|]. right. split; [discriminate|].
  apply select_spec. vm_compute. reflexivity.
Qed.
Example invalid_pattern_witness : re_error rx_ext (bs "(") <> None /\
  fst (run_tests demo_decode rx_ext demo_os [bs "t/a.xml"] (mkTestArgs [] [bs "("; bs "a"] false false false false) (init_world demo_fs [])) = Ok 1.
Proof. split; [vm_compute; discriminate|vm_compute; reflexivity]. Qed.

(** ** C55 *)
(** what is shown of a test *)
Definition shown (E : Ext) (os : OS) (decode : str -> test_case + str) (fail_only : bool) (s : fs) (f text : str) : Prop :=
  exists name, last_component f name /\
  (file_passes E os decode s f /\ text = (if fail_only then [] else bs "[PASS] " ++ name ++ [nl]) \/
   ~ file_passes E os decode s f /\ exists e, text = bs "[FAIL] " ++ name ++ [nl] ++ bs "  Error: " ++ e ++ [nl]).
(** without --quiet and --trace: one entry for each test in the order of the files, and
    the summary; --fail-only leaves out exactly the entries of the tests that pass *)
Theorem tests_reported decode E os globbed a sel w code w' : to_test E a globbed sel -> sel <> [] -> no_faults os ->
  ta_quiet a = false -> ta_trace a = false -> run_tests decode E os globbed a w = (Ok code, w') ->
  exists texts p, Forall2 (shown E os decode (ta_fail_only a) (w_fs w)) sel texts /\
    how_many (file_passes E os decode (w_fs w)) sel p /\
    w_stdout w' = w_stdout w ++ concat texts ++ summary p (zlen sel - p) (zlen sel).
Proof.
  intros T N NF Q Tr H. apply (run_tests_run _ _ _ _ _ sel) in H; auto. destruct H as (_ & xs & out & F & O & B). cbv zeta in B. destruct B as (B & _).
  rewrite Q, (O Tr) in B. cbn [app] in B. assert (L : zlen xs = zlen sel) by (clear - F; induction F; rewrite ?zlen_cons; auto; lia). rewrite L in B.
  exists (map (fun x => if ta_fail_only a && tr_passed x then [] else result_text E (ta_verbose a) x) xs), (zlen (filter tr_passed xs)).
  split; [|split; [now apply passes_counted|]].
  - clear - F NF. induction F as [|f x fs' xs (ok & R & P & Q) F IH]; [constructor|]. cbn [map]. constructor; auto. exists (base_name f). split; [now apply test_name|].
    destruct R as (R1 & R2 & R3 & R4). rewrite R2. destruct ok.
    + left. split; auto. rewrite andb_true_r. destruct (ta_fail_only a); auto. destruct (R3 eq_refl) as (X & Y & Z). unfold result_text. rewrite R1, R2, X, Y, Z. cbn [negb orb nonempty].
      rewrite !andb_false_r. destruct (ta_verbose a); rewrite app_nil_r; reflexivity.
    + right. split; [intros H; apply Q in H; auto; discriminate|]. rewrite andb_false_r. specialize (R4 eq_refl). unfold result_text. rewrite R1, R2.
      destruct (tr_error x) as [e|]; [|congruence]. exists e. reflexivity.
  - rewrite B. f_equal. f_equal. destruct (ta_fail_only a); clear; (induction xs as [|x xs IH]; [reflexivity|]); cbn [map concat flat_map filter andb].
    + destruct (tr_passed x); cbn [negb flat_map]; now rewrite IH.
    + now rewrite IH.
Qed.
(** with --quiet: the summary only *)
Theorem quiet_tests decode E os globbed a sel w code w' : to_test E a globbed sel -> sel <> [] -> no_faults os ->
  ta_quiet a = true -> ta_trace a = false -> run_tests decode E os globbed a w = (Ok code, w') ->
  exists p, how_many (file_passes E os decode (w_fs w)) sel p /\ w_stdout w' = w_stdout w ++ summary p (zlen sel - p) (zlen sel).
Proof.
  intros T N NF Q Tr H. apply (run_tests_run _ _ _ _ _ sel) in H; auto. destruct H as (_ & xs & out & F & O & B). cbv zeta in B. destruct B as (B & _).
  rewrite Q, (O Tr) in B. cbn [app] in B. assert (L : zlen xs = zlen sel) by (clear - F; induction F; rewrite ?zlen_cons; auto; lia). rewrite L in B.
  exists (zlen (filter tr_passed xs)). split; [now apply passes_counted|exact B].
Qed.
Example quiet_tests_witness : w_stdout (snd (run_tests demo_decode rx_ext demo_os [bs "t/a.xml"; bs "t/b.xml"]
    (mkTestArgs [] [] false true false false) (init_world demo_fs []))) = lines [[]; bs "Tests: 1 passed, 1 failed, 2 total"].
Proof. vm_compute. reflexivity. Qed.
Definition with_verbose (v : bool) (a : test_args) : test_args :=
  mkTestArgs (ta_files a) (ta_include a) v (ta_quiet a) (ta_fail_only a) (ta_trace a).
(** --verbose (commands/test.go:53: "Show verbose output with before/after buffer states")
    has no effect whatsoever: no test result ever carries states that would be shown *)
Theorem verbose_tests_refuted decode E os globbed a w :
  run_tests decode E os globbed (with_verbose true a) w = run_tests decode E os globbed (with_verbose false a) w.
Proof.
  unfold run_tests, with_verbose. cbn [ta_files ta_include ta_verbose ta_quiet ta_fail_only ta_trace].
  destruct (match ta_include a with [] => _ | _ => _ end) as [[|f fs']|]; try reflexivity. set (sel := f :: fs'). unfold io_bind.
  destruct (run_test_files decode E os (ta_trace a) sel w) as [q w1] eqn:F. apply files_run in F as (_ & _ & C). destruct q as [xs|e|c]; try reflexivity.
  assert (X : forall keep, flat_map (result_text E true) (filter keep xs) = flat_map (result_text E false) (filter keep xs)).
  { intros keep. clear - C. induction C as [|g x gs xs (ok & (R1 & R2 & R3 & R4) & _) C IH]; [reflexivity|]. cbn [filter]. destruct (keep x); auto. cbn [flat_map]. rewrite IH. f_equal.
    unfold result_text. f_equal. f_equal. f_equal. f_equal. f_equal. destruct ok.
    - destruct (R3 eq_refl) as (-> & -> & ->). rewrite R2. reflexivity.
    - destruct (tr_error x); [reflexivity|]. now destruct (R4 eq_refl). }
  assert (Y : flat_map (result_text E true) (if ta_fail_only a then filter (fun r => negb (tr_passed r)) xs else xs) =
              flat_map (result_text E false) (if ta_fail_only a then filter (fun r => negb (tr_passed r)) xs else xs)).
  { destruct (ta_fail_only a); [apply X|]. specialize (X (fun _ => true)). replace (filter (fun _ => true) xs) with xs in X; auto.
    clear. induction xs as [|x xs IH]; [reflexivity|]. cbn [filter]. now rewrite <- IH. }
  cbv zeta. rewrite Y. reflexivity.
Qed.
(** --trace does not change what the tests do; it prints, for every instruction that
    succeeded, in order, the instruction and the buffer it left *)
Theorem trace_printed E env name t : fst (run_test_full E env true name t) = fst (run_test_full E env false name t) /\
  (forall prog, (match trim_space (t_input t) with [] => POk [] | s => parse_string s end) = POk prog ->
   exists trace rest, prog = map fst trace ++ rest /\
    (forall l1 i bi l2, trace = l1 ++ (i, bi) :: l2 -> exists v, Spec.runs env (map fst l1 ++ [i]) (new_buffer (t_buffer t)) v bi) /\
    match rest with
    | [] => True
    | i :: _ => forall v b1 w b2, Spec.runs env (map fst trace) (new_buffer (t_buffer t)) v b1 -> ~ evaluates env i b1 w b2
    end /\
    snd (run_test_full E env true name t) = flat_map (fun x => lines [bs "TRACE: Executed instruction: " ++ fmt_value E (fst x);
       bs "  Buffer content: " ++ quote E (content (snd x)); bs "  Point: " ++ itoa (point (snd x)) ++ bs ", Mark: " ++ itoa (mark (snd x)); []]) trace).
Proof.
  split.
  - unfold run_test_full. destruct (match trim_space (t_input t) with [] => _ | _ => _ end) as [prog|e|]; try reflexivity.
    pose proof (trace_same E env prog true (new_buffer (t_buffer t))) as A. pose proof (trace_same E env prog false (new_buffer (t_buffer t))) as B.
    cbv iota in *. destruct (eval_with_trace E env prog (Some (trace_callback E)) [] _) as [q1 o1]. destruct (eval_with_trace E env prog None [] _) as [q2 o2].
    cbn [fst] in *. now subst q1 q2.
  - intros prog P. destruct (trace_lists_successful_instructions E env prog (new_buffer (t_buffer t))) as (rest & A & B & C). cbv zeta in *.
    exists (snd (eval_with_trace E env prog (Some recorder) [] (new_buffer (t_buffer t)))), rest. split; auto. split; auto. split; auto.
    unfold run_test_full. rewrite P. pose proof (observer_sees_what_is_recorded E env prog (trace_callback E) [] (new_buffer (t_buffer t)) (fun _ _ _ => eq_refl)) as O.
    cbv iota in *. destruct (eval_with_trace E env prog (Some (trace_callback E)) [] _) as [q o]. cbn [snd] in *. rewrite O.
    generalize (snd (eval_with_trace E env prog (Some recorder) [] (new_buffer (t_buffer t)))). intros l. clear.
    assert (G : forall acc, fold_left (fun t x => fst (trace_callback E t (fst x) (snd x))) l acc = acc ++ flat_map (fun x => trace_text E (fst x) (snd x)) l).
    { induction l as [|x l IH]; intros acc; cbn [fold_left flat_map]; [now rewrite app_nil_r|]. rewrite IH. cbn [trace_callback fst]. now rewrite app_assoc. }
    rewrite G. cbn [app]. apply flat_map_ext. intros x. unfold trace_text, lines. cbn [flat_map]. rewrite <- !app_assoc. reflexivity.
Qed.
Example trace_printed_witness : snd (run_test_full ref_ext (default_env ref_ext) true (bs "a") (mkTest (bs "ab") (bs "forward-char; insert ""x""; no-such") [] [] [] []))
  = lines [bs "TRACE: Executed instruction: (forward-char)"; bs "  Buffer content: ""ab"""; bs "  Point: 2, Mark: 1"; [];
           bs "TRACE: Executed instruction: (insert ""x"")"; bs "  Buffer content: ""axb"""; bs "  Point: 3, Mark: 1"; []].
Proof. vm_compute. reflexivity. Qed.
(** the instruction shown is not always the instruction executed: strings are not escaped *)
Theorem trace_exact_refuted E : exists i j, i <> j /\ fmt_value E i = fmt_value E j /\
  (exists s, parse_string s = POk [i]) /\ (exists s, parse_string s = POk [j]).
Proof.
  exists (VList [VSym (bs "insert"); VStr (bs "a"" ""b")]), (VList [VSym (bs "insert"); VStr (bs "a"); VStr (bs "b")]).
  split; [discriminate|]. split; [reflexivity|]. split; [exists (bs "(insert ""a\"" \""b"")")|exists (bs "(insert ""a"" ""b"")")]; vm_compute; reflexivity.
Qed.

(** ** Assumptions of every theorem above *)
Print Assumptions test_name.
Print Assumptions tests_exit_status.
Print Assumptions tests_counted.
Print Assumptions no_tests_succeed.
Print Assumptions invalid_pattern_reported.
Print Assumptions invalid_pattern_refuted.
Print Assumptions tests_reported.
Print Assumptions quiet_tests.
Print Assumptions verbose_tests_refuted.
Print Assumptions trace_printed.
Print Assumptions trace_exact_refuted.
