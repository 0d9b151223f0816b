(** C75: what texted edit and texted parse say. *)
From Coq Require Import ZArith NArith List Bool Lia Strings.Byte.
From Verif Require Import Base Float Ext Utf8 Strconv Values Buffer Builtins Eval Parser Json Writer Files Cli SpecFiles SpecEdit RefExt
  Proofs_Base Proofs_Files Proofs_Cli Proofs_Lines Proofs_Grammar Proofs_Told Prop_Parse Prop_Files.
Import ListNotations.
Open Scope Z_scope.

(** ** C75 *)
(** every run of texted edit, in every mode: what is done in which order, what is printed,
    and how it ends *)
Theorem edit_told E os a w r w' : run_edit E os a w = (r, w') <-> edit_run E os a w r w'.
Proof. split; [apply edit_complete|apply edit_sound]. Qed.
(** a run with a backup, remarks, a file that is missing and a file that works *)
Example edit_told_witness : let a := mkEditArgs (bs "shell") (bs "insert ""!""") [] [] true [] (bs "~") true false false false false false (bs "shell") [bs "gone"; bs "f"] in
  let '(r, w') := run_edit ref_ext demo_os a (demo [(bs "f", bs "1")]) in
  r = Err (bs "some files could not be edited") /\ w_fs w' (bs "f") = Some (bs "!1") /\ w_fs w' (bs "f~") = Some (bs "1") /\
  w_stdout w' = flat_map (fun l => l ++ [nl]) [bs "Processing gone in place"; bs "Creating backup gone~"; bs "✗ Failed to read gone for backup: no such file";
    bs "Processing f in place"; bs "Creating backup f~"; bs "✓ Successfully edited f"].
Proof. vm_compute. repeat split; reflexivity. Qed.

Lemma with_text_out t m : snd (with_text t m) = snd m. Proof. reflexivity. Qed.
Lemma save_out os f t w r w' : os_write_file os f t w = (r, w') -> w_stdout w' = w_stdout w.
Proof. intros H. apply write_spec in H as ((Q & _) & _). exact Q. Qed.
Lemma read_out os f w r w' : os_read_file os f w = (r, w') -> w_stdout w' = w_stdout w.
Proof. intros H. apply read_spec in H as (_ & (Q & _) & _). exact Q. Qed.
Lemma told_out s w : w_stdout (told s w) = w_stdout w ++ s. Proof. reflexivity. Qed.

(** *** --quiet *)
Section Quiet.
  Variables (E : Ext) (os : OS) (a : edit_args).
  Hypothesis Q : a_quiet a = true.
  Lemma remark_quiet s : remark a s = []. Proof. unfold remark. now rewrite Q. Qed.
  Lemma notice_quiet s : notice a s = []. Proof. unfold notice. now rewrite Q. Qed.
  Lemma quiet_steps format script l t w r w' : ~ In PrintText (map snd l) -> carried_out E os a format script l t w r w' -> w_stdout w' = w_stdout w.
  Proof.
    intros N C. induction C as [t w|p s l t w t1 w1 r w2 D _ IH|p s l t w e w1 D|p s l t w c w1 D]; [reflexivity| | |].
    - transitivity (w_stdout w1); [apply IH; cbn [map snd] in N; intros I; apply N; now right|].
      destruct s; cbn [step_done] in D.
      + eapply read_out; eauto. + apply stdin_spec in D. tauto. + injection D as _ <-. reflexivity.
      + unfold with_text in D. destruct (os_write_file os f t w) as [q w0] eqn:W. injection D as _ <-. eapply save_out; eauto.
      + destruct N. left. reflexivity. + injection D as _ <-. rewrite remark_quiet, told_nil. reflexivity.
    - destruct s; cbn [step_done] in D.
      + eapply read_out; eauto. + apply stdin_spec in D. tauto. + injection D as _ <-. reflexivity.
      + unfold with_text in D. destruct (os_write_file os f t w) as [q w0] eqn:W. injection D as _ <-. eapply save_out; eauto.
      + destruct N. left. reflexivity. + injection D as _ <-. rewrite remark_quiet, told_nil. reflexivity.
    - destruct s; cbn [step_done] in D.
      + eapply read_out; eauto. + apply stdin_spec in D. tauto. + injection D as _ <-. reflexivity.
      + unfold with_text in D. destruct (os_write_file os f t w) as [q w0] eqn:W. injection D as _ <-. eapply save_out; eauto.
      + destruct N. left. reflexivity. + injection D as _ <-. rewrite remark_quiet, told_nil. reflexivity.
  Qed.
  Lemma carry_app format script l l' t w : carry E os a format script (l ++ l') t w =
    match carry E os a format script l t w with (Ok t1, w1) => carry E os a format script l' t1 w1 | r => r end.
  Proof.
    revert t w. induction l as [|[p s] l IH]; intros t w; cbn [app carry]; [reflexivity|].
    destruct (step_done E os a format script s t w) as [[t1|e|c] w1]; [apply IH|reflexivity|reflexivity].
  Qed.
  (** the result printed last: all or nothing *)
  Lemma quiet_last format script l t w r w' : ~ In PrintText (map snd l) -> carried_out E os a format script (l ++ [([], PrintText)]) t w r w' ->
    w_stdout w' = w_stdout w /\ r <> Ok [] /\ (forall x, r <> Ok x) \/ exists x, r = Ok x /\ w_stdout w' = w_stdout w ++ x.
  Proof.
    intros N C. apply carry_spec in C. rewrite carry_app in C. destruct (carry E os a format script l t w) as [[t1|e|c] w1] eqn:C1.
    - apply carry_spec in C1. apply (quiet_steps _ _ _ _ _ _ _ N) in C1. cbn [carry step_done] in C. unfold with_text in C.
      destruct (os_write_stdout os t1 w1) as [q w2] eqn:O. apply stdout_spec in O as (_ & _ & [[[e ->] O]|[-> O]]); cbn [fst snd] in C; injection C as <- <-.
      + left. split; [congruence|]. split; discriminate.
      + right. exists t1. split; [reflexivity|congruence].
    - injection C as <- <-. apply carry_spec in C1. apply (quiet_steps _ _ _ _ _ _ _ N) in C1. left. split; auto. split; discriminate.
    - injection C as <- <-. apply carry_spec in C1. apply (quiet_steps _ _ _ _ _ _ _ N) in C1. left. split; auto. split; discriminate.
  Qed.
  Lemma quiet_plan f : ~ In PrintText (map snd (in_place_plan a f)).
  Proof. unfold in_place_plan, backup_plan. destruct (a_backup a); cbn; intuition discriminate. Qed.
  Lemma quiet_in_place format script l w vs w' : in_place E os a format script l w vs w' -> w_stdout w' = w_stdout w.
  Proof.
    induction 1 as [w|f l w t w1 vs w2 C _ IH|f l w m w1 vs w2 C _ IH]; [reflexivity| |]; rewrite IH, notice_quiet, told_nil; eapply quiet_steps; eauto; apply quiet_plan.
  Qed.
  Lemma quiet_dies format script l w c w' : in_place_dies E os a format script l w c w' -> w_stdout w' = w_stdout w.
  Proof.
    induction 1 as [f l w c w1 C|l l' w vs w1 c w2 P _ IH]; [eapply quiet_steps; eauto; apply quiet_plan|]. rewrite IH. eapply quiet_in_place; eauto.
  Qed.
  Lemma quiet_evaluated format source i l b out r : evaluated E a format source i l b out r -> out = [].
  Proof. induction 1; rewrite ?remark_quiet, ?notice_quiet; auto. Qed.
  Lemma quiet_on format l w r w' : evaluated_on E os a format l w r w' -> w_stdout w' = w_stdout w.
  Proof.
    induction 1 as [w|f l w e w1 R|f l w c w1 R|f l w t w1 heading out r R H Ev N|f l w t w1 heading out r w2 R H Ev _ IH]; [reflexivity| | | |].
    - rewrite notice_quiet, told_nil. eapply read_out; eauto.
    - eapply read_out; eauto.
    - apply quiet_evaluated in Ev. subst. rewrite notice_quiet, told_out. rewrite (read_out _ _ _ _ _ R). destruct (a_files a) as [|? [|? ?]]; now rewrite app_nil_r.
    - apply quiet_evaluated in Ev. subst. rewrite IH, notice_quiet, told_out. rewrite (read_out _ _ _ _ _ R). destruct (a_files a) as [|? [|? ?]]; now rewrite app_nil_r.
  Qed.
  Lemma quiet_would l : flat_map (would a) l = [].
  Proof. induction l as [|f l IH]; [reflexivity|]. cbn [flat_map]. unfold would at 1. now rewrite remark_quiet, notice_quiet, IH. Qed.
End Quiet.
Lemma script_out os a w r w1 : script_read os a w r w1 -> w_stdout w1 = w_stdout w.
Proof. intros H. apply script_sound in H. apply get_script_spec in H as (_ & (Q & _) & _). exact Q. Qed.
(** with --quiet nothing at all is printed, but the edited text when it goes to standard output *)
Theorem quiet_prints_results_only E os a w r w' : a_quiet a = true -> run_edit E os a w = (r, w') ->
  w_stdout w' = w_stdout w \/
  r = Ok tt /\ a_expressions a = [] /\ a_dry_run a = false /\ a_output a = [] /\ (a_in_place a = false \/ a_files a = []) /\ exists out, w_stdout w' = w_stdout w ++ out.
Proof.
  intros Q H. apply edit_told in H.
  destruct H as [format m F C|format r w1 F A X N R NR|format t out r w1 F A X N R Ev|format r w1 F A X N Ev|format r w1 F A X Sc NS|format s w1 F A X Sc P L|format s w1 r w2 F A X Sc D N R|format s w1 F A X Sc D N L|format s w1 r w2 F A X Sc D N C|format s w1 f r w2 F A X Sc D P N C|format s w1 vs w2 F A X Sc D P N C|format s w1 c w2 F A X Sc D P N C];
    try (apply script_out in Sc; rewrite <- Sc).
  - now left.
  - left. apply stdin_spec in R. tauto.
  - left. apply (quiet_evaluated _ _ Q) in Ev. subst. rewrite told_nil. apply stdin_spec in R. tauto.
  - left. eapply quiet_on; eauto.
  - now left.
  - now left.
  - left. apply stdin_spec in R as (_ & O & _). destruct r; auto. now rewrite remark_quiet, notice_quiet, told_nil.
  - left. now rewrite quiet_would, told_nil.
  - unfold filter_plan, destination in C. destruct (a_output a) as [|b o] eqn:O.
    + cbn [app] in C. apply (quiet_last E os a Q _ _ [_; _; _]) in C; [|cbn; intuition discriminate]. destruct C as [[C _]|(x & -> & C)]; [now left|].
      right. repeat (split; auto). eauto.
    + left. eapply (quiet_steps E os a Q); [|exact C]. cbn. intuition discriminate.
  - unfold file_plan, destination in C. destruct (a_output a) as [|b o] eqn:O.
    + apply (quiet_last E os a Q _ _ [_; _; _]) in C; [|cbn; intuition discriminate]. destruct C as [[C _]|(x & -> & C)]; [now left|].
      right. repeat (split; auto). eauto.
    + left. eapply (quiet_steps E os a Q); [|exact C]. cbn. intuition discriminate.
  - left. eapply quiet_in_place; eauto.
  - left. eapply quiet_dies; eauto.
Qed.
Example quiet_witness : let a := mkEditArgs (bs "shell") (bs "insert ""!""") [] [] true [] (bs "~") true true false false false false (bs "shell") [bs "gone"; bs "f"] in
  let '(r, w') := run_edit ref_ext demo_os a (demo [(bs "f", bs "1")]) in
  r = Err (bs "some files could not be edited") /\ w_fs w' (bs "f") = Some (bs "!1") /\ w_stdout w' = [].
Proof. vm_compute. repeat split; reflexivity. Qed.

(** *** In place *)
(** what can be said about a file that could not be edited *)
Definition failure (a : edit_args) (f m : str) : Prop := exists e,
  m = bs "✗ Failed to read " ++ f ++ bs ": " ++ e \/ m = bs "✗ Failed to process " ++ f ++ bs ": " ++ e \/ m = bs "✗ Failed to write " ++ f ++ bs ": " ++ e \/
  a_backup a <> [] /\ (m = bs "✗ Failed to read " ++ f ++ bs " for backup: " ++ e \/ m = bs "✗ Failed to create backup " ++ f ++ a_backup a ++ bs ": " ++ e).
Lemma carried_error E os a format script l t w m w' : carried_out E os a format script l t w (Err m) w' ->
  exists p s e, In (p, s) l /\ m = p ++ e /\ (forall x, s <> Remark x).
Proof.
  remember (Err m) as r eqn:Er. intros C. revert m Er. induction C as [t w|p s l t w t1 w1 r w2 D _ IH|p s l t w e w1 D|p s l t w c w1 D]; intros m Er; try discriminate.
  - destruct (IH m Er) as (p' & s' & e & I & A & B). exists p', s', e. split; [now right|auto].
  - injection Er as <-. exists p, s, e. split; [now left|]. split; [reflexivity|]. intros x ->. discriminate.
Qed.
Lemma plan_failure E os a format script f t w m w' : carried_out E os a format script (in_place_plan a f) t w (Err m) w' -> failure a f (bs "✗ " ++ m).
Proof.
  intros C. apply carried_error in C as (p & s & e & I & -> & B). exists e. unfold in_place_plan, backup_plan in I. cbn [app In] in I.
  destruct I as [I|I]; [injection I as _ <-; now destruct (B _ eq_refl)|]. apply in_app_iff in I as [I|I].
  - destruct (a_backup a) as [|x l] eqn:K; [destruct I|]. destruct I as [I|[I|[I|[]]]]; apply pair_equal_spec in I as [<- <-].
    + now destruct (B _ eq_refl).
    + right. right. right. split; [discriminate|]. left. rewrite <- !app_assoc. reflexivity.
    + right. right. right. split; [discriminate|]. right. repeat (rewrite <- app_assoc; cbn [app]). cbn [app]. reflexivity.
  - destruct I as [I|[I|[I|[]]]]; apply pair_equal_spec in I as [<- <-]; [left|right; left|right; right; left]; rewrite <- !app_assoc; reflexivity.
Qed.
Section Plain.
  Variables (E : Ext) (os : OS) (a : edit_args).
  Hypothesis (Q : a_quiet a = false) (V : a_verbose a = false).
  Lemma plain_steps format script l t w r w' : ~ In PrintText (map snd l) -> carried_out E os a format script l t w r w' -> w_stdout w' = w_stdout w.
  Proof.
    assert (RM : forall s, remark a s = []) by (intros s; unfold remark; now rewrite Q, V).
    intros N C. induction C as [t w|p s l t w t1 w1 r w2 D _ IH|p s l t w e w1 D|p s l t w c w1 D]; [reflexivity| | |].
    1: transitivity (w_stdout w1); [apply IH; cbn [map snd] in N; intros I; apply N; now right|].
    all: destruct s; cbn [step_done] in D;
      [eapply read_out; eauto|apply stdin_spec in D; tauto|injection D as _ <-; reflexivity|
       unfold with_text in D; destruct (os_write_file os f t w) as [q w0] eqn:W; injection D as _ <-; eapply save_out; eauto|
       destruct N; left; reflexivity|injection D as _ <-; rewrite RM, told_nil; reflexivity].
  Qed.
  Lemma plain_in_place format script l w vs w' : in_place E os a format script l w vs w' ->
    w_stdout w' = w_stdout w ++ flat_map (fun v => fst v ++ [nl]) vs /\
    Forall2 (fun f v => v = (bs "✓ Successfully edited " ++ f, true) \/ snd v = false /\ failure a f (fst v)) l vs.
  Proof.
    induction 1 as [w|f l w t w1 vs w2 C _ [O F]|f l w m w1 vs w2 C _ [O F]].
    - split; [now rewrite app_nil_r|constructor].
    - split; [|constructor; auto]. rewrite O. unfold notice. rewrite Q. rewrite told_out. apply plain_steps in C; [|apply quiet_plan]. rewrite C. cbn [flat_map fst]. now rewrite <- !app_assoc.
    - split; [|constructor; [right; split; [reflexivity|eapply plan_failure; eauto]|auto]]. rewrite O. unfold notice. rewrite Q. rewrite told_out. apply plain_steps in C; [|apply quiet_plan]. rewrite C. cbn [flat_map fst]. now rewrite <- !app_assoc.
  Qed.
End Plain.
(** in place, every file gets exactly one line, in order: a check mark, or a cross and the
    step that failed; the run is a success exactly when there is no cross *)
Theorem one_verdict_per_file E os a w r w' : a_in_place a = true -> a_files a <> [] -> a_expressions a = [] -> a_dry_run a = false -> a_quiet a = false -> a_verbose a = false ->
  run_edit E os a w = (r, w') ->
  (exists c, r = Crash c) \/ (* the process is gone *)
  (exists m, r = Err m /\ w_stdout w' = w_stdout w /\ no_write w w') \/ (* the flags or the script are wrong *)
  exists said, w_stdout w' = w_stdout w ++ flat_map (fun v => fst v ++ [nl]) said /\
    Forall2 (fun f v => v = (bs "✓ Successfully edited " ++ f, true) \/ snd v = false /\ failure a f (fst v)) (a_files a) said /\
    (Forall (fun v => snd v = true) said /\ r = Ok tt \/ Exists (fun v => snd v = false) said /\ r = Err (bs "some files could not be edited")).
Proof.
  intros IP Fs Ex Dr Qu Ve H. apply edit_told in H.
  destruct H as [format m F C|format r w1 F A X N R NR|format t out r w1 F A X N R Ev|format r w1 F A X N Ev|format r w1 F A X Sc NS|format s w1 F A X Sc P L|format s w1 r w2 F A X Sc D N R|format s w1 F A X Sc D N L|format s w1 r w2 F A X Sc D N C|format s w1 f r w2 F A X Sc D P N C|format s w1 vs w2 F A X Sc D P N C|format s w1 c w2 F A X Sc D P N C];
    try congruence.
  - right. left. exists m. repeat split.
  - pose proof (script_out _ _ _ _ _ Sc) as O. destruct r as [s|e|c]; [now destruct (NS s)| |left; eexists; reflexivity].
    right. left. exists e. split; [reflexivity|]. split; [exact O|]. apply script_sound, get_script_spec in Sc. tauto.
  - right. right. exists vs. destruct (plain_in_place E os a Qu Ve _ _ _ _ _ _ C) as [O V]. rewrite (script_out _ _ _ _ _ Sc) in O. split; [exact O|]. split; [exact V|].
    destruct (forallb snd vs) eqn:K.
    + left. split; [|reflexivity]. rewrite forallb_forall in K. now apply Forall_forall.
    + right. split; [|reflexivity]. clear -K. induction vs as [|[m []] vs IH]; cbn [forallb snd] in K; [discriminate|right; auto|left; reflexivity].
  - left. eauto.
Qed.
Example one_verdict_witness : let a := mkEditArgs (bs "shell") (bs "search-forward ""x""") [] [] true [] [] false false false false false false (bs "shell") [bs "f"; bs "g"] in
  let '(r, w') := run_edit ref_ext demo_os a (demo [(bs "f", bs "ax"); (bs "g", bs "b")]) in
  r = Err (bs "some files could not be edited") /\
  w_stdout w' = (bs "✓ Successfully edited f" ++ [nl]) ++
    bs "✗ Failed to process g: script execution failed: search failed (at instruction 0: (search-forward ""x""), point=1, mark=1)" ++ [nl].
Proof. vm_compute. repeat split; reflexivity. Qed.

(** *** Dry runs *)
(** a dry run looks at neither the script nor the files: it promises what cannot be done *)
Theorem dry_run_promises_refuted : exists a w w1 e w2,
  a_dry_run a = false /\ let dry := mkEditArgs (a_format a) (a_script a) (a_script_file a) (a_expressions a) (a_in_place a) (a_output a) (a_backup a) (a_verbose a) (a_quiet a) true (a_shell a) (a_sexp a) (a_json a) (a_output_format a) (a_files a) in
  run_edit ref_ext demo_os dry w = (Ok tt, w1) /\ w_stdout w1 = w_stdout w ++ bs "Would edit gone in place" ++ [nl] /\
  run_edit ref_ext demo_os a w = (Err e, w2).
Proof.
  exists (mkEditArgs (bs "shell") (bs "no such command (") [] [] true [] [] false false false false false false (bs "shell") [bs "gone"]), (demo []).
  eexists. exists (bs "some files could not be edited"). eexists. split; [reflexivity|]. cbn zeta. split; [reflexivity|]. split; reflexivity.
Qed.

(** *** Expressions *)
(** an invalid --output-format is noticed only when a value is to be written: never with
    --quiet, and after the first expression has been evaluated otherwise *)
Theorem output_format_noticed_late_refuted : exists a w w1, ~ In (a_output_format a) formats /\ run_edit ref_ext demo_os a w = (Ok tt, w1).
Proof.
  exists (mkEditArgs (bs "shell") [] [] [bs "point"] false [] [] false true false false false false (bs "yaml") [bs "f"]), (demo [(bs "f", bs "1")]).
  eexists. split; [cbn; intuition discriminate|reflexivity].
Qed.

(** *** texted parse *)
Theorem parse_told E os from to w r w' : run_parse E os from to w = (r, w') <-> parse_run E os from to w r w'.
Proof.
  assert (IN : forall f, is_valid_format f = true <-> In f formats) by (intros f; apply valid_format).
  assert (NI : forall f, is_valid_format f = false -> ~ In f formats) by (intros f H I; apply IN in I; congruence).
  assert (PI : forall t q, (from = bs "json" /\ parse_json_reader t = q \/ from <> bs "json" /\ parse_string t = q) <-> parse_input from t = q).
  { intros t q. unfold parse_input. destruct (str_eqb from (bs "json")) eqn:J; [apply str_eqb_eq in J; intuition congruence|].
    assert (from <> bs "json") by (intros X; rewrite X in J; discriminate). intuition congruence. }
  assert (PF : forall t, parse_input from t <> PFuel) by (intros t; unfold parse_input; destruct (str_eqb _ _); [apply reader_fuel|apply parse_string_fuel]).
  unfold run_parse. split.
  - destruct (is_valid_format from) eqn:F; cbn [negb].
    2:{ unfold io_fail. intros H. injection H as <- <-. apply pr_refused. constructor. auto. }
    apply IN in F. destruct (is_valid_format to) eqn:T; cbn [negb].
    2:{ unfold io_fail. intros H. injection H as <- <-. apply pr_refused. apply ft_next; [auto|]. constructor. auto. }
    apply IN in T. rewrite bind_wrap. destruct (os_read_stdin os w) as [[t|e|c] w1] eqn:R.
    + destruct (parse_input from t) as [p|m|] eqn:P; [| |now apply PF in P].
      * destruct (write_program E to p) as [out err] eqn:W. intros H. apply PI in P. rewrite (seq_told _ _ _ _ (print_told _ _)) in H.
        destruct err; injection H as <- <-; [apply (pr_written E os from to w t w1 p out (Some s))|apply (pr_written E os from to w t w1 p out None)]; auto.
      * intros H. injection H as <- <-. apply PI in P. eapply pr_unparsed; eauto.
    + intros H. injection H as <- <-. apply (pr_unread E os from to w (Err e)); auto. discriminate.
    + intros H. injection H as <- <-. apply (pr_unread E os from to w (Crash c)); auto. discriminate.
  - intros [m H|r0 w1 F T R N|t w1 m F T R P|t w1 p out err F T R P W].
    + destruct (is_valid_format from) eqn:F; cbn [negb].
      * apply IN in F. inversion H as [? ? ? X|? ? ? ? _ H']; subst; [contradiction|]. inversion H' as [? ? ? X|? ? ? ? _ H'']; subst; [|inversion H''].
        destruct (is_valid_format to) eqn:T; [apply IN in T; contradiction|reflexivity].
      * apply NI in F. inversion H; subst; [reflexivity|contradiction].
    + apply IN in F, T. rewrite F, T. cbn [negb]. rewrite bind_wrap, R. destruct r0; try reflexivity. now destruct (N a).
    + apply IN in F, T. rewrite F, T. cbn [negb]. rewrite bind_wrap, R. apply PI in P. now rewrite P.
    + apply IN in F, T. rewrite F, T. cbn [negb]. rewrite bind_wrap, R. apply PI in P. rewrite P, W. rewrite (seq_told _ _ _ _ (print_told _ _)). now destruct err.
Qed.
Example parse_told_witness : let '(r, w') := run_parse ref_ext demo_os (bs "sexp") (bs "shell") (init_world (demo_fs []) (bs "(a 1)" ++ nl :: bs "(b (c))")) in
  r = Err (bs "nested lists are not supported in shell format") /\ w_stdout w' = bs "a 1" ++ [nl].
Proof. vm_compute. repeat split; reflexivity. Qed.

(** ** Assumptions of every theorem above *)
Print Assumptions edit_told.
Print Assumptions quiet_prints_results_only.
Print Assumptions one_verdict_per_file.
Print Assumptions dry_run_promises_refuted.
Print Assumptions output_format_noticed_late_refuted.
Print Assumptions parse_told.
