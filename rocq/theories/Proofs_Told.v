(** The runs of texted edit and texted parse, against SpecEdit. *)
From Coq Require Import ZArith NArith List Bool Lia Strings.Byte.
From Verif Require Import Base Float Ext Utf8 Strconv Values Buffer Builtins Eval Parser Json Writer Files Cli SpecFiles SpecEdit
  Proofs_Base Proofs_Files Proofs_Cli Proofs_Lines Proofs_Grammar Prop_Calls Prop_Parse.
Import ListNotations.
Open Scope Z_scope.

(** ** Printing *)
Lemma told_nil w : told [] w = w.
Proof. destruct w. unfold told. cbn. now rewrite app_nil_r. Qed.
Lemma told_told s t w : told t (told s w) = told (s ++ t) w.
Proof. unfold told. cbn. now rewrite app_assoc. Qed.
Lemma print_told s w : print s w = (Ok tt, told s w). Proof. reflexivity. Qed.
Lemma remark_spec a s x w : x = s ++ [nl] -> print_if (a_verbose a && negb (a_quiet a)) x w = (Ok tt, told (remark a s) w).
Proof. intros ->. unfold remark. destruct (a_verbose a), (a_quiet a); cbn [andb negb print_if]; rewrite ?told_nil; reflexivity. Qed.
Lemma notice_spec a s x w : x = s ++ [nl] -> print_if (negb (a_quiet a)) x w = (Ok tt, told (notice a s) w).
Proof. intros ->. unfold notice. destruct (a_quiet a); cbn [negb print_if]; rewrite ?told_nil; reflexivity. Qed.
Lemma seq_told {A} (m : IO unit) (k : IO A) w s : m w = (Ok tt, told s w) -> io_seq m k w = k (told s w).
Proof. unfold io_seq, io_bind. now intros ->. Qed.

(** ** Steps *)
Fixpoint carry (E : Ext) (os : OS) (a : edit_args) (format script : str) (l : list (str * step)) (t : str) : IO str :=
  match l with
  | [] => io_ret t
  | (p, s) :: l' => fun w => match step_done E os a format script s t w with
                             | (Ok t1, w1) => carry E os a format script l' t1 w1
                             | (Err e, w1) => (Err (p ++ e), w1)
                             | (Crash c, w1) => (Crash c, w1)
                             end
  end.
Lemma carry_spec E os a format script l : forall t w r w', carried_out E os a format script l t w r w' <-> carry E os a format script l t w = (r, w').
Proof.
  intros t w r w'. split.
  - induction 1 as [t w|p s l t w t1 w1 r w2 D _ IH|p s l t w e w1 D|p s l t w c w1 D]; cbn [carry]; [reflexivity|rewrite D; exact IH| |]; now rewrite D.
  - revert t w. induction l as [|[p s] l IH]; intros t w; cbn [carry].
    + intros H. injection H as <- <-. constructor.
    + destruct (step_done E os a format script s t w) as [[t1|e|c] w1] eqn:D; intros H.
      * econstructor; eauto.
      * injection H as <- <-. now constructor.
      * injection H as <- <-. now constructor.
Qed.
Lemma wrap_step {A} E os a format script p s l t (m : IO str) (k : str -> IO A) (K : forall r : res str, IO A) w :
  (forall w, step_done E os a format script s t w = m w) ->
  (forall e w, K (Err e) w = (Err e, w)) -> (forall c w, K (Crash c) w = (Crash c, w)) ->
  (forall t1 w1, k t1 w1 = let '(r, w2) := carry E os a format script l t1 w1 in K r w2) ->
  io_bind (wrap_err p m) k w = let '(r, w2) := carry E os a format script ((p, s) :: l) t w in K r w2.
Proof.
  intros D Ke Kc Kk. cbn [carry]. rewrite D. unfold io_bind, wrap_err, io_try. destruct (m w) as [[t1|e|c] w1]; cbn [io_res io_fail].
  - apply Kk. - unfold io_fail. now rewrite Ke. - now rewrite Kc.
Qed.

(** ** Flags *)
Lemma nonempty_true s : nonempty s = true <-> s <> [].
Proof. destruct s; cbn; split; congruence. Qed.
Lemma several {A} (l : list A) : (1 <? zlen l) = true <-> (2 <= length l)%nat.
Proof. unfold zlen. rewrite Z.ltb_lt. lia. Qed.
Lemma format_unique a f g : format_of a f -> format_of a g -> f = g.
Proof. unfold format_of. intros H G. intuition congruence. Qed.
Definition flag_message (a : edit_args) (format : str) : option str :=
  if negb (is_valid_format format) then Some (bs "invalid script format: " ++ format ++ must_be)
  else if nonempty (a_output a) && (1 <? zlen (a_files a)) then Some (bs "--output can only be used with a single file")
  else if nonempty (a_backup a) && negb (a_in_place a) then Some (bs "--backup can only be used with --in-place")
  else if nonempty (a_output a) && a_in_place a then Some (bs "--output and --in-place cannot be used together")
  else None.
Lemma flag_spec a format : match flag_message a format with
  | Some m => first_true (complaints a format) m /\ ~ acceptable a format
  | None => acceptable a format
  end.
Proof.
  unfold flag_message, acceptable, complaints. pose proof (valid_format format) as V. fold formats in V.
  assert (A : forall (P : Prop) m l, P -> ~ Forall (fun c : Prop * str => ~ fst c) ((P, m) :: l)) by (intros P m l p F; inversion F; subst; cbn in *; contradiction).
  assert (B : forall (P : Prop) (m : str) l, ~ Forall (fun c : Prop * str => ~ fst c) l -> ~ Forall (fun c : Prop * str => ~ fst c) ((P, m) :: l)) by (intros P m l p F; inversion F; subst; auto).
  destruct (is_valid_format format) eqn:V1; cbn [negb].
  2:{ assert (N : ~ In format formats) by (rewrite <- V; congruence). split; [now constructor|now apply A]. }
  assert (N1 : ~ ~ In format formats) by (intros X; apply X, V; reflexivity).
  destruct (nonempty (a_output a) && (1 <? zlen (a_files a))) eqn:C1.
  { apply andb_prop in C1 as [O L]. apply nonempty_true in O. apply several in L. split; [apply ft_next; auto; now constructor|apply B, A; auto]. }
  assert (N2 : ~ (a_output a <> [] /\ (2 <= length (a_files a))%nat)).
  { intros [O L]. apply nonempty_true in O. apply several in L. rewrite O, L in C1. discriminate. }
  destruct (nonempty (a_backup a) && negb (a_in_place a)) eqn:C2.
  { apply andb_prop in C2 as [O L]. apply nonempty_true in O. apply negb_true_iff in L. split; [do 2 (apply ft_next; auto); now constructor|do 2 apply B; apply A; auto]. }
  assert (N3 : ~ (a_backup a <> [] /\ a_in_place a = false)).
  { intros [O L]. apply nonempty_true in O. rewrite O, L in C2. discriminate. }
  destruct (nonempty (a_output a) && a_in_place a) eqn:C3.
  { apply andb_prop in C3 as [O L]. apply nonempty_true in O. split; [do 3 (apply ft_next; auto); now constructor|do 3 apply B; apply A; auto]. }
  assert (N4 : ~ (a_output a <> [] /\ a_in_place a = true)).
  { intros [O L]. apply nonempty_true in O. rewrite O, L in C3. discriminate. }
  repeat constructor; cbn [fst]; auto.
Qed.
Lemma first_unique l m m' : first_true l m -> first_true l m' -> m = m'.
Proof. intros F. revert m'. induction F as [P m l p|P m l m1 p F IH]; intros m' G; inversion G; subst; auto; contradiction. Qed.

(** ** Expressions *)
Lemma parsed_spec format e : In format formats -> parse_by_format format e = parsed_as format e.
Proof.
  unfold parse_by_format, parsed_as. intros I. destruct (list_eq_dec byte_eq_dec format (bs "json")) as [->|N]; [reflexivity|].
  destruct I as [<-|[<-|[<-|[]]]]; try reflexivity. congruence.
Qed.
Lemma parsed_fuel format e : parsed_as format e <> PFuel.
Proof. unfold parsed_as. destruct (list_eq_dec _ _ _); [apply script_fuel|apply parse_string_fuel]. Qed.
Lemma write_fuel E format v : write_value E format v <> PFuel.
Proof.
  unfold write_value. destruct (str_eqb format (bs "shell")).
  - unfold shell_value. destruct v as [n|s|f|[|x l]]; try discriminate.
    assert (T : forall l, shell_tokens E l <> PFuel).
    { intros k. induction k as [|y k IH]; cbn [shell_tokens]; [discriminate|]. destruct y; cbn [shell_token pbind]; try discriminate; destruct (shell_tokens E k); cbn [pbind]; congruence. }
    specialize (T (x :: l)). destruct (shell_tokens E (x :: l)); cbn [pbind]; congruence.
  - destruct (str_eqb format (bs "sexp")); [discriminate|]. destruct (str_eqb format (bs "json")); [|discriminate].
    unfold json_write_value. destruct (json_encode _); discriminate.
Qed.
Ltac same_text := rewrite <- ?app_assoc; reflexivity.
Lemma eval_format E a v r : In (a_output_format a) formats ->
  (a_output_format a = bs "shell" /\ write_value E (bs "shell") (VList [v]) = r \/ a_output_format a <> bs "shell" /\ write_value E (a_output_format a) v = r) <->
  write_value E (a_output_format a) (if str_eqb (a_output_format a) (bs "shell") then VList [v] else v) = r.
Proof.
  intros _. destruct (str_eqb (a_output_format a) (bs "shell")) eqn:S1.
  - apply str_eqb_eq in S1. rewrite S1. intuition congruence.
  - assert (a_output_format a <> bs "shell") by (intros X; rewrite X in S1; discriminate). intuition congruence.
Qed.
Lemma counted i : Z.of_nat i - 1 + 1 = Z.of_nat i. Proof. lia. Qed.
Lemma counted_next i : Z.of_nat i - 1 + 1 = Z.of_nat (S i) - 1. Proof. lia. Qed.
Lemma evaluated_sound E a format source : In format formats -> forall i l b out r, evaluated E a format source i l b out r -> forall w,
  eval_expressions E format (a_output_format a) (a_verbose a) (a_quiet a) source (Z.of_nat i - 1) l b w = (r, told out w).
Proof.
  intros I i l b out r Ev. induction Ev as [i b|i e l b m P|i e l b p x b1 P V|i e l b p v b1 t out r P V W Ev IH|i e l b p v b1 P V Q N|i e l b p v b1 m P V Q N W|i e l b p c P V]; intros w; cbn [eval_expressions].
  - now rewrite told_nil.
  - rewrite (seq_told _ _ w (remark a (bs "Evaluating expression " ++ itoa (Z.of_nat i) ++ bs " on " ++ source ++ bs ": " ++ e))) by (apply remark_spec; rewrite counted; same_text).
    rewrite (parsed_spec _ _ I), P. rewrite <- told_told. unfold io_seq, io_bind. rewrite (notice_spec a (bs "Error parsing expression " ++ itoa (Z.of_nat i) ++ bs ": " ++ m)) by (rewrite counted; same_text). reflexivity.
  - rewrite (seq_told _ _ w (remark a (bs "Evaluating expression " ++ itoa (Z.of_nat i) ++ bs " on " ++ source ++ bs ": " ++ e))) by (apply remark_spec; rewrite counted; same_text).
    rewrite (parsed_spec _ _ I), P, V. rewrite <- told_told. unfold io_seq, io_bind. rewrite (notice_spec a (bs "Error in expression " ++ itoa (Z.of_nat i) ++ bs ": " ++ exec_error_text E x)) by (rewrite counted; same_text). reflexivity.
  - rewrite (seq_told _ _ w (remark a (bs "Evaluating expression " ++ itoa (Z.of_nat i) ++ bs " on " ++ source ++ bs ": " ++ e))) by (apply remark_spec; rewrite counted; same_text).
    rewrite (parsed_spec _ _ I), P, V. rewrite <- !told_told. rewrite counted_next. unfold notice. destruct (a_quiet a).
    + rewrite told_nil. apply IH.
    + destruct W as [W|[F W]]; [discriminate|]. rewrite (proj2 (valid_format _) F). cbn [negb].
      apply (eval_format E a v (POk t) F) in W. rewrite W. rewrite (seq_told _ _ _ _ (print_told _ _)). apply IH.
  - rewrite (seq_told _ _ w (remark a (bs "Evaluating expression " ++ itoa (Z.of_nat i) ++ bs " on " ++ source ++ bs ": " ++ e))) by (apply remark_spec; rewrite counted; same_text).
    rewrite (parsed_spec _ _ I), P, V, Q. destruct (is_valid_format (a_output_format a)) eqn:F; [|reflexivity]. apply valid_format in F. contradiction.
  - rewrite (seq_told _ _ w (remark a (bs "Evaluating expression " ++ itoa (Z.of_nat i) ++ bs " on " ++ source ++ bs ": " ++ e))) by (apply remark_spec; rewrite counted; same_text).
    rewrite (parsed_spec _ _ I), P, V, Q. rewrite (proj2 (valid_format _) N). cbn [negb]. apply (eval_format E a v (PErr m) N) in W. now rewrite W.
  - rewrite (seq_told _ _ w (remark a (bs "Evaluating expression " ++ itoa (Z.of_nat i) ++ bs " on " ++ source ++ bs ": " ++ e))) by (apply remark_spec; rewrite counted; same_text).
    rewrite (parsed_spec _ _ I), P. destruct V as [[-> ->]|[-> ->]]; reflexivity.
Qed.
Lemma evaluated_total E a format source l : forall i b, exists out r, evaluated E a format source i l b out r.
Proof.
  induction l as [|e l IH]; intros i b; [do 2 eexists; constructor|].
  destruct (parsed_as format e) as [p|m|] eqn:P; [|do 2 eexists; apply ex_unparsable; exact P|exfalso; exact (parsed_fuel _ _ P)].
  destruct (eval E (default_env E) p b) as [v b1|x b1| | |] eqn:V.
  - destruct (a_quiet a) eqn:Q.
    + destruct (IH (S i) b1) as (out & r & Ev). do 2 eexists. eapply (ex_value E a format source i e l b p v b1 []); eauto.
    + destruct (is_valid_format (a_output_format a)) eqn:F.
      * apply valid_format in F. fold formats in F.
        destruct (write_value E (a_output_format a) (if str_eqb (a_output_format a) (bs "shell") then VList [v] else v)) as [t|m|] eqn:W.
        -- apply (eval_format E a v (POk t) F) in W. destruct (IH (S i) b1) as (out & r & Ev). do 2 eexists. eapply (ex_value E a format source i e l b p v b1 t); eauto.
        -- apply (eval_format E a v (PErr m) F) in W. do 2 eexists. eapply (ex_unwritable E a format source i e l b p v b1 m); eauto.
        -- exfalso. exact (write_fuel _ _ _ W).
      * assert (N : ~ In (a_output_format a) formats) by (rewrite <- valid_format; congruence). do 2 eexists. eapply ex_bad_format; eauto.
  - do 2 eexists. eapply ex_failing; eauto.
  - do 2 eexists. eapply ex_dies; eauto.
  - do 2 eexists. eapply ex_dies; eauto.
  - exfalso. exact (every_script_terminates _ _ _ V).
Qed.
Lemma headed a f w :
  print_if ((1 <? zlen (a_files a)) && negb (a_quiet a)) (bs "=== " ++ f ++ bs " ===" ++ [nl]) w =
  (Ok tt, told (match a_files a with _ :: _ :: _ => notice a (bs "=== " ++ f ++ bs " ===") | _ => [] end) w).
Proof.
  destruct (a_files a) as [|x [|y l]].
  - cbn. now rewrite told_nil.
  - cbn. now rewrite told_nil.
  - replace (1 <? zlen (x :: y :: l)) with true by (symmetry; apply several; cbn [length]; lia). cbn [andb]. apply notice_spec. same_text.
Qed.
Lemma evaluated_on_sound E os a format : In format formats -> forall l w r w', evaluated_on E os a format l w r w' ->
  expressions_on_files E os a format l w = (r, w').
Proof.
  intros I l w r w' Ev. induction Ev as [w|f l w e w1 R|f l w c w1 R|f l w t w1 heading out r R H Ev N|f l w t w1 heading out r w2 R H Ev _ IH]; cbn [expressions_on_files].
  - reflexivity.
  - unfold io_try. rewrite R. unfold io_seq, io_bind. rewrite (notice_spec a (bs "Error reading " ++ f ++ bs ": " ++ e)) by same_text. reflexivity.
  - unfold io_try. now rewrite R.
  - unfold io_try. rewrite R. rewrite (seq_told _ _ _ _ (headed a f w1)). subst heading.
    unfold io_seq, io_bind, eval_on_content. rewrite (evaluated_sound E a format f I 1 _ _ _ _ Ev), told_told. destruct r as [[]| |]; try reflexivity. now contradiction N.
  - unfold io_try. rewrite R. rewrite (seq_told _ _ _ _ (headed a f w1)). subst heading.
    unfold io_seq, io_bind, eval_on_content. rewrite (evaluated_sound E a format f I 1 _ _ _ _ Ev), told_told. exact IH.
Qed.
Lemma evaluated_on_total E os a format l : forall w, exists r w', evaluated_on E os a format l w r w'.
Proof.
  induction l as [|f l IH]; intros w; [do 2 eexists; constructor|].
  destruct (os_read_file os f w) as [[t|e|c] w1] eqn:R; [|do 2 eexists; eapply eo_unreadable; eauto|do 2 eexists; eapply eo_dies; eauto].
  destruct (evaluated_total E a format f (a_expressions a) 1 (new_buffer t)) as (out & r & Ev). destruct r as [[]|e|c].
  - edestruct IH as (r & w' & Ev'). do 2 eexists. eapply eo_next; eauto.
  - do 2 eexists. eapply eo_stops; eauto. discriminate.
  - do 2 eexists. eapply eo_stops; eauto. discriminate.
Qed.

(** ** In place *)
Lemma edit_one_carry E os a format script f t w :
  edit_one_in_place E os a format script f w =
  match carry E os a format script [(bs "Failed to read " ++ f ++ bs ": ", ReadFile f); (bs "Failed to process " ++ f ++ bs ": ", Script); (bs "Failed to write " ++ f ++ bs ": ", SaveAs f)] t w with
  | (Ok _, w1) => (Ok true, told (notice a (bs "✓ Successfully edited " ++ f)) w1)
  | (Err m, w1) => (Ok false, told (notice a (bs "✗ " ++ m)) w1)
  | (Crash c, w1) => (Crash c, w1)
  end.
Proof.
  unfold edit_one_in_place, report, io_try. cbn [carry step_done]. destruct (os_read_file os f w) as [[c|e|k] w1].
  - destruct (execute_script_fmt E c script format) as [out|e|k]; [|unfold io_seq, io_bind; rewrite (notice_spec a (bs "✗ " ++ (bs "Failed to process " ++ f ++ bs ": ") ++ e)) by same_text; reflexivity|reflexivity].
    unfold with_text. destruct (os_write_file os f out w1) as [[[]|e|k] w2]; cbn [fst snd]; unfold io_seq, io_bind.
    + rewrite (notice_spec a (bs "✓ Successfully edited " ++ f)) by same_text. reflexivity.
    + rewrite (notice_spec a (bs "✗ " ++ (bs "Failed to write " ++ f ++ bs ": ") ++ e)) by same_text. reflexivity.
    + reflexivity.
  - unfold io_seq, io_bind. rewrite (notice_spec a (bs "✗ " ++ (bs "Failed to read " ++ f ++ bs ": ") ++ e)) by same_text. reflexivity.
  - reflexivity.
Qed.
Lemma in_place_carry E os a format script f w :
  io_seq (print_if (a_verbose a && negb (a_quiet a)) (bs "Processing " ++ f ++ bs " in place" ++ [nl])) (in_place_one E os a format script f) w =
  match carry E os a format script (in_place_plan a f) [] w with
  | (Ok _, w1) => (Ok true, told (notice a (bs "✓ Successfully edited " ++ f)) w1)
  | (Err m, w1) => (Ok false, told (notice a (bs "✗ " ++ m)) w1)
  | (Crash c, w1) => (Crash c, w1)
  end.
Proof.
  rewrite (seq_told _ _ w (remark a (bs "Processing " ++ f ++ bs " in place"))) by (apply remark_spec; same_text).
  unfold in_place_plan, in_place_one, backup_plan. destruct (a_backup a) as [|x l] eqn:B.
  - cbn [nonempty app carry step_done]. apply (edit_one_carry E os a format script f []).
  - cbn [nonempty]. set (suffix := x :: l). clearbody suffix. cbn [app carry step_done].
    rewrite (seq_told _ _ (told _ w) (remark a (bs "Creating backup " ++ f ++ suffix))) by (apply remark_spec; same_text).
    cbn [carry step_done]. unfold io_try. destruct (os_read_file os f (told _ (told _ w))) as [[c|e|k] w1].
    + unfold with_text. destruct (os_write_file os (f ++ suffix) c w1) as [[[]|e|k] w2]; cbn [fst snd].
      * apply (edit_one_carry E os a format script f c).
      * unfold report, io_seq, io_bind. rewrite (notice_spec a (bs "✗ " ++ (bs "Failed to create backup " ++ f ++ suffix ++ bs ": ") ++ e)) by same_text. reflexivity.
      * reflexivity.
    + unfold report, io_seq, io_bind. rewrite (notice_spec a (bs "✗ " ++ (bs "Failed to read " ++ f ++ bs " for backup: ") ++ e)) by same_text. reflexivity.
    + reflexivity.
Qed.
Lemma in_place_cons E os a format script f l w : a_dry_run a = false ->
  in_place_loop E os a format script (f :: l) w =
  match carry E os a format script (in_place_plan a f) [] w with
  | (Crash c, w1) => (Crash c, w1)
  | (Ok _, w1) => in_place_loop E os a format script l (told (notice a (bs "✓ Successfully edited " ++ f)) w1)
  | (Err m, w1) => match in_place_loop E os a format script l (told (notice a (bs "✗ " ++ m)) w1) with
                   | (Ok _, w2) => (Ok false, w2)
                   | r => r
                   end
  end.
Proof.
  intros D. cbn [in_place_loop]. rewrite D. pose proof (in_place_carry E os a format script f w) as C.
  unfold io_seq in *. unfold io_bind at 1. unfold io_bind in C at 1.
  destruct (print_if (a_verbose a && negb (a_quiet a)) (bs "Processing " ++ f ++ bs " in place" ++ [nl]) w) as [[[]|e|c] w0].
  - unfold io_bind. rewrite C. destruct (carry E os a format script (in_place_plan a f) [] w) as [[t|m|c] w1]; [| |reflexivity].
    + destruct (in_place_loop E os a format script l _) as [[b|e|c] w2]; reflexivity.
    + destruct (in_place_loop E os a format script l _) as [[b|e|c] w2]; reflexivity.
  - destruct (carry E os a format script (in_place_plan a f) [] w) as [[t|m|c] w1]; discriminate.
  - destruct (carry E os a format script (in_place_plan a f) [] w) as [[t|m|c'] w1]; try discriminate. injection C as <- <-. reflexivity.
Qed.
Lemma in_place_sound E os a format script l w vs w' : a_dry_run a = false -> in_place E os a format script l w vs w' ->
  in_place_loop E os a format script l w = (Ok (forallb snd vs), w').
Proof.
  intros D R. induction R as [w|f l w t w1 vs w2 C _ IH|f l w m w1 vs w2 C _ IH]; [reflexivity| |].
  - rewrite in_place_cons by auto. apply carry_spec in C. rewrite C, IH. reflexivity.
  - rewrite in_place_cons by auto. apply carry_spec in C. rewrite C, IH. reflexivity.
Qed.
Lemma in_place_app E os a format script l l' : a_dry_run a = false -> forall w vs w1 c w2, in_place E os a format script l w vs w1 ->
  in_place_loop E os a format script l' w1 = (Crash c, w2) -> in_place_loop E os a format script (l ++ l') w = (Crash c, w2).
Proof.
  intros D w vs w1 c w2 R H. induction R as [w|f l w t w1 vs w3 C _ IH|f l w m w1 vs w3 C _ IH]; [exact H| |];
    cbn [app]; rewrite in_place_cons by auto; apply carry_spec in C; rewrite C, IH by exact H; reflexivity.
Qed.
Lemma in_place_dies_sound E os a format script l w c w' : a_dry_run a = false -> in_place_dies E os a format script l w c w' ->
  in_place_loop E os a format script l w = (Crash c, w').
Proof.
  intros D R. induction R as [f l w c w1 C|l l' w vs w1 c w2 P _ IH].
  - rewrite in_place_cons by auto. apply carry_spec in C. now rewrite C.
  - eapply in_place_app; eauto.
Qed.
Lemma in_place_total E os a format script l : forall w,
  (exists vs w', in_place E os a format script l w vs w') \/ exists c w', in_place_dies E os a format script l w c w'.
Proof.
  induction l as [|f l IH]; intros w; [left; do 2 eexists; constructor|].
  destruct (carry E os a format script (in_place_plan a f) [] w) as [[t|m|c] w1] eqn:C; apply carry_spec in C.
  - destruct (IH (told (notice a (bs "✓ Successfully edited " ++ f)) w1)) as [(vs & w' & R)|(c & w' & R)].
    + left. do 2 eexists. eapply ip_edited; eauto.
    + right. do 2 eexists. eapply (id_later E os a format script [f]) with (2 := R). eapply ip_edited; eauto. constructor.
  - destruct (IH (told (notice a (bs "✗ " ++ m)) w1)) as [(vs & w' & R)|(c & w' & R)].
    + left. do 2 eexists. eapply ip_failed; eauto.
    + right. do 2 eexists. eapply (id_later E os a format script [f]) with (2 := R). eapply ip_failed; eauto. constructor.
  - right. do 2 eexists. apply id_here; exact C.
Qed.
(** ** Dry runs *)
Lemma dry_loop_spec E os a format script l : a_dry_run a = true -> a_in_place a = true -> forall w,
  in_place_loop E os a format script l w = (Ok true, told (flat_map (would a) l) w).
Proof.
  intros D P. induction l as [|f l IH]; intros w; cbn [in_place_loop flat_map]; [now rewrite told_nil|].
  rewrite D. rewrite (seq_told _ _ w (remark a (bs "Processing " ++ f ++ bs " in place"))) by (apply remark_spec; same_text).
  unfold io_bind. unfold io_seq, io_bind.
  rewrite (notice_spec a (bs "Would edit " ++ f ++ bs " in place" ++ match a_backup a with [] => [] | s => bs " (backup to " ++ f ++ s ++ bs ")" end)).
  2:{ destruct (a_backup a); cbn [nonempty]; same_text. }
  cbn [io_ret]. unfold io_ret. rewrite IH. rewrite !told_told. unfold would. rewrite P. now rewrite <- !app_assoc.
Qed.

(** ** Not in place *)
Lemma bind_wrap {A} (p : str) (m : IO A) {B} (k : A -> IO B) w : io_bind (wrap_err p m) k w =
  match m w with (Ok x, w1) => k x w1 | (Err e, w1) => (Err (p ++ e), w1) | (Crash c, w1) => (Crash c, w1) end.
Proof. unfold io_bind, wrap_err, io_try. destruct (m w) as [[x|e|c] w1]; reflexivity. Qed.
Lemma unit_text t (m : res unit * world) : (ending (fst (with_text t m)), snd (with_text t m)) = m.
Proof. destruct m as [[[]|e|c] w]; reflexivity. Qed.
Lemma last_step E os a format script s t w : s = destination a -> (let '(r, w') := carry E os a format script [([], s)] t w in (ending r, w')) =
  match a_output a with [] => os_write_stdout os t | o => os_write_file os o t end w.
Proof.
  intros ->. cbn [carry]. unfold destination. destruct (a_output a); cbn [step_done].
  - rewrite <- (unit_text t (os_write_stdout os t w)). destruct (with_text t (os_write_stdout os t w)) as [[x|e|c] w1]; reflexivity.
  - rewrite <- (unit_text t (os_write_file os _ t w)). destruct (with_text t (os_write_file os _ t w)) as [[x|e|c] w1]; reflexivity.
Qed.
Lemma file_carry E os a format script f w : a_dry_run a = false ->
  (if nonempty (a_output a) then process_to_output E os a format script f else process_to_stdout E os a format script f) w =
  let '(r, w') := carry E os a format script (file_plan a f) [] w in (ending r, w').
Proof.
  intros D. transitivity (io_bind (wrap_err (bs "reading " ++ f ++ bs ": ") (os_read_file os f)) (fun c =>
     io_bind (wrap_err (bs "processing " ++ f ++ bs ": ") (io_res (execute_script_fmt E c script format))) (fun r =>
     match a_output a with [] => os_write_stdout os r | o => os_write_file os o r end)) (told (remark a (bs "Processing " ++ f ++ bs " -> " ++ destination_name a)) w)).
  - unfold process_to_output, process_to_stdout, destination_name. rewrite D. destruct (a_output a) as [|b l]; cbn [nonempty].
    + rewrite (seq_told _ _ w (remark a (bs "Processing " ++ f ++ bs " -> stdout"))) by (apply remark_spec; same_text). reflexivity.
    + rewrite (seq_told _ _ w (remark a (bs "Processing " ++ f ++ bs " -> " ++ b :: l))) by (apply remark_spec; same_text). reflexivity.
  - unfold file_plan. cbn [carry step_done]. set (w0 := told _ w). rewrite bind_wrap.
    destruct (os_read_file os f w0) as [[c|e|k] w1]; [|reflexivity|reflexivity]. rewrite bind_wrap. unfold io_res.
    destruct (execute_script_fmt E c script format) as [out|e|k]; [|reflexivity|reflexivity]. now rewrite <- (last_step E os a format script (destination a)).
Qed.
Lemma input_carry E os a format script w : a_dry_run a = false ->
  process_stdin E os a format script w = let '(r, w') := carry E os a format script (filter_plan a format) [] w in (ending r, w').
Proof.
  intros D. unfold process_stdin, filter_plan. cbn [app]. cbn [carry step_done]. rewrite bind_wrap.
  destruct (os_read_stdin os w) as [[c|e|k] w1]; [|reflexivity|reflexivity].
  rewrite (seq_told _ _ w1 (remark a (bs "Processing stdin with script in " ++ format ++ bs " format"))) by (apply remark_spec; same_text).
  rewrite D. unfold io_bind at 1, io_res. destruct (execute_script_fmt E c script format) as [out|e|k]; [|reflexivity|reflexivity].
  set (w2 := told _ w1). destruct (a_output a) as [|b l] eqn:O; cbn [nonempty app].
  - rewrite (last_step E os a format script (destination a)) by reflexivity. now rewrite O.
  - rewrite (seq_told _ _ w2 (remark a (bs "Writing output to " ++ b :: l))) by (apply remark_spec; same_text).
    change (carry E os a format script (([], Remark (bs "Writing output to " ++ b :: l)) :: [([], destination a)]) out w2)
      with (carry E os a format script [([], destination a)] out (told (remark a (bs "Writing output to " ++ b :: l)) w2)).
    rewrite (last_step E os a format script (destination a)) by reflexivity. now rewrite O.
Qed.

(** ** The whole run *)
Lemma script_sound os a w r w' : script_read os a w r w' <-> get_script os a w = (r, w').
Proof.
  unfold get_script. split.
  - intros [s F <- N|F N|f r0 w1 <- N R X|f e w1 <- N R].
    + rewrite F. cbn [nonempty]. destruct (a_script a); [congruence|reflexivity].
    + rewrite F, N. reflexivity.
    + rewrite (proj2 (nonempty_true _) N). unfold wrap_err, io_try. rewrite R. destruct r0; try reflexivity. now destruct (X e).
    + rewrite (proj2 (nonempty_true _) N). unfold wrap_err, io_try. rewrite R. reflexivity.
  - destruct (a_script_file a) as [|x l] eqn:F; cbn [nonempty].
    + destruct (a_script a) as [|y s] eqn:Sc; cbn [nonempty]; intros H; injection H as <- <-; [now apply sr_none|]. apply sr_flag; auto. discriminate.
    + unfold wrap_err, io_try. destruct (os_read_file os (x :: l) w) as [[c|e|k] w1] eqn:R; intros H; injection H as <- <-.
      * eapply (sr_file os a w (x :: l)); eauto; congruence.
      * eapply (sr_unreadable os a w (x :: l)); eauto; congruence.
      * eapply (sr_file os a w (x :: l)); eauto; congruence.
Qed.
Lemma run_edit_flags E os a w : run_edit E os a w =
  match flag_message a (effective_format a) with
  | Some m => (Err m, w)
  | None =>
    match a_expressions a with
    | _ :: _ => run_expressions E os a (effective_format a) w
    | [] => match get_script os a w with
            | (Ok script, w1) => (match a_files a with [] => process_stdin E os a (effective_format a) script | _ => process_files E os a (effective_format a) script end) w1
            | (Err e, w1) => (Err e, w1)
            | (Crash c, w1) => (Crash c, w1)
            end
    end
  end.
Proof.
  unfold run_edit, flag_message. destruct (negb (is_valid_format _)); [reflexivity|]. do 3 (destruct (_ && _); [reflexivity|]).
  destruct (a_expressions a); [|reflexivity]. fold (get_script os a). unfold io_bind. destruct (get_script os a w) as [[s|e|c] w1]; reflexivity.
Qed.
Lemma accepted_message a format : format_of a format -> acceptable a format -> flag_message a (effective_format a) = None /\ format = effective_format a.
Proof.
  intros F A. rewrite (format_unique a _ _ F (format_of_effective a)) in *. split; auto.
  pose proof (flag_spec a (effective_format a)) as H. destruct (flag_message a (effective_format a)); [now destruct H|reflexivity].
Qed.
Lemma acceptable_in a format : acceptable a format -> In format formats.
Proof.
  intros A. inversion A as [|c l N _]; subst. cbn [fst] in N. destruct (is_valid_format format) eqn:V; [now apply valid_format|].
  exfalso. apply N. intros I. apply valid_format in I. congruence.
Qed.
Lemma acceptable_output a format : acceptable a format -> (a_output a <> [] -> (length (a_files a) < 2)%nat /\ a_in_place a = false).
Proof.
  intros A O. inversion A as [|c1 l1 _ A1]; subst. inversion A1 as [|c2 l2 N2 A2]; subst. inversion A2 as [|c3 l3 _ A3]; subst. inversion A3 as [|c4 l4 N4 A4]; subst. cbn [fst] in *.
  destruct (a_in_place a); [exfalso; now apply N4|]. split; [|reflexivity]. destruct (Nat.ltb_spec (length (a_files a)) 2); auto. exfalso. apply N2. auto.
Qed.
Lemma process_files_in_place E os a format script : a_in_place a = true -> a_output a = [] -> a_files a <> [] ->
  process_files E os a format script = process_in_place E os a format script.
Proof.
  intros P O F. unfold process_files. rewrite P, O. cbn [nonempty negb andb]. destruct (a_files a) as [|f [|g l]]; [congruence|reflexivity|reflexivity].
Qed.
Lemma in_place_no_output a format : acceptable a format -> a_in_place a = true -> a_output a = [].
Proof. intros A P. destruct (a_output a) eqn:O; [reflexivity|]. destruct (acceptable_output _ _ A) as [_ X]; congruence. Qed.
Lemma dry_single E os a format script f w : a_dry_run a = true -> a_in_place a = false ->
  (if nonempty (a_output a) then process_to_output E os a format script f else process_to_stdout E os a format script f) w = (Ok tt, told (would a f) w).
Proof.
  intros D P. unfold process_to_output, process_to_stdout, would, destination_name. rewrite D, P. destruct (a_output a) as [|b l]; cbn [nonempty].
  - rewrite (seq_told _ _ w (remark a (bs "Processing " ++ f ++ bs " -> stdout"))) by (apply remark_spec; same_text). rewrite <- told_told.
    apply notice_spec. same_text.
  - rewrite (seq_told _ _ w (remark a (bs "Processing " ++ f ++ bs " -> " ++ b :: l))) by (apply remark_spec; same_text). rewrite <- told_told.
    apply notice_spec. same_text.
Qed.
Lemma dry_stdin E os a format script w : a_dry_run a = true -> process_stdin E os a format script w =
  let '(r, w2) := os_read_stdin os w in
  (match r with Err e => Err (bs "reading stdin: " ++ e) | r => ending r end,
   match r with Ok t => told (remark a (bs "Processing stdin with script in " ++ format ++ bs " format") ++ notice a (bs "Would process " ++ itoa (zlen t) ++ bs " bytes from stdin")) w2 | _ => w2 end).
Proof.
  intros D. unfold process_stdin. rewrite bind_wrap. destruct (os_read_stdin os w) as [[t|e|c] w2]; [|reflexivity|reflexivity].
  rewrite (seq_told _ _ w2 (remark a (bs "Processing stdin with script in " ++ format ++ bs " format"))) by (apply remark_spec; same_text).
  rewrite D, <- told_told. apply notice_spec. same_text.
Qed.
Lemma single_or_several a : a_in_place a = false -> a_files a <> [] -> (2 <= length (a_files a))%nat \/ exists f, a_files a = [f].
Proof. intros _ N. destruct (a_files a) as [|f [|g l]]; [congruence|right; eauto|left; cbn [length]; lia]. Qed.
Lemma edit_sound E os a w r w' : edit_run E os a w r w' -> run_edit E os a w = (r, w').
Proof.
  intros R. rewrite run_edit_flags. destruct R as [format m F C|format r w1 F A X N R NR|format t out r w1 F A X N R Ev|format r w1 F A X N Ev|format r w1 F A X Sc NS|format s w1 F A X Sc P L|format s w1 r w2 F A X Sc D N R|format s w1 F A X Sc D N L|format s w1 r w2 F A X Sc D N C|format s w1 f r w2 F A X Sc D P N C|format s w1 vs w2 F A X Sc D P N C|format s w1 c w2 F A X Sc D P N C].
  { rewrite (format_unique a _ _ F (format_of_effective a)) in C. pose proof (flag_spec a (effective_format a)) as H. destruct (flag_message a (effective_format a)) as [m'|].
    - destruct H as [H _]. now rewrite (first_unique _ _ _ C H).
    - exfalso. revert H. unfold acceptable. induction C as [P m l p|P m l m' p C IH]; intros H; inversion H; subst; auto. }
  all: destruct (accepted_message a format F A) as [-> <-].
  - destruct (a_expressions a) eqn:Ex; [congruence|]. unfold run_expressions. rewrite N, bind_wrap, R. destruct r as [t|e|c]; try reflexivity. now destruct (NR t).
  - destruct (a_expressions a) eqn:Ex; [congruence|]. unfold run_expressions. rewrite N, bind_wrap, R. unfold eval_on_content. rewrite Ex.
    apply (evaluated_sound E a format (bs "stdin") (acceptable_in _ _ A) 1). exact Ev.
  - destruct (a_expressions a) eqn:Ex; [congruence|]. unfold run_expressions. destruct (a_files a) as [|f fl] eqn:Ef; [congruence|].
    apply evaluated_on_sound; auto. eapply acceptable_in; eauto.
  - rewrite X. apply script_sound in Sc. rewrite Sc. destruct r as [s|e|c]; try reflexivity. now destruct (NS s).
  - rewrite X. apply script_sound in Sc. rewrite Sc. unfold process_files. rewrite P. cbn [negb andb].
    destruct (a_output a) eqn:O; [|exfalso; destruct (acceptable_output _ _ A) as [Y _]; [congruence|lia]]. cbn [nonempty negb]. destruct (a_files a) as [|f [|g l]]; [cbn in L; lia|cbn in L; lia|reflexivity].
  - rewrite X. apply script_sound in Sc. rewrite Sc, N. rewrite dry_stdin by auto. rewrite R. reflexivity.
  - rewrite X. apply script_sound in Sc. rewrite Sc. destruct (a_in_place a) eqn:P.
    + destruct (a_files a) as [|f l] eqn:Ef; [congruence|]. rewrite process_files_in_place; [|auto|eapply in_place_no_output; eauto|congruence].
      unfold process_in_place, io_bind. rewrite dry_loop_spec by auto. rewrite Ef. reflexivity.
    + specialize (L eq_refl). unfold process_files. destruct (a_files a) as [|f [|g l]]; [congruence| |cbn in L; lia]. rewrite P. cbn [negb].
      pose proof (dry_single E os a format s f w1 D P) as H. cbn [flat_map]. rewrite app_nil_r. destruct (nonempty (a_output a)); exact H.
  - rewrite X. apply script_sound in Sc. rewrite Sc, N. rewrite input_carry by auto. apply carry_spec in C. now rewrite C.
  - rewrite X. apply script_sound in Sc. rewrite Sc. unfold process_files. rewrite N, P. cbn [negb]. pose proof (file_carry E os a format s f w1 D) as H.
    apply carry_spec in C. rewrite C in H. destruct (nonempty (a_output a)); exact H.
  - rewrite X. apply script_sound in Sc. rewrite Sc. destruct (a_files a) as [|f l] eqn:Ef; [congruence|]. rewrite process_files_in_place; [|auto|eapply in_place_no_output; eauto|congruence].
    unfold process_in_place, io_bind. rewrite Ef, (in_place_sound E os a format s _ _ _ _ D C). now destruct (forallb snd vs).
  - rewrite X. apply script_sound in Sc. rewrite Sc. destruct (a_files a) as [|f l] eqn:Ef; [congruence|]. rewrite process_files_in_place; [|auto|eapply in_place_no_output; eauto|congruence].
    unfold process_in_place, io_bind. now rewrite Ef, (in_place_dies_sound E os a format s _ _ _ _ D C).
Qed.
Lemma edit_total E os a w : exists r w', edit_run E os a w r w'.
Proof.
  pose proof (format_of_effective a) as F. pose proof (flag_spec a (effective_format a)) as A. set (format := effective_format a) in *.
  destruct (flag_message a format) as [m|]; [destruct A as [A _]; do 2 eexists; eapply er_refused; eauto|].
  destruct (a_expressions a) as [|e l] eqn:X.
  - destruct (get_script os a w) as [q w1] eqn:Sc. apply script_sound in Sc. destruct q as [s|e|c].
    2,3: do 2 eexists; eapply (er_no_script E os a w format); eauto; discriminate.
    destruct (a_files a) as [|f l] eqn:Ef; [destruct (a_dry_run a) eqn:D|].
    + destruct (os_read_stdin os w1) as [r w2] eqn:R. do 2 eexists. eapply er_dry_input; eauto.
    + destruct (carry E os a format s (filter_plan a format) [] w1) as [r w2] eqn:C. apply carry_spec in C. do 2 eexists. eapply er_input; eauto.
    + assert (N : a_files a <> []) by congruence. destruct (a_in_place a) eqn:P.
      * destruct (a_dry_run a) eqn:D; [do 2 eexists; eapply er_dry; eauto; congruence|].
        destruct (in_place_total E os a format s (a_files a) w1) as [(vs & w' & R)|(c & w' & R)]; do 2 eexists; [eapply er_in_place; eauto|eapply er_in_place_dies; eauto].
      * destruct (single_or_several a P N) as [L|[g G]]; [do 2 eexists; eapply er_several; eauto|].
        destruct (a_dry_run a) eqn:D; [do 2 eexists; eapply er_dry; eauto; rewrite G; cbn [length]; lia|].
        destruct (carry E os a format s (file_plan a g) [] w1) as [r w2] eqn:C. apply carry_spec in C. do 2 eexists. eapply er_file; eauto.
  - assert (NX : a_expressions a <> []) by congruence. destruct (a_files a) as [|f fs] eqn:Ef.
    + destruct (os_read_stdin os w) as [[t|e1|c] w1] eqn:R.
      * destruct (evaluated_total E a format (bs "stdin") (a_expressions a) 1 (new_buffer t)) as (out & r & Ev). do 2 eexists. eapply er_expressions_input; eauto.
      * do 2 eexists. eapply er_input_expressions; eauto. discriminate.
      * do 2 eexists. eapply er_input_expressions; eauto. discriminate.
    + assert (N : a_files a <> []) by congruence. destruct (evaluated_on_total E os a format (a_files a) w) as (r & w' & Ev). do 2 eexists. eapply er_expressions; eauto.
Qed.
Lemma edit_complete E os a w r w' : run_edit E os a w = (r, w') -> edit_run E os a w r w'.
Proof. intros H. destruct (edit_total E os a w) as (r0 & w0 & R). pose proof (edit_sound _ _ _ _ _ _ R) as S0. rewrite S0 in H. injection H as <- <-. exact R. Qed.
