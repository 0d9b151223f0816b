(** C80: what the writers write, and what the command texted parse prints. *)
From Coq Require Import ZArith NArith QArith List Bool Lia Strings.Byte ZifyBool ZifyN ZifyNat.
From Verif Require Import Base Float Ext Utf8 Strconv Values Parser Json Writer Files Cli Spec SpecText SpecFiles SpecNumber SpecNumText SpecJson SpecLines SpecRefuse SpecData
  RefExt Proofs_Base Proofs_Files Proofs_Cli Proofs_Round Proofs_Reread Proofs_Json Proofs_Shortest2 Prop_Json Prop_Parse Prop_Grammar Prop_Data Prop_Lines Prop_Words Prop_Refuse Prop_NumText
  Prop_Meaning SpecMeaning Proofs_Write SpecWrite.
Import ListNotations.
Open Scope Z_scope.

(** ** C80 *)
(** strings and numbers in JSON *)
Theorem json_string_exact s q : json_quote s = q <-> json_quoted s q.
Proof. symmetry. apply json_quoted_iff. Qed.
Theorem json_number_exact f t : f64_valid f = true -> (json_number f = Some t <-> json_shown f t).
Proof. apply json_shown_iff. Qed.
Theorem json_value_text v t : float64s v -> (json_encode (value_to_json v) = Some t <-> json_written v t).
Proof. intros N. now apply (proj1 (json_value_exact v N)). Qed.

Lemma shell_words_exact E l ts : Forall float64s l -> (shell_tokens E l = POk ts <-> Forall2 (shell_word E) l ts).
Proof.
  revert ts. induction l as [|v l IH]; intros ts N; cbn [shell_tokens]; [split; [intros [= <-]; constructor|intros H; now inversion H]|].
  inversion N as [|? ? N1 N2]; subst.
  assert (K : forall t, shell_token E v = POk t <-> shell_word E v t).
  { intros t. destruct v as [n|s|f|l']; cbn [shell_token].
    - split; [intros [= <-]; constructor|intros H; now inversion H].
    - split; [intros [= <-]; constructor; now apply quoted_exact|]. intros H. inversion H as [|? ? Q|]; subst. f_equal. now apply quoted_exact.
    - split; [intros [= <-]; constructor; now apply number_text_exact|]. intros H. inversion H as [| |? ? Q]; subst. f_equal. now apply number_text_exact.
    - split; [discriminate|]. intros H. inversion H. }
  destruct (shell_token E v) as [t|m|] eqn:T; cbn [pbind].
  - destruct (shell_tokens E l) as [us|m|] eqn:U; cbn [pbind].
    + split; [intros [= <-]; constructor; [now apply K|now apply IH]|]. intros H. inversion H as [|? y ? ys P Q]; subst.
      apply K in P as [= ->]. apply IH in Q; auto. now injection Q as ->.
    + split; [discriminate|]. intros H. inversion H as [|? y ? ys P Q]; subst. apply IH in Q; auto. discriminate.
    + split; [discriminate|]. intros H. inversion H as [|? y ? ys P Q]; subst. apply IH in Q; auto. discriminate.
  - split; [discriminate|]. intros H. inversion H as [|? y ? ys P Q]; subst. apply K in P. discriminate.
  - split; [discriminate|]. intros H. inversion H as [|? y ? ys P Q]; subst. apply K in P. discriminate.
Qed.
Lemma shell_words_none E l : (exists ts, shell_tokens E l = POk ts) \/
  shell_tokens E l = PErr (bs "nested lists are not supported in shell format") /\ exists v, In v l /\ is_list v.
Proof.
  induction l as [|v l IH]; cbn [shell_tokens]; [left; eauto|].
  destruct v as [n|s|f|l']; cbn [shell_token pbind]; try (destruct IH as [[ts ->]|[-> (x & X1 & X2)]]; cbn [pbind]; [left; eauto|right; split; [reflexivity|exists x; split; [now right|auto]]]).
  right. split; [reflexivity|]. exists (VList l'). split; [now left|now exists l'].
Qed.
Lemma words_no_list E l ts v : Forall2 (shell_word E) l ts -> In v l -> ~ is_list v.
Proof. intros F I [l' ->]. induction F as [|x y l ys P _ IH]; [destruct I|]. destruct I as [->|I]; [inversion P|auto]. Qed.
Lemma shell_value_list E l : shell_value E (VList l) = pbind (shell_tokens E l) (fun ts => POk (join [" "%byte] ts)).
Proof. destruct l; reflexivity. Qed.
(** writing one value, in any format *)
Theorem write_value_exact E format v r : float64s v -> (write_value E format v = r <-> writes E format v r).
Proof.
  intros N. split.
  - intros <-. unfold write_value. destruct (str_eqb format (bs "shell")) eqn:C1; [|destruct (str_eqb format (bs "sexp")) eqn:C2; [|destruct (str_eqb format (bs "json")) eqn:C3]].
    + apply str_eqb_eq in C1 as ->. destruct v as [n|s|f|l]; try (apply wv_shell_other; constructor). rewrite shell_value_list.
      destruct (shell_words_none E l) as [[ts T]|[T (v & I & L)]]; rewrite T; cbn [pbind].
      * apply (wv_shell E l ts); [apply shell_words_exact; [now apply float64s_list|exact T]|now apply in_row_join].
      * now apply (wv_shell_nested E l v).
    + apply str_eqb_eq in C2 as ->. apply wv_sexp. now apply written_exact.
    + apply str_eqb_eq in C3 as ->. unfold json_write_value. destruct (json_value_exact v N) as [A B].
      pose proof (enc_uns v) as U. unfold enc, uns in *. destruct (json_encode (value_to_json v)) as [t|] eqn:T; [apply wv_json; now apply A|].
      destruct (json_unsupported (value_to_json v)) as [m|] eqn:M; [|exfalso; now apply U]. apply wv_json_not. now apply B.
    + apply wv_unknown. intros [Q|[Q|[Q|[]]]]; subst format; [now rewrite str_eqb_refl in C2|now rewrite str_eqb_refl in C1|now rewrite str_eqb_refl in C3].
  - intros H. destruct H as [v t W|l ts t F R|l v I L|v t G|v t W|v m J|format v U].
    + change (write_value E (bs "sexp") v) with (POk (show E v)). f_equal. now apply written_exact.
    + change (write_value E (bs "shell") (VList l)) with (shell_value E (VList l)). rewrite shell_value_list.
      apply float64s_list in N. apply shell_words_exact in F; [|exact N]. rewrite F. cbn [pbind]. apply in_row_join in R. now subst.
    + change (write_value E (bs "shell") (VList l)) with (shell_value E (VList l)). rewrite shell_value_list. apply float64s_list in N.
      destruct (shell_words_none E l) as [[ts T]|[T _]]; [|now rewrite T]. exfalso. apply shell_words_exact in T; [|exact N]. now apply (words_no_list E l ts v).
    + destruct G; reflexivity.
    + change (write_value E (bs "json") v) with (json_write_value v). unfold json_write_value. apply json_value_exact in W; [|exact N]. unfold enc in W. now rewrite W.
    + change (write_value E (bs "json") v) with (json_write_value v). unfold json_write_value. apply json_value_exact in J; [|exact N].
      assert (Q : enc v = None) by (apply enc_uns; congruence). unfold enc, uns in *. now rewrite Q, J.
    + unfold write_value. assert (X : forall g, In g [bs "sexp"; bs "shell"; bs "json"] -> str_eqb format g = false).
      { intros g I. destruct (str_eqb format g) eqn:Q; [|reflexivity]. apply str_eqb_eq in Q as ->. contradiction. }
      rewrite !X by (cbn; auto). reflexivity.
Qed.
Theorem write_value_one E format v : float64s v -> exists r, writes E format v r /\ forall r', writes E format v r' -> r' = r.
Proof. intros N. exists (write_value E format v). split; [now apply write_value_exact|]. intros r' H. apply write_value_exact in H; auto. Qed.

Lemma no_fuel E format v : write_value E format v <> PFuel.
Proof.
  unfold write_value. destruct (str_eqb format (bs "shell")); [|destruct (str_eqb format (bs "sexp")); [discriminate|destruct (str_eqb format (bs "json")); [|discriminate]]].
  - destruct v as [n|s|f|l]; try discriminate. rewrite shell_value_list. destruct (shell_words_none E l) as [[ts ->]|[-> _]]; discriminate.
  - unfold json_write_value. destruct (json_encode _); discriminate.
Qed.
(** the loop of the Write methods, in terms of writing one value *)
Lemma loop_values E format p : In format formats ->
  write_program E format p = write_loop (fun v => pbind (write_value E format v) (fun t => POk (if str_eqb format (bs "json") then t else t ++ [nl]))) p.
Proof.
  intros [<-|[<-|[<-|[]]]].
  - change (write_program E (bs "shell") p) with (write_loop (shell_line E) p). reflexivity.
  - reflexivity.
  - change (write_program E (bs "json") p) with (write_loop json_write_value p). induction p as [|v p IH]; [reflexivity|]. cbn [write_loop].
    change (write_value E (bs "json") v) with (json_write_value v). change (str_eqb (bs "json") (bs "json")) with true. cbv iota. rewrite IH.
    destruct (json_write_value v); reflexivity.
Qed.
(** writing a program, in one of the three formats *)
Theorem write_program_exact E format p out err : In format formats -> Forall float64s p ->
  (write_program E format p = (out, err) <-> prints E format p out err).
Proof.
  intros I N. rewrite loop_values by exact I. revert out err. induction N as [|v p Nv N IH]; intros out err; cbn [write_loop].
  - split; [intros [= <- <-]; constructor|intros H; now inversion H].
  - assert (J : str_eqb format (bs "json") = true <-> format = bs "json") by apply str_eqb_eq.
    destruct (write_value E format v) as [t|m|] eqn:W; cbn [pbind].
    + set (rest := write_loop _ p) in *. destruct rest as [o e]. apply write_value_exact in W; [|exact Nv].
      assert (P : prints E format p o e) by now apply IH. split.
      * intros [= <- <-]. destruct (str_eqb format (bs "json")) eqn:Q.
        -- apply pr_json; [now apply J|auto|auto].
        -- rewrite <- app_assoc. apply pr_line; [intros X; apply J in X; discriminate|auto|auto].
      * intros H. apply write_value_exact in W; [|exact Nv]. inversion H as [|? ? u o' e' Nf W' P'|? ? u o' e' Nf W' P'|? ? m W']; subst; apply write_value_exact in W'; auto; rewrite W in W'.
        -- injection W' as <-. apply IH in P'. apply pair_equal_spec in P' as [<- <-]. destruct (str_eqb format (bs "json")) eqn:Q; [exfalso; apply Nf; now apply J|].
           now rewrite <- app_assoc.
        -- injection W' as <-. apply IH in P'. apply pair_equal_spec in P' as [<- <-]. reflexivity.
        -- discriminate.
    + apply write_value_exact in W; [|exact Nv]. split; [intros [= <- <-]; now apply pr_stop|].
      intros H. apply write_value_exact in W; [|exact Nv]. inversion H as [|? ? u o' e' Nf W' P'|? ? u o' e' Nf W' P'|? ? m' W']; subst; apply write_value_exact in W'; auto; rewrite W in W'; try discriminate.
      now injection W' as <-.
    + now apply no_fuel in W.
Qed.

(** ** The command texted parse *)
Lemma input_stands i s p : In i formats -> (parse_input i s = POk p <-> stands i s p).
Proof.
  intros I. unfold parse_input. destruct (str_eqb i (bs "json")) eqn:J.
  - apply str_eqb_eq in J as ->. rewrite json_values_grammar. split; [apply st_json|]. intros H. inversion H as [? ? V|? ? ? K _]; [auto|]. destruct K as [K|[K|[]]]; discriminate.
  - assert (I' : In i [bs "shell"; bs "sexp"]) by (destruct I as [<-|[<-|[<-|[]]]]; cbn; auto; discriminate).
    rewrite script_grammar. split; [now apply st_other|]. intros H. inversion H; subst; [now rewrite str_eqb_refl in J|auto].
Qed.
Lemma input_not_standing i s m : In i formats -> (parse_input i s = PErr m <-> not_standing i s m).
Proof.
  intros I. unfold parse_input. destruct (str_eqb i (bs "json")) eqn:J.
  - apply str_eqb_eq in J as ->. rewrite json_stream_told. split; [apply rf_json|]. intros H. inversion H as [? ? V|? ? ? K _]; [auto|]. destruct K as [K|[K|[]]]; discriminate.
  - assert (I' : In i [bs "shell"; bs "sexp"]) by (destruct I as [<-|[<-|[<-|[]]]]; cbn; auto; discriminate).
    rewrite script_refused. split; [now apply rf_other|]. intros H. inversion H; subst; [now rewrite str_eqb_refl in J|auto].
Qed.
Lemma input_fuel i s : parse_input i s <> PFuel.
Proof.
  unfold parse_input. destruct (str_eqb i (bs "json")); [|apply parse_string_fuel].
  destruct (parse_json_reader s) as [p|m|] eqn:Q; [discriminate|discriminate|]. exfalso.
  destruct (proj1 (json_values_rejected s)) as [e He]; [|congruence]. intros p V. apply json_values_grammar in V. congruence.
Qed.
Lemma input_numbers i s p : parse_input i s = POk p -> Forall float64s p.
Proof. unfold parse_input. intros H. apply (script_numbers s). destruct (str_eqb i (bs "json")); auto. Qed.
(** with working input: what the command answers and what it prints *)
Theorem parse_command_exact E os i o w r out : no_faults os -> zlen (w_stdin w) <= max_alloc ->
  (fst (run_parse E os i o w) = r /\ w_stdout (snd (run_parse E os i o w)) = w_stdout w ++ out <-> converts E i o (w_stdin w) r out).
Proof.
  intros NF L.
  assert (K : exists r0 out0, fst (run_parse E os i o w) = r0 /\ w_stdout (snd (run_parse E os i o w)) = w_stdout w ++ out0 /\ converts E i o (w_stdin w) r0 out0 /\
    forall r' out', converts E i o (w_stdin w) r' out' -> r' = r0 /\ out' = out0).
  { destruct (is_valid_format i) eqn:Vi.
    2:{ exists (Err (bs "invalid input format: " ++ i ++ bs " (must be shell, sexp, or json)")), []. unfold run_parse. rewrite Vi. cbn [negb fst snd io_fail].
      assert (NI : ~ In i formats) by (unfold formats; rewrite <- valid_format; congruence).
      split; [reflexivity|]. split; [symmetry; apply app_nil_r|]. split; [now apply cv_input|]. intros r' out' H. destruct H; try contradiction. auto. }
    destruct (is_valid_format o) eqn:Vo.
    2:{ exists (Err (bs "invalid output format: " ++ o ++ bs " (must be shell, sexp, or json)")), []. unfold run_parse. rewrite Vi, Vo. cbn [negb fst snd io_fail].
      assert (NI : ~ In o formats) by (unfold formats; rewrite <- valid_format; congruence). assert (Ii : In i formats) by now apply valid_format.
      split; [reflexivity|]. split; [symmetry; apply app_nil_r|]. split; [now apply cv_output|]. intros r' out' H. destruct H; try contradiction. auto. }
    assert (Ii : In i formats) by now apply valid_format. assert (Io : In o formats) by now apply valid_format.
    destruct (parse_input i (w_stdin w)) as [p|m|] eqn:P; [| |now apply input_fuel in P].
    - destruct (run_parse_ok E os i o w p Vi Vo NF L P) as (w' & R & O). pose proof (input_numbers _ _ _ P) as N.
      exists (match snd (write_program E o p) with None => Ok tt | Some e => Err e end), (fst (write_program E o p)). rewrite R. cbn [fst snd].
      assert (W : write_program E o p = (fst (write_program E o p), snd (write_program E o p))) by (destruct (write_program E o p); reflexivity).
      pose proof (proj1 (write_program_exact E o p _ _ Io N) W) as W'.
      split; [reflexivity|]. split; [exact O|]. split.
      + apply input_stands in P; [|exact Ii]. destruct (snd (write_program E o p)) as [e|]; [now apply (cv_error E i o _ p)|now apply (cv_done E i o _ p)].
      + assert (U : forall p', stands i (w_stdin w) p' -> p' = p) by (intros p' S'; apply input_stands in S'; [congruence|exact Ii]).
        intros r' out' H. destruct H as [C|C1 C2|m C1 C2 C3|p' out' C1 C2 C3 C4|p' out' m C1 C2 C3 C4]; try contradiction.
        * exfalso. apply input_not_standing in C3; [congruence|exact Ii].
        * apply U in C3 as ->. apply write_program_exact in C4; auto. rewrite C4. auto.
        * apply U in C3 as ->. apply write_program_exact in C4; auto. rewrite C4. auto.
    - exists (Err (bs "parsing input: " ++ m)), []. unfold run_parse. rewrite Vi, Vo. cbn [negb].
      unfold io_bind, wrap_err, io_try, os_read_stdin, io_res, io_fail.
      replace (os_stdin_err os (w_ops w)) with (@None str) by (symmetry; apply NF).
      replace (max_alloc <? zlen (w_stdin w)) with false by lia. cbv beta iota zeta. rewrite P. cbn [fst snd w_stdout].
      split; [reflexivity|]. split; [symmetry; apply app_nil_r|]. split; [apply cv_refused; auto; now apply input_not_standing|].
      intros r' out' H. destruct H as [C|C1 C2|m' C1 C2 C3|p' out' C1 C2 C3 C4|p' out' m' C1 C2 C3 C4]; try contradiction.
      + apply input_not_standing in C3; [|exact Ii]. split; [congruence|reflexivity].
      + exfalso. apply input_stands in C3; [congruence|exact Ii].
      + exfalso. apply input_stands in C3; [congruence|exact Ii]. }
  destruct K as (r0 & out0 & A & B & C & D). split.
  - intros [<- H]. rewrite B in H. apply app_inv_head in H. subst. exact C.
  - intros H. destruct (D _ _ H) as [-> ->]. auto.
Qed.

(** ** Concrete cases *)
Example json_string_ex : json_quoted (bs "a<b" ++ [x0a; x01; xff; xe2; x80; xa8] ++ bs "/""") (bs """a\u003cb\n\u0001\ufffd\u2028/\""""").
Proof. apply json_string_exact. vm_compute. reflexivity. Qed.
Example json_number_ex : json_shown (num_of (bs "0.000001")) (bs "0.000001") /\ json_shown (num_of (bs "0.0000001")) (bs "1e-7") /\
  json_shown (num_of (bs "1e20")) (bs "100000000000000000000") /\ json_shown (num_of (bs "1.5e21")) (bs "1.5e+21") /\
  json_shown (num_of (bs "1125899906842624.25")) (bs "1125899906842624.2").
Proof. repeat split; (apply json_number_exact; [vm_compute; reflexivity|vm_compute; reflexivity]). Qed.
Example writes_ex : writes ref_ext (bs "json") (VList [VSym (bs "f"); VNum (num_of (bs "0.5")); VList []; VNum S754_nan; VNum (S754_infinity true)])
    (PErr (bs "json: unsupported value: NaN")) /\
  writes ref_ext (bs "shell") (VList [VSym (bs "f"); VStr (bs "a b"); VNum (f_of_Z 3)]) (POk (bs "f ""a b"" 3")) /\
  writes ref_ext (bs "shell") (VStr (bs "a")) (PErr (bs "can only convert lists to shell format, got *edlisp.String")).
Proof. repeat split; (apply write_value_exact; [vm_compute; repeat split|vm_compute; reflexivity]). Qed.
Example prints_ex : prints ref_ext (bs "shell") [VList [VSym (bs "f")]; VList [VSym (bs "g"); VList []]; VList []] (bs "f" ++ [nl])
  (Some (bs "nested lists are not supported in shell format")).
Proof. apply write_program_exact; [cbn; auto|repeat constructor|vm_compute; reflexivity]. Qed.
Example converts_ex : converts ref_ext (bs "shell") (bs "json") (bs "f; g inf") (Err (bs "json: unsupported value: +Inf")) (bs "[""f""]" ++ [nl]).
Proof.
  apply (parse_command_exact ref_ext ok_os _ _ (mkWorld (fun _ => None) [] 0 (bs "f; g inf") false [])); [intros; repeat split; reflexivity|cbv; discriminate|].
  split; vm_compute; reflexivity.
Qed.

(** ** Assumptions of every theorem above *)
Print Assumptions json_string_exact.
Print Assumptions json_number_exact.
Print Assumptions json_value_text.
Print Assumptions write_value_exact.
Print Assumptions write_value_one.
Print Assumptions write_program_exact.
Print Assumptions parse_command_exact.
