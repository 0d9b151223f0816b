(** C56: the command texted parse. *)
From Coq Require Import ZArith NArith List Bool Lia ZifyBool ZifyN ZifyNat Strings.Byte.
From Verif Require Import Base Float Ext Utf8 Strconv Values Buffer Builtins Eval Parser Json Writer Files Cli
  Spec SpecText SpecFiles RefExt Proofs_Base Proofs_Utf8 Proofs_Json Proofs_Files Proofs_Cli Proofs_Round Proofs_Reread Proofs_JsonBack
  Prop_Script Prop_Json.
Import ListNotations.
Open Scope Z_scope.

(** ** C56 *)
Lemma valid_format f : is_valid_format f = true <-> In f [bs "shell"; bs "sexp"; bs "json"].
Proof.
  unfold is_valid_format. rewrite !orb_true_iff, !str_eqb_eq. cbn [In]. intuition congruence.
Qed.
Lemma run_parse_ok E os i o w p : is_valid_format i = true -> is_valid_format o = true ->
  no_faults os -> zlen (w_stdin w) <= max_alloc -> parse_input i (w_stdin w) = POk p ->
  exists w', run_parse E os i o w = (match snd (write_program E o p) with None => Ok tt | Some e => Err e end, w') /\
    w_stdout w' = w_stdout w ++ fst (write_program E o p).
Proof.
  intros I O N L P. unfold run_parse. rewrite I, O. cbv iota beta delta [negb].
  unfold io_bind, wrap_err, io_try, os_read_stdin, io_res, io_fail.
  replace (os_stdin_err os (w_ops w)) with (@None str) by (symmetry; apply N).
  replace (max_alloc <? zlen (w_stdin w)) with false by lia. cbv beta iota zeta. rewrite P.
  destruct (write_program E o p) as [out err]. cbn [fst snd]. unfold io_seq, io_bind, print. cbn [w_stdout].
  destruct err; (eexists; split; [reflexivity|reflexivity]).
Qed.
(** a format that does not exist is refused before anything is read or written *)
Theorem parse_rejects_format E os i o w :
  ~ In i [bs "shell"; bs "sexp"; bs "json"] \/ ~ In o [bs "shell"; bs "sexp"; bs "json"] ->
  exists m, run_parse E os i o w = (Err m, w).
Proof.
  rewrite <- !valid_format. intros H. unfold run_parse.
  destruct (is_valid_format i); [|eexists; reflexivity]. destruct (is_valid_format o); [|eexists; reflexivity].
  destruct H as [H|H]; exfalso; now apply H.
Qed.
Example parse_rejects_format_witness : ~ In (bs "yaml") [bs "shell"; bs "sexp"; bs "json"].
Proof. intros [H|[H|[H|[]]]]; discriminate. Qed.
(** no file is touched, whatever happens; standard output only grows *)
Theorem parse_touches_no_file E os i o w r w' : run_parse E os i o w = (r, w') ->
  no_write w w' /\ exists out, w_stdout w' = w_stdout w ++ out.
Proof.
  intros R. split.
  - assert (S : runs no_write (run_parse E os i o)).
    { unfold run_parse. destruct (negb _); [apply nw_fail|]. destruct (negb _); [apply nw_fail|].
      apply nw_bind; [apply nw_wrap, nw_stdin|]. intros s. destruct (parse_input i s); [|apply nw_fail|apply nw_res].
      destruct (write_program E o a) as [out [e|]]; apply nw_seq; auto using nw_print, nw_fail, nw_ret. }
    specialize (S w). now rewrite R in S.
  - revert R. unfold run_parse. destruct (negb _); [intros [= _ <-]; exists []; now rewrite app_nil_r|].
    destruct (negb _); [intros [= _ <-]; exists []; now rewrite app_nil_r|].
    unfold io_bind, wrap_err, io_try, io_res, io_fail. destruct (os_read_stdin os w) as [r1 w1] eqn:S. apply stdin_spec in S as (_ & O & _).
    assert (G : exists out, w_stdout w1 = w_stdout w ++ out) by (exists []; now rewrite app_nil_r).
    destruct r1 as [s|e|c]; try (intros [= _ <-]; exact G).
    destruct (parse_input i s) as [p|e|]; try (intros [= _ <-]; exact G).
    destruct (write_program E o p) as [out [e|]]; intros [= _ <-]; exists out; cbn [w_stdout]; now rewrite O.
Qed.
(** input that cannot be parsed: an error and no output at all *)
Theorem parse_bad_input E os i o w m :
  (i <> bs "json" /\ parse_string (w_stdin w) = PErr m) \/ (i = bs "json" /\ parse_json_reader (w_stdin w) = PErr m) ->
  forall r w', run_parse E os i o w = (r, w') -> (forall x, r <> Ok x) /\ w_stdout w' = w_stdout w.
Proof.
  intros H r w'. assert (P : parse_input i (w_stdin w) = PErr m).
  { unfold parse_input. destruct H as [[H P]|[-> P]]; [|exact P].
    destruct (str_eqb i (bs "json")) eqn:X; [apply str_eqb_eq in X; congruence|exact P]. }
  unfold run_parse. destruct (negb _); [intros [= <- <-]; split; [discriminate|reflexivity]|].
  destruct (negb _); [intros [= <- <-]; split; [discriminate|reflexivity]|].
  unfold io_bind, wrap_err, io_try, io_res, io_fail. destruct (os_read_stdin os w) as [r1 w1] eqn:S. apply stdin_spec in S as (_ & O & C).
  destruct r1 as [s|e|c]; try (intros [= <- <-]; split; [discriminate|exact O]).
  rewrite (C s eq_refl), P. intros [= <- <-]. split; [discriminate|exact O].
Qed.
Example parse_bad_input_witness : exists m, parse_string (bs "insert ""a") = PErr m.
Proof. eexists. vm_compute. reflexivity. Qed.

(** every number in a script, in whatever form it is written, is a float64 *)
Theorem script_numbers s p : parse_string s = POk p \/ parse_json_reader s = POk p \/ parse_json_string s = POk p ->
  Forall float64s p.
Proof.
  assert (A : forall v, all_atoms json_atom v -> float64s v).
  { intros v. induction v as [n|x|f|l IH] using value_ind'; intros H; try exact I; [exact (proj1 H)|].
    apply all_atoms_list in H. apply float64s_list. rewrite Forall_forall in *. auto. }
  intros [H|[H|H]].
  - apply parsed_readable in H. eapply Forall_impl; [|exact H]. intros v [R _]. now apply readable_numbers.
  - apply stream_values in H as (H & _). eapply Forall_impl; [|exact H]. exact A.
  - apply array_values in H as [H _]. eapply Forall_impl; [|exact H]. exact A.
Qed.
Example script_numbers_witness : parse_string (bs "f 0.1 1e400" ++ nl :: bs "g -inf 0x1.8p-1074") <> POk [] /\
  exists p, parse_string (bs "f 0.1" ++ nl :: bs "g -inf 0x1.8p-1074") = POk p /\ length p = 2%nat.
Proof. split; [vm_compute; discriminate|]. eexists. split; [vm_compute; reflexivity|reflexivity]. Qed.

(** converting to s-expressions: the output is read as the very same program, so that it does
    to any buffer exactly what the input does; converting the output again changes nothing *)
Theorem parse_to_sexp E os i w p : In i [bs "shell"; bs "sexp"] -> no_faults os -> zlen (w_stdin w) <= 2 ^ 48 ->
  parse_string (w_stdin w) = POk p -> Forall (fun v => zlen (show E v) < 65536) p ->
  exists t w', run_parse E os i (bs "sexp") w = (Ok tt, w') /\ w_stdout w' = w_stdout w ++ t /\
    parse_string t = POk p /\
    (forall E' input, execute_script E' input t = execute_script E' input (w_stdin w)) /\
    (forall j v, In j [bs "shell"; bs "sexp"] -> w_stdin v = t -> zlen t <= 2 ^ 48 ->
       exists v', run_parse E os j (bs "sexp") v = (Ok tt, v') /\ w_stdout v' = w_stdout v ++ t).
Proof.
  intros I N L P F. assert (V : forall i s, In i [bs "shell"; bs "sexp"] -> is_valid_format i = true /\ parse_input i s = parse_string s).
  { intros ? ? [<-|[<-|[]]]; split; reflexivity. }
  pose proof (parsed_reread E _ _ P F) as R. exists (sexp_text E p).
  destruct (V i (w_stdin w) I) as [V1 V2].
  destruct (run_parse_ok E os i (bs "sexp") w p V1 eq_refl N L ltac:(congruence)) as (w' & Rn & O).
  rewrite write_sexp_text in Rn, O. cbn [fst snd] in Rn, O. exists w'. repeat split; auto.
  - intros E' input. unfold execute_script. now rewrite R, P.
  - intros j v J S Lt. destruct (V j (w_stdin v) J) as [V3 V4].
    destruct (run_parse_ok E os j (bs "sexp") v p V3 eq_refl N ltac:(now rewrite S) ltac:(congruence)) as (v' & Rv & Ov).
    rewrite write_sexp_text in Rv, Ov. exists v'. auto.
Qed.
Example parse_to_sexp_witness : let s := bs "goto-char 2; insert ""a b""" ++ nl :: bs "(f (g 'x) 1.50)" in
  exists p, parse_string s = POk p /\ Forall (fun v => zlen (show ref_ext v) < 65536) p /\
  fst (write_program ref_ext (bs "sexp") p) = bs "(goto-char 2)" ++ nl :: bs "(insert ""a b"")" ++ nl :: bs "(f (g 'x) 1.5)" ++ [nl].
Proof.
  eexists. split; [vm_compute; reflexivity|]. split; [|vm_compute; reflexivity].
  repeat (apply Forall_cons; [apply Z.ltb_lt; vm_compute; reflexivity|]). constructor.
Qed.
(** the limit is needed: a script that is accepted can be written to text that is not.
    [ctl_ext] says of the control characters U+0080 to U+009F that they are not printable *)
Definition ctl_ext : Ext := {| re_error := re_error ref_ext; re_find := re_find ref_ext; re_find_all := re_find_all ref_ext;
  re_replace_all := re_replace_all ref_ext; uc_upper := uc_upper ref_ext; uc_lower := uc_lower ref_ext;
  uc_print := fun r => negb (r <? 160)%N; f2i_oob := f2i_oob ref_ext |}.
Theorem parse_to_sexp_readable_refuted : exists s p, zlen s < 65536 /\ parse_string s = POk p /\
  exists t m, write_program ctl_ext (bs "sexp") p = (t, None) /\ parse_string t = PErr m.
Proof.
  set (v := VList [VSym (bs "f"); VStr (concat (repeat [xc2; x85] (Z.to_nat 11000)))]).
  assert (W : writable v).
  { split; [|split; exact I]. apply (letter_names "f"%byte []); [cbn; lia|cbn; intuition discriminate|constructor]. }
  destruct (sexp_round_trip ref_ext [v]) as (s & S & P); [repeat constructor; eexists; reflexivity|auto|repeat constructor; apply Z.ltb_lt; vm_compute; reflexivity|].
  exists s, [v]. split; [|split; [exact P|]].
  - rewrite write_sexp_text in S. injection S as <-. apply Z.ltb_lt. vm_compute. reflexivity.
  - apply sexp_long_instruction_fails; [exact W|]. apply Z.leb_le. vm_compute. reflexivity.
Qed.

(** from JSON to JSON: nothing is lost, without any limit, and the output is its own conversion *)
Theorem parse_json_to_json E os w p : no_faults os -> zlen (w_stdin w) <= 2 ^ 48 -> parse_json_reader (w_stdin w) = POk p ->
  exists t w', run_parse E os (bs "json") (bs "json") w = (Ok tt, w') /\ w_stdout w' = w_stdout w ++ t /\
    parse_json_reader t = POk p /\
    (forall v, w_stdin v = t -> zlen t <= 2 ^ 48 ->
       exists v', run_parse E os (bs "json") (bs "json") v = (Ok tt, v') /\ w_stdout v' = w_stdout v ++ t).
Proof.
  intros N L P. destruct (json_reread E _ _ P) as (t & W & R).
  assert (G : forall v, zlen (w_stdin v) <= max_alloc -> parse_json_reader (w_stdin v) = POk p ->
    exists v', run_parse E os (bs "json") (bs "json") v = (Ok tt, v') /\ w_stdout v' = w_stdout v ++ t).
  { intros v Lv Pv. destruct (run_parse_ok E os (bs "json") (bs "json") v p eq_refl eq_refl N Lv Pv) as (v' & Rv & Ov).
    rewrite W in Rv, Ov. cbn [fst snd] in Rv, Ov. exists v'. split; assumption. }
  destruct (G w L P) as (w' & Rn & O). exists t, w'. split; [exact Rn|]. split; [exact O|]. split; [exact R|].
  intros v S Lt. apply G; rewrite S; assumption.
Qed.
Example parse_json_to_json_witness : parse_json_reader (bs " [ ""insert"", ""é<"" ]  [""f"",1.50e1,[]]") =
    POk [VList [VSym (bs "insert"); VStr ([xc3; xa9] ++ bs "<")]; VList [VSym (bs "f"); VNum (f_of_Z 15); VList []]].
Proof. vm_compute. reflexivity. Qed.

(** what the edit command accepts as JSON can be written as the array it was read from *)
Theorem json_array_reread E s p : parse_json_string s = POk p ->
  exists ts, Forall2 (fun v t => write_value E (bs "json") v = POk (t ++ [nl])) p ts /\
    parse_json_string (bs "[" ++ join (bs ",") ts ++ bs "]") = POk p.
Proof.
  intros H. pose proof (json_accepts_canonical _ _ H) as C. apply array_values in H as [A D].
  assert (W : exists ts, Forall2 (fun v t => write_value E (bs "json") v = POk (t ++ [nl])) p ts).
  { clear -A. induction A as [|v p A _ [ts IH]]; [exists []; constructor|].
    destruct (value_reads _ (value_json_ok v A)) as (t & T & _). exists (t :: ts). constructor; auto. now apply write_json. }
  destruct W as [ts W]. exists ts. split; [exact W|].
  apply (json_array_round_trip E p ts); [| |exact A|exact D|exact W]; (eapply Forall_impl; [|exact C]); intros v [? ?]; assumption.
Qed.
Example json_array_reread_witness : parse_json_string (bs "[ [""f"",0.50] , [] ]") = POk [VList [VSym (bs "f"); VNum (S754_finite false 4503599627370496 (-53))]; VList []].
Proof. vm_compute. reflexivity. Qed.

(** from the other forms to JSON: the output is read as the image of the program, in which
    symbols in argument position have become strings and the heads of lists symbols *)
Theorem parse_to_json E os i w p : In i [bs "shell"; bs "sexp"] -> no_faults os -> zlen (w_stdin w) <= 2 ^ 48 ->
  parse_string (w_stdin w) = POk p -> Forall (all_atoms json_atom) p -> Forall (fun v => list_depth v <= 10000) p ->
  exists t w', run_parse E os i (bs "json") w = (Ok tt, w') /\ w_stdout w' = w_stdout w ++ t /\
    forall q, parse_json_reader t = POk q <-> Forall2 json_image p q.
Proof.
  intros I N L P A D. assert (V : is_valid_format i = true /\ parse_input i (w_stdin w) = parse_string (w_stdin w)).
  { destruct I as [<-|[<-|[]]]; split; reflexivity. }
  destruct (json_stream_image E p) as (t & W & R); auto.
  { apply parsed_readable in P. eapply Forall_impl; [|exact P]. now intros v [_ ?]. }
  destruct (run_parse_ok E os i (bs "json") w p (proj1 V) eq_refl N L ltac:(now rewrite (proj2 V))) as (w' & Rn & O).
  rewrite W in Rn, O. exists t, w'. auto.
Qed.
Example parse_to_json_witness : exists p, parse_string (bs "insert ""x"" y 2") = POk p /\ Forall (all_atoms json_atom) p /\
  fst (write_program ref_ext (bs "json") p) = bs "[""insert"",""x"",""y"",2]" ++ [nl].
Proof.
  eexists. split; [vm_compute; reflexivity|]. split; [|vm_compute; reflexivity].
  repeat (apply Forall_cons || apply Forall_nil); cbn [all_atoms json_atom].
  repeat match goal with |- _ /\ _ => split | |- True => exact I | |- f64_valid _ = true => vm_compute; reflexivity end.
  all: match goal with |- utf8_text ?x => exists (rune_list x); split; [apply Forall_forall, forallb_forall; vm_compute; reflexivity|vm_compute; reflexivity] end.
Qed.

Definition ok_os : OS := Build_OS (fun n => n) (fun _ => None) (fun n => bs "open " ++ n) (fun _ => None) (fun _ => None) (fun _ => None) (fun _ => None).
(** conversions that do not keep the program *)
Definition converted (i o s t : str) : Prop :=
  exists p, parse_input i s = POk p /\ write_program ref_ext o p = (t, None).
(** to JSON and back: a symbol in argument position comes back as a string *)
Theorem sexp_json_sexp_refuted : exists s t u, converted (bs "shell") (bs "json") s t /\ converted (bs "json") (bs "sexp") t u /\
  parse_string u <> parse_string s.
Proof.
  exists (bs "insert x"), (bs "[""insert"",""x""]" ++ [nl]), (bs "(insert ""x"")" ++ [nl]).
  split; [eexists; split; [vm_compute; reflexivity|vm_compute; reflexivity]|]. split; [eexists; split; [vm_compute; reflexivity|vm_compute; reflexivity]|]. vm_compute. discriminate.
Qed.
(** from JSON to s-expressions: names are not checked *)
Theorem json_sexp_refuted : exists s t, converted (bs "json") (bs "sexp") s t /\ parse_string t <> parse_json_reader s /\ exists p, parse_string t = POk p.
Proof.
  exists (bs "[""insert 1""]"), (bs "(insert 1)" ++ [nl]). split; [eexists; split; [vm_compute; reflexivity|vm_compute; reflexivity]|].
  split; [vm_compute; discriminate|]. eexists. vm_compute. reflexivity.
Qed.
(** from the shell form to the shell form: a name that ends in a no-break space loses it *)
Theorem shell_shell_refuted : exists s t, converted (bs "sexp") (bs "shell") s t /\ parse_string t <> parse_string s /\ exists p, parse_string t = POk p.
Proof.
  exists (bs "(foo x" ++ [xc2; xa0] ++ bs ")"), (bs "foo x" ++ [xc2; xa0; nl]). split; [eexists; split; [vm_compute; reflexivity|vm_compute; reflexivity]|].
  split; [vm_compute; discriminate|]. eexists. vm_compute. reflexivity.
Qed.
(** infinities can be written in the shell form but not in JSON; the lines before are printed *)
Theorem parse_all_or_nothing_refuted : exists s, let run := run_parse ref_ext ok_os (bs "shell") (bs "json") (mkWorld (fun _ => None) [] 0 s false []) in
  fst run = Err (bs "json: unsupported value: +Inf") /\ w_stdout (snd run) = bs "[""f""]" ++ [nl].
Proof. exists (bs "f; g inf"). split; vm_compute; reflexivity. Qed.

(** ** Assumptions of every theorem above *)
Print Assumptions parse_rejects_format.
Print Assumptions parse_touches_no_file.
Print Assumptions parse_bad_input.
Print Assumptions script_numbers.
Print Assumptions parse_to_sexp.
Print Assumptions parse_to_sexp_readable_refuted.
Print Assumptions parse_json_to_json.
Print Assumptions json_array_reread.
Print Assumptions parse_to_json.
Print Assumptions sexp_json_sexp_refuted.
Print Assumptions json_sexp_refuted.
Print Assumptions shell_shell_refuted.
Print Assumptions parse_all_or_nothing_refuted.
