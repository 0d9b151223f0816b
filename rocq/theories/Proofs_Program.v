(** The runs of texted edit and texted parse, against SpecProgram. *)
From Coq Require Import ZArith NArith List Bool Lia Strings.Byte ZifyBool.
From Verif Require Import Base Float Ext Utf8 Strconv Values Buffer Builtins Eval Parser Json Writer Files Cli Tools Testing Docs DocsData Flags TestCmd CmdLine RefExt
  Spec SpecText SpecNumber SpecNumText SpecJson SpecLines SpecRefuse SpecData SpecFiles SpecManual SpecMeaning SpecWrite SpecEdit SpecTrial SpecPage SpecFlags SpecCmd SpecUsage SpecProgram
  Proofs_Base Proofs_Numeral Proofs_Files Proofs_Cli Proofs_Reread Proofs_Grammar Proofs_Manual Proofs_Meaning Proofs_Meaning2 Proofs_Told
  Prop_Values Prop_Parse Prop_Grammar Prop_Lines Prop_Words Prop_Refuse Prop_Data Prop_Manual Prop_Tools Prop_Meaning Prop_Write Prop_Told.
Import ListNotations.
Open Scope Z_scope.

Lemma read_fits os f w c w1 : os_read_file os f w = (Ok c, w1) -> fits c.
Proof.
  unfold os_read_file, fits. destruct (w_fs w (canon os f)) as [c'|]; [|discriminate]. destruct (os_read_err os (w_ops w)); [discriminate|].
  destruct (max_alloc <? zlen c') eqn:L; [discriminate|]. intros [= <- _]. lia.
Qed.
Lemma input_fits os w c w1 : os_read_stdin os w = (Ok c, w1) -> fits c.
Proof.
  unfold os_read_stdin, fits. destruct (os_stdin_err os (w_ops w)); [discriminate|]. destruct (max_alloc <? zlen (w_stdin w)) eqn:L; [discriminate|].
  intros [= <- _]. lia.
Qed.

(** *** Scripts *)
Lemma is_json (format : str) : format = bs "json" \/ format <> bs "json".
Proof. destruct (list_eq_dec byte_eq_dec format (bs "json")); auto. Qed.
Definition room (format s : str) : Prop := format = bs "json" -> 3 * zlen s <= max_alloc.
Lemma read_iff format s p : parsed_as format s = POk p <-> read_as format s p.
Proof.
  unfold parsed_as. destruct (list_eq_dec byte_eq_dec format (bs "json")) as [J|J].
  - split; [intros H; apply ra_json; auto; now apply json_script_grammar|]. intros [_ H|H _]; [now apply json_script_grammar|contradiction].
  - split; [intros H; apply ra_other; auto; now apply script_grammar|]. intros [H _|_ H]; [contradiction|now apply script_grammar].
Qed.
Lemma misread_iff format s m : parsed_as format s = PErr m <-> misread format s m.
Proof.
  unfold parsed_as. destruct (list_eq_dec byte_eq_dec format (bs "json")) as [J|J].
  - split; [intros H; apply mr_json; auto; now apply json_script_told|]. intros [_ H|H _]; [now apply json_script_told|contradiction].
  - split; [intros H; apply mr_other; auto; now apply script_refused|]. intros [H _|_ H]; [contradiction|now apply script_refused].
Qed.
Lemma read_holds format s p : room format s -> read_as format s p -> Forall holds_texts p.
Proof. intros R [J H|J H]; [eapply json_script_texts; eauto|eapply script_holds; eauto]. Qed.
Lemma read_floats format s p : read_as format s p -> Forall float64s p.
Proof. intros [J H|J H]; [apply (script_numbers s); right; right; now apply json_script_grammar|eapply script_float64s; eauto]. Qed.
Lemma script_fmt_parsed E t s format : In format SpecEdit.formats -> execute_script_fmt E t s format = run_program E t (parsed_as format s).
Proof. intros [<-|[<-|[<-|[]]]]; reflexivity. Qed.

Section Edit.
Variables (E : Ext) (os : OS) (a : edit_args).
Hypothesis X : ext_ok E.

Lemma edits_iff format s t r : In format SpecEdit.formats -> room format s -> fits t ->
  (execute_script_fmt E t s format = r <-> edited E (read_as format s) (misread format s) t r).
Proof.
  intros I R F. rewrite (script_fmt_parsed E t s format I). apply run_edited; auto.
  - apply read_iff. - apply misread_iff. - apply parsed_fuel. - intros p. now apply read_holds. - intros p. apply read_floats.
Qed.
(** the program leaves a text that fits *)
Lemma sequence_machine p b v b' : sequence E p b v b' -> Forall holds_texts p -> machine b -> machine b'.
Proof.
  intros S T M. assert (P : plays E p b (EvDone v b')) by now constructor. apply plays_iff in P; auto.
  induction S as [b|p i b v b1 w b2 S IH Me]; [exact M|]. apply Forall_app in T as [T1 T2]. inversion T2; subst.
  assert (M1 : machine b1). { apply IH; auto. apply plays_iff; auto. now constructor. }
  apply means_iff in Me; auto. pose proof (eval_lands E X i ltac:(assumption) b1 M1) as L. rewrite Me in L. apply L.
Qed.
Lemma edited_fits format s t t1 : room format s -> fits t -> edited E (read_as format s) (misread format s) t (Ok t1) -> fits t1.
Proof.
  intros R F H. inversion H as [p v b Rd S Q| | | |]; subst. apply (sequence_machine p (new_buffer t) v b S); [eapply read_holds; eauto|now apply machine_begins].
Qed.

Lemma handled_iff format s x t w r w' : In format SpecEdit.formats -> room format s -> fits t ->
  (step_done E os a format s x t w = (r, w') <-> handled E os a format s x t w r w').
Proof.
  intros I R F. destruct x as [f| | |f| |m]; cbn [step_done].
  - split; [intros H; now constructor|]. intros H. now inversion H.
  - split; [intros H; now constructor|]. intros H. now inversion H.
  - split.
    + intros H. apply pair_equal_spec in H as [H <-]. constructor. now apply edits_iff.
    + intros H. inversion H as [| |? ? ? H1| | | | | | |]; subst. f_equal. now apply edits_iff.
  - unfold with_text. destruct (os_write_file os f t w) as [[[]|e|c] w1] eqn:W; cbn [fst snd]; split; intros H; try (apply pair_equal_spec in H as [<- <-]; now constructor); inversion H; subst; try congruence;
      match goal with K : os_write_file _ _ _ _ = _ |- _ => rewrite W in K; congruence end.
  - unfold with_text. destruct (os_write_stdout os t w) as [[[]|e|c] w1] eqn:W; cbn [fst snd]; split; intros H; try (apply pair_equal_spec in H as [<- <-]; now constructor); inversion H; subst; try congruence;
      match goal with K : os_write_stdout _ _ _ = _ |- _ => rewrite W in K; congruence end.
  - split; intros H; [apply pair_equal_spec in H as [<- <-]; constructor|inversion H; reflexivity].
Qed.
Lemma handled_fits format s x t w t1 w' : room format s -> fits t -> handled E os a format s x t w (Ok t1) w' -> fits t1.
Proof.
  intros R F H. inversion H; subst; auto; [eapply read_fits|eapply input_fits|eapply edited_fits]; eauto.
Qed.
Lemma followed_iff format s l : In format SpecEdit.formats -> room format s -> forall t w r w', fits t ->
  (carried_out E os a format s l t w r w' <-> followed E os a format s l t w r w').
Proof.
  intros I R t w r w' F. split.
  - intros C. revert F. induction C as [t w|p x l t w t1 w1 r w2 D _ IH|p x l t w e w1 D|p x l t w c w1 D]; intros F; try (apply handled_iff in D; auto).
    + constructor. + eapply fw_next; eauto. apply IH. eapply handled_fits; eauto. + now apply fw_fails. + now apply fw_dies.
  - intros C. revert F. induction C as [t w|p x l t w t1 w1 r w2 D _ IH|p x l t w e w1 D|p x l t w c w1 D]; intros F.
    + constructor. + pose proof (handled_fits _ _ _ _ _ _ _ R F D). apply handled_iff in D; auto. eapply co_next; eauto.
    + apply handled_iff in D; auto. now apply co_fails. + apply handled_iff in D; auto. now apply co_dies.
Qed.
Lemma fits_nil : fits []. Proof. vm_compute. discriminate. Qed.
Lemma replaced_iff format s l : In format SpecEdit.formats -> room format s -> forall w vs w',
  (in_place E os a format s l w vs w' <-> replaced E os a format s l w vs w').
Proof.
  intros I R w vs w'. pose proof (fun l t w r w' => followed_iff format s l I R t w r w') as Fi. split.
  - induction 1 as [w|f l w t w1 vs w2 C _ IH|f l w m w1 vs w2 C _ IH]; [constructor|eapply rl_edited; eauto|eapply rl_failed; eauto]; apply Fi; eauto using fits_nil.
  - induction 1 as [w|f l w t w1 vs w2 C _ IH|f l w m w1 vs w2 C _ IH]; [constructor|eapply ip_edited; eauto|eapply ip_failed; eauto]; apply Fi; eauto using fits_nil.
Qed.
Lemma dies_iff format s l : In format SpecEdit.formats -> room format s -> forall w c w',
  (in_place_dies E os a format s l w c w' <-> replacing_dies E os a format s l w c w').
Proof.
  intros I R w c w'. split.
  - induction 1 as [f l w c w1 C|l l' w vs w1 c w2 P _ IH]; [apply rd_here, followed_iff; auto using fits_nil|eapply rd_later; [apply replaced_iff; [exact I|exact R|exact P]|exact IH]].
  - induction 1 as [f l w c w1 C|l l' w vs w1 c w2 P _ IH]; [apply id_here, followed_iff; auto using fits_nil|eapply id_later; [apply replaced_iff; [exact I|exact R|exact P]|exact IH]].
Qed.

(** *** Expressions *)
Lemma begun_iff source i e out : begun a source i e out <-> out = remark a (bs "Evaluating expression " ++ itoa (Z.of_nat i) ++ bs " on " ++ source ++ bs ": " ++ e).
Proof.
  split.
  - intros (n & T & ->). apply int_text_itoa in T. now subst.
  - intros ->. eexists. split; [apply itoa_text|reflexivity].
Qed.
Lemma line_iff v r : float64s v -> (value_line E a v r <->
  (a_output_format a = bs "shell" /\ write_value E (bs "shell") (VList [v]) = r \/ a_output_format a <> bs "shell" /\ write_value E (a_output_format a) v = r)).
Proof.
  intros N. unfold value_line. rewrite (write_value_exact E (a_output_format a) v r N), (write_value_exact E (bs "shell") (VList [v]) r); [tauto|].
  cbn. repeat split; auto.
Qed.
Lemma answered_iff format source l : Forall (room format) l -> forall i b out r, machine b ->
  (evaluated E a format source i l b out r <-> answered E a format source i l b out r).
Proof.
  intros R i b out r M. split.
  - intros H. revert R M. induction H as [i b|i e l b m P|i e l b p x b1 P V|i e l b p v b1 t out r P V W Ev IH|i e l b p v b1 P V Q N|i e l b p v b1 m P V Q N W|i e l b p c P V];
      intros R M; [constructor| | | | | |]; inversion R as [|? ? R1 R2]; subst.
    + eapply aw_unreadable; [now apply begun_iff|apply itoa_text|now apply misread_iff].
    + apply read_iff in P. apply plays_iff in V; auto; [|eapply read_holds; eauto]. inversion V as [|before j rest v b2 msg b3 Q S Me| |]; subst.
      eapply aw_failing; [now apply begun_iff|apply itoa_text|exact P|exact S|exact Me|].
      match goal with |- complaint E msg ?n ?i ?b (exec_error_text E ?x) => apply (text_complaint E x i b); auto; eapply in_program; eapply read_floats; eauto end.
    + apply read_iff in P. apply plays_iff in V; auto; [|eapply read_holds; eauto]. inversion V as [? ? S| | |]; subst.
      assert (M1 : machine b1) by (eapply sequence_machine; eauto; eapply read_holds; eauto).
      destruct W as [Q|[F W]].
      * unfold notice. rewrite Q. cbn [app]. eapply aw_quiet; eauto. now apply begun_iff.
      * destruct (a_quiet a) eqn:Q.
        -- unfold notice. rewrite Q. cbn [app]. eapply aw_quiet; eauto. now apply begun_iff.
        -- unfold notice. rewrite Q. eapply aw_value; eauto; [now apply begun_iff|]. apply line_iff; [|exact W]. eapply sequence_numbers; eauto. eapply read_floats; eauto.
    + apply read_iff in P. apply plays_iff in V; auto; [|eapply read_holds; eauto]. inversion V as [? ? S| | |]; subst. eapply aw_bad_format; eauto. now apply begun_iff.
    + apply read_iff in P. apply plays_iff in V; auto; [|eapply read_holds; eauto]. inversion V as [? ? S| | |]; subst. eapply aw_unwritable; eauto; [now apply begun_iff|].
      apply line_iff; [|exact W]. eapply sequence_numbers; eauto. eapply read_floats; eauto.
    + apply read_iff in P. destruct V as [[V ->]|[V ->]]; (apply plays_iff in V; auto; [|eapply read_holds; eauto]); inversion V; subst.
      * eapply aw_crash; eauto. now apply begun_iff.
      * eapply aw_memory; eauto. now apply begun_iff.
  - intros H. revert R M. induction H as [i b|i n e l b m h B T P|i n e l b h before x rest v b1 msg b2 m B T P S Me C|i e l b h p v b1 out r B P S Q Ev IH|i e l b h p v b1 t out r B P S Q F W Ev IH|i e l b h p v b1 B P S Q N|i e l b h p v b1 m B P S Q F W|i e l b h before x rest v b1 B P S Me|i e l b h before x rest v b1 B P S Me];
      intros R M; [constructor| | | | | | | |]; inversion R as [|? ? R1 R2]; subst; apply begun_iff in B; subst h.
    + apply int_text_itoa in T. subst n. apply ex_unparsable. now apply misread_iff.
    + apply int_text_itoa in T. subst n. pose proof (read_floats _ _ _ P) as N.
      assert (V : eval E (default_env E) (before ++ x :: rest) b = EvError (mkExecError msg (before ++ x :: rest) x (zlen before) (content b2) (point b2) (mark b2) (last_match b2) (last_start b2) (last_end b2)) b2).
      { apply plays_iff; auto; [eapply read_holds; eauto|]. eapply pl_error; eauto. }
      assert (Q : exec_error_text E (mkExecError msg (before ++ x :: rest) x (zlen before) (content b2) (point b2) (mark b2) (last_match b2) (last_start b2) (last_end b2)) = m).
      { match goal with |- exec_error_text E ?z = m => apply (complaint_text E z x b2); auto; eapply in_program; eauto end. }
      rewrite <- Q. eapply ex_failing; [apply read_iff; exact P|exact V].
    + assert (V : eval E (default_env E) p b = EvDone v b1) by (apply plays_iff; auto; [eapply read_holds; eauto|now constructor]).
      assert (M1 : machine b1) by (eapply sequence_machine; eauto; eapply read_holds; eauto).
      replace out with (notice a [] ++ out) by (unfold notice; now rewrite Q). eapply ex_value; eauto. apply read_iff; exact P.
    + assert (V : eval E (default_env E) p b = EvDone v b1) by (apply plays_iff; auto; [eapply read_holds; eauto|now constructor]).
      assert (M1 : machine b1) by (eapply sequence_machine; eauto; eapply read_holds; eauto).
      replace (t ++ [nl]) with (notice a t) by (unfold notice; now rewrite Q). eapply ex_value; eauto; [apply read_iff; exact P|]. right. split; auto.
      apply line_iff; auto. eapply sequence_numbers; eauto. eapply read_floats; eauto.
    + assert (V : eval E (default_env E) p b = EvDone v b1) by (apply plays_iff; auto; [eapply read_holds; eauto|now constructor]). eapply ex_bad_format; eauto. apply read_iff; exact P.
    + assert (V : eval E (default_env E) p b = EvDone v b1) by (apply plays_iff; auto; [eapply read_holds; eauto|now constructor]). eapply ex_unwritable; eauto; [apply read_iff; exact P|].
      apply line_iff; auto. eapply sequence_numbers; eauto. eapply read_floats; eauto.
    + assert (V : eval E (default_env E) (before ++ x :: rest) b = EvPanic) by (apply plays_iff; auto; [eapply read_holds; eauto|eapply pl_crash; eauto]). eapply ex_dies; [apply read_iff; exact P|left; eauto].
    + assert (V : eval E (default_env E) (before ++ x :: rest) b = EvOutOfMemory) by (apply plays_iff; auto; [eapply read_holds; eauto|eapply pl_memory; eauto]). eapply ex_dies; [apply read_iff; exact P|right; eauto].
Qed.
Lemma answered_on_iff format l : Forall (room format) (a_expressions a) -> forall w r w',
  (evaluated_on E os a format l w r w' <-> answered_on E os a format l w r w').
Proof.
  intros R w r w'. split.
  - induction 1 as [w|f l w e w1 Rd|f l w c w1 Rd|f l w t w1 heading out r Rd -> Ev N|f l w t w1 heading out r w2 Rd -> Ev _ IH].
    + constructor. + now apply ao_unreadable. + now apply ao_dies.
    + apply answered_iff in Ev; auto; [|apply machine_begins; eapply read_fits; eauto]. eapply ao_stops; eauto.
    + apply answered_iff in Ev; auto; [|apply machine_begins; eapply read_fits; eauto]. eapply ao_next; eauto.
  - induction 1 as [w|f l w e w1 Rd|f l w c w1 Rd|f l w t w1 out r Rd Ev N|f l w t w1 out r w2 Rd Ev _ IH].
    + constructor. + now apply eo_unreadable. + now apply eo_dies.
    + apply answered_iff in Ev; auto; [|apply machine_begins; eapply read_fits; eauto]. eapply eo_stops; eauto.
    + apply answered_iff in Ev; auto; [|apply machine_begins; eapply read_fits; eauto]. eapply eo_next; eauto.
Qed.
Lemma accepted_format format : acceptable a format -> In format SpecEdit.formats.
Proof.
  intros A. inversion A as [|? ? H _]; subst. cbn [fst] in H. destruct (in_dec (list_eq_dec byte_eq_dec) format SpecEdit.formats); auto. contradiction.
Qed.
Lemma edit_iff w r w' : roomy os a w -> (edit_run E os a w r w' <-> edit_does E os a w r w').
Proof.
  intros Ro.
  assert (RE : forall format, format_of a format -> Forall (room format) (a_expressions a)).
  { intros format F. apply Forall_forall. intros e I J. subst. destruct (Ro F) as [K _]. rewrite Forall_forall in K. auto. }
  assert (RS : forall format s w1, format_of a format -> script_read os a w (Ok s) w1 -> room format s).
  { intros format s w1 F S J. subst. destruct (Ro F) as [_ K]. eauto. }
  split.
  - intros H.
    destruct H as [format m F C|format r w1 F A Xn N R NR|format t out r w1 F A Xn N R Ev|format r w1 F A Xn N Ev|format r w1 F A Xn Sc NS|format s w1 F A Xn Sc P L|format s w1 r w2 F A Xn Sc D N R|format s w1 F A Xn Sc D N L|format s w1 r w2 F A Xn Sc D N C|format s w1 f r w2 F A Xn Sc D P N C|format s w1 vs w2 F A Xn Sc D P N C|format s w1 c w2 F A Xn Sc D P N C].
    + eapply ed_flags; eauto.
    + eapply ed_no_input; eauto. destruct r as [t|e|c]; [now destruct (NR t)|left; eauto|right; eauto].
    + apply answered_iff in Ev; auto; [|apply machine_begins; eapply input_fits; eauto]. eapply ed_expressions_input; eauto.
    + apply answered_on_iff in Ev; auto. eapply ed_expressions; eauto.
    + eapply ed_no_script; eauto.
    + eapply ed_several; eauto.
    + destruct r as [t|e|c].
      * eapply ed_dry_input; eauto. apply itoa_text.
      * eapply ed_dry_no_input; eauto. left; eauto.
      * eapply ed_dry_no_input; eauto. right; eauto.
    + eapply ed_dry; eauto.
    + apply followed_iff in C; eauto using accepted_format, fits_nil. eapply ed_input; eauto.
    + apply followed_iff in C; eauto using accepted_format, fits_nil. eapply ed_file; eauto.
    + apply replaced_iff in C; eauto using accepted_format. eapply ed_in_place; eauto.
    + apply dies_iff in C; eauto using accepted_format. eapply ed_in_place_dies; eauto.
  - intros H.
    destruct H as [format m F C|format r x w1 F A Xn N R U|format t out r w1 F A Xn N R Ev|format r w1 F A Xn N Ev|format r w1 F A Xn Sc NS|format s w1 F A Xn Sc P L|format s w1 r x w2 F A Xn Sc D N R U|format s w1 t n w2 F A Xn Sc D N R T|format s w1 F A Xn Sc D N L|format s w1 r w2 F A Xn Sc D N C|format s w1 f r w2 F A Xn Sc D P N C|format s w1 vs w2 F A Xn Sc D P N C|format s w1 c w2 F A Xn Sc D P N C].
    + eapply er_refused; eauto.
    + destruct U as [(e & -> & ->)|(c & -> & ->)]; [apply (er_input_expressions E os a w format (Err e) w1)|apply (er_input_expressions E os a w format (Crash c) w1)]; auto; discriminate.
    + apply answered_iff in Ev; auto; [|apply machine_begins; eapply input_fits; eauto]. eapply er_expressions_input; eauto.
    + apply answered_on_iff in Ev; auto. eapply er_expressions; eauto.
    + eapply er_no_script; eauto.
    + eapply er_several; eauto.
    + destruct U as [(e & -> & ->)|(c & -> & ->)]; [apply (er_dry_input E os a w format s w1 (Err e) w2)|apply (er_dry_input E os a w format s w1 (Crash c) w2)]; auto.
    + apply int_text_itoa in T. subst n. apply (er_dry_input E os a w format s w1 (Ok t) w2); auto.
    + eapply er_dry; eauto.
    + apply followed_iff in C; eauto using accepted_format, fits_nil. eapply er_input; eauto.
    + apply followed_iff in C; eauto using accepted_format, fits_nil. eapply er_file; eauto.
    + apply replaced_iff in C; eauto using accepted_format. eapply er_in_place; eauto.
    + apply dies_iff in C; eauto using accepted_format. eapply er_in_place_dies; eauto.
Qed.
End Edit.
