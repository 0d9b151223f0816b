(** C42, C45, C48: the edit_file and texted_eval tools and the test runner. *)
From Coq Require Import ZArith NArith List Bool Lia ZifyBool ZifyN ZifyNat Strings.Byte.
From Verif Require Import Base Float Ext Utf8 Strconv Values Buffer Builtins Eval Parser Json Writer Files Cli Tools Testing
  Spec SpecText SpecFiles RefExt Proofs_Base Proofs_Files Proofs_Cli Proofs_Token Proofs_Script Prop_Values Prop_Script Prop_Eval Prop_Files.
Import ListNotations.
Open Scope Z_scope.

(** ** C42 *)
Lemma failed_some rs : existsb failed rs = true <-> Exists (fun r => r_err r <> None) rs.
Proof.
  rewrite existsb_exists, Exists_exists. split; intros (r & I & F); exists r; split; auto; unfold failed in *; destruct (r_err r); congruence.
Qed.
Lemma failed_none rs : existsb failed rs = false <-> Forall (fun r => r_err r = None) rs.
Proof.
  split.
  - intros F. apply Forall_forall. intros r I. destruct (r_err r) eqn:R; auto. exfalso.
    assert (X : existsb failed rs = true) by (apply existsb_exists; exists r; split; auto; unfold failed; now rewrite R). congruence.
  - intros F. destruct (existsb failed rs) eqn:X; auto. apply failed_some in X. rewrite Exists_exists in X. rewrite Forall_forall in F.
    destruct X as (r & I & N). now apply F in I.
Qed.
Lemma rounds_front edit w w1 rs k w2 : edit w = (Ok rs, w1) -> Forall (fun r => r_err r = None) rs -> rounds edit k w1 w2 -> rounds edit (S k) w w2.
Proof.
  intros A B R. induction R as [w1|k w1 w2 w3 rs' R IH Ed F].
  - econstructor; [constructor|exact A|exact B].
  - econstructor; [apply IH; auto|exact Ed|exact F].
Qed.
Lemma rounds_back edit k w w2 : rounds edit (S k) w w2 -> exists rs w1, edit w = (Ok rs, w1) /\ Forall (fun r => r_err r = None) rs /\ rounds edit k w1 w2.
Proof.
  revert w2. induction k as [|k IH]; intros w2 R; inversion R as [|? ? w1 ? rs R' Ed F]; subst.
  - inversion R'; subst. exists rs, w2. repeat split; auto. constructor.
  - destruct (IH _ R') as (rs0 & w0 & A & B & C). exists rs0, w0. repeat split; auto. econstructor; eauto.
Qed.
Lemma edit_rounds_spec fuel edit : forall i w rs n w', edit_rounds fuel edit i w = Some (Ok (rs, n), w') <->
  exists k wk, (k < fuel)%nat /\ n = i + Z.of_nat k + 1 /\ rounds edit k w wk /\ edit wk = (Ok rs, w') /\ Exists (fun r => r_err r <> None) rs.
Proof.
  induction fuel as [|fuel IH]; intros i w rs n w'; cbn [edit_rounds].
  - split; [discriminate|]. intros (k & wk & L & _). lia.
  - destruct (edit w) as [[rs1|e|c] w1] eqn:Ed.
    + destruct (existsb failed rs1) eqn:F.
      * split.
        -- intros X. injection X as <- <- <-. exists O, w. split; [lia|]. split; [lia|]. split; [constructor|]. split; auto. now apply failed_some.
        -- intros (k & wk & L & N & R & E2 & X). destruct k as [|k].
           ++ inversion R; subst. rewrite Ed in E2. injection E2 as <- <-. replace (i + Z.of_nat 0 + 1) with (i + 1) by lia. reflexivity.
           ++ apply rounds_back in R as (rs0 & w0 & E0 & F0 & _). rewrite Ed in E0. injection E0 as <- <-. apply failed_none in F0. congruence.
      * rewrite IH. split.
        -- intros (k & wk & L & N & R & E2 & X). exists (S k), wk. split; [lia|]. split; [lia|]. split; auto. eapply rounds_front; eauto. now apply failed_none.
        -- intros (k & wk & L & N & R & E2 & X). destruct k as [|k].
           ++ inversion R; subst. rewrite Ed in E2. injection E2 as <- <-. apply failed_some in X. congruence.
           ++ apply rounds_back in R as (rs0 & w0 & E0 & F0 & R). rewrite Ed in E0. injection E0 as <- <-. exists k, wk. split; [lia|]. split; [lia|]. auto.
    + split; [discriminate|]. intros (k & wk & L & N & R & E2 & X). destruct k as [|k]; [inversion R; subst; congruence|].
      apply rounds_back in R as (rs0 & w0 & E0 & _). congruence.
    + split; [discriminate|]. intros (k & wk & L & N & R & E2 & X). destruct k as [|k]; [inversion R; subst; congruence|].
      apply rounds_back in R as (rs0 & w0 & E0 & _). congruence.
Qed.
Lemma edit_rounds_none fuel edit : forall i w, edit_rounds fuel edit i w = None <-> exists wk, rounds edit fuel w wk.
Proof.
  induction fuel as [|fuel IH]; intros i w; cbn [edit_rounds].
  - split; [intros _; exists w; constructor|reflexivity].
  - destruct (edit w) as [[rs1|e|c] w1] eqn:Ed.
    + destruct (existsb failed rs1) eqn:F.
      * split; [discriminate|]. intros (wk & R). apply rounds_back in R as (rs0 & w0 & E0 & F0 & _). rewrite Ed in E0. injection E0 as <- <-. apply failed_none in F0. congruence.
      * rewrite IH. split; intros (wk & R).
        -- exists wk. eapply rounds_front; eauto. now apply failed_none.
        -- apply rounds_back in R as (rs0 & w0 & E0 & _ & R). rewrite Ed in E0. injection E0 as <- <-. eauto.
    + split; [discriminate|]. intros (wk & R). apply rounds_back in R as (rs0 & w0 & E0 & _). congruence.
    + split; [discriminate|]. intros (wk & R). apply rounds_back in R as (rs0 & w0 & E0 & _). congruence.
Qed.
(** it returns after the first round in which a file fails, with that round's number and
    results *)
Theorem loop_stops_at_first_failure E os files script w rs n w' :
  (exists fuel, edit_files_loop E os fuel files script w = Some (Ok (rs, n), w')) <->
  exists k wk, n = Z.of_nat k + 1 /\ rounds (edit_files E os files script) k w wk /\
    edit_files E os files script wk = (Ok rs, w') /\ Exists (fun r => r_err r <> None) rs.
Proof.
  unfold edit_files_loop. split.
  - intros (fuel & R). apply edit_rounds_spec in R as (k & wk & _ & N & R). exists k, wk. split; [lia|exact R].
  - intros (k & wk & N & R). exists (S k). apply edit_rounds_spec. exists k, wk. split; [lia|]. split; [lia|exact R].
Qed.
(** it is still running after any number of rounds exactly when all of them are clean *)
Theorem loop_runs_forever E os files script w :
  (forall fuel, edit_files_loop E os fuel files script w = None) <->
  (forall k, exists wk, rounds (edit_files E os files script) k w wk).
Proof. unfold edit_files_loop. split; intros H k; apply (edit_rounds_none k _ 0 w), H. Qed.
Lemma edit_files_names E os script : forall files w rs w', edit_files E os files script w = (Ok rs, w') -> map r_file rs = files.
Proof.
  unfold edit_files. induction files as [|f files IH]; intros w rs w'; cbn [edit_loop].
  - intros H. now injection H as <- <-.
  - unfold io_try. destruct (edit_file E os f script w) as [[[]|e|c] w1]; [| |discriminate];
      intros H; apply bind_ok in H as (rs1 & w2 & A & B); apply IH in A; injection B as <- <-; cbn; now rewrite A.
Qed.
(** every round is over all the files *)
Theorem rounds_edit_every_file E os files script k w w' : rounds (edit_files E os files script) (S k) w w' ->
  exists wk rs, rounds (edit_files E os files script) k w wk /\ edit_files E os files script wk = (Ok rs, w') /\
    map r_file rs = files /\ Forall (fun r => r_err r = None) rs.
Proof. intros R. inversion R as [|? ? wk ? rs R' Ed F]; subst. exists wk, rs. repeat split; auto. eapply edit_files_names, Ed. Qed.
Lemma rounds_repeat E os files script : no_faults os -> NoDup (map (canon os) files) -> forall k w wk,
  rounds (edit_files E os files script) k w wk -> forall f, In f files -> 
  (k = O /\ w_fs wk (canon os f) = w_fs w (canon os f)) \/
  exists c ck, w_fs w (canon os f) = Some c /\ repeated E script k c ck /\ w_fs wk (canon os f) = Some ck.
Proof.
  intros NF ND k w wk R f I. induction R as [w|k w w1 w2 rs R IH Ed F]; [now left|right].
  pose proof (edit_files_names _ _ _ _ _ _ _ Ed) as M. destruct (edit_files_results _ _ _ _ _ _ _ NF ND Ed) as [_ G].
  rewrite <- M in I. apply in_map_iff in I as (x & <- & I). specialize (G x I). rewrite Forall_forall in F. specialize (F x I).
  assert (J : In (r_file x) files) by (rewrite <- M; now apply in_map).
  destruct (w_fs w1 (canon os (r_file x))) as [c1|] eqn:F1; [|now destruct G].
  destruct (execute_script E c1 script) as [out|e|cr] eqn:X; [|destruct G; congruence|destruct G].
  destruct (IH) as [[-> S]|(c & ck & A & B & C)].
  - exists c1, out. split; [congruence|]. split; [econstructor; [constructor|auto]|apply G].
  - exists c, out. split; auto. split; [|apply G]. econstructor; [exact B|congruence].
Qed.
(** so, on a file system without faults, after a run that reports [n] rounds each file has
    been through the script [n - 1] times, and once more if that went well; and for one of
    them it did not *)
Theorem loop_result E os fuel files script w rs n w' : no_faults os -> NoDup (map (canon os) files) ->
  (forall f, In f files -> w_fs w (canon os f) <> None) ->
  edit_files_loop E os fuel files script w = Some (Ok (rs, n), w') ->
  exists k, n = Z.of_nat k + 1 /\ map r_file rs = files /\ Exists (fun r => r_err r <> None) rs /\
  forall x, In x rs -> exists c ck, w_fs w (canon os (r_file x)) = Some c /\ repeated E script k c ck /\
    ((exists out, execute_script E ck script = Ok out /\ r_err x = None /\ w_fs w' (canon os (r_file x)) = Some out)
     \/ exists e, execute_script E ck script = Err e /\ r_err x = Some e /\ w_fs w' (canon os (r_file x)) = Some ck).
Proof.
  intros NF ND Ex L. apply edit_rounds_spec in L as (k & wk & _ & N & R & Ed & X). exists k. split; [lia|].
  destruct (edit_files_results _ _ _ _ _ _ _ NF ND Ed) as [M G]. split; auto. split; auto. intros x I.
  assert (J : In (r_file x) files) by (rewrite <- M; now apply in_map).
  assert (K : exists c ck, w_fs w (canon os (r_file x)) = Some c /\ repeated E script k c ck /\ w_fs wk (canon os (r_file x)) = Some ck).
  { destruct (rounds_repeat _ _ _ _ NF ND _ _ _ R _ J) as [[-> S]|K]; auto. specialize (Ex _ J).
    destruct (w_fs w (canon os (r_file x))) as [c|] eqn:Fc; [|congruence]. exists c, c. split; auto. split; [constructor|congruence]. }
  destruct K as (c & ck & A & B & C). exists c, ck. split; auto. split; auto. specialize (G x I). rewrite C in G.
  destruct (execute_script E ck script) as [out|e|cr]; [left|right|destruct G]; eauto.
Qed.
Example loop_witness : let q := mkEditRequest (Some (bs "search-forward ""a""; replace-match ""b""")) (Some [bs "f"; bs "g"]) true in
  match edit_file_handler ref_ext demo_os 10 q (demo [(bs "f", bs "aa"); (bs "g", bs "aaaa")]) with
  | Some (Ok (ToolText t), w') => w_fs w' (bs "f") = Some (bs "bb") /\ w_fs w' (bs "g") = Some (bs "bbba") /\
      t = bs "Completed with errors after 3 iterations:" ++ nl :: bs "✓ Successfully edited g" ++ nl ::
          bs "✗ Failed to edit f: script execution failed: search failed (at instruction 0: (search-forward ""a""), point=1, mark=1)" ++ [nl]
  | _ => False
  end.
Proof. vm_compute. repeat split; reflexivity. Qed.

(** a script that always succeeds is repeated for ever *)
Theorem loop_never_returns E os files script w (P : str -> Prop) : no_faults os ->
  (forall c, P c -> zlen c <= max_alloc /\ exists out, execute_script E c script = Ok out /\ P out) ->
  (forall f, In f files -> exists c, w_fs w (canon os f) = Some c /\ P c) ->
  forall fuel, edit_files_loop E os fuel files script w = None.
Proof.
  intros NF HP. set (inv := fun w => forall f, In f files -> exists c, w_fs w (canon os f) = Some c /\ P c).
  assert (One : forall l w, (forall f, In f l -> In f files) -> inv w ->
    exists rs w', edit_files E os l script w = (Ok rs, w') /\ Forall (fun r => r_err r = None) rs /\ inv w').
  { induction l as [|f l IH]; intros w0 Sub I.
    - exists [], w0. split; [reflexivity|]. split; [constructor|auto].
    - destruct (I f) as (c & Fc & Pc); [apply Sub; now left|]. destruct (HP c Pc) as (L & out & X & Po).
      destruct (edit_file_succeeds E os f script w0 c out NF Fc L X) as (w1 & Ed & S).
      destruct (IH w1) as (rs & w2 & A & B & C); [intros; apply Sub; now right|..].
      { intros g Ig. destruct (I g Ig) as (cg & Fg & Pg). rewrite S. destruct (str_eqb (canon os g) (canon os f)) eqn:Q.
        - apply str_eqb_eq in Q. rewrite Q. exists out. split; [apply upd_here|auto].
        - exists cg. split; auto. rewrite upd_else; auto. intros Y. rewrite Y, str_eqb_refl in Q. discriminate. }
      exists (mkResult f None :: rs), w2. unfold edit_files in *. cbn [edit_loop]. unfold io_try. rewrite Ed. unfold io_bind, io_ret. rewrite A.
      split; [reflexivity|]. split; auto. }
  intros I. apply loop_runs_forever. intros k. change (inv w) in I.
  assert (K : exists wk, rounds (edit_files E os files script) k w wk /\ inv wk).
  { induction k as [|k (wk & R & J)]; [exists w; split; [constructor|auto]|].
    destruct (One files wk) as (rs & w2 & A & B & C); auto. exists w2. split; auto. econstructor; eauto. }
  destruct K as (wk & R & _). eauto.
Qed.
(** "goto the beginning" on a one-byte file is such a script *)
Theorem loop_returns_refuted : exists files script w, (exists c, w_fs w (bs "f") = Some c) /\ files = [bs "f"] /\
  forall fuel, edit_files_loop ref_ext demo_os fuel files script w = None.
Proof.
  exists [bs "f"], (bs "goto-char 1"), (demo [(bs "f", bs "x")]). split; [exists (bs "x"); reflexivity|]. split; [reflexivity|].
  apply (loop_never_returns _ _ _ _ _ (eq (bs "x"))).
  - repeat split.
  - intros c <-. split; [apply Z.leb_le; vm_compute; reflexivity|]. exists (bs "x"). split; [vm_compute; reflexivity|reflexivity].
  - intros f [<-|[]]. exists (bs "x"). split; reflexivity.
Qed.
(** one failing file ends the work on all others, however much is left to do there *)
Theorem loop_finishes_every_file_refuted : exists files script w rs n w', 
  edit_files_loop ref_ext demo_os 10 files script w = Some (Ok (rs, n), w') /\ In (bs "g") files /\
  r_err (mkResult (bs "g") None) = None /\ In (mkResult (bs "g") None) rs /\
  exists c out, w_fs w' (bs "g") = Some c /\ execute_script ref_ext c script = Ok out.
Proof.
  exists [bs "f"; bs "g"], (bs "search-forward ""a""; replace-match ""b"""), (demo [(bs "f", bs "a"); (bs "g", bs "aaaa")]).
  destruct (edit_files_loop ref_ext demo_os 10 [bs "f"; bs "g"] (bs "search-forward ""a""; replace-match ""b""") (demo [(bs "f", bs "a"); (bs "g", bs "aaaa")]))
    as [[r w']|] eqn:R; [|vm_compute in R; discriminate].
  assert (A : exists m, r = Ok ([mkResult (bs "f") (Some m); mkResult (bs "g") None], 2)).
  { apply (f_equal (option_map fst)) in R. vm_compute in R. injection R as <-. eexists. reflexivity. }
  assert (B : w_fs w' (bs "g") = Some (bs "bbaa")).
  { pose proof (f_equal (option_map (fun p => w_fs (snd p) (bs "g"))) R) as B. cbn [option_map snd] in B.
    match type of B with ?l = _ => replace l with (Some (Some (bs "bbaa"))) in B by (vm_compute; reflexivity) end. congruence. }
  destruct A as (m & ->). exists [mkResult (bs "f") (Some m); mkResult (bs "g") None], 2, w'. split; [reflexivity|]. split; [cbn; auto|]. split; [reflexivity|]. split; [cbn; auto|].
  exists (bs "bbaa"), (bs "bbba"). split; [exact B|vm_compute; reflexivity].
Qed.
(** a request without script or files changes nothing *)
Theorem tool_needs_arguments E os fuel q w : q_script q = None \/ q_files q = None \/ q_files q = Some [] ->
  exists m, edit_file_handler E os fuel q w = Some (Ok (ToolError m), w).
Proof.
  unfold edit_file_handler. destruct (q_script q) as [s|]; [|eexists; reflexivity]. destruct (q_files q) as [[|f fs]|]; try (eexists; reflexivity).
  intros [H|[H|H]]; discriminate.
Qed.
Lemma in_flat_map {A} (f : A -> str) l x : In x l -> exists a b, flat_map f l = a ++ f x ++ b.
Proof.
  intros I. apply in_split in I as (l1 & l2 & ->). exists (flat_map f l1), (flat_map f l2). now rewrite flat_map_app.
Qed.
(** otherwise the report says how many rounds there were and what became of each file *)
Theorem tool_report E os fuel q w t w' : edit_file_handler E os fuel q w = Some (Ok (ToolText t), w') ->
  exists rs n,
    (if q_loop q then exists script files, q_script q = Some script /\ q_files q = Some files /\ edit_files_loop E os fuel files script w = Some (Ok (rs, n), w')
     else exists script files, q_script q = Some script /\ q_files q = Some files /\ n = 1 /\ edit_files E os files script w = (Ok rs, w')) /\
    (Forall (fun r => r_err r = None) rs -> prefix (bs "All files edited successfully after " ++ itoa n ++ bs " iterations:") t) /\
    (Exists (fun r => r_err r <> None) rs -> prefix (bs "Completed with errors after " ++ itoa n ++ bs " iterations:") t) /\
    forall r, In r rs -> exists a b, t = a ++ (match r_err r with
      | None => bs "✓ Successfully edited " ++ r_file r ++ [nl]
      | Some e => bs "✗ Failed to edit " ++ r_file r ++ bs ": " ++ e ++ [nl]
      end) ++ b.
Proof.
  assert (Rep : forall rs n, (Forall (fun r => r_err r = None) rs -> prefix (bs "All files edited successfully after " ++ itoa n ++ bs " iterations:") (edit_report rs n)) /\
    (Exists (fun r => r_err r <> None) rs -> prefix (bs "Completed with errors after " ++ itoa n ++ bs " iterations:") (edit_report rs n)) /\
    forall r, In r rs -> exists a b, edit_report rs n = a ++ (match r_err r with
      | None => bs "✓ Successfully edited " ++ r_file r ++ [nl]
      | Some e => bs "✗ Failed to edit " ++ r_file r ++ bs ": " ++ e ++ [nl]
      end) ++ b).
  { intros rs n. unfold edit_report. split; [|split].
    - intros F. apply failed_none in F. rewrite F. eexists. rewrite <- !app_assoc. reflexivity.
    - intros X. apply failed_some in X. rewrite X. eexists. rewrite <- !app_assoc. reflexivity.
    - intros r I. destruct (in_flat_map ok_line rs r I) as (a & b & Ho). destruct (in_flat_map err_line rs r I) as (a' & b' & He).
      destruct (r_err r) as [e|] eqn:R.
      + replace (existsb failed rs) with true by (symmetry; apply existsb_exists; exists r; split; auto; unfold failed; now rewrite R).
        rewrite He. replace (err_line r) with (bs "✗ Failed to edit " ++ r_file r ++ bs ": " ++ e ++ [nl]) by (unfold err_line; now rewrite R).
        exists (bs "Completed with errors after " ++ itoa n ++ bs " iterations:" ++ [nl] ++ flat_map ok_line rs ++ a'), b'. now rewrite <- !app_assoc.
      + rewrite Ho. replace (ok_line r) with (bs "✓ Successfully edited " ++ r_file r ++ [nl]) by (unfold ok_line, failed; now rewrite R). destruct (existsb failed rs).
        * exists (bs "Completed with errors after " ++ itoa n ++ bs " iterations:" ++ [nl] ++ a), (b ++ flat_map err_line rs). now rewrite <- !app_assoc.
        * exists (bs "All files edited successfully after " ++ itoa n ++ bs " iterations:" ++ [nl] ++ a), b. now rewrite <- !app_assoc. }
  unfold edit_file_handler. destruct (q_script q) as [s|]; [|discriminate]. destruct (q_files q) as [[|f fs]|]; try discriminate. destruct (q_loop q).
  - destruct (edit_files_loop E os fuel (f :: fs) s w) as [[[[rs n]|e|c] w1]|] eqn:X; try discriminate. intros H. injection H as <- <-. exists rs, n. split; [exists s, (f :: fs); auto|]. apply Rep.
  - destruct (edit_files E os (f :: fs) s w) as [[rs|e|c] w1] eqn:X; try discriminate. intros H. injection H as <- <-. exists rs, 1. split; [exists s, (f :: fs); auto|]. apply Rep.
Qed.

(** ** C48 *)
(** buffer mode, the default: the text the script leaves behind *)
Theorem eval_tool_buffer E input script m : m = None \/ m = Some (bs "buffer") ->
  forall out, eval_handler E (mkEvalRequest (Some input) (Some script) m) = Ok (ToolText out) <->
  exists prog v b, parse_string script = POk prog /\ Spec.runs (default_env E) prog (new_buffer input) v b /\ content b = out.
Proof.
  intros Hm out. unfold eval_handler. cbn [v_input v_script v_output].
  replace (match m with Some m0 => m0 | None => bs "buffer" end) with (bs "buffer") by (destruct Hm; subst; reflexivity).
  rewrite str_eqb_refl. unfold execute_script, run_program. destruct (parse_string script) as [p|e|].
  - destruct (eval E (default_env E) p (new_buffer input)) as [v b|x b| | |] eqn:Ev.
    1:{ split.
        - intros H. injection H as <-. exists p, v, b. split; auto. split; auto. now apply (eval_runs E).
        - intros (prog & v' & b' & P & R & <-). injection P as <-. apply (eval_runs E) in R. congruence. }
    all: split; [discriminate|]; intros (prog & v' & b' & P & R & _); injection P as <-; apply (eval_runs E) in R; congruence.
  - split; [discriminate|]. intros (? & ? & ? & P & _). discriminate.
  - split; [discriminate|]. intros (? & ? & ? & P & _). discriminate.
Qed.
(** expression mode: the last value, printed *)
Theorem eval_tool_expression E input script out :
  eval_handler E (mkEvalRequest (Some input) (Some script) (Some (bs "expression"))) = Ok (ToolText out) <->
  exists prog v b, parse_string script = POk prog /\ Spec.runs (default_env E) prog (new_buffer input) v b /\ show E v = out.
Proof.
  unfold eval_handler. cbn [v_input v_script v_output]. change (str_eqb (bs "expression") (bs "buffer")) with false. rewrite str_eqb_refl. cbv iota.
  destruct (parse_string script) as [p|e|].
  - destruct (eval E (default_env E) p (new_buffer input)) as [v b|x b| | |] eqn:Ev.
    1:{ split.
        - intros H. injection H as <-. exists p, v, b. split; auto. split; auto. now apply (eval_runs E).
        - intros (prog & v' & b' & P & R & <-). injection P as <-. apply (eval_runs E) in R. rewrite Ev in R. injection R as -> ->. reflexivity. }
    all: split; [discriminate|]; intros (prog & v' & b' & P & R & _); injection P as <-; apply (eval_runs E) in R; congruence.
  - split; [discriminate|]. intros (? & ? & ? & P & _). discriminate.
  - split; [discriminate|]. intros (? & ? & ? & P & _). discriminate.
Qed.
(** reading the printed value back gives the value (C29 says which values are writable) *)
Theorem eval_tool_value_reads_back E input script prog v b : parse_string script = POk prog ->
  Spec.runs (default_env E) prog (new_buffer input) v b -> writable v ->
  exists out, eval_handler E (mkEvalRequest (Some input) (Some script) (Some (bs "expression"))) = Ok (ToolText out) /\ parse_sexp out = POk [v].
Proof. intros P R W. exists (show E v). split; [apply eval_tool_expression; exists prog, v, b; auto|now apply value_reads_back]. Qed.
(** the two modes succeed on the same scripts *)
Theorem eval_tool_modes_agree E input script :
  (exists out, eval_handler E (mkEvalRequest (Some input) (Some script) None) = Ok (ToolText out)) <->
  (exists out, eval_handler E (mkEvalRequest (Some input) (Some script) (Some (bs "expression"))) = Ok (ToolText out)).
Proof.
  split; intros (out & H).
  - apply eval_tool_buffer in H as (p & v & b & P & R & _); auto. exists (show E v). apply eval_tool_expression. exists p, v, b. auto.
  - apply eval_tool_expression in H as (p & v & b & P & R & _). exists (content b). apply eval_tool_buffer; [auto|]. exists p, v, b. auto.
Qed.
(** everything else is an error result *)
Theorem eval_tool_errors E q : v_input q = None \/ v_script q = None \/
  (exists m, v_output q = Some m /\ m <> bs "buffer" /\ m <> bs "expression") ->
  exists e, eval_handler E q = Ok (ToolError e).
Proof.
  unfold eval_handler. destruct (v_input q) as [i|]; [|eexists; reflexivity]. destruct (v_script q) as [s|]; [|eexists; reflexivity].
  intros [H|[H|(m & -> & A & B)]]; try discriminate.
  destruct (str_eqb m (bs "buffer")) eqn:M1; [apply str_eqb_eq in M1; congruence|]. destruct (str_eqb m (bs "expression")) eqn:M2; [apply str_eqb_eq in M2; congruence|].
  eexists. reflexivity.
Qed.
Example eval_tool_witness :
  let q m := mkEvalRequest (Some (bs "hello")) (Some (bs "end-of-buffer; insert ""!""; buffer-substring 5 7")) m in
  eval_handler ref_ext (q None) = Ok (ToolText (bs "hello!")) /\ eval_handler ref_ext (q (Some (bs "expression"))) = Ok (ToolText (bs """o!""")) /\
  eval_handler ref_ext (q (Some (bs "both"))) = Ok (ToolError (bs "output parameter must be 'buffer' or 'expression'")) /\
  eval_handler ref_ext (mkEvalRequest (Some []) (Some (bs "insert 1")) None) = Ok (ToolError (bs "script execution failed: script execution failed: insert expects a string argument (at instruction 0: (insert 1), point=1, mark=1)")).
Proof. vm_compute. repeat split; reflexivity. Qed.

(** ** C45 *)
Lemma contains_occurs s p : str_contains s p = true <-> exists a b, s = a ++ p ++ b.
Proof.
  unfold str_contains. rewrite Z.leb_le. destruct (str_index_spec s p) as [[(u & v & H & L) _]|[H N]].
  - split; [eauto|]. intros _. rewrite L. apply zlen_nonneg.
  - rewrite H. split; [lia|]. intros (a & b & X). destruct (N (zlen a)). exists a, b. auto.
Qed.
Lemma is_paren_spec c : is_paren c = true <-> paren c.
Proof. unfold is_paren, paren. rewrite orb_true_iff, !byte_eqb_eq. reflexivity. Qed.
Lemma drop_parens_spec s : exists a, s = a ++ drop_parens s /\ Forall paren a /\ forall c t, drop_parens s = c :: t -> ~ paren c.
Proof.
  induction s as [|x s (a & A & B & C)]; [exists []; repeat split; auto; discriminate|]. cbn [drop_parens]. destruct (is_paren x) eqn:P.
  - exists (x :: a). split; [cbn; congruence|]. split; auto. constructor; auto. now apply is_paren_spec.
  - exists []. split; [reflexivity|]. split; [constructor|]. intros c t H. injection H as <- <-. rewrite <- is_paren_spec. congruence.
Qed.
Lemma trim_parens_spec s : without_parens s (trim_parens s).
Proof.
  unfold trim_parens. destruct (drop_parens_spec s) as (a & A & B & C). destruct (drop_parens_spec (rev (drop_parens s))) as (b & A' & B' & C').
  set (m := drop_parens s) in *. set (k := drop_parens (rev m)) in *. exists a, (rev b).
  assert (M : m = rev k ++ rev b) by (rewrite <- (rev_involutive m), A', rev_app_distr; reflexivity).
  split; [rewrite A at 1; now rewrite M|]. split; auto. split; [now apply Forall_rev|]. intros c t [H|H].
  - apply (C c (t ++ rev b)). rewrite M, H. reflexivity.
  - apply (C' c (rev t)). rewrite <- (rev_involutive k), H, rev_app_distr. reflexivity.
Qed.
Lemma drop_parens_app a x : Forall paren a -> drop_parens (a ++ x) = drop_parens x.
Proof. induction 1 as [|c a P _ IH]; [reflexivity|]. cbn [app drop_parens]. apply is_paren_spec in P. now rewrite P. Qed.
Lemma without_parens_trim s core : without_parens s core -> core = trim_parens s.
Proof.
  intros (a & b & -> & A & B & X). unfold trim_parens. rewrite drop_parens_app by auto. destruct core as [|c t].
  - cbn [app]. rewrite <- (app_nil_r b), drop_parens_app by auto. reflexivity.
  - assert (P : is_paren c = false) by (destruct (is_paren c) eqn:P; auto; apply is_paren_spec in P; exfalso; eapply X; eauto).
    cbn [app drop_parens]. rewrite P. change (c :: t ++ b) with ((c :: t) ++ b). rewrite rev_app_distr, drop_parens_app by now apply Forall_rev.
    destruct (exists_last (l := c :: t)) as (t' & d & Ed); [discriminate|]. rewrite Ed, rev_app_distr. cbn [rev app drop_parens].
    assert (P' : is_paren d = false) by (destruct (is_paren d) eqn:P'; auto; apply is_paren_spec in P'; exfalso; eapply X; eauto).
    rewrite P'. cbn [rev]. now rewrite rev_involutive.
Qed.
(** when a test passes *)
Theorem test_passes E env t : run_test E env t = Passed <->
  exists prog, (trim_space (t_input t) = [] /\ prog = [] \/ trim_space (t_input t) <> [] /\ parse_string (trim_space (t_input t)) = POk prog) /\
  let wanted := trim_space (t_result t) in
  if trim_space (t_error t)
  then exists v b, Spec.runs env prog (new_buffer (t_buffer t)) v b /\
    (t_output t <> [] \/ wanted <> []) /\
    (t_output t <> [] -> content b = t_output t) /\
    (wanted <> [] -> exists e, parse_format (t_result_lang t) wanted = POk [e] /\ equal (Some e) (Some v) = true)
  else exists x b core a z, eval E env prog (new_buffer (t_buffer t)) = EvError x b /\
    without_parens (trim_space (t_error t)) core /\ exec_error_text E x = a ++ core ++ z.
Proof.
  unfold run_test.
  set (program := match trim_space (t_input t) with [] => POk [] | s => parse_string s end).
  assert (Pr : forall prog, program = POk prog <-> (trim_space (t_input t) = [] /\ prog = [] \/ trim_space (t_input t) <> [] /\ parse_string (trim_space (t_input t)) = POk prog)).
  { intros prog. unfold program. destruct (trim_space (t_input t)) as [|c l].
    - split; [intros H; injection H as <-; auto|]. intros [[_ ->]|[H _]]; [reflexivity|congruence].
    - split; [intros H; right; split; [discriminate|auto]|]. intros [[H _]|[_ H]]; [discriminate|auto]. }
  transitivity (exists prog, program = POk prog /\ let wanted := trim_space (t_result t) in
    if trim_space (t_error t)
    then exists v b, Spec.runs env prog (new_buffer (t_buffer t)) v b /\ (t_output t <> [] \/ wanted <> []) /\ (t_output t <> [] -> content b = t_output t) /\
      (wanted <> [] -> exists e, parse_format (t_result_lang t) wanted = POk [e] /\ equal (Some e) (Some v) = true)
    else exists x b core a z, eval E env prog (new_buffer (t_buffer t)) = EvError x b /\ without_parens (trim_space (t_error t)) core /\ exec_error_text E x = a ++ core ++ z).
  2:{ split; intros (prog & A & B); exists prog; split; auto; now apply Pr. }
  clear Pr. destruct program as [prog|e|]; [|split; [discriminate|]; intros (? & ? & _); discriminate..].
  set (b0 := new_buffer (t_buffer t)). cbv zeta.
  set (Q := fun prog : list value => if trim_space (t_error t)
    then exists v b, Spec.runs env prog b0 v b /\ (t_output t <> [] \/ trim_space (t_result t) <> []) /\ (t_output t <> [] -> content b = t_output t) /\
      (trim_space (t_result t) <> [] -> exists e, parse_format (t_result_lang t) (trim_space (t_result t)) = POk [e] /\ equal (Some e) (Some v) = true)
    else exists x b core a z, eval E env prog b0 = EvError x b /\ without_parens (trim_space (t_error t)) core /\ exec_error_text E x = a ++ core ++ z).
  transitivity (Q prog). 2:{ split; [exists prog; auto|]. intros (p & H & K). injection H as <-. exact K. }
  unfold Q. clear Q.
  destruct (eval E env prog b0) as [v b|x b| | |] eqn:Ev.
  - destruct (trim_space (t_error t)) as [|c l].
    2:{ split; [discriminate|]. intros (x & b1 & core & a & z & H & _). discriminate. }
    transitivity ((t_output t <> [] \/ trim_space (t_result t) <> []) /\ (t_output t <> [] -> content b = t_output t) /\
      (trim_space (t_result t) <> [] -> exists e, parse_format (t_result_lang t) (trim_space (t_result t)) = POk [e] /\ equal (Some e) (Some v) = true)).
    2:{ split; [intros H; exists v, b; split; auto; now apply (eval_runs E)|]. intros (v' & b' & R & H). apply (eval_runs E) in R. rewrite Ev in R. injection R as <- <-. exact H. }
    set (W := trim_space (t_result t)).
    assert (Res : (match W with [] => Passed | _ => match parse_format (t_result_lang t) W with PErr _ => Failed | PFuel => Crashed
        | POk [] => if equal None (Some v) then Passed else Failed | POk [e] => if equal (Some e) (Some v) then Passed else Failed | POk _ => Failed end end = Passed)
      <-> (W <> [] -> exists e, parse_format (t_result_lang t) W = POk [e] /\ equal (Some e) (Some v) = true)).
    { destruct W as [|c l]; [split; [congruence|reflexivity]|].
      destruct (parse_format (t_result_lang t) (c :: l)) as [[|e [|e2 es]]|m|].
      - cbn. split; [discriminate|]. intros H. destruct H as (e & H & _); discriminate.
      - destruct (equal (Some e) (Some v)) eqn:Q.
        + split; [intros _ _; eauto|reflexivity].
        + split; [discriminate|]. intros H. destruct H as (e' & H & K); [discriminate|]. injection H as <-. congruence.
      - split; [discriminate|]. intros H. destruct H as (e' & H & K); discriminate.
      - split; [discriminate|]. intros H. destruct H as (e' & H & K); discriminate.
      - split; [discriminate|]. intros H. destruct H as (e' & H & K); discriminate. }
    destruct (t_output t) as [|o out].
    + destruct W as [|c l]; [split; [discriminate|]; intros ([H|H] & _); congruence|]. rewrite Res. split; [intros H; split; [right; discriminate|]; split; [congruence|auto]|tauto].
    + destruct (str_eqb (o :: out) (content b)) eqn:Q.
      * apply str_eqb_eq in Q. transitivity (W <> [] -> exists e, parse_format (t_result_lang t) W = POk [e] /\ equal (Some e) (Some v) = true).
        { rewrite <- Res. destruct W; reflexivity. }
        split; [intros H; split; [left; discriminate|]; auto|tauto].
      * transitivity False; [destruct W; split; [discriminate|tauto|discriminate|tauto]|]. split; [tauto|]. intros (_ & H & _).
        rewrite H, str_eqb_refl in Q by discriminate. discriminate.
  - destruct (trim_space (t_error t)) as [|c l] eqn:Te.
    + split; [discriminate|]. intros (v & b' & R & _). apply (eval_runs E) in R. congruence.
    + destruct (str_contains (exec_error_text E x) (trim_parens (c :: l))) eqn:C.
      * split; [intros _|reflexivity]. apply contains_occurs in C as (a & z & C). exists x, b, (trim_parens (c :: l)), a, z. split; auto. split; auto. apply trim_parens_spec.
      * split; [discriminate|]. intros (x' & b' & core & a & z & H & Wp & T). injection H as <- <-. apply without_parens_trim in Wp as ->.
        assert (Y : str_contains (exec_error_text E x) (trim_parens (c :: l)) = true) by (apply contains_occurs; eauto). congruence.
  - split; [discriminate|]. destruct (trim_space (t_error t)); [intros (v & b' & R & _); apply (eval_runs E) in R; congruence|intros (x & b' & ? & ? & ? & R & _); congruence].
  - split; [discriminate|]. destruct (trim_space (t_error t)); [intros (v & b' & R & _); apply (eval_runs E) in R; congruence|intros (x & b' & ? & ? & ? & R & _); congruence].
  - split; [discriminate|]. destruct (trim_space (t_error t)); [intros (v & b' & R & _); apply (eval_runs E) in R; congruence|intros (x & b' & ? & ? & ? & R & _); congruence].
Qed.
Example test_passes_witness :
  run_test ref_ext (default_env ref_ext) (mkTest (bs "ab") (bs "insert ""!""; buffer-size") (bs "!ab") [] (bs "3") []) = Passed /\
  run_test ref_ext (default_env ref_ext) (mkTest (bs "ab") (bs "search-forward ""z""") [] [] [] (bs "(search failed)")) = Passed /\
  run_test ref_ext (default_env ref_ext) (mkTest (bs "ab") (bs "delete-char 1") (bs "ab") [] [] []) = Failed.
Proof. vm_compute. repeat split; reflexivity. Qed.
(** an expected empty buffer is not checked: a script that should have emptied the buffer
    passes although it did not *)
Theorem empty_output_checked_refuted : exists t b v, t_output t = [] /\ trim_space (t_result t) <> [] /\
  run_test ref_ext (default_env ref_ext) t = Passed /\
  execute_script ref_ext (t_buffer t) (t_input t) = Ok b /\ b = v /\ v <> t_output t.
Proof.
  exists (mkTest (bs "ab") (bs "delete-char 1; buffer-size") [] [] (bs "1") []), (bs "b"), (bs "b").
  split; [reflexivity|]. split; [discriminate|]. split; [vm_compute; reflexivity|]. split; [vm_compute; reflexivity|]. split; [reflexivity|discriminate].
Qed.
(** and an expected error made of parentheses only accepts every error *)
Theorem parenthesised_error_matches_anything E env t prog x b : t_error t = bs "()" -> trim_space (t_input t) <> [] ->
  parse_string (trim_space (t_input t)) = POk prog -> eval E env prog (new_buffer (t_buffer t)) = EvError x b -> run_test E env t = Passed.
Proof.
  intros Te I P Ev. apply test_passes. exists prog. split; auto. cbv zeta. rewrite Te. change (trim_space (bs "()")) with (bs "()").
  exists x, b, [], [], (exec_error_text E x). split; auto. split; [|reflexivity].
  exists (bs "()"), []. split; [reflexivity|]. split; [constructor; [now left|constructor; [now right|constructor]]|]. split; [constructor|]. intros c [|d t'] [H|H]; discriminate.
Qed.
Example parenthesised_error_witness : run_test ref_ext (default_env ref_ext) (mkTest (bs "ab") (bs "no-such-command") [] [] [] (bs "()")) = Passed.
Proof. vm_compute. reflexivity. Qed.

(** ** Assumptions of every theorem above *)
Print Assumptions loop_stops_at_first_failure.
Print Assumptions loop_runs_forever.
Print Assumptions rounds_edit_every_file.
Print Assumptions loop_result.
Print Assumptions loop_never_returns.
Print Assumptions loop_returns_refuted.
Print Assumptions loop_finishes_every_file_refuted.
Print Assumptions tool_needs_arguments.
Print Assumptions tool_report.
Print Assumptions eval_tool_buffer.
Print Assumptions eval_tool_expression.
Print Assumptions eval_tool_value_reads_back.
Print Assumptions eval_tool_modes_agree.
Print Assumptions eval_tool_errors.
Print Assumptions test_passes.
Print Assumptions empty_output_checked_refuted.
Print Assumptions parenthesised_error_matches_anything.
