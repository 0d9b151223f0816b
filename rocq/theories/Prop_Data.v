(** C76: what a refused JSON script is told. *)
From Coq Require Import ZArith NArith List Bool Lia Strings.Byte.
From Verif Require Import Base Float Ext Utf8 Strconv Values Parser Json SpecJson SpecData Proofs_Base Proofs_Utf8 Proofs_Number Proofs_Token Proofs_Json Proofs_JsonBack Proofs_Grammar Proofs_Data Prop_Grammar.
Import ListNotations.
Open Scope Z_scope.

(** ** C76 *)
(** the decoder reads exactly the texts of the grammar, as the grammar says *)
Theorem json_text_grammar s j : json_decode s = POk j <-> is_json s j.
Proof. apply decode_iff. Qed.
Theorem json_text_one_meaning s j j' : is_json s j -> is_json s j' -> j = j'.
Proof. intros A B. apply decode_iff in A, B. congruence. Qed.
Example json_text_witness : is_json (bs " [1, [true, null], {""a"" : [], ""b"":{}} ] ") (JArr [JNum (f_of_Z 1); JArr [JBool true; JNull]; JObj]).
Proof. apply decode_iff. vm_compute. reflexivity. Qed.

(** *** Arguments and instructions *)
Lemma fit_all (P : json -> Prop) : (forall s, P (JStr s)) -> (forall f, P (JNum f)) -> P (JArr []) -> (forall n l, Forall fit l -> Forall P l -> P (JArr (JStr n :: l))) -> forall j, fit j -> P j.
Proof.
  intros A B C D. induction j as [| |f|s|l IH|] using json_ind'; intros F; try (now inversion F); auto.
  inversion F as [| | |n k K]; subst; [exact C|]. apply D; [exact K|]. inversion IH as [|? ? _ IHl]; subst. clear - K IHl. induction K; inversion IHl; subst; constructor; auto.
Qed.
Lemma fit_converts j : fit j <-> exists v, convert_item j = POk v.
Proof.
  split.
  - revert j. apply fit_all; [eexists; reflexivity..|]. intros n l _ F. rewrite convert_call.
    assert (exists vs, Forall2 (fun j v => convert_item j = POk v) l vs) as [vs V] by (induction F as [|x l [v V] _ [vs IH]]; [exists []; constructor|exists (v :: vs); now constructor]).
    rewrite (conv_items_ok l vs V). eauto.
  - induction j as [| |f|s|l IH|] using json_ind'; intros [v H]; try discriminate H; try constructor.
    destruct l as [|j0 l]; [constructor|]. destruct j0; try discriminate H. rewrite convert_call in H. destruct (conv_items 1 l) as [vs| |] eqn:C; try discriminate H. apply conv_items_inv in C.
    constructor. inversion IH as [|? ? _ IHl]; subst. clear - C IHl. induction C; inversion IHl; subst; constructor; eauto.
Qed.
Lemma items_valid l : Forall (fun j => fit j -> validate j false = None) l -> Forall fit l -> forall i, valid_items i l = None.
Proof. intros A B. induction B as [|x l F _ IH]; intros i; [reflexivity|]. inversion A; subst. cbn [valid_items]. fold valid_items. rewrite H1 by auto. now apply IH. Qed.
Lemma fit_valid j : fit j -> validate j false = None.
Proof. intros F. apply fit_converts in F as [v V]. now apply converts_valid in V. Qed.
Lemma type_iff j k : type_name j k <-> (forall s, j <> JStr s) /\ json_type j = k.
Proof. split; [intros [| | | |]; split; [discriminate|reflexivity|discriminate|reflexivity|discriminate|reflexivity|discriminate|reflexivity|discriminate|reflexivity]|]. intros [N <-]. destruct j as [| | |s| |]; try constructor. now destruct (N s). Qed.
Lemma top_array l top : validate (JArr l) top = validate (JArr l) false.
Proof. now destruct l. Qed.
Lemma valid_items_found l : forall i m, Forall (fun j => forall m, validate j false = Some m <-> flaw false j m) l -> Forall (fun j => fit j \/ exists m, flaw false j m) l ->
  (valid_items i l = Some m <-> exists l1 j l2 m', l = l1 ++ j :: l2 /\ Forall fit l1 /\ flaw false j m' /\ m = bs "invalid element at index " ++ itoa (i + Z.of_nat (length l1)) ++ bs ": " ++ m').
Proof.
  induction l as [|x l IH]; intros i m A D; [split; [discriminate|intros ([|] & ? & ? & ? & E & _); discriminate E]|]. cbn [valid_items]. fold valid_items.
  inversion A as [|? ? Ax Al]; subst. inversion D as [|? ? Dx Dl]; subst. destruct (validate x false) as [e|] eqn:V.
  - split.
    + intros H. injection H as <-. exists [], x, l, e. repeat split; auto; [now apply Ax|]. cbn [length]. now rewrite Z.add_0_r.
    + intros ([|y l1] & j & l2 & m' & E & F & W & ->).
      * injection E as <- <-. apply Ax in W. injection W as ->. cbn [length]. now rewrite Z.add_0_r.
      * injection E as <- _. inversion F as [|? ? Fx _]; subst. apply fit_valid in Fx. congruence.
  - rewrite (IH (i + 1) m Al Dl). split.
    + intros (l1 & j & l2 & m' & -> & F & W & ->). exists (x :: l1), j, l2, m'. split; [reflexivity|]. split; [constructor; auto; destruct Dx as [Dx|[e De]]; [auto|apply Ax in De; discriminate De]|].
      split; [auto|]. cbn [length]. do 3 f_equal. lia.
    + intros ([|y l1] & j & l2 & m' & E & F & W & ->).
      * injection E as <- <-. apply Ax in W. discriminate W.
      * injection E as <- ->. inversion F; subst. exists l1, j, l2, m'. repeat split; auto. cbn [length]. do 3 f_equal. lia.
Qed.
Lemma flaw_iff j : (forall m, validate j false = Some m <-> flaw false j m) /\ (fit j \/ exists m, flaw false j m).
Proof.
  induction j as [|b|f|s|l IH|] using json_ind'.
  - split; [|right; eexists; constructor]. intros m. split; [intros H; injection H as <-; constructor|intros H; now inversion H].
  - split; [|right; eexists; constructor]. intros m. split; [intros H; injection H as <-; constructor|intros H; now inversion H].
  - split; [|left; constructor]. intros m. split; [discriminate|intros H; now inversion H].
  - split; [|left; constructor]. intros m. split; [discriminate|intros H; now inversion H].
  - destruct l as [|j0 l]; [split; [|left; constructor]; intros m; split; [discriminate|intros H; now inversion H]|].
    destruct (match j0 with JStr n => true | _ => false end) eqn:Str.
    + destruct j0 as [| | |n| |]; try discriminate Str. inversion IH as [|? ? _ IHl]; subst.
      assert (A : Forall (fun j => forall m, validate j false = Some m <-> flaw false j m) l) by (eapply Forall_impl; [|exact IHl]; now intros j [X _]).
      assert (D : Forall (fun j => fit j \/ exists m, flaw false j m) l) by (eapply Forall_impl; [|exact IHl]; now intros j [_ X]).
      assert (K : forall m, validate (JArr (JStr n :: l)) false = Some m <-> flaw false (JArr (JStr n :: l)) m).
      { intros m. change (validate (JArr (JStr n :: l)) false) with (valid_items 1 l). rewrite (valid_items_found l 1 m A D). split.
        - intros (l1 & j & l2 & m' & -> & F & W & ->). rewrite Z.add_comm. now constructor.
        - intros H. inversion H as [| | | | |? ? ? k T|? ? l1 j l2 m' F W]; subst; [apply type_iff in T as [T _]; now destruct (T n)|].
          exists l1, j, l2, m'. repeat split; auto. now rewrite Z.add_comm. }
      split; [exact K|]. destruct (validate (JArr (JStr n :: l)) false) as [m|] eqn:V; [right; exists m; now apply K|]. left. constructor.
      clear - V D A. change (valid_items 1 l = None) in V. revert V. generalize 1. induction D as [|x l Dx _ IH]; intros i V; [constructor|]. inversion A; subst. cbn [valid_items] in V. fold valid_items in V.
      destruct (validate x false) eqn:Vx; [discriminate V|]. constructor; [|now apply (IH H2 (i + 1))]. destruct Dx as [Dx|[m Dx]]; [auto|]. apply H1 in Dx. congruence.
    + assert (T : type_name j0 (json_type j0)) by (apply type_iff; split; [intros s ->; discriminate Str|reflexivity]).
      assert (V : validate (JArr (j0 :: l)) false = Some (bs "first element of array must be string, got " ++ json_type j0)) by (destruct j0; try discriminate Str; reflexivity).
      split; [|right; eexists; apply fl_name; exact T]. intros m. rewrite V. split; [intros H; injection H as <-; now apply fl_name|]. intros H. inversion H as [| | | | |? ? ? k Tk|]; subst; [|discriminate Str].
      apply type_iff in Tk as [_ <-]. reflexivity.
  - split; [|right; eexists; constructor]. intros m. split; [intros H; injection H as <-; constructor|intros H; now inversion H].
Qed.
(** what is complained about, and when nothing is *)
Theorem instruction_flaw j m : validate j true = Some m <-> flaw true j m.
Proof.
  destruct j as [|b|f|s|l|]; try (cbn [validate]; split; [intros H; injection H as <-; constructor|intros H; now inversion H]).
  rewrite top_array. rewrite (proj1 (flaw_iff (JArr l)) m). split; intros H; inversion H; subst; now constructor.
Qed.
Theorem instruction_fine j : validate j true = None <-> fit_line j.
Proof.
  unfold fit_line. destruct j as [|b|f|s|l|]; try (cbn [validate]; split; [discriminate|intros [_ [k K]]; discriminate K]).
  rewrite top_array. split.
  - intros V. split; [|eauto]. destruct (proj2 (flaw_iff (JArr l))) as [F|[m F]]; [auto|]. apply flaw_iff in F. congruence.
  - intros [F _]. now apply fit_valid.
Qed.
Theorem flaw_or_fine j : fit_line j <-> ~ exists m, flaw true j m.
Proof.
  split; [intros F [m W]; apply instruction_flaw in W; apply instruction_fine in F; congruence|]. intros N. apply instruction_fine. destruct (validate j true) as [m|] eqn:V; [|reflexivity]. destruct N. exists m. now apply instruction_flaw.
Qed.

(** *** Scripts *)
Lemma program_refused l : forall i m, convert_program i l = PErr m <-> exists l1 j l2 m', l = l1 ++ j :: l2 /\ Forall fit_line l1 /\ flaw true j m' /\
  m = bs "invalid format at index " ++ itoa (i + Z.of_nat (length l1)) ++ bs ": " ++ m'.
Proof.
  induction l as [|x l IH]; intros i m; cbn [convert_program]; [split; [discriminate|intros ([|] & ? & ? & ? & E & _); discriminate E]|].
  destruct (validate x true) as [e|] eqn:V.
  - split.
    + intros H. injection H as <-. exists [], x, l, e. repeat split; auto; [now apply instruction_flaw|]. cbn [length]. now rewrite Z.add_0_r.
    + intros ([|y l1] & j & l2 & m' & E & F & W & ->).
      * injection E as <- <-. apply instruction_flaw in W. rewrite V in W. injection W as ->. cbn [length]. now rewrite Z.add_0_r.
      * injection E as <- _. inversion F as [|? ? Fx _]; subst. apply instruction_fine in Fx. congruence.
  - pose proof V as V'. apply instruction_fine in V'. pose proof V' as [Fx [k ->]]. apply fit_converts in Fx as [v Cv]. change (convert_item (JArr k)) with (convert_value (JArr k)) in Cv. rewrite Cv. cbn [pbind].
    transitivity (convert_program (i + 1) l = PErr m); [destruct (convert_program (i + 1) l); cbn [pbind]; split; intros H; try discriminate H; exact H|]. rewrite IH. split.
    + intros (l1 & j & l2 & m' & -> & F & W & ->). exists (JArr k :: l1), j, l2, m'. split; [reflexivity|]. split; [now constructor|]. split; [auto|]. cbn [length]. do 3 f_equal. lia.
    + intros ([|y l1] & j & l2 & m' & E & F & W & ->).
      * injection E as <- <-. apply instruction_flaw in W. congruence.
      * injection E as <- ->. inversion F; subst. exists l1, j, l2, m'. repeat split; auto. cbn [length]. do 3 f_equal. lia.
Qed.
(** a JSON script is refused for the first thing that is wrong with it, and that is what is said *)
Theorem json_script_told s m : parse_json_string s = PErr m <-> script_flaw s m.
Proof.
  unfold parse_json_string. split.
  - destruct (json_decode s) as [j|e|] eqn:D; [|intros H; injection H as <-; apply decode_error in D as [N ->]; now apply sf_text|discriminate]. apply decode_iff in D.
    destruct j as [|b|f|t|l|]; try discriminate.
    + intros H. injection H as <-. eapply (sf_kind s _ (bs "bool")); eauto.
    + intros H. injection H as <-. eapply (sf_kind s _ (bs "number")); eauto.
    + intros H. injection H as <-. eapply (sf_kind s _ (bs "string")); eauto 10.
    + intros H. apply program_refused in H as (l1 & j & l2 & m' & -> & F & W & ->). eapply sf_line; eauto.
    + intros H. injection H as <-. eapply (sf_kind s _ (bs "object")); eauto 10.
  - intros [N|j k J K|l1 j l2 m' J F W].
    + assert (D : json_decode s = PErr (bs "JSON syntax error")) by (apply decode_error; auto). rewrite D. reflexivity.
    + apply decode_iff in J. rewrite J. destruct K as [[[b ->] ->]|[[[f ->] ->]|[[[t ->] ->]|[-> ->]]]]; reflexivity.
    + apply decode_iff in J. rewrite J. apply program_refused. exists l1, j, l2, m'. auto.
Qed.
Example json_script_told_witness :
  script_flaw (bs "[[""point""], [""insert"", ""a"", [""f"", true]]]") (bs "invalid format at index 1: invalid element at index 2: invalid element at index 1: boolean and null values are not supported in texted JSON") /\
  script_flaw (bs "[[1]]") (bs "invalid format at index 0: first element of array must be string, got float64") /\
  script_flaw (bs "[""point""]") (bs "invalid format at index 0: top-level strings are not allowed in texted JSON") /\
  script_flaw (bs "{""point"": []}") (bs "JSON unmarshal error: json: cannot unmarshal object into Go value of type []interface {}") /\
  script_flaw (bs "[[""point""]") (bs "JSON unmarshal error: JSON syntax error").
Proof. repeat split; apply json_script_told; vm_compute; reflexivity. Qed.
(** one complaint, and a complaint exactly if it is no script *)
Theorem json_script_one_flaw s m m' : script_flaw s m -> script_flaw s m' -> m = m'.
Proof. intros A B. apply json_script_told in A, B. congruence. Qed.
Theorem json_script_or_flaw s : (exists p, json_script s p) \/ (exists m, script_flaw s m).
Proof.
  pose proof (script_fuel s). destruct (parse_json_string s) as [p|m|] eqn:P; [left; exists p; now apply json_script_grammar|right; exists m; now apply json_script_told|congruence].
Qed.
Theorem json_script_not_both s p m : json_script s p -> ~ script_flaw s m.
Proof. intros A B. apply json_script_grammar in A. apply json_script_told in B. congruence. Qed.

(** *** Streams *)
Lemma misfit_items l : forall i m, Forall (fun j => (forall m, convert_item j = PErr m <-> misfit j m)) l ->
  (conv_items i l = PErr m <-> exists l1 j l2 m', l = l1 ++ j :: l2 /\ Forall fit l1 /\ misfit j m' /\ m = bs "error converting array element " ++ itoa (i + Z.of_nat (length l1)) ++ bs ": " ++ m').
Proof.
  induction l as [|x l IH]; intros i m A; [split; [discriminate|intros ([|] & ? & ? & ? & E & _); discriminate E]|]. cbn [conv_items]. fold conv_items.
  inversion A as [|? ? Ax Al]; subst. pose proof (convert_item_fuel x) as NF. destruct (convert_item x) as [v|e|] eqn:V; [| |congruence].
  - transitivity (conv_items (i + 1) l = PErr m); [destruct (conv_items (i + 1) l); cbn [pbind]; split; intros H; try discriminate H; exact H|]. rewrite (IH (i + 1) m Al). split.
    + intros (l1 & j & l2 & m' & -> & F & W & ->). exists (x :: l1), j, l2, m'. split; [reflexivity|]. split; [constructor; auto; apply fit_converts; eauto|].
      split; [auto|]. cbn [length]. do 3 f_equal. lia.
    + intros ([|y l1] & j & l2 & m' & E & F & W & ->).
      * injection E as <- <-. apply Ax in W. discriminate W.
      * injection E as <- ->. inversion F; subst. exists l1, j, l2, m'. repeat split; auto. cbn [length]. do 3 f_equal. lia.
  - split.
    + intros H. injection H as <-. exists [], x, l, e. repeat split; auto; [now apply Ax|]. cbn [length]. now rewrite Z.add_0_r.
    + intros ([|y l1] & j & l2 & m' & E & F & W & ->).
      * injection E as <- <-. apply Ax in W. injection W as ->. cbn [length]. now rewrite Z.add_0_r.
      * injection E as <- _. inversion F as [|? ? Fx _]; subst. apply fit_converts in Fx as [v Fx]. congruence.
Qed.
Lemma misfit_iff j : forall m, convert_item j = PErr m <-> misfit j m.
Proof.
  induction j as [|b|f|s|l IH|] using json_ind'; intros m; try (split; [intros H; injection H as <-; constructor|intros H; now inversion H]); try (split; [discriminate|intros H; now inversion H]).
  destruct l as [|j0 l]; [split; [discriminate|intros H; now inversion H]|]. destruct (match j0 with JStr n => true | _ => false end) eqn:Str.
  - destruct j0 as [| | |n| |]; try discriminate Str. inversion IH as [|? ? _ IHl]; subst. rewrite convert_call.
    transitivity (conv_items 1 l = PErr m); [destruct (conv_items 1 l); split; intros H; try discriminate H; injection H as <-; reflexivity|]. rewrite (misfit_items l 1 m IHl). split.
    + intros (l1 & j & l2 & m' & -> & F & W & ->). rewrite Z.add_comm. now constructor.
    + intros H. inversion H as [| | |? ? k T|? l1 j l2 m' F W]; subst; [apply type_iff in T as [T _]; now destruct (T n)|]. exists l1, j, l2, m'. repeat split; auto. now rewrite Z.add_comm.
  - assert (T : type_name j0 (json_type j0)) by (apply type_iff; split; [intros s ->; discriminate Str|reflexivity]).
    assert (V : convert_item (JArr (j0 :: l)) = PErr (bs "first element of JSON array must be a string (symbol), got " ++ json_type j0)) by (destruct j0; try discriminate Str; reflexivity).
    rewrite V. split; [intros H; injection H as <-; now apply mf_name|]. intros H. inversion H as [| | |? ? k Tk|]; subst; [|discriminate Str]. apply type_iff in Tk as [_ <-]. reflexivity.
Qed.
Lemma top_misfit_iff j m : convert_value j = PErr m <-> top_misfit j m.
Proof.
  destruct j as [|b|f|s|l|]; cbn [convert_value]; try (split; [intros H; injection H as <-; constructor|intros H; now inversion H]); try (split; [discriminate|intros H; now inversion H]).
  rewrite misfit_iff. split; [now constructor|intros H; now inversion H].
Qed.
Lemma loop_told fuel : forall s m, json_loop fuel s = PErr m -> stream_flaw s m.
Proof.
  induction fuel as [|fuel IH]; intros s m; cbn [json_loop]; [discriminate|]. destruct (skip_ws s) as [|c t] eqn:Sk; [discriminate|].
  assert (Wc : json_ws c = false). { clear - Sk. induction s as [|x s IHs]; [discriminate|]. cbn in Sk. destruct (json_ws x) eqn:W; [auto|]. injection Sk as -> _. exact W. }
  apply skip_shape in Sk as (w & B & ->). destruct (json_value (json_fuel (c :: t)) 0 (c :: t)) as [[j rest]|e|] eqn:J.
  - destruct (data_sound (json_fuel (c :: t)) 0 (c :: t)) as (V & _). apply V in J as (w' & u & B' & E & J & N).
    destruct w' as [|y w']; [|injection E as <- _; inversion B' as [|? ? H _]; subst; apply ws_in in H; congruence]. cbn [app] in E. rewrite E.
    assert (Fi : json_first u rest j) by (split; auto).
    destruct (convert_value j) as [v|e|] eqn:C; cbn [pbind]; [|intros H; injection H as <-; apply top_misfit_iff in C; now apply (st_here w u rest j)|discriminate].
    intros H. destruct (json_loop fuel rest) as [vs|e|] eqn:R; cbn [pbind] in H; try discriminate H. injection H as <-. apply IH in R.
    apply (st_later w u rest v); auto.
    assert (Bg : begins (u ++ rest)). { destruct (proj1 data_reads _ _ _ J) as [(c' & x & -> & Bg) _]. exists c', (x ++ rest). split; [reflexivity|exact Bg]. }
    apply (first_iff u rest j Bg) in Fi. destruct (top_sound _ _ _ _ Fi C) as (w2 & t2 & B2 & E2 & T).
    destruct w2 as [|y w2]; [cbn [app] in E2; apply app_inv_tail in E2; now subst t2|]. destruct Bg as (c' & x & Ec & Wc' & _). rewrite Ec in E2. injection E2 as -> _. inversion B2 as [|? ? H _]; subst. apply ws_in in H. congruence.
  - intros H. injection H as <-. apply (proj2 syntax_only) in J as He. subst e. apply st_text; [auto|discriminate| |].
    + intros c' t' E W. injection E as <- <-. inversion W as [|? ? H _]; subst. apply ws_in in H. congruence.
    + intros u rest j E Fi. rewrite E in J. assert (Bg : begins (u ++ rest)).
      { destruct Fi as [D _]. destruct (proj1 data_reads _ _ _ D) as [(c' & x & -> & Bg) _]. exists c', (x ++ rest). split; [reflexivity|exact Bg]. }
      apply (first_iff u rest j Bg) in Fi. congruence.
  - intros H. discriminate H.
Qed.
Lemma told_loop s m : stream_flaw s m -> forall fuel, (length s < fuel)%nat -> json_loop fuel s = PErr m.
Proof.
  induction 1 as [w s B Ne Nw N|w t rest j m B Fi M|w t rest v m B T _ IH]; intros [|fuel] L; try lia; cbn [json_loop]; rewrite skip_white by auto; rewrite !app_length in L.
  - destruct s as [|c t]; [congruence|]. cbn [skip_ws]. destruct (json_ws c) eqn:W; [destruct (Nw c t eq_refl); constructor; [now apply ws_in|constructor]|].
    destruct (json_value (json_fuel (c :: t)) 0 (c :: t)) as [[j rest]|e|] eqn:J.
    + destruct (data_sound (json_fuel (c :: t)) 0 (c :: t)) as (V & _). apply V in J as (w' & u & B' & E & J & Ne').
      destruct w' as [|y w']; [|injection E as <- _; inversion B' as [|? ? H _]; subst; apply ws_in in H; congruence]. destruct (N u rest j E). split; auto.
    + apply (proj2 syntax_only) in J as ->. reflexivity.
    + now destruct (proj1 (fuel_enough (c :: t))).
  - assert (Bg : begins t) by (destruct Fi as [D _]; now destruct (proj1 data_reads _ _ _ D)).
    rewrite (skip_begins t rest Bg). assert (Bg' : begins (t ++ rest)) by (destruct Bg as (c & x & -> & Bg); exists c, (x ++ rest); split; [reflexivity|exact Bg]).
    pose proof Bg' as (c & x & Ec & _). apply (first_iff t rest j Bg') in Fi. destruct (t ++ rest) as [|? ?]; [discriminate|]. rewrite Fi. apply top_misfit_iff in M. now rewrite M.
  - destruct (top_complete _ _ _ T) as (St & j & C & J). rewrite (skip_value t rest St). assert (0 < length t)%nat by (destruct St as (c & u & -> & _); cbn; lia).
    destruct (t ++ rest) as [|c u] eqn:E; [destruct St as (? & ? & -> & _); discriminate|]. rewrite J, C. cbn [pbind]. rewrite IH by lia. reflexivity.
Qed.
(** a stream is refused for the first value that is wrong *)
Theorem json_stream_told s m : parse_json_reader s = PErr m <-> stream_flaw s m.
Proof. split; [apply loop_told|]. intros H. apply (told_loop s m H). lia. Qed.
Example json_stream_told_witness :
  stream_flaw (bs "[""point""] 12 [""f"", {}] [") (bs "error converting array element 1: unsupported JSON type: map[string]interface {}") /\
  stream_flaw (bs "[""point""] 12 [") (bs "JSON decode error: JSON syntax error") /\ stream_flaw (bs "null") (bs "unsupported JSON type: <nil>") /\
  stream_flaw (bs "[[]]") (bs "first element of JSON array must be a string (symbol), got []interface {}").
Proof. repeat split; apply json_stream_told; vm_compute; reflexivity. Qed.
Theorem json_stream_one_flaw s m m' : stream_flaw s m -> stream_flaw s m' -> m = m'.
Proof. intros A B. apply json_stream_told in A, B. congruence. Qed.
Theorem json_stream_or_flaw s : (exists p, json_values s p) \/ (exists m, stream_flaw s m).
Proof.
  pose proof (reader_fuel s). destruct (parse_json_reader s) as [p|m|] eqn:P; [left; exists p; now apply json_values_grammar|right; exists m; now apply json_stream_told|congruence].
Qed.
(** the two readers agree on what an argument may be *)
Theorem same_arguments j : fit j <-> ~ exists m, misfit j m.
Proof.
  split; [intros F [m M]; apply fit_converts in F as [v V]; apply misfit_iff in M; congruence|]. intros N. apply fit_converts. pose proof (convert_item_fuel j). destruct (convert_item j) as [v|m|] eqn:C; [eauto| |congruence].
  destruct N. exists m. now apply misfit_iff.
Qed.

(** ** Assumptions of every theorem above *)
Print Assumptions json_text_grammar.
Print Assumptions json_text_one_meaning.
Print Assumptions instruction_flaw.
Print Assumptions instruction_fine.
Print Assumptions flaw_or_fine.
Print Assumptions json_script_told.
Print Assumptions json_script_one_flaw.
Print Assumptions json_script_or_flaw.
Print Assumptions json_script_not_both.
Print Assumptions json_stream_told.
Print Assumptions json_stream_one_flaw.
Print Assumptions json_stream_or_flaw.
Print Assumptions same_arguments.
