(** C31, C32: the JSON form of scripts, and the three formats together. *)
From Coq Require Import ZArith NArith List Bool Lia ZifyBool ZifyN ZifyNat Strings.Byte.
From Verif Require Import Base Float Ext Utf8 Strconv Values Buffer Spec Eval Parser Json Writer Files SpecText RefExt
  Proofs_Base Proofs_Utf8 Proofs_Float Proofs_Number Proofs_Token Proofs_Script Proofs_Lines Proofs_Json Prop_Script.
Import ListNotations.
Open Scope Z_scope.

(** ** C31 *)
(** converting to JSON values and back: exactly the image, for every value of any depth *)
Theorem json_value_image v w : convert_item (value_to_json v) = POk w <-> json_image v w.
Proof. apply image_convert. Qed.
Example json_value_image_witness :
  json_image (VList [VSym (bs "f"); VSym (bs "x"); VList [VStr (bs "g"); VNum (f_of_Z 1)]])
             (VList [VSym (bs "f"); VStr (bs "x"); VList [VSym (bs "g"); VNum (f_of_Z 1)]]).
Proof. apply ji_call; [now left|]. constructor; [constructor|]. constructor; [apply ji_call; [now right|]; repeat constructor|constructor]. Qed.
(** canonical values, and no others, come back unchanged *)
Theorem json_value_round_trip v : convert_item (value_to_json v) = POk v <-> canonical v.
Proof.
  rewrite image_convert. split; [|apply canonical_image]. induction v as [n|s|f|l IH] using value_ind'; intros H; inversion H as [| | | |h n1 args args' Hh HF E1 E2]; subst; try constructor.
  inversion IH as [|? ? _ IHa]; subst. clear -IHa HF. induction IHa as [|x l Hx _ IHl]; [constructor|]. inversion HF; subst. constructor; auto.
Qed.
Example json_value_round_trip_witness : canonical (VList [VSym (bs "insert"); VList [VSym (bs "point")]; VStr []; VNum (S754_zero true); VList []]).
Proof. repeat constructor. Qed.
(** a symbol in argument position comes back as a string *)
Theorem json_argument_symbol E f n : utf8_text f -> utf8_text n -> exists t,
  write_program E (bs "json") [VList [VSym f; VSym n]] = (t, None) /\ parse_json_reader t = POk [VList [VSym f; VStr n]].
Proof.
  intros Hf Hn. destruct (stream_program E [VList [VSym f; VSym n]]) as (t & W & R).
  - repeat constructor; auto. - repeat constructor. cbn. unfold max_nesting. lia.
  - exists t. split; [exact W|]. rewrite R. reflexivity.
Qed.

(** the writer succeeds exactly when every number is finite *)
Theorem json_writable_iff E v : (exists t, write_value E (bs "json") v = POk t) <->
  all_atoms (fun a => match a with VNum (S754_infinity _) | VNum S754_nan => False | _ => True end) v.
Proof.
  change (write_value E (bs "json") v) with (json_write_value v). unfold json_write_value.
  transitivity (exists t, json_encode (value_to_json v) = Some t).
  { destruct (json_encode (value_to_json v)); split; intros [t H]; try discriminate; eauto. }
  induction v as [n|s|f|l IH] using value_ind'; [cbn; split; eauto|cbn; split; eauto|cbn [value_to_json all_atoms json_encode]|cbn [value_to_json json_encode]].
  - pose proof (json_number_none f) as N. destruct (json_number f) as [t|]; split; eauto.
    + intros _. destruct f; auto; exfalso; (assert (X : Some t = None) by (apply N; cbn; auto); discriminate X).
    + intros [t H]. discriminate.
    + intros H. exfalso. apply (proj1 N eq_refl). destruct f; cbn; auto.
  - fold enc_items. rewrite all_atoms_list. transitivity (exists ts, enc_items (map value_to_json l) = Some ts).
    { destruct (enc_items (map value_to_json l)); split; intros [t H]; try discriminate; eauto. }
    induction IH as [|x l Hx _ IHl]; cbn [map enc_items]; [split; eauto|].
    destruct (json_encode (value_to_json x)) as [t|], (enc_items (map value_to_json l)) as [ts|]; split; intros H; eauto;
      try (destruct H as [? H]; discriminate); try (inversion H; subst; (apply Hx in H2 as [? ?] || apply IHl in H3 as [? ?]); discriminate).
    + constructor; [apply Hx; eauto|apply IHl; eauto].
    + inversion H; subst. now apply IHl in H3.
Qed.
Example json_writable_witness : exists t, write_value ref_ext (bs "json") (VList [VSym (bs "f"); VStr [x09; xc3; xa9; x22]; VNum (f_of_Z 7)]) = POk t /\
  t = bs "[""f"",""\t" ++ [xc3; xa9] ++ bs "\"""",7]" ++ [nl].
Proof. eexists. split; [vm_compute; reflexivity|reflexivity]. Qed.

(** text: one value per line, as the writer puts it out, is read back as the image *)
Theorem json_stream_image E p : Forall (fun v => exists l, v = VList l) p ->
  Forall (all_atoms json_atom) p -> Forall (fun v => list_depth v <= 10000) p ->
  exists t, write_program E (bs "json") p = (t, None) /\
    forall q, parse_json_reader t = POk q <-> Forall2 json_image p q.
Proof.
  intros L A D. destruct (stream_program E p A D) as (t & W & R). exists t. split; auto. intros q. rewrite R. split.
  - intros H. apply convert_stream_inv in H. clear -L H. remember (map value_to_json p) as js eqn:Ej. revert p Ej L.
    induction H as [|j v js q H _ IH]; intros [|x p] Ej L; try discriminate; [constructor|]. injection Ej as -> ->. inversion L as [|? ? [l ->] L']; subst.
    constructor; auto. rewrite convert_value_list in H. now apply image_convert.
  - intros H. apply convert_stream_ok. clear -L H. induction H as [|x v p q H _ IH]; cbn [map]; constructor; inversion L as [|? ? [l ->] L']; subst; auto.
    rewrite convert_value_list. now apply image_convert.
Qed.
Theorem json_stream_round_trip E p : Forall (fun v => exists l, v = VList l) p -> Forall canonical p ->
  Forall (all_atoms json_atom) p -> Forall (fun v => list_depth v <= 10000) p ->
  exists t, write_program E (bs "json") p = (t, None) /\ parse_json_reader t = POk p.
Proof.
  intros L C A D. destruct (json_stream_image E p L A D) as (t & W & R). exists t. split; auto. apply R.
  clear -C. induction C; constructor; auto using canonical_image.
Qed.
Example json_stream_round_trip_witness :
  let p := [VList [VSym (bs "search-forward"); VStr (bs "a<b" ++ [nl; xe2; x82; xac])]; VList []; VList [VSym (bs "f"); VNum (S754_finite true 4503599627370496 (-53)); VList [VSym (bs "g")]]] in
  write_program ref_ext (bs "json") p = (bs "[""search-forward"",""a\u003cb\n" ++ [xe2; x82; xac] ++ bs """]" ++ nl :: bs "[]" ++ nl :: bs "[""f"",-0.5,[""g""]]" ++ [nl], None)
  /\ Forall canonical p /\ Forall (all_atoms json_atom) p.
Proof.
  split; [vm_compute; reflexivity|]. split; [repeat constructor|].
  repeat (apply Forall_cons || apply Forall_nil); cbn [all_atoms json_atom].
  all: repeat match goal with |- _ /\ _ => split | |- True => exact I | |- f64_valid _ = true => vm_compute; reflexivity end.
  all: match goal with |- utf8_text ?x => exists (rune_list x); split; [apply Forall_forall, forallb_forall; vm_compute; reflexivity|vm_compute; reflexivity] end.
Qed.
(** text: the same values as one array, the form the edit command reads *)
Theorem json_array_round_trip E p ts : Forall (fun v => exists l, v = VList l) p -> Forall canonical p ->
  Forall (all_atoms json_atom) p -> Forall (fun v => list_depth v < 10000) p ->
  Forall2 (fun v t => write_value E (bs "json") v = POk (t ++ [nl])) p ts ->
  parse_json_string (bs "[" ++ join (bs ",") ts ++ bs "]") = POk p.
Proof.
  intros L C A D T. unfold parse_json_string.
  change (bs "[" ++ join (bs ",") ts ++ bs "]") with ("["%byte :: join [","%byte] ts ++ ["]"%byte]). rewrite (array_decodes E p ts T A D).
  apply convert_program_ok. rewrite Forall_forall in *. auto.
Qed.
Example json_array_witness : let p := [VList [VSym (bs "goto-char"); VNum (f_of_Z 3)]; VList [VSym (bs "insert"); VStr (bs "x,]")]] in
  parse_json_string (bs "[[""goto-char"",3],[""insert"",""x,]""]]") = POk p.
Proof. vm_compute. reflexivity. Qed.
(** the line-per-value form is never accepted by the edit command's reader *)
Theorem json_lines_not_an_array E p : p <> [] -> Forall (fun v => exists l, v = VList l /\ l <> []) p -> Forall canonical p ->
  Forall (all_atoms json_atom) p -> Forall (fun v => list_depth v <= 10000) p ->
  exists t m, write_program E (bs "json") p = (t, None) /\ parse_json_string t = PErr m.
Proof.
  intros N L C A D. destruct p as [|v p]; [congruence|]. clear N.
  destruct (stream_reads (map value_to_json (v :: p))) as (ts & T & _).
  { apply Forall_map. rewrite Forall_forall in *. intros x I. split; [apply value_json_ok; auto|rewrite value_depth; apply (D x I)]. }
  assert (W : write_program E (bs "json") (v :: p) = (flat_map (fun t => t ++ [nl]) ts, None)).
  { apply write_program_json. clear -T. remember (map value_to_json (v :: p)) as l eqn:El. revert El. generalize (v :: p). clear v p.
    induction T as [|j t l ts H _ IH]; intros [|v p] El; try discriminate; [constructor|]. injection El as -> ->. constructor; auto. now apply write_json. }
  inversion T as [|? t ? ts' En T' E1 E2]; subst. clear T.
  assert (O : json_ok (value_to_json v)) by (apply value_json_ok; now inversion A).
  assert (Dj : json_depth (value_to_json v) <= max_nesting) by (rewrite value_depth; now inversion D).
  inversion L as [|? ? (l & -> & Nl) _]; subst. inversion C as [|? ? Cv _]; subst. inversion Cv as [| | |n args Ca]; subst; [congruence|].
  exists (flat_map (fun t => t ++ [nl]) (t :: ts')). cbn [flat_map]. rewrite <- app_assoc. cbn [app]. unfold parse_json_string.
  destruct p as [|v' p].
  - inversion T'; subst. destruct (decode_encoded _ O Dj) as (t' & E' & _ & R). assert (t' = t) as -> by congruence. cbn [flat_map].
    rewrite R. cbn [value_to_json map]. cbn [convert_program validate].
    eexists. split; [cbn [flat_map] in W; rewrite app_nil_r in W; exact W|reflexivity].
  - inversion T' as [|? t2 ? ts2 En2 _]; subst.
    rewrite (lines_rejected _ _ _ O Dj En).
    + eexists. split; [cbn [flat_map] in W; rewrite <- app_assoc in W; exact W|reflexivity].
    + destruct (value_reads (value_to_json v')) as (t' & E' & S & _). { apply value_json_ok. now inversion A as [|? ? _ A']; inversion A'. }
      assert (t' = t2) as -> by congruence. cbn [flat_map]. rewrite <- app_assoc, skip_value by auto. destruct S as (c & u & -> & _). discriminate.
Qed.
Example json_lines_witness : exists t m, write_program ref_ext (bs "json") [VList [VSym (bs "point")]] = (t, None) /\ parse_json_string t = PErr m
  /\ parse_json_reader t = POk [VList [VSym (bs "point")]].
Proof.
  exists (bs "[""point""]" ++ [nl]). eexists. split; [vm_compute; reflexivity|]. split; vm_compute; reflexivity.
Qed.
(** text that is not UTF-8 does not survive *)
Theorem json_any_string_refuted : exists s t s', write_program ref_ext (bs "json") [VList [VSym (bs "insert"); VStr s]] = (t, None) /\
  parse_json_reader t = POk [VList [VSym (bs "insert"); VStr s']] /\ s' <> s.
Proof.
  exists [xff], (bs "[""insert"",""\ufffd""]" ++ [nl]), [xef; xbf; xbd]. split; [vm_compute; reflexivity|]. split; [vm_compute; reflexivity|discriminate].
Qed.

(** what the readers accept, for every text: canonical lists *)
Lemma converted_canonical j : forall v, convert_item j = POk v -> canonical v.
Proof.
  induction j as [| |f|s|l IH|] using json_ind'; intros v; try (cbn; intros H; (discriminate || (injection H as <-; constructor))).
  destruct l as [|j0 items]; [cbn; intros H; injection H as <-; constructor|].
  inversion IH as [|? ? _ IHi]; subst. destruct j0; try discriminate. rewrite convert_call.
  destruct (conv_items 1 items) as [vs| |] eqn:C; try discriminate. intros H. injection H as <-. constructor. apply conv_items_inv in C.
  clear -IHi C. induction C as [|j v l vs H _ IH]; constructor; inversion IHi; subst; auto.
Qed.
Theorem json_accepts_canonical s p : parse_json_string s = POk p -> Forall (fun v => canonical v /\ exists l, v = VList l) p.
Proof.
  unfold parse_json_string. destruct (json_decode s) as [j| |]; try discriminate. destruct j; try discriminate.
  - intros H. injection H as <-. constructor.
  - generalize 0. revert p. induction l as [|j l IH]; intros p i; cbn [convert_program]; [intros H; injection H as <-; constructor|].
    destruct (validate j true) eqn:V; [discriminate|]. destruct (convert_value j) as [v| |] eqn:C; cbn [pbind]; try discriminate.
    destruct (convert_program (i + 1) l) as [q| |] eqn:Q; cbn [pbind]; try discriminate. intros H. injection H as <-. constructor; eauto.
    destruct j; try discriminate. cbn [convert_value] in C. split; [eapply converted_canonical; eauto|].
    destruct l0 as [|j0 items]; [injection C as <-; eauto|]. destruct j0; try discriminate. rewrite convert_call in C.
    destruct (conv_items 1 items); try discriminate. injection C as <-. eauto.
Qed.
Example json_accepts_witness : parse_json_string (bs " [ [""f"", 1.50e1 ,[] ] ] ") = POk [VList [VSym (bs "f"); VNum (f_of_Z 15); VList []]].
Proof. vm_compute. reflexivity. Qed.
(** the validation pass is complete: what passes it is converted without error *)
Lemma validated_items : forall j, validate j false = None -> exists v, convert_item j = POk v.
Proof.
  induction j as [| |f|s|l IH|] using json_ind'; cbn [validate]; try discriminate; try (intros _; eexists; reflexivity).
  destruct l as [|j0 items]; [intros _; eexists; reflexivity|]. destruct j0; try discriminate. inversion IH as [|? ? _ IHi]; subst.
  fold valid_items. rewrite convert_call. intros V. enough (exists vs, conv_items 1 items = POk vs) as [vs ->] by eauto.
  clear IH. revert V. generalize 1. induction IHi as [|x l Hx _ IHl]; intros i; cbn [valid_items conv_items]; [eauto|].
  destruct (validate x false); [discriminate|]. destruct (Hx eq_refl) as [v ->]. intros V. destruct (IHl _ V) as [vs ->]. eexists. reflexivity.
Qed.
Theorem json_validated_converts j : validate j true = None -> exists l, convert_value j = POk (VList l).
Proof.
  intros V. destruct j as [| | | |l|]; try discriminate. destruct (validated_items (JArr l)) as [v C]; [exact V|]. cbn [convert_value]. rewrite C.
  destruct l as [|j0 items]; [injection C as <-; eauto|]. destruct j0; try discriminate. rewrite convert_call in C.
  destruct (conv_items 1 items); try discriminate. injection C as <-. eauto.
Qed.
Example json_validated_witness : validate (JArr [JStr (bs "f"); JNum (f_of_Z 1); JArr [JStr (bs "g")]]) true = None /\
  validate (JArr [JStr (bs "f"); JArr [JNum (f_of_Z 1)]]) true <> None.
Proof. split; [reflexivity|discriminate]. Qed.

(** ** C32 *)
(** the default entry point and the two text formats are the same function *)
Theorem default_format E input script :
  execute_script E input script = execute_script_fmt E input script (bs "shell") /\
  execute_script E input script = execute_script_fmt E input script (bs "sexp").
Proof. split; reflexivity. Qed.
(** no other format is run *)
Theorem unknown_format E input script format : ~ In format [bs "shell"; bs "sexp"; bs "json"] ->
  exists m, execute_script_fmt E input script format = Err m.
Proof.
  intros N. unfold execute_script_fmt, is_valid_format.
  destruct (str_eqb format (bs "shell")) eqn:A; [apply str_eqb_eq in A; subst; exfalso; apply N; cbn; tauto|].
  destruct (str_eqb format (bs "sexp")) eqn:B; [apply str_eqb_eq in B; subst; exfalso; apply N; cbn; tauto|].
  destruct (str_eqb format (bs "json")) eqn:C; [apply str_eqb_eq in C; subst; exfalso; apply N; cbn; tauto|].
  eexists. reflexivity.
Qed.
Example unknown_format_witness : ~ In (bs "SEXP") [bs "shell"; bs "sexp"; bs "json"].
Proof. cbn. intros [H|[H|[H|[]]]]; discriminate. Qed.
(** a nested program: S-expression text and JSON array *)
Theorem sexp_json_agree E input p : Forall (fun v => exists l, v = VList l) p -> Forall canonical p ->
  Forall writable p -> Forall (all_atoms json_atom) p -> Forall (fun v => list_depth v < 10000) p ->
  Forall (fun v => zlen (show E v) < 65536) p ->
  exists sexp ts, write_program E (bs "sexp") p = (sexp, None) /\
    Forall2 (fun v t => write_value E (bs "json") v = POk (t ++ [nl])) p ts /\
    let json := bs "[" ++ join (bs ",") ts ++ bs "]" in
    execute_script_fmt E input sexp (bs "sexp") = execute_script_fmt E input json (bs "json") /\
    execute_script_fmt E input sexp (bs "sexp") = run_program E input (POk p).
Proof.
  intros L C W A D Z. destruct (sexp_round_trip E p L W Z) as (sexp & S1 & S2).
  assert (T : exists ts, Forall2 (fun v t => write_value E (bs "json") v = POk (t ++ [nl])) p ts).
  { destruct (stream_reads (map value_to_json p)) as (ts & T & _).
    { apply Forall_map. rewrite Forall_forall in *. intros x I. split; [apply value_json_ok; auto|rewrite value_depth; specialize (D x I); cbv beta in D; unfold max_nesting; lia]. }
    exists ts. clear -T. remember (map value_to_json p) as l eqn:El. revert p El.
    induction T as [|j t l ts H _ IH]; intros [|v p] El; try discriminate; [constructor|]. injection El as -> ->. constructor; auto. now apply write_json. }
  destruct T as [ts T]. exists sexp, ts. split; auto. split; auto. cbv zeta.
  change (execute_script_fmt E input sexp (bs "sexp")) with (run_program E input (parse_string sexp)).
  change (execute_script_fmt E input ?j (bs "json")) with (run_program E input (parse_json_string j)).
  rewrite S2, (json_array_round_trip E p ts L C A D T). auto.
Qed.
(** a flat program: all three *)
Theorem formats_agree E input p :
  Forall (fun v => exists n args, v = VList (VSym n :: args) /\ Forall (fun x => match x with VStr _ | VNum _ => True | _ => False end) args) p ->
  Forall writable p -> Forall (all_atoms json_atom) p ->
  Forall (fun v => zlen (show E v) < 65536) p -> Forall (fun v => exists t, shell_value E v = POk t /\ zlen t < 65536) p ->
  exists shell sexp ts, write_program E (bs "shell") p = (shell, None) /\ write_program E (bs "sexp") p = (sexp, None) /\
    Forall2 (fun v t => write_value E (bs "json") v = POk (t ++ [nl])) p ts /\
    let json := bs "[" ++ join (bs ",") ts ++ bs "]" in
    execute_script_fmt E input shell (bs "shell") = execute_script_fmt E input sexp (bs "sexp") /\
    execute_script_fmt E input sexp (bs "sexp") = execute_script_fmt E input json (bs "json") /\
    execute_script_fmt E input shell (bs "shell") = run_program E input (POk p).
Proof.
  intros F W A Z1 Z2. destruct (shell_round_trip E p) as (shell & S1 & S2); auto.
  { eapply Forall_impl; [|exact F]. intros v (n & args & -> & H). eexists. split; [reflexivity|]. split; [discriminate|].
    constructor; auto. eapply Forall_impl; [|exact H]. intros []; tauto. }
  destruct (sexp_json_agree E input p) as (sexp & ts & W1 & W2 & E1 & E2); auto.
  - eapply Forall_impl; [|exact F]. intros v (n & args & -> & H). eauto.
  - eapply Forall_impl; [|exact F]. intros v (n & args & -> & H). constructor. eapply Forall_impl; [|exact H]. intros []; try tauto; constructor.
  - eapply Forall_impl; [|exact F]. intros v (n & args & -> & H). rewrite <- value_depth. apply Z.le_lt_trans with 1; [|lia]. apply json_depth_arr. split; [lia|].
    cbn [map value_to_json]. constructor; [cbn; lia|]. apply Forall_map. eapply Forall_impl; [|exact H]. intros [] X; try tauto; cbn; lia.
  - exists shell, sexp, ts. split; [auto|]. split; [auto|]. split; [auto|]. cbv zeta.
    assert (E3 : execute_script_fmt E input shell (bs "shell") = run_program E input (POk p)) by (rewrite <- S2; reflexivity).
    split; [congruence|]. split; [exact E1|exact E3].
Qed.
Example formats_agree_witness : let p := [VList [VSym (bs "search-forward"); VStr (bs "b")]; VList [VSym (bs "insert"); VStr (bs "; (" ++ [nl])]] in
  write_program ref_ext (bs "shell") p = (bs "search-forward ""b""" ++ nl :: bs "insert ""; (\n""" ++ [nl], None) /\
  run_program ref_ext (bs "abc") (POk p) = Ok (bs "ab; (" ++ nl :: bs "c") /\
  execute_script_fmt ref_ext (bs "abc") (bs "[[""search-forward"",""b""],[""insert"",""; (\n""]]") (bs "json") = Ok (bs "ab; (" ++ nl :: bs "c").
Proof. vm_compute. repeat split; reflexivity. Qed.

(** ** Assumptions of every theorem above *)
Print Assumptions json_value_image.
Print Assumptions json_value_round_trip.
Print Assumptions json_argument_symbol.
Print Assumptions json_writable_iff.
Print Assumptions json_stream_image.
Print Assumptions json_stream_round_trip.
Print Assumptions json_array_round_trip.
Print Assumptions json_lines_not_an_array.
Print Assumptions json_any_string_refuted.
Print Assumptions json_accepts_canonical.
Print Assumptions json_validated_converts.
Print Assumptions default_format.
Print Assumptions unknown_format.
Print Assumptions sexp_json_agree.
Print Assumptions formats_agree.
