(** Whatever the JSON parser produces can be written as JSON and parsed again. *)
From Coq Require Import ZArith NArith List Bool Lia ZifyBool ZifyN ZifyNat Strings.Byte.
From Verif Require Import Base Float Ext Utf8 Strconv Values Buffer Spec Parser Json Writer SpecText
  Proofs_Base Proofs_Utf8 Proofs_Float Proofs_Number Proofs_Token Proofs_Script Proofs_Lines Proofs_Json Proofs_Round.
Import ListNotations.
Open Scope Z_scope.

(** ** Numbers *)
Lemma eq_fold_digit d t u : is_digit d = true -> match u with c :: _ => is_digit c = false | [] => True end ->
  eq_fold (d :: t) u = false.
Proof.
  destruct u as [|c u]; [reflexivity|]. intros D C. unfold eq_fold. cbn [map str_eqb].
  replace (lower d) with d by (destruct d; try discriminate D; reflexivity).
  replace (Byte.eqb d c) with false; [reflexivity|]. symmetry. apply byte_eqb_neq. congruence.
Qed.
Lemma take_head s d ds r : take_digits s = (d :: ds, r) -> is_digit d = true.
Proof.
  destruct s as [|c s]; [discriminate|]. cbn [take_digits]. destruct (is_digit c) eqn:C; [|discriminate].
  destruct (take_digits s) as [x y]. intros H. injection H as <- _ _. exact C.
Qed.
Definition digit_first (sg a : str) : Prop := exists d t, a = sg ++ d :: t /\ is_digit d = true.
Lemma exp_first sg ip fp s2 a r : digit_first [] ip -> exp_part sg ip fp s2 = Some (a, r) -> digit_first sg a.
Proof.
  intros (d & t & -> & D). cbn [app]. unfold exp_part.
  assert (G : forall u, digit_first sg (sg ++ (d :: t) ++ u)) by (intros u; exists d, (t ++ u); auto).
  destruct s2 as [|c t0]; [intros [= <- _]; apply G|]. destruct (Byte.eqb _ _); [|intros [= <- _]; apply G].
  destruct (match t0 with [] => _ | _ => _ end) as [es t1].
  destruct (take_digits t1) as [[|x xs] s3]; [discriminate|]. intros [= <- _]. apply G.
Qed.
Lemma number_first s a r : json_number_text s = Some (a, r) -> digit_first [] a \/ digit_first ["-"%byte] a.
Proof.
  assert (U : forall sg s0, unsigned_part sg s0 = Some (a, r) -> digit_first sg a).
  { intros sg s0. unfold unsigned_part. destruct (take_digits s0) as [[|d ds] s1] eqn:T; [discriminate|].
    apply take_head in T. destruct (if Byte.eqb d "0" then _ else _) as [ip s1'] eqn:I.
    assert (Hi : digit_first [] ip). { destruct (Byte.eqb d "0"); injection I as <- _; [exists d, []|exists d, ds]; auto. }
    destruct (frac_part s1') as [[fp s2]|]; [|discriminate]. now apply exp_first. }
  rewrite number_parts. destruct s as [|c t]; [left; eapply U; eauto|].
  destruct (Byte.eqb c "-"); [right|left]; eapply U; eauto.
Qed.
Lemma number_not_special a : digit_first [] a \/ digit_first ["-"%byte] a -> parse_special a = None.
Proof.
  assert (G : forall d t u, is_digit d = true -> In u [bs "inf"; bs "infinity"; bs "nan"] -> eq_fold (d :: t) u = false).
  { intros d t u D I. apply eq_fold_digit; auto. destruct I as [<-|[<-|[<-|[]]]]; reflexivity. }
  intros [(d & t & -> & D)|(d & t & -> & D)]; cbn [app]; unfold parse_special; cbv zeta.
  - replace (Byte.eqb d "+") with false by (destruct d; try discriminate D; reflexivity).
    replace (Byte.eqb d "-") with false by (destruct d; try discriminate D; reflexivity). cbn [orb negb andb].
    rewrite !G by (auto; cbn; tauto). reflexivity.
  - change (Byte.eqb "-" "+" || Byte.eqb "-" "-") with true. cbv iota. cbn [negb andb]. rewrite !G by (auto; cbn; tauto). reflexivity.
Qed.
Lemma json_number_good s a r f : json_number_text s = Some (a, r) -> parse_float a = Some f -> finite_good f.
Proof. intros H. apply parse_float_finite. apply number_not_special. eapply number_first; eauto. Qed.

(** ** Strings *)
Lemma wf8_any r : wf8 (encode_rune r).
Proof.
  unfold encode_rune. destruct (valid_rune r) eqn:V.
  - pose proof (wf8_rune r V) as W. unfold encode_rune in W. now rewrite V in W.
  - pose proof (wf8_rune rune_error eq_refl) as W. exact W.
Qed.
Lemma json_string_wf fuel : forall s r rest, json_string fuel s = POk (r, rest) -> wf8 r.
Proof.
  induction fuel as [|fuel IH]; intros s r rest; [discriminate|]. cbn [json_string].
  destruct s as [|c t]; [discriminate|].
  assert (Em : forall out u, wf8 out ->
    match json_string fuel u with POk (x, rest') => POk (out ++ x, rest') | PErr e => PErr e | PFuel => PFuel end = POk (r, rest) -> wf8 r).
  { intros out u W. destruct (json_string fuel u) as [[x rest']| |] eqn:J; try discriminate. intros [= <- _].
    apply wf8_app; auto. eapply IH; eauto. }
  assert (B : forall b, (byteN b < 128)%N -> wf8 [b]) by (intros; now apply wf8_byte).
  destruct (Byte.eqb c """"); [intros [= <- _]; apply wf8_nil|].
  destruct (byteN c <? 32)%N; [discriminate|].
  destruct (128 <=? byteN c)%N eqn:H; [destruct (decode_one (c :: t)) as [ra u]; apply Em, wf8_any|].
  destruct (negb _); [apply Em, B; lia|].
  destruct t as [|e u]; [discriminate|].
  repeat match goal with |- context [if Byte.eqb e ?x then match json_string _ _ with _ => _ end else _] =>
    destruct (Byte.eqb e x); [apply Em, B; cbn; lia|] end.
  destruct (Byte.eqb e "u"); [|discriminate].
  destruct (read_hex 4 0 u) as [[r1 u1]|]; [|discriminate].
  destruct (is_surrogate r1); [|apply Em, wf8_any].
  destruct u1 as [|b0 [|b1 u2]]; try (apply Em, wf8_any).
  destruct (_ && _); [|apply Em, wf8_any].
  destruct (read_hex 4 0 u2) as [[r2 u3]|]; [|apply Em, wf8_any].
  destruct (utf16_decode r1 r2); apply Em, wf8_any.
Qed.

(** ** Values *)
Fixpoint decoded (d : Z) (j : json) : Prop :=
  match j with
  | JNum f => finite_good f
  | JStr s => wf8 s
  | JArr l => 1 <= d /\ (fix go l := match l with [] => True | x :: l' => decoded (d - 1) x /\ go l' end) l
  | _ => True
  end.
Lemma decoded_arr d l : decoded d (JArr l) <-> 1 <= d /\ Forall (decoded (d - 1)) l.
Proof.
  cbn [decoded]. enough ((fix go l := match l with [] => True | x :: l' => decoded (d - 1) x /\ go l' end) l <-> Forall (decoded (d - 1)) l) by tauto.
  induction l as [|x l IH]; [split; constructor|]. split.
  - intros [A B]. constructor; auto. now apply IH. - intros H. inversion H; subst. split; auto. now apply IH.
Qed.
Lemma json_value_decoded fuel : forall depth s,
  (forall j rest, json_value fuel depth s = POk (j, rest) -> decoded (max_nesting - depth) j) /\
  (forall acc j rest, depth <= max_nesting -> Forall (decoded (max_nesting - depth)) acc -> json_elems fuel depth acc s = POk (j, rest) ->
     decoded (max_nesting - depth + 1) j) /\
  (forall d j rest, json_members fuel depth s = POk (j, rest) -> decoded d j).
Proof.
  induction fuel as [|fuel IH]; intros depth s; [repeat split; discriminate|]. split; [|split].
  - intros j rest. cbn [json_value]. destruct (skip_ws s) as [|c t]; [discriminate|].
    destruct (Byte.eqb c "[").
    { destruct (max_nesting <=? depth) eqn:D; [discriminate|]. destruct (skip_ws t) as [|x t'] eqn:K; [discriminate|].
      destruct (Byte.eqb x "]"); [intros [= <- _]; apply decoded_arr; split; [lia|constructor]|].
      intros H. destruct (IH (depth + 1) t) as (_ & B & _). specialize (B [] j rest ltac:(lia) ltac:(constructor) H).
      now replace (max_nesting - (depth + 1) + 1) with (max_nesting - depth) in B by lia. }
    destruct (Byte.eqb c "{").
    { destruct (max_nesting <=? depth); [discriminate|]. destruct (skip_ws t) as [|x t']; [discriminate|].
      destruct (Byte.eqb x "}"); [intros [= <- _]; exact I|]. apply IH. }
    destruct (Byte.eqb c """").
    { destruct (json_string _ t) as [[r u]| |] eqn:J; try discriminate. intros [= <- _]. exact (json_string_wf _ _ _ _ J). }
    destruct (has_prefix _ _); [intros [= <- _]; exact I|]. destruct (has_prefix _ _); [intros [= <- _]; exact I|].
    destruct (has_prefix _ _); [intros [= <- _]; exact I|].
    destruct (json_number_text (c :: t)) as [[txt u]|] eqn:N; [|discriminate].
    destruct (parse_float txt) as [f|] eqn:P; [|discriminate]. intros [= <- _]. exact (json_number_good _ _ _ _ N P).
  - intros acc j rest D A. cbn [json_elems]. destruct (json_value fuel depth s) as [[v u]| |] eqn:J; try discriminate.
    destruct (IH depth s) as (B & _). specialize (B _ _ J).
    destruct (skip_ws u) as [|c t]; [discriminate|]. destruct (Byte.eqb c ",").
    + intros H. destruct (IH depth t) as (_ & C & _). eapply C; [auto| |exact H]. constructor; auto.
    + destruct (Byte.eqb c "]"); [|discriminate]. intros [= <- _]. apply decoded_arr. split; [lia|].
      replace (max_nesting - depth + 1 - 1) with (max_nesting - depth) by lia. change (rev acc ++ [v]) with (rev (v :: acc)).
      apply Forall_rev. constructor; auto.
  - intros d j rest. cbn [json_members]. destruct (skip_ws s) as [|c t]; [discriminate|].
    destruct (Byte.eqb c """"); [|discriminate]. destruct (json_string _ t) as [[r u]| |]; try discriminate.
    destruct (skip_ws u) as [|c1 t1]; [discriminate|]. destruct (Byte.eqb c1 ":"); [|discriminate].
    destruct (json_value fuel depth t1) as [[v u2]| |]; try discriminate.
    destruct (skip_ws u2) as [|c2 t2]; [discriminate|]. destruct (Byte.eqb c2 ","); [apply IH|].
    destruct (Byte.eqb c2 "}"); [intros [= <- _]; exact I|discriminate].
Qed.
Lemma json_stream_decoded fuel : forall s l, json_stream fuel s = POk l -> Forall (decoded max_nesting) l.
Proof.
  induction fuel as [|fuel IH]; intros s l; [discriminate|]. cbn [json_stream].
  destruct (skip_ws s) as [|c t]; [intros [= <-]; constructor|].
  destruct (json_value _ 0 (c :: t)) as [[v rest]| |] eqn:J; try discriminate.
  destruct (json_stream fuel rest) as [vs| |] eqn:K; try discriminate. intros [= <-]. constructor; [|eapply IH; eauto].
  apply json_value_decoded in J. now rewrite Z.sub_0_r in J.
Qed.
Lemma list_depth_le l d : list_depth (VList l) <= d <-> 1 <= d /\ Forall (fun x => list_depth x <= d - 1) l.
Proof.
  rewrite <- value_depth. cbn [value_to_json]. rewrite json_depth_arr, Forall_map. split; intros [A B]; (split; [auto|]);
    (eapply Forall_impl; [|exact B]); intros x H; cbv beta in *; rewrite value_depth in *; auto.
Qed.
Lemma converted_ok j : forall d v, 0 <= d -> decoded d j -> convert_item j = POk v -> all_atoms json_atom v /\ list_depth v <= d.
Proof.
  induction j as [| |f|s|l IH|] using json_ind'; intros d v Hd D H; try discriminate.
  - injection H as <-. split; [exact D|cbn; lia].
  - injection H as <-. split; [exact D|cbn; lia].
  - apply decoded_arr in D as [D1 D]. destruct l as [|j0 items]; [injection H as <-; split; [exact I|cbn; lia]|].
    destruct j0; try discriminate. rewrite convert_call in H. destruct (conv_items 1 items) as [vs| |] eqn:C; try discriminate.
    injection H as <-. inversion IH as [|? ? _ IHi]; inversion D as [|? ? Ds Di]; subst. apply conv_items_inv in C.
    assert (G : Forall (fun v => all_atoms json_atom v /\ list_depth v <= d - 1) vs).
    { clear IH D. induction C as [|x v xs vs Hx _ IHC]; constructor; inversion IHi; inversion Di; subst; auto. apply H1; auto. lia. }
    split.
    + apply all_atoms_list. constructor; [exact Ds|]. eapply Forall_impl; [|exact G]. now intros x [? _].
    + apply list_depth_le. split; [auto|]. constructor; [cbn; lia|]. eapply Forall_impl; [|exact G]. now intros x [_ ?].
Qed.
(** what is read from JSON stays the same when converted back and forth *)
Lemma convert_back j : forall v, convert_item j = POk v -> convert_item (value_to_json v) = POk v.
Proof.
  induction j as [| |f|s|l IH|] using json_ind'; intros v H; try discriminate; try (injection H as <-; reflexivity).
  destruct l as [|j0 items]; [injection H as <-; reflexivity|]. destruct j0; try discriminate. rewrite convert_call in H.
  destruct (conv_items 1 items) as [vs| |] eqn:C; try discriminate. injection H as <-. inversion IH as [|? ? _ IHi]; subst.
  cbn [value_to_json map]. rewrite convert_call. apply conv_items_inv in C.
  rewrite (conv_items_ok (map value_to_json vs) vs); [reflexivity|].
  clear IH. induction C as [|x v xs vs Hx _ IHC]; cbn [map]; constructor; inversion IHi; subst; auto.
Qed.
Lemma stream_values s p : parse_json_reader s = POk p ->
  Forall (all_atoms json_atom) p /\ Forall (fun v => list_depth v <= max_nesting) p /\
  Forall (fun v => convert_value (value_to_json v) = POk v) p.
Proof.
  unfold parse_json_reader. intros H. apply stream_loop in H as (l & J & H). apply json_stream_decoded in J. apply convert_stream_inv in H.
  assert (G : Forall (fun v => (all_atoms json_atom v /\ list_depth v <= max_nesting) /\ convert_value (value_to_json v) = POk v) p).
  { induction H as [|j v l p Hj _ IH]; constructor; inversion J as [|? ? Jj Jl]; subst; auto. clear IH.
    assert (X : exists w, convert_value j = POk w /\ v = w) by eauto. clear X.
    assert (M : 0 <= max_nesting) by (unfold max_nesting; lia).
    destruct j as [| |f|s'|m|]; cbn [convert_value] in Hj; try discriminate.
    - injection Hj as <-. split; [split; [exact Jj|cbn; lia]|reflexivity].
    - injection Hj as <-. split; [split; [exact Jj|cbn; lia]|reflexivity].
    - split; [eapply converted_ok; eauto|]. pose proof (convert_back _ _ Hj) as K. destruct m as [|j0 items].
      + injection Hj as <-. reflexivity.
      + destruct j0; try discriminate. rewrite convert_call in Hj. destruct (conv_items 1 items); try discriminate. injection Hj as <-. exact K. }
  repeat split; (eapply Forall_impl; [|exact G]); cbv beta; intros v [[A B] C]; auto.
Qed.
Lemma json_reread E s p : parse_json_reader s = POk p ->
  exists t, write_program E (bs "json") p = (t, None) /\ parse_json_reader t = POk p.
Proof.
  intros H. apply stream_values in H as (A & D & C). destruct (stream_program E p A D) as (t & W & R).
  exists t. split; auto. rewrite R. apply convert_stream_ok. clear -C. induction C; constructor; auto.
Qed.
(** the same for the array form *)
Lemma array_values s p : parse_json_string s = POk p ->
  Forall (all_atoms json_atom) p /\ Forall (fun v => list_depth v < max_nesting) p.
Proof.
  unfold parse_json_string, json_decode. destruct (json_value _ 0 s) as [[j rest]| |] eqn:J; try discriminate.
  apply json_value_decoded in J. rewrite Z.sub_0_r in J. destruct (skip_ws rest); [|discriminate].
  destruct j; try discriminate; [intros [= <-]; split; constructor|]. apply decoded_arr in J as [_ J].
  intros H. enough (G : Forall (fun v => all_atoms json_atom v /\ list_depth v <= max_nesting - 1) p).
  { split; (eapply Forall_impl; [|exact G]); cbv beta; intros v [A B]; auto. lia. }
  revert p H. generalize 0. induction l as [|j l IH]; intros i p; cbn [convert_program]; [intros [= <-]; constructor|].
  inversion J as [|? ? Jj Jl]; subst. destruct (validate j true); [discriminate|].
  destruct (convert_value j) as [v| |] eqn:C; cbn [pbind]; try discriminate.
  destruct (convert_program (i + 1) l) as [q| |] eqn:Q; cbn [pbind]; try discriminate. intros [= <-]. constructor; [|eapply IH; eauto].
  assert (M : 0 <= max_nesting - 1) by (unfold max_nesting; lia).
  destruct j; cbn [convert_value] in C; try discriminate.
  - injection C as <-. split; [exact Jj|cbn; lia].
  - injection C as <-. split; [exact Jj|cbn; lia].
  - eapply converted_ok; eauto.
Qed.
