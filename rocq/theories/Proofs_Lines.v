(** Scripts as text: quotes, semicolons, blanks, parentheses. *)
From Coq Require Import ZArith NArith List Bool Lia ZifyBool ZifyN ZifyNat Strings.Byte.
From Verif Require Import Base Float Ext Utf8 Strconv Values Buffer Spec Parser Writer SpecText
  Proofs_Base Proofs_Utf8 Proofs_Float Proofs_Number Proofs_Token Proofs_Script.
Import ListNotations.
Open Scope Z_scope.

(** ** Decoding is local at ASCII bytes *)
Lemma decode_app s c t : (byteN c < 128)%N -> s <> [] -> decode_rune (s ++ c :: t) = decode_rune s.
Proof.
  intros C N. destruct s as [|b0 s]; [congruence|]. cbn [app decode_rune].
  destruct (byteN b0 <=? 127)%N; [reflexivity|].
  assert (K : cont c = false) by (unfold cont; lia).
  destruct ((194 <=? byteN b0) && (byteN b0 <=? 223))%N.
  { destruct s as [|b1 s]; cbn [app]; [now rewrite K|reflexivity]. }
  destruct ((224 <=? byteN b0) && (byteN b0 <=? 239))%N.
  { destruct s as [|b1 [|b2 s]]; cbn [app]; [| |reflexivity].
    - destruct t as [|b2 t]; [reflexivity|]. cbv zeta.
      replace (_ && (byteN c <=? _) && _)%N with false; [reflexivity|]. symmetry. destruct (byteN b0 =? 224)%N; lia.
    - rewrite K. now rewrite andb_false_r. }
  destruct ((240 <=? byteN b0) && (byteN b0 <=? 244))%N; [|reflexivity].
  destruct s as [|b1 [|b2 [|b3 s]]]; cbn [app]; [| | |reflexivity].
  - destruct t as [|b2 [|b3 t]]; [reflexivity..|]. cbv zeta.
    replace (_ && (byteN c <=? _) && _ && _)%N with false; [reflexivity|]. symmetry. destruct (byteN b0 =? 240)%N; lia.
  - destruct t as [|b3 t]; [reflexivity|]. rewrite K. now rewrite andb_false_r.
  - rewrite K. now rewrite andb_false_r.
Qed.
Lemma runes_app_ascii s c t : (byteN c < 128)%N -> runes (s ++ c :: t) = runes s ++ runes (c :: t).
Proof.
  intros C. remember (length s) as n eqn:L. assert (length s <= n)%nat as L' by lia. clear L. revert s L'.
  induction n as [|n IH]; intros s L; destruct s as [|b s]; try (cbn in L; lia); try reflexivity.
  destruct (decode_rune (b :: s)) as [[r w]|] eqn:D; [|now apply decode_none in D].
  pose proof (decode_width _ _ _ D) as Wd. pose proof D as D'. rewrite <- (decode_app (b :: s) c t) in D' by (auto; discriminate).
  rewrite (runes_step _ _ _ D), (runes_step _ _ _ D'). cbn [app]. change (b :: s ++ c :: t) with ((b :: s) ++ c :: t).
  rewrite firstn_app, skipn_app. replace (w - length (b :: s))%nat with 0%nat by lia. rewrite firstn_O, app_nil_r, skipn_O.
  f_equal. apply IH. rewrite skipn_length. lia.
Qed.
Lemma rune_list_app_ascii s c t : (byteN c < 128)%N -> rune_list (s ++ c :: t) = rune_list s ++ byteN c :: rune_list t.
Proof.
  intros C. unfold rune_list. rewrite runes_app_ascii, map_app by auto. now rewrite (runes_ascii c t).
Qed.
Lemma rune_list_valid s : Forall valid (rune_list s).
Proof.
  unfold rune_list. apply Forall_map. eapply Forall_impl; [|apply runes_form].
  intros ra [(r & V & ->)|(b & _ & ->)]; [exact V|reflexivity].
Qed.

(** ** White space *)
Definition trim_runes_left (l : list rune) : list rune :=
  (fix go l := match l with [] => [] | r :: l' => if is_space r then go l' else l end) l.
Definition trim_runes (l : list rune) : list rune := rev (trim_runes_left (rev (trim_runes_left l))).
Lemma drop_space_good rs : drop_space (map good_rune rs) = map good_rune (trim_runes_left rs).
Proof. induction rs as [|r rs IH]; [reflexivity|]. cbn. destruct (is_space r); auto. Qed.
Lemma good_bytes rs : flat_map r_bytes (map good_rune rs) = utf8 rs.
Proof. induction rs as [|r rs IH]; [reflexivity|]. cbn. now rewrite IH. Qed.
Lemma runes_utf8_nil rs : Forall valid rs -> runes (utf8 rs) = map good_rune rs.
Proof. intros V. rewrite <- (app_nil_r (utf8 rs)), runes_utf8 by auto. now rewrite app_nil_r. Qed.
Lemma trim_space_utf8 rs : Forall valid rs -> trim_space (utf8 rs) = utf8 (trim_runes rs).
Proof.
  intros V. unfold trim_space, trim_runes. rewrite runes_utf8_nil by auto.
  rewrite drop_space_good, <- map_rev, drop_space_good, <- map_rev. apply good_bytes.
Qed.
Definition all_space (l : list rune) : Prop := Forall (fun r => is_space r = true) l.
Lemma trim_left_spaces ws l : all_space ws -> trim_runes_left (ws ++ l) = trim_runes_left l.
Proof. intros H. induction H as [|r ws Hr _ IH]; [reflexivity|]. cbn. now rewrite Hr. Qed.
Lemma trim_left_or l : (all_space l /\ trim_runes_left l = []) \/
  (exists ws r l', l = ws ++ r :: l' /\ all_space ws /\ is_space r = false /\ trim_runes_left l = r :: l').
Proof.
  induction l as [|r l IH]; [left; split; [constructor|reflexivity]|]. cbn. destruct (is_space r) eqn:S.
  - destruct IH as [[A B]|(ws & r' & l' & -> & A & B & C)].
    + left. split; auto. constructor; auto.
    + right. exists (r :: ws), r', l'. repeat split; auto. constructor; auto.
  - right. exists [], r, l. repeat split; auto. constructor.
Qed.
Lemma all_space_rev l : all_space l -> all_space (rev l).
Proof. apply Forall_rev. Qed.
Lemma trim_runes_spaces ws l ws' : all_space ws -> all_space ws' -> trim_runes (ws ++ l ++ ws') = trim_runes l.
Proof.
  intros A B. unfold trim_runes. rewrite trim_left_spaces by auto.
  destruct (trim_left_or l) as [[C D]|(w & r & l' & -> & C & D & F)].
  - rewrite D. rewrite (trim_left_spaces l ws') by auto. destruct (trim_left_or ws') as [[_ X]|(w & r & l' & X & _ & Y & _)].
    + now rewrite X. + exfalso. subst ws'. apply Forall_app in B as [_ B]. inversion B; congruence.
  - rewrite F. rewrite <- app_assoc, trim_left_spaces by auto. cbn [app].
    cbn [trim_runes_left]. rewrite D. change (r :: l' ++ ws') with ((r :: l') ++ ws'). rewrite rev_app_distr.
    rewrite trim_left_spaces by now apply all_space_rev. reflexivity.
Qed.

Lemma trim_left_runes s : trim_left s = flat_map r_bytes (drop_space (runes s)).
Proof.
  assert (G : forall n s, (length s <= n)%nat -> trim_left_fuel n s = flat_map r_bytes (drop_space (runes s))).
  { clear. induction n as [|n IH]; intros s L; destruct s as [|c s]; try (cbn in L; lia); try reflexivity.
    cbn [trim_left_fuel]. unfold decode_one. destruct (decode_rune (c :: s)) as [[r w]|] eqn:D; [|now apply decode_none in D].
    pose proof (runes_step _ _ _ D) as R. pose proof (decode_width _ _ _ D). rewrite R. cbn [r_rune drop_space].
    destruct (is_space r) eqn:S.
    - rewrite IH; auto. rewrite skipn_length. lia.
    - rewrite <- R. now rewrite runes_bytes. }
  apply G. auto.
Qed.

(** ** Quote state *)
Definition qstep (st : bool * bool) (r : rune) : bool * bool :=
  let '(inq, esc) := st in
  if esc then (inq, false)
  else if (r =? 92)%N then (inq, inq)
  else if (r =? 34)%N then (negb inq, false)
  else (inq, false).
Definition qrun (st : bool * bool) (l : list rune) : bool * bool := fold_left qstep l st.
Lemma qrun_app st a b : qrun st (a ++ b) = qrun (qrun st a) b.
Proof. apply fold_left_app. Qed.
Lemma qstep_fst (st : bool * bool) r : (128 <= r)%N -> qstep st r = (fst st, false).
Proof.
  intros H. destruct st as [q [|]]; [reflexivity|]. cbn. replace (r =? 92)%N with false by lia. replace (r =? 34)%N with false by lia. auto.
Qed.
Lemma qrun_high l (st : bool * bool) : Forall (fun r => (128 <= r)%N) l -> l <> [] -> qrun st l = (fst st, false).
Proof.
  intros H. revert st. induction H as [|r l Hr _ IH]; intros st N; [congruence|]. unfold qrun. cbn [fold_left].
  rewrite qstep_fst by auto. destruct l as [|r' l']; [reflexivity|]. fold (qrun (fst st, false) (r' :: l')). now rewrite IH by discriminate.
Qed.
Lemma encode_high r : valid r -> (128 <= r)%N -> Forall (fun c => (128 <= byteN c)%N) (encode_rune r).
Proof.
  intros V H. apply Forall_forall. intros c I. destruct (encode_bytes r c V I) as [[_ K]|K]; lia.
Qed.
(** looking at bytes or at runes makes no difference *)
Lemma qrun_bytes s : forall st, qrun st (rune_list s) = qrun st (codes s).
Proof.
  induction s as [|r t V IH|b t B D IH] using runes_ind; intros st; [reflexivity|..].
  - rewrite rune_list_app, rune_list_rune by (auto using wf8_rune). unfold codes. rewrite map_app, !qrun_app.
    fold (codes t). rewrite IH. f_equal. destruct (r <? 128)%N eqn:L.
    + rewrite encode_ascii by lia. cbn [map]. now rewrite byteN_of_N by lia.
    + symmetry. rewrite qrun_high.
      * symmetry. cbn. apply qstep_fst. lia.
      * apply Forall_map. apply encode_high; auto. lia.
      * pose proof (encode_nonempty r). destruct (encode_rune r); [congruence|discriminate].
  - unfold rune_list. rewrite runes_bad by auto. cbn [map codes]. fold (rune_list t) (codes t). unfold qrun. cbn [fold_left].
    fold (qrun (qstep st (byteN b)) (codes t)). rewrite (qstep_fst st (byteN b)) by auto.
    change (r_rune (bad_byte b)) with rune_error. rewrite (qstep_fst st rune_error) by (unfold rune_error; lia). apply IH.
Qed.
Lemma qrun_literal b : literal_body b -> qrun (true, false) (codes b) = (true, false).
Proof.
  intros H. induction H as [|c s A B _ IH|c s _ IH]; [reflexivity|..]; unfold qrun; cbn [codes map fold_left].
  - cbn [qstep]. replace (byteN c =? 92)%N with false. 2:{ symmetry. apply N.eqb_neq. intros X. apply B. now apply byteN_inj. }
    replace (byteN c =? 34)%N with false. 2:{ symmetry. apply N.eqb_neq. intros X. apply A. now apply byteN_inj. }
    apply IH.
  - apply IH.
Qed.
Lemma qrun_outside ok s ps : outside ok s ps -> qrun (false, false) (codes s) = (false, false).
Proof.
  intros H. induction H as [|s ps _ IH|s ps _ IH|c s ps A _ _ _ _ IH|b s ps B _ IH]; try reflexivity; auto.
  - unfold qrun. cbn [codes map fold_left qstep]. replace (byteN c =? 34)%N with false.
    2:{ symmetry. apply N.eqb_neq. intros X. apply A. now apply byteN_inj. }
    destruct (byteN c =? 92)%N; exact IH.
  - assert (X : codes (""""%byte :: b ++ """"%byte :: s) = 34%N :: codes b ++ 34%N :: codes s).
    { unfold codes. cbn [map]. now rewrite map_app. }
    rewrite X. change (qrun (true, false) (codes b ++ 34%N :: codes s) = (false, false)).
    rewrite qrun_app, qrun_literal by auto. exact IH.
Qed.
(** the converse: a text whose run ends outside is closed *)
Lemma qrun_closed s : qrun (false, false) (codes s) = (false, false) -> closed s.
Proof.
  assert (G : forall n s, (length s <= n)%nat ->
     (qrun (false, false) (codes s) = (false, false) -> closed s) /\
     (qrun (true, false) (codes s) = (false, false) -> exists b t, s = b ++ """"%byte :: t /\ literal_body b /\ closed t)).
  { clear. induction n as [|n IH]; intros s L; destruct s as [|c s]; try (cbn in L; lia).
    - split; [exists []; constructor|discriminate].
    - split; [exists []; constructor|discriminate].
    - cbn in L. destruct (IH s ltac:(lia)) as [A B]. split.
      + unfold qrun. cbn [codes map fold_left qstep]. fold (codes s).
        destruct (byteN c =? 92)%N eqn:E92.
        { intros H. destruct (A H) as [ps Hp]. exists ps. assert (c = "\"%byte) as -> by (apply byteN_inj; cbn; lia).
          constructor; auto; discriminate. }
        destruct (byteN c =? 34)%N eqn:E34.
        { intros H. destruct (B H) as (b & t & -> & Hb & ps & Ht). assert (c = """"%byte) as -> by (apply byteN_inj; cbn; lia).
          exists ps. now constructor. }
        intros H. destruct (A H) as [ps Hp].
        destruct (Byte.eqb c "(") eqn:O; [apply byte_eqb_eq in O as ->; exists (true :: ps); now constructor|].
        destruct (Byte.eqb c ")") eqn:K; [apply byte_eqb_eq in K as ->; exists (false :: ps); now constructor|].
        apply byte_eqb_neq in O, K. exists ps. constructor; auto. intros ->. cbn in E34. discriminate.
      + unfold qrun. cbn [codes map fold_left qstep]. fold (codes s).
        destruct (byteN c =? 92)%N eqn:E92.
        { assert (c = "\"%byte) as -> by (apply byteN_inj; cbn; lia). destruct s as [|d s]; [discriminate|].
          cbn [codes map fold_left qstep]. intros H. destruct (IH s) as [_ B']; [cbn in L; lia|].
          destruct (B' H) as (b & t & -> & Hb & Ht). exists ("\"%byte :: d :: b), t. repeat split; auto. now constructor. }
        destruct (byteN c =? 34)%N eqn:E34.
        { intros H. assert (c = """"%byte) as -> by (apply byteN_inj; cbn; lia). exists [], s. repeat split; auto. constructor. }
        intros H. destruct (B H) as (b & t & -> & Hb & Ht). exists (c :: b), t. repeat split; auto.
        constructor; auto; intros ->; cbn in *; discriminate. }
  now apply (G (length s) s).
Qed.
Lemma closed_iff s : closed s <-> qrun (false, false) (rune_list s) = (false, false).
Proof.
  rewrite qrun_bytes. split; [|apply qrun_closed]. intros [ps H]. eapply qrun_outside; eauto.
Qed.
(** escapes only occur inside quotes *)
Lemma qrun_esc l : forall st, (snd st = true -> fst st = true) -> snd (qrun st l) = true -> fst (qrun st l) = true.
Proof.
  induction l as [|r l IH]; intros st H; [exact H|]. unfold qrun. cbn [fold_left]. apply IH.
  destruct st as [q [|]]; cbn in *; [discriminate|]. destruct (r =? 92)%N; cbn; [auto|]. destruct (r =? 34)%N; cbn; discriminate.
Qed.
Lemma unclosed_iff s : ~ closed s <-> fst (qrun (false, false) (rune_list s)) = true.
Proof.
  rewrite closed_iff. pose proof (qrun_esc (rune_list s) (false, false) ltac:(cbn; discriminate)) as E.
  destruct (qrun (false, false) (rune_list s)) as [[|] [|]]; cbn in *; split; try congruence; auto.
Qed.

(** ** Splitting at semicolons *)
Lemma pseq_assoc a b c : pseq (pseq a b) c = pseq a (pseq b c).
Proof. destruct a, b, c; cbn; auto. now rewrite app_assoc. Qed.
Lemma pseq_nil_l a : pseq (POk []) a = a.
Proof. now destruct a. Qed.
Lemma pseq_nil_r a : pseq a (POk []) = a.
Proof. destruct a; cbn; auto. now rewrite app_nil_r. Qed.
Lemma parse_commands_app a b : parse_commands (a ++ b) = pseq (parse_commands a) (parse_commands b).
Proof.
  induction a as [|c a IH]; cbn [app parse_commands]; [now rewrite pseq_nil_l|].
  destruct (trim_space c) as [|x y]; [exact IH|]. rewrite IH. destruct (parse_line (x :: y)); cbn; auto.
  destruct (parse_commands a), (parse_commands b); reflexivity.
Qed.

Fixpoint semi_parts (cur : str) (inq esc : bool) (l : list rune) : list str :=
  match l with
  | [] => [cur]
  | r :: l' =>
    if esc then semi_parts (cur ++ encode_rune r) inq false l'
    else if (r =? 92)%N then semi_parts (cur ++ encode_rune r) inq inq l'
    else if (r =? 34)%N then semi_parts (cur ++ encode_rune r) (negb inq) false l'
    else if (r =? 59)%N then
      if inq then semi_parts (cur ++ encode_rune r) inq false l'
      else cur :: semi_parts [] inq false l'
    else semi_parts (cur ++ encode_rune r) inq false l'
  end.
Ltac semi_cases r q e :=
  destruct e; [|destruct (r =? 92)%N eqn:?; [|destruct (r =? 34)%N eqn:?; [|destruct (r =? 59)%N eqn:?; [destruct q|]]]].
Lemma split_parts l : forall cur q e,
  parse_commands (split_semi_from cur q e l) = parse_commands (semi_parts cur q e l).
Proof.
  induction l as [|r l IH]; intros cur q e; cbn [split_semi_from semi_parts].
  - destruct cur as [|c cur]; reflexivity.
  - unfold rn_backslash, rn_quote, rn_semi. semi_cases r q e; auto. cbn [parse_commands]. now rewrite IH.
Qed.
Lemma parts_app l1 : forall cur q e l2, qrun (q, e) l1 = (false, false) ->
  semi_parts cur q e (l1 ++ 59%N :: l2) = semi_parts cur q e l1 ++ semi_parts [] false false l2.
Proof.
  induction l1 as [|r l IH]; intros cur q e l2 H.
  - cbn in H. injection H as -> ->. reflexivity.
  - unfold qrun in H. cbn [fold_left qstep] in H. cbn [app semi_parts].
    semi_cases r q e; try (apply IH; exact H).
    replace (r =? 92)%N with false in H by lia. replace (r =? 34)%N with false in H by lia.
    cbn [app]. f_equal. now apply IH.
Qed.
Lemma parts_pre l : forall pre cur q e, exists p ps,
  semi_parts cur q e l = p :: ps /\ semi_parts (pre ++ cur) q e l = (pre ++ p) :: ps.
Proof.
  induction l as [|r l IH]; intros pre cur q e; cbn [semi_parts]; [now exists cur, []|].
  semi_cases r q e; try (rewrite <- app_assoc; apply IH). eexists _, _. split; reflexivity.
Qed.
Lemma parts_wf l : Forall valid l -> forall cur q e, wf8 cur -> Forall wf8 (semi_parts cur q e l).
Proof.
  intros H. induction H as [|r l V _ IH]; intros cur q e W; cbn [semi_parts]; [now constructor|].
  assert (W' : wf8 (cur ++ encode_rune r)) by (apply wf8_app; auto using wf8_rune).
  semi_cases r q e; auto. constructor; auto. apply IH. apply wf8_nil.
Qed.
Lemma space_plain r : is_space r = true -> r <> 92%N /\ r <> 34%N /\ r <> 59%N /\ r <> 40%N /\ r <> 41%N.
Proof. intros H. repeat split; intros ->; discriminate. Qed.
Lemma parts_spaces ws : all_space ws -> forall cur l,
  semi_parts cur false false (ws ++ l) = semi_parts (cur ++ utf8 ws) false false l.
Proof.
  intros H. induction H as [|r ws S _ IH]; intros cur l; [now rewrite app_nil_r|].
  apply space_plain in S as (A & B & C & _). cbn [app semi_parts].
  replace (r =? 92)%N with false by lia. replace (r =? 34)%N with false by lia. replace (r =? 59)%N with false by lia.
  rewrite IH. unfold utf8. cbn [flat_map]. now rewrite app_assoc.
Qed.
Lemma parts_end_spaces ws : all_space ws -> forall l cur q e, exists ps p,
  semi_parts cur q e l = ps ++ [p] /\ semi_parts cur q e (l ++ ws) = ps ++ [p ++ utf8 ws].
Proof.
  intros H. induction l as [|r l IH]; intros cur q e; cbn [app].
  - exists [], cur. split; [reflexivity|]. revert cur e. induction H as [|r ws S _ IH]; intros cur e.
    + now rewrite app_nil_r.
    + apply space_plain in S as (A & B & C & _). cbn [semi_parts].
      replace (r =? 92)%N with false by lia. replace (r =? 34)%N with false by lia. replace (r =? 59)%N with false by lia.
      unfold utf8. cbn [flat_map]. rewrite app_assoc. destruct e; apply IH.
  - cbn [semi_parts]. semi_cases r q e; auto. destruct (IH [] false false) as (ps & p & A & B).
    exists (cur :: ps), p. rewrite A, B. auto.
Qed.

(** ** White space around a line *)
Lemma trim_left_suffix s : exists ws, all_space ws /\ rune_list s = ws ++ rune_list (trim_left s).
Proof.
  assert (G : forall n s, (length s <= n)%nat -> exists ws, all_space ws /\ rune_list s = ws ++ rune_list (trim_left_fuel n s)).
  { clear. induction n as [|n IH]; intros s L; destruct s as [|c s]; try (cbn in L; lia);
      try (exists []; split; [constructor|reflexivity]).
    cbn [trim_left_fuel]. unfold decode_one. destruct (decode_rune (c :: s)) as [[r w]|] eqn:D; [|now apply decode_none in D].
    pose proof (decode_width _ _ _ D). cbn [r_rune]. destruct (is_space r) eqn:S.
    - destruct (IH (skipn w (c :: s))) as (ws & A & B); [rewrite skipn_length; lia|]. exists (r :: ws).
      split; [constructor; auto|]. unfold rune_list at 1. rewrite (runes_step _ _ _ D). cbn [map r_rune app]. f_equal. exact B.
    - exists []. split; [constructor|reflexivity]. }
  apply G. auto.
Qed.
Lemma utf8_spaces_trim ws s ws' : all_space ws -> all_space ws' -> Forall valid ws -> Forall valid ws' -> wf8 s ->
  trim_space (utf8 ws ++ s ++ utf8 ws') = trim_space s.
Proof.
  intros A B V V' (rs & R & ->). rewrite <- !utf8_app. rewrite !trim_space_utf8; [now rewrite trim_runes_spaces|..]; auto.
  apply Forall_app; split; auto. apply Forall_app; auto.
Qed.
Lemma trimmed_same cs c c' : trim_space c = trim_space c' -> parse_commands (c :: cs) = parse_commands (c' :: cs).
Proof. intros E. cbn [parse_commands]. now rewrite E. Qed.
Lemma app_valid a b l : Forall valid l -> l = a ++ b -> Forall valid a /\ Forall valid b.
Proof. intros H ->. now apply Forall_app. Qed.
Lemma line_commands l : parse_physical_line l = parse_commands (semi_parts [] false false (rune_list l)).
Proof.
  destruct (trim_left_suffix l) as (ws & S & E).
  destruct (app_valid _ _ _ (rune_list_valid l) E) as [Vw Vt].
  assert (X : parse_commands (semi_parts [] false false (rune_list l))
              = parse_commands (semi_parts [] false false (rune_list (trim_left l)))).
  { rewrite E, parts_spaces by auto. cbn [app].
    destruct (parts_pre (rune_list (trim_left l)) (utf8 ws) [] false false) as (p & ps & A & B).
    rewrite app_nil_r in B. rewrite A, B. apply trimmed_same. pose proof (parts_wf _ Vt [] false false wf8_nil) as W.
    rewrite A in W. inversion W; subst. pose proof (utf8_spaces_trim ws p [] S ltac:(constructor) Vw ltac:(constructor) ltac:(auto)) as Y.
    cbn [utf8 flat_map] in Y. now rewrite app_nil_r in Y. }
  rewrite X. unfold parse_physical_line. destruct (trim_left l) as [|c t]; [reflexivity|].
  unfold split_semi. apply split_parts.
Qed.
Lemma line_before ws l : all_space (rune_list ws) -> rune_list (ws ++ l) = rune_list ws ++ rune_list l ->
  parse_physical_line (ws ++ l) = parse_physical_line l.
Proof.
  intros S E. rewrite !line_commands, E, parts_spaces by auto. cbn [app].
  destruct (parts_pre (rune_list l) (utf8 (rune_list ws)) [] false false) as (p & ps & A & B).
  rewrite app_nil_r in B. rewrite A, B. apply trimmed_same. pose proof (parts_wf _ (rune_list_valid l) [] false false wf8_nil) as W.
  rewrite A in W. inversion W; subst.
  pose proof (utf8_spaces_trim (rune_list ws) p [] S ltac:(constructor) (rune_list_valid ws) ltac:(constructor) ltac:(auto)) as Y.
  cbn [utf8 flat_map] in Y. now rewrite app_nil_r in Y.
Qed.
Lemma line_after l ws : all_space (rune_list ws) -> rune_list (l ++ ws) = rune_list l ++ rune_list ws ->
  parse_physical_line (l ++ ws) = parse_physical_line l.
Proof.
  intros S E. rewrite !line_commands, E.
  destruct (parts_end_spaces (rune_list ws) S (rune_list l) [] false false) as (ps & p & A & B).
  rewrite A, B, !parse_commands_app. f_equal. apply trimmed_same.
  pose proof (parts_wf _ (rune_list_valid l) [] false false wf8_nil) as W. rewrite A in W. apply Forall_app in W as [_ W]. inversion W; subst.
  exact (utf8_spaces_trim [] p (rune_list ws) ltac:(constructor) S ltac:(constructor) (rune_list_valid ws) ltac:(auto)).
Qed.
Lemma rune_list_app_tail s t : ascii t -> rune_list (s ++ t) = rune_list s ++ rune_list t.
Proof.
  destruct t as [|c t]; intros H; [now rewrite !app_nil_r|]. inversion H; subst. rewrite rune_list_app_ascii by auto.
  f_equal. symmetry. exact (rune_list_app_ascii [] c t ltac:(auto)).
Qed.
Lemma drop_cr_cases l : drop_cr l = l \/ l = drop_cr l ++ [x0d].
Proof.
  unfold drop_cr. destruct (rev l) as [|c r] eqn:E; [now left|]. destruct (Byte.eqb c x0d) eqn:C; [|now left].
  right. apply byte_eqb_eq in C as ->. rewrite <- (rev_involutive l), E. reflexivity.
Qed.
Lemma line_drop_cr l : parse_physical_line (drop_cr l) = parse_physical_line l.
Proof.
  destruct (drop_cr_cases l) as [->|E]; [reflexivity|]. rewrite E at 2. symmetry. apply line_after.
  - repeat constructor.
  - apply rune_list_app_tail. repeat constructor.
Qed.
Lemma blanks_ascii ws : blanks ws -> ascii ws /\ all_space (rune_list ws).
Proof.
  intros H. assert (A : ascii ws). { eapply Forall_impl; [|exact H]. intros c [->| ->]; cbn; lia. }
  split; auto. rewrite rune_list_ascii by auto. unfold codes. apply Forall_map. eapply Forall_impl; [|exact H].
  intros c [->| ->]; reflexivity.
Qed.
Lemma line_blanks ws l ws' : blanks ws -> blanks ws' -> parse_physical_line (ws ++ l ++ ws') = parse_physical_line l.
Proof.
  intros A B. apply blanks_ascii in A as [A A'], B as [B B']. rewrite line_before; auto.
  - apply line_after; auto. now apply rune_list_app_tail.
  - apply rune_list_app. now apply wf8_ascii.
Qed.
Lemma line_semicolon a b : closed a ->
  parse_physical_line (a ++ ";"%byte :: b) = pseq (parse_physical_line a) (parse_physical_line b).
Proof.
  intros C. apply closed_iff in C. rewrite !line_commands, rune_list_app_ascii by (cbn; lia).
  change (byteN ";") with 59%N. now rewrite parts_app, parse_commands_app by auto.
Qed.

(** ** Scripts as sequences of lines *)
Definition line_result (l : str) : presult (list value) :=
  if max_line <=? zlen l then PErr (bs "reading input: bufio.Scanner: token too long") else parse_physical_line l.
Lemma parse_lines_cons l ls : parse_lines (l :: ls) = pseq (line_result l) (parse_lines ls).
Proof.
  cbn [parse_lines]. unfold line_result. destruct (max_line <=? zlen l); [reflexivity|]. rewrite line_drop_cr.
  destruct (parse_physical_line l), (parse_lines ls); reflexivity.
Qed.
Lemma parse_lines_app a b : parse_lines (a ++ b) = pseq (parse_lines a) (parse_lines b).
Proof.
  induction a as [|l a IH]; cbn [app]; [now rewrite pseq_nil_l|]. now rewrite !parse_lines_cons, IH, pseq_assoc.
Qed.
Lemma drop_last_app a b : b <> [] -> drop_last_empty (a ++ b) = a ++ drop_last_empty b.
Proof.
  intros N. induction a as [|l a IH]; [reflexivity|]. cbn [app]. rewrite <- IH.
  destruct (a ++ b) eqn:E; [apply app_eq_nil in E as [_ E]; congruence|reflexivity].
Qed.
Lemma parse_drop_last ls : parse_lines (drop_last_empty ls) = parse_lines ls.
Proof.
  induction ls as [|l ls IH]; [reflexivity|]. destruct ls as [|l' ls].
  - destruct l; reflexivity.
  - change (drop_last_empty (l :: l' :: ls)) with (l :: drop_last_empty (l' :: ls)). rewrite (parse_lines_cons l), IH. symmetry. apply parse_lines_cons.
Qed.
Lemma parse_split s : parse_string s = parse_lines (split_byte nl s).
Proof. apply parse_drop_last. Qed.
Lemma split_byte_seq c a : forall b, split_byte c (a ++ c :: b) = split_byte c a ++ split_byte c b.
Proof.
  induction a as [|x a IH]; intros b; cbn [app split_byte].
  - now rewrite byte_eqb_refl.
  - rewrite IH. destruct (Byte.eqb x c); [reflexivity|]. pose proof (split_byte_ne c a). destruct (split_byte c a); [congruence|reflexivity].
Qed.
Lemma parse_newline a b : parse_string (a ++ nl :: b) = pseq (parse_string a) (parse_string b).
Proof. now rewrite !parse_split, split_byte_seq, parse_lines_app. Qed.
Lemma parse_one l : ~ In nl l -> parse_string l = line_result l.
Proof.
  intros N. rewrite parse_split, split_byte_none by auto. rewrite parse_lines_cons. cbn [parse_lines]. apply pseq_nil_r.
Qed.

(** ** The fuel of the parser suffices *)
Lemma parse_tokens_fuel n : forall fuel ts, (length ts < n)%nat -> (2 * length ts < fuel)%nat ->
  (parse_tokens fuel ts <> PFuel /\ forall v r, parse_tokens fuel ts = POk (v, r) -> (length r < length ts)%nat) /\
  (forall acc, parse_list fuel acc ts <> PFuel /\ forall v r, parse_list fuel acc ts = POk (v, r) -> (length r < length ts)%nat).
Proof.
  assert (PT : forall t, parse_token t <> PFuel).
  { intros t. unfold parse_token. destruct (_ && _); [destruct (_ <? _); [discriminate|destruct (unquote t); discriminate]|destruct (parse_float t); discriminate]. }
  induction n as [|n IH]; intros fuel ts L F; [lia|].
  assert (T : parse_tokens fuel ts <> PFuel /\ forall v r, parse_tokens fuel ts = POk (v, r) -> (length r < length ts)%nat).
  { destruct fuel as [|fuel]; [lia|]. destruct ts as [|t ts]; cbn [parse_tokens]; [split; [discriminate|discriminate]|].
    cbn [length] in *. destruct (str_eqb t tok_open).
    - destruct (IH fuel ts) as [_ P]; [lia..|]. destruct (P []) as [A B]. split; auto. intros v r H. apply B in H. lia.
    - destruct (str_eqb t tok_close); [split; discriminate|]. specialize (PT t).
      destruct (parse_token t); cbn; [|split; [discriminate|discriminate]|congruence].
      split; [discriminate|]. intros v r H. injection H as <- <-. lia. }
  split; [exact T|]. intros acc. destruct fuel as [|fuel]; [lia|]. cbn [parse_list].
  destruct ts as [|t ts]; [split; discriminate|]. cbn [length] in *.
  destruct (str_eqb t tok_close); [split; [discriminate|intros v r H; injection H as <- <-; lia]|].
  assert (T' : parse_tokens fuel (t :: ts) <> PFuel /\ forall v r, parse_tokens fuel (t :: ts) = POk (v, r) -> (length r < length (t :: ts))%nat).
  { destruct fuel as [|fuel]; [lia|]. cbn [parse_tokens length]. destruct (str_eqb t tok_open).
    - destruct (IH fuel ts) as [_ P]; [lia..|]. destruct (P []) as [A B]. split; auto. intros v r H. apply B in H. lia.
    - destruct (str_eqb t tok_close); [split; discriminate|]. specialize (PT t).
      destruct (parse_token t); cbn; [|split; [discriminate|discriminate]|congruence].
      split; [discriminate|]. intros v r H. injection H as <- <-. lia. }
  destruct T' as [A B]. destruct (parse_tokens fuel (t :: ts)) as [[v r]|e|] eqn:P; [|split; discriminate|congruence].
  specialize (B _ _ eq_refl). cbn [length] in B. destruct (IH fuel r) as [_ Q]; [lia..|].
  destruct (Q (v :: acc)) as [C D]. split; auto. intros v' r' H. apply D in H. lia.
Qed.
Lemma parse_token_fuel t : parse_token t <> PFuel.
Proof.
  unfold parse_token. destruct (_ && _); [destruct (_ <? _); [discriminate|destruct (unquote t); discriminate]|destruct (parse_float t); discriminate].
Qed.
Lemma shell_fuel fuel : forall ts acc, (length ts < fuel)%nat -> shell_loop fuel acc ts <> PFuel.
Proof.
  induction fuel as [|fuel IH]; intros ts acc L; [lia|]. cbn [shell_loop]. destruct ts as [|t ts]; [discriminate|].
  destruct (str_eqb t tok_open).
  - destruct (parse_tokens_fuel (S (length (t :: ts))) (tok_fuel (t :: ts)) (t :: ts)) as [[A B] _]; [lia|unfold tok_fuel; lia|].
    destruct (parse_tokens _ (t :: ts)) as [[v r]|e|]; [|discriminate|congruence]. specialize (B _ _ eq_refl). apply IH. cbn in *. lia.
  - destruct (str_eqb t tok_close); [discriminate|]. pose proof (parse_token_fuel t).
    destruct (parse_token t); [|discriminate|congruence]. apply IH. cbn in L. lia.
Qed.
Lemma tokenize_fuel l : forall cur q e, tokenize_from cur q e l <> PFuel.
Proof.
  assert (F : forall c r, r <> PFuel -> pflush c r <> PFuel) by (intros [|c s] [x|m|] H; cbn; congruence).
  assert (C : forall c r, r <> PFuel -> pcons c r <> PFuel) by (intros c [x|m|] H; cbn; congruence).
  induction l as [|r l IH]; intros cur q e; cbn [tokenize_from]; [destruct q; discriminate|].
  destruct e; auto. destruct (r =? rn_backslash)%N; auto. destruct (r =? rn_quote)%N; auto.
  destruct ((r =? rn_open) || (r =? rn_close))%N; [destruct q; auto|]. destruct (is_blank r); auto. destruct q; auto.
Qed.
Lemma parse_line_fuel l : parse_line l <> PFuel.
Proof.
  unfold parse_line, parse_sexp_line, parse_shell_line, tokenize. pose proof (tokenize_fuel (rune_list l) [] false false) as T.
  destruct (tokenize_from [] false false (rune_list l)) as [ts|e|]; [|destruct (has_prefix l tok_open); discriminate|congruence].
  cbn [pbind]. destruct (has_prefix l tok_open).
  - destruct (parse_tokens_fuel (S (length ts)) (tok_fuel ts) ts) as [[A _] _]; [lia|unfold tok_fuel; lia|].
    destruct (parse_tokens (tok_fuel ts) ts); cbn; congruence.
  - apply shell_fuel. lia.
Qed.
Lemma parse_commands_fuel cs : parse_commands cs <> PFuel.
Proof.
  induction cs as [|c cs IH]; [discriminate|]. cbn [parse_commands]. destruct (trim_space c) as [|x y]; auto.
  pose proof (parse_line_fuel (x :: y)). destruct (parse_line (x :: y)); cbn; try congruence. destruct (parse_commands cs); cbn; congruence.
Qed.
Lemma pseq_fuel a b : a <> PFuel -> b <> PFuel -> pseq a b <> PFuel.
Proof. destruct a, b; cbn; congruence. Qed.
Lemma parse_string_fuel s : parse_string s <> PFuel.
Proof.
  rewrite parse_split. induction (split_byte nl s) as [|l ls IH]; [discriminate|]. rewrite parse_lines_cons. apply pseq_fuel; auto.
  unfold line_result. destruct (max_line <=? zlen l); [discriminate|]. rewrite line_commands. apply parse_commands_fuel.
Qed.
Lemma pseq_error a b : a <> PFuel -> b <> PFuel ->
  (exists e, a = PErr e) \/ (exists e, b = PErr e) -> exists e, pseq a b = PErr e.
Proof. intros A B [(e & ->)|(e & ->)]; [now exists e|]. destruct a; cbn; eauto. congruence. Qed.

(** ** What stands outside string literals *)
Definition seen (st : bool * bool) (r : rune) : list rune :=
  if fst st then [] else if (r =? 34)%N then [] else if (r <? 128)%N then [r] else [].
Fixpoint scan (st : bool * bool) (l : list rune) : list rune :=
  match l with [] => [] | r :: l' => seen st r ++ scan (qstep st r) l' end.
Lemma scan_app l : forall st m, scan st (l ++ m) = scan st l ++ scan (qrun st l) m.
Proof. induction l as [|r l IH]; intros st m; [reflexivity|]. cbn [app scan]. now rewrite IH, app_assoc. Qed.
Lemma seen_high st r : (128 <= r)%N -> seen st r = [].
Proof. intros H. unfold seen. destruct (fst st); auto. replace (r =? 34)%N with false by lia. now replace (r <? 128)%N with false by lia. Qed.
Lemma scan_high l : Forall (fun r => (128 <= r)%N) l -> forall st, scan st l = [].
Proof. intros H. induction H as [|r l Hr _ IH]; intros st; [reflexivity|]. cbn [scan]. now rewrite seen_high, IH by auto. Qed.
Lemma scan_bytes s : forall st, scan st (rune_list s) = scan st (codes s).
Proof.
  induction s as [|r t V IH|b t B D IH] using runes_ind; intros st; [reflexivity|..].
  - rewrite rune_list_app, rune_list_rune by (auto using wf8_rune). unfold codes. rewrite map_app, !scan_app.
    fold (codes t). rewrite IH.
    assert (Q : qrun st [r] = qrun st (map byteN (encode_rune r))).
    { rewrite <- (rune_list_rune r V). apply qrun_bytes. }
    rewrite Q. f_equal. destruct (r <? 128)%N eqn:L.
    + rewrite encode_ascii by lia. cbn [map]. now rewrite byteN_of_N by lia.
    + rewrite !scan_high; auto.
      * apply Forall_map. apply encode_high; auto. lia.
      * constructor; [lia|constructor].
  - assert (R : rune_list (b :: t) = rune_error :: rune_list t).
    { unfold rune_list. now rewrite runes_bad by auto. }
    rewrite R. cbn [codes map scan]. fold (codes t). rewrite !seen_high by (auto; unfold rune_error; lia).
    rewrite !qstep_fst by (auto; unfold rune_error; lia). now rewrite IH.
Qed.
Definition paren_of (r : rune) : list bool := if (r =? 40)%N then [true] else if (r =? 41)%N then [false] else [].
Lemma scan_literal b : literal_body b -> scan (true, false) (codes b) = [].
Proof.
  intros H. induction H as [|c s A B _ IH|c s _ IH]; [reflexivity|..]; cbn [codes map scan seen fst app]; auto.
  cbn [qstep]. replace (byteN c =? 92)%N with false. 2:{ symmetry. apply N.eqb_neq. intros X. apply B. now apply byteN_inj. }
  replace (byteN c =? 34)%N with false. 2:{ symmetry. apply N.eqb_neq. intros X. apply A. now apply byteN_inj. }
  apply IH.
Qed.
Lemma scan_outside (ok : byte -> Prop) s ps : ok "("%byte -> ok ")"%byte -> outside ok s ps ->
  Forall (fun r => exists c, r = byteN c /\ ok c) (scan (false, false) (codes s)) /\
  flat_map paren_of (scan (false, false) (codes s)) = ps.
Proof.
  intros O1 O2 H. induction H as [|s ps _ [IA IB]|s ps _ [IA IB]|c s ps A B C K _ [IA IB]|b s ps B _ [IA IB]].
  - split; [constructor|reflexivity].
  - change (scan (false, false) (codes ("("%byte :: s))) with (40%N :: scan (false, false) (codes s)). split.
    + constructor; auto. exists "("%byte. auto. + cbn [flat_map]. now rewrite IB.
  - change (scan (false, false) (codes (")"%byte :: s))) with (41%N :: scan (false, false) (codes s)). split.
    + constructor; auto. exists ")"%byte. auto. + cbn [flat_map]. now rewrite IB.
  - cbn [codes map scan seen fst]. fold (codes s).
    assert (N34 : (byteN c =? 34)%N = false). { apply N.eqb_neq. intros X. apply A. now apply byteN_inj. }
    assert (Q : qstep (false, false) (byteN c) = (false, false)). { cbn. rewrite N34. now destruct (byteN c =? 92)%N. }
    rewrite N34, Q. destruct (byteN c <? 128)%N; cbn [app]; auto. split; [constructor; eauto|]. cbn [flat_map].
    rewrite IB. unfold paren_of. replace (byteN c =? 40)%N with false. 2:{ symmetry. apply N.eqb_neq. intros X. apply B. now apply byteN_inj. }
    replace (byteN c =? 41)%N with false. 2:{ symmetry. apply N.eqb_neq. intros X. apply C. now apply byteN_inj. } reflexivity.
  - assert (X : codes (""""%byte :: b ++ """"%byte :: s) = 34%N :: codes b ++ 34%N :: codes s).
    { unfold codes. cbn [map]. now rewrite map_app. }
    rewrite X. change (scan (false, false) (34%N :: codes b ++ 34%N :: codes s)) with (scan (true, false) (codes b ++ 34%N :: codes s)).
    rewrite scan_app, scan_literal, qrun_literal by auto. auto.
Qed.

(** ** Texts without a semicolon outside literals form one command *)
Lemma parts_single l : forall cur q e, (e = true -> q = true) -> ~ In 59%N (scan (q, e) l) -> semi_parts cur q e l = [cur ++ utf8 l].
Proof.
  induction l as [|r l IH]; intros cur q e E N; [cbn; now rewrite app_nil_r|]. unfold utf8. cbn [flat_map]. fold (utf8 l).
  rewrite app_assoc. cbn [semi_parts]. cbn [scan] in N. rewrite in_app_iff in N.
  assert (N2 : ~ In 59%N (scan (qstep (q, e) r) l)) by tauto. assert (N1 : ~ In 59%N (seen (q, e) r)) by tauto. clear N.
  cbn [qstep] in N2. semi_cases r q e; try (apply IH; [congruence|assumption]); try (apply IH; [auto|assumption]).
  exfalso. apply N1. assert (r = 59%N) as -> by lia. left. reflexivity.
Qed.
Lemma command_scan s ps : command_text s ps -> ~ In 59%N (scan (false, false) (rune_list s)) /\
  flat_map paren_of (scan (false, false) (rune_list s)) = ps /\ qrun (false, false) (rune_list s) = (false, false).
Proof.
  intros H. rewrite scan_bytes, qrun_bytes.
  destruct (scan_outside (fun c => c <> ";"%byte) _ _ ltac:(discriminate) ltac:(discriminate) H) as [A B]. split; [|split; auto].
  - intros I. rewrite Forall_forall in A. destruct (A _ I) as (c & E & N). apply N. apply byteN_inj. now rewrite <- E.
  - eapply qrun_outside; eauto.
Qed.
Lemma line_command s ps : command_text s ps -> parse_physical_line s =
  match trim_space (utf8 (rune_list s)) with [] => POk [] | c => pbind (parse_line c) (fun v => POk [v]) end.
Proof.
  intros H. apply command_scan in H as (A & _ & _). rewrite line_commands, parts_single by auto.
  cbn [app parse_commands]. destruct (trim_space (utf8 (rune_list s))) as [|x y]; [reflexivity|].
  destruct (parse_line (x :: y)); reflexivity.
Qed.

(** ** Tokenizing fails exactly on an open literal *)
Lemma pflush_ok c r : (exists ts, r = POk ts) -> exists ts, pflush c r = POk ts.
Proof. intros [ts ->]. destruct c; cbn; eauto. Qed.
Lemma pflush_err c r : (exists m, r = PErr m) -> exists m, pflush c r = PErr m.
Proof. intros [ts ->]. destruct c; cbn; eauto. Qed.
Lemma tokenize_state l : forall cur q e,
  if fst (qrun (q, e) l) then exists m, tokenize_from cur q e l = PErr m
  else exists ts, tokenize_from cur q e l = POk ts.
Proof.
  induction l as [|r l IH]; intros cur q e; [cbn; destruct q; eauto|].
  unfold qrun. cbn [fold_left qstep]. fold (qrun). cbn [tokenize_from]. unfold rn_backslash, rn_quote.
  destruct e; [apply IH|]. destruct (r =? 92)%N; [apply IH|]. destruct (r =? 34)%N; [apply IH|].
  fold (qrun (q, false) l).
  destruct ((r =? rn_open) || (r =? rn_close))%N.
  { destruct q; [apply IH|]. specialize (IH [] false false). destruct (fst (qrun (false, false) l)).
    - apply pflush_err. destruct IH as [m ->]. now exists m. - apply pflush_ok. destruct IH as [m ->]. cbn. eauto. }
  destruct (is_blank r); [|apply IH]. destruct q; [apply IH|]. specialize (IH [] false false).
  destruct (fst (qrun (false, false) l)); [now apply pflush_err|now apply pflush_ok].
Qed.
Lemma parse_line_open l : fst (qrun (false, false) (rune_list l)) = true -> exists m, parse_line l = PErr m.
Proof.
  intros H. pose proof (tokenize_state (rune_list l) [] false false) as T. rewrite H in T. destruct T as [m T].
  unfold parse_line, parse_sexp_line, parse_shell_line, tokenize. rewrite T. exists m. now destruct (has_prefix l tok_open).
Qed.
Lemma qrun_space r st : is_space r = true -> fst (qstep st r) = fst st.
Proof.
  intros S. apply space_plain in S as (A & B & _). destruct st as [q [|]]; [reflexivity|]. cbn.
  replace (r =? 92)%N with false by lia. now replace (r =? 34)%N with false by lia.
Qed.
Lemma qrun_spaces ws : all_space ws -> forall st, fst (qrun st ws) = fst st.
Proof.
  intros H. induction H as [|r ws S _ IH]; intros st; [reflexivity|]. unfold qrun. cbn [fold_left].
  fold (qrun (qstep st r) ws). rewrite IH. now apply qrun_space.
Qed.
Lemma qrun_lead ws : all_space ws -> qrun (false, false) ws = (false, false).
Proof.
  intros H. induction H as [|r ws S _ IH]; [reflexivity|]. unfold qrun. cbn [fold_left]. 
  apply space_plain in S as (A & B & _). cbn [qstep]. replace (r =? 92)%N with false by lia. replace (r =? 34)%N with false by lia. exact IH.
Qed.
(** trimming in terms of what is removed *)
Lemma trim_left_split l : exists ws, all_space ws /\ l = ws ++ trim_runes_left l.
Proof.
  destruct (trim_left_or l) as [[A B]|(ws & r & l' & E & A & _ & C)].
  - exists l. rewrite B, app_nil_r. auto. - exists ws. rewrite C. auto.
Qed.
Lemma trim_runes_split l : exists ws ws', all_space ws /\ all_space ws' /\ l = ws ++ trim_runes l ++ ws'.
Proof.
  destruct (trim_left_split l) as (ws & A & E). destruct (trim_left_split (rev (trim_runes_left l))) as (w & B & F).
  exists ws, (rev w). split; auto. split; [now apply all_space_rev|]. unfold trim_runes.
  rewrite <- rev_app_distr, <- F, rev_involutive. exact E.
Qed.
Lemma trim_valid l : Forall valid l -> Forall valid (trim_runes l).
Proof.
  intros V. destruct (trim_runes_split l) as (a & b & _ & _ & E). rewrite E in V. apply Forall_app in V as [_ V]. now apply Forall_app in V.
Qed.
Lemma trim_open l : fst (qrun (false, false) l) = fst (qrun (false, false) (trim_runes l)).
Proof.
  destruct (trim_runes_split l) as (a & b & A & B & E). rewrite E at 1. rewrite !qrun_app, qrun_lead by auto. now rewrite qrun_spaces.
Qed.
(** the last command of a line inherits the line's quote state *)
Lemma parts_last l : forall cur q e, Forall valid l -> Forall valid (rune_list cur) -> wf8 cur -> qrun (false, false) (rune_list cur) = (q, e) ->
  (e = true -> q = true) ->
  exists ps p, semi_parts cur q e l = ps ++ [p] /\ wf8 p /\ qrun (false, false) (rune_list p) = qrun (q, e) l.
Proof.
  induction l as [|r l IH]; intros cur q e V Vc W Q E; [exists [], cur; auto|].
  inversion V; subst. assert (R : rune_list (cur ++ encode_rune r) = rune_list cur ++ [r]) by (rewrite rune_list_app, rune_list_rune; auto).
  assert (W' : wf8 (cur ++ encode_rune r)) by (apply wf8_app; auto using wf8_rune).
  assert (V' : Forall valid (rune_list (cur ++ encode_rune r))) by apply rune_list_valid.
  assert (Q' : qrun (false, false) (rune_list (cur ++ encode_rune r)) = qstep (q, e) r) by (rewrite R, qrun_app, Q; reflexivity).
  change (qrun (q, e) (r :: l)) with (qrun (qstep (q, e) r) l).
  cbn [semi_parts qstep] in *. semi_cases r q e; try (apply IH; auto; congruence).
  destruct (IH [] false false) as (ps & p & A & B & C); auto using wf8_nil; [constructor|].
  exists (cur :: ps), p. rewrite A. auto.
Qed.
Lemma line_open l : ~ closed l -> exists m, parse_physical_line l = PErr m.
Proof.
  intros H. apply unclosed_iff in H. rewrite line_commands.
  destruct (parts_last (rune_list l) [] false false) as (ps & p & A & (rs & V & ->) & C); auto using rune_list_valid, wf8_nil.
  rewrite A, parse_commands_app. apply pseq_error; auto using parse_commands_fuel. right.
  cbn [parse_commands]. rewrite trim_space_utf8 by auto. rewrite <- C, rune_list_utf8, trim_open in H by auto.
  rewrite <- (rune_list_utf8 (trim_runes rs)) in H by now apply trim_valid.
  destruct (parse_line_open _ H) as [m P]. exists m. destruct (utf8 (trim_runes rs)) as [|x y]; [discriminate|]. now rewrite P.
Qed.

(** ** Parentheses *)
Lemma nested_app a b : nested a -> nested b -> nested (a ++ b).
Proof.
  intros H K. induction H as [|x y Hx _ _ IH]; [exact K|]. cbn [app]. rewrite <- app_assoc. cbn [app].
  replace (true :: x ++ false :: y ++ b) with (true :: x ++ false :: (y ++ b)) by reflexivity. constructor; auto.
Qed.
Lemma nested_pair a : nested a -> nested (true :: a ++ [false]).
Proof. intros H. constructor; auto. constructor. Qed.
Definition tok_parens (t : str) : list bool := if str_eqb t tok_open then [true] else if str_eqb t tok_close then [false] else [].
Definition parens (ts : list str) : list bool := flat_map tok_parens ts.
Lemma parens_app a b : parens (a ++ b) = parens a ++ parens b.
Proof. apply flat_map_app. Qed.
Lemma parse_used fuel : forall ts,
  (forall v r, parse_tokens fuel ts = POk (v, r) -> exists used, ts = used ++ r /\ used <> [] /\ nested (parens used)) /\
  (forall acc v r, parse_list fuel acc ts = POk (v, r) -> exists used ps, ts = used ++ r /\ parens used = ps ++ [false] /\ nested ps).
Proof.
  induction fuel as [|fuel IH]; intros ts; [split; discriminate|].
  split.
  - intros v r. cbn [parse_tokens]. destruct ts as [|t ts]; [discriminate|]. destruct (str_eqb t tok_open) eqn:O.
    + intros H. apply IH in H as (used & ps & -> & P & N). exists (t :: used). split; [reflexivity|]. split; [discriminate|].
      cbn [parens flat_map]. fold (parens used). unfold tok_parens. rewrite O, P. cbn [app]. now apply nested_pair.
    + destruct (str_eqb t tok_close) eqn:C; [discriminate|]. destruct (parse_token t); cbn; try discriminate.
      intros H. injection H as <- <-. exists [t]. split; [reflexivity|]. split; [discriminate|]. cbn [parens flat_map]. unfold tok_parens. rewrite O, C. constructor.
  - intros acc v r. cbn [parse_list]. destruct ts as [|t ts]; [discriminate|]. destruct (str_eqb t tok_close) eqn:C.
    + intros H. injection H as <- <-. exists [t], []. split; [reflexivity|]. split; [|constructor]. cbn [parens flat_map]. unfold tok_parens.
      apply str_eqb_eq in C as ->. reflexivity.
    + destruct (parse_tokens fuel (t :: ts)) as [[v1 r1]|e|] eqn:P; try discriminate. intros H.
      destruct (proj1 (IH _) _ _ P) as (u & E & _ & N). destruct (proj2 (IH _) _ _ _ H) as (u' & ps & -> & E' & N').
      exists (u ++ u'), (parens u ++ ps). rewrite E, app_assoc. split; auto. rewrite parens_app, E', app_assoc. split; auto. now apply nested_app.
Qed.
Lemma shell_used fuel : forall acc ts v, shell_loop fuel acc ts = POk v -> nested (parens ts).
Proof.
  induction fuel as [|fuel IH]; intros acc ts v; [discriminate|]. cbn [shell_loop]. destruct ts as [|t ts]; [constructor|].
  destruct (str_eqb t tok_open) eqn:O.
  - destruct (parse_tokens _ (t :: ts)) as [[v1 r1]|e|] eqn:P; try discriminate. intros H.
    destruct (proj1 (parse_used _ _) _ _ P) as (u & -> & _ & N). rewrite parens_app. apply nested_app; eauto.
  - destruct (str_eqb t tok_close) eqn:C; [discriminate|]. destruct (parse_token t); try discriminate. intros H.
    cbn [parens flat_map]. unfold tok_parens at 1. rewrite O, C. cbn [app]. eapply IH; eauto.
Qed.
(** no token under construction looks like a parenthesis *)
Definition no_paren (cur : str) : Prop := match cur with [] => True | c :: _ => c <> "("%byte /\ c <> ")"%byte end.
Lemma no_paren_tok cur : no_paren cur -> parens (flush cur []) = [].
Proof.
  destruct cur as [|c t]; [reflexivity|]. intros [A B]. cbn [flush parens flat_map]. unfold tok_parens.
  destruct (str_eqb (c :: t) tok_open) eqn:X; [apply str_eqb_eq in X; injection X as -> _; congruence|].
  destruct (str_eqb (c :: t) tok_close) eqn:Y; [apply str_eqb_eq in Y; injection Y as -> _; congruence|]. reflexivity.
Qed.
Lemma pflush_parens cur r ts : no_paren cur -> pflush cur r = POk ts -> exists ts', r = POk ts' /\ parens ts = parens ts'.
Proof.
  intros N. apply no_paren_tok in N. destruct cur as [|c t]; cbn [pflush].
  - intros ->. eauto.
  - destruct r as [l|m|]; cbn; try discriminate. intros H. injection H as <-. exists l. split; auto.
    cbn [flush] in N. etransitivity; [exact (parens_app [c :: t] l)|]. exact (f_equal (fun x => x ++ parens l) N).
Qed.
Lemma no_paren_app cur r : valid r -> no_paren cur -> (cur = [] -> r <> 40%N /\ r <> 41%N) -> no_paren (cur ++ encode_rune r).
Proof.
  intros V N K. destruct cur as [|c t]; [|exact N]. cbn [app]. destruct (K eq_refl) as [A B].
  destruct (encode_rune r) as [|c t] eqn:E; [exact I|]. assert (J : In c (encode_rune r)) by (rewrite E; now left).
  destruct (encode_bytes r c V J) as [[X Y]|X]; split; intros ->; cbn in X; congruence || lia.
Qed.
Lemma tokens_parens l : Forall valid l -> forall cur q e ts, no_paren cur -> (e = true -> q = true) -> (q = true -> cur <> []) ->
  tokenize_from cur q e l = POk ts -> parens ts = flat_map paren_of (scan (q, e) l).
Proof.
  intros H. induction H as [|r l V _ IH]; intros cur q e ts N E K.
  - cbn [tokenize_from]. destruct q; [discriminate|]. intros H. injection H as <-. now apply no_paren_tok.
  - cbn [tokenize_from scan]. rewrite flat_map_app. unfold rn_backslash, rn_quote, rn_open, rn_close.
    assert (Ne : cur ++ encode_rune r <> []). { intros X. apply app_eq_nil in X as [_ X]. now apply encode_nonempty in X. }
    assert (Np : (q = true \/ (r <> 40%N /\ r <> 41%N)) -> no_paren (cur ++ encode_rune r)).
    { intros [->|X]; apply no_paren_app; auto. intros Z. now apply K in Z. }
    assert (Sn : q = true -> flat_map paren_of (seen (q, e) r) = []) by (intros ->; reflexivity).
    assert (Sp : r <> 40%N -> r <> 41%N -> flat_map paren_of (seen (q, e) r) = []).
    { intros A B. unfold seen. cbn [fst]. destruct q; [reflexivity|]. destruct (r =? 34)%N; [reflexivity|].
      destruct (r <? 128)%N; [|reflexivity]. cbn [flat_map]. unfold paren_of. replace (r =? 40)%N with false by lia. now replace (r =? 41)%N with false by lia. }
    destruct e.
    { rewrite (E eq_refl) in *. intros T. rewrite Sn by auto. cbn [qstep app]. refine (IH _ _ _ _ _ _ _ T); try exact I; try discriminate; auto; try (apply Np; right; lia). }
    cbn [qstep]. destruct (r =? 92)%N eqn:R1.
    { intros T. rewrite Sp by lia. cbn [app]. refine (IH _ _ _ _ _ _ _ T); try exact I; try discriminate; auto; try (apply Np; right; lia). }
    destruct (r =? 34)%N eqn:R2.
    { intros T. rewrite Sp by lia. cbn [app]. refine (IH _ _ _ _ _ _ _ T); try exact I; try discriminate; auto; try (apply Np; right; lia). }
    destruct ((r =? 40) || (r =? 41))%N eqn:R3.
    { destruct q.
      - intros T. rewrite Sn by auto. cbn [app]. refine (IH _ _ _ _ _ _ _ T); try exact I; try discriminate; auto; try (apply Np; right; lia).
      - intros T. apply pflush_parens in T as (ts' & T & ->); auto.
        destruct (tokenize_from [] false false l) as [ts0|m|] eqn:T0; cbn in T; try discriminate. injection T as <-.
        assert (X : parens ts0 = flat_map paren_of (scan (false, false) l)) by (refine (IH _ _ _ _ _ _ _ T0); [exact I|discriminate|discriminate]).
        cbn [parens flat_map]. fold (parens ts0). rewrite X. f_equal. unfold seen. cbn [fst]. rewrite R2.
        replace (r <? 128)%N with true by lia. cbn [flat_map]. rewrite app_nil_r.
        assert (r = 40 \/ r = 41)%N as [->| ->] by lia; reflexivity. }
    destruct (is_blank r) eqn:R4.
    { destruct q.
      - intros T. rewrite Sn by auto. cbn [app]. refine (IH _ _ _ _ _ _ _ T); try exact I; try discriminate; auto; try (apply Np; right; lia).
      - intros T. apply pflush_parens in T as (ts' & T & ->); auto. rewrite Sp by lia. cbn [app].
        refine (IH _ _ _ _ _ _ _ T); try exact I; try discriminate; auto; try (apply Np; right; lia). }
    intros T. rewrite Sp by lia. cbn [app]. refine (IH _ _ _ _ _ _ _ T); try exact I; try discriminate; auto; try (apply Np; right; lia).
Qed.
Lemma paren_spaces ws : all_space ws -> forall st, flat_map paren_of (scan st ws) = [].
Proof.
  intros H. induction H as [|r ws S _ IH]; intros st; [reflexivity|]. cbn [scan]. rewrite flat_map_app, IH.
  apply space_plain in S as (_ & A & _ & B & C). unfold seen. destruct (fst st); [reflexivity|]. replace (r =? 34)%N with false by lia.
  destruct (r <? 128)%N; [|reflexivity]. cbn. unfold paren_of. replace (r =? 40)%N with false by lia. now replace (r =? 41)%N with false by lia.
Qed.
Lemma trim_parens l : flat_map paren_of (scan (false, false) (trim_runes l)) = flat_map paren_of (scan (false, false) l).
Proof.
  destruct (trim_runes_split l) as (a & b & A & B & E). rewrite E at 2. rewrite !scan_app, !flat_map_app, qrun_lead by auto.
  rewrite (paren_spaces a A), (paren_spaces b B). now rewrite app_nil_r.
Qed.
Lemma line_parens s ps vs : command_text s ps -> parse_physical_line s = POk vs ->
  if has_prefix (trim_space (utf8 (rune_list s))) tok_open
  then exists p q, ps = p ++ q /\ p <> [] /\ nested p
  else nested ps.
Proof.
  intros H. rewrite (line_command s ps H). apply command_scan in H as (_ & P & _).
  pose proof (rune_list_valid s) as V. rewrite trim_space_utf8 by auto. pose proof (trim_valid _ V) as V'.
  rewrite <- trim_parens in P. set (t := utf8 (trim_runes (rune_list s))).
  assert (R : rune_list t = trim_runes (rune_list s)) by now apply rune_list_utf8. rewrite <- R in P. rewrite <- R in V'. clearbody t. clear R.
  assert (Z : t = [] \/ t <> []) by (destruct t; [now left|now right]).
  destruct Z as [->|Z]; [intros _; cbn in *; subst ps; constructor|].
  match goal with |- ?m = POk vs -> _ => replace m with (pbind (parse_line t) (fun v => POk [v])) by (destruct t; [congruence|reflexivity]) end.
  clear Z. unfold parse_line.
  assert (T : forall ts, tokenize t = POk ts -> parens ts = ps).
  { intros ts T. rewrite <- P. refine (tokens_parens _ V' [] false false ts I _ _ T); discriminate. }
  assert (O : has_prefix t tok_open = true -> forall ts, tokenize t = POk ts -> exists ts', ts = tok_open :: ts').
  { intros O ts. apply has_prefix_iff in O as [u ->]. unfold tokenize. change (tok_open ++ u) with (["("%byte] ++ u).
    rewrite rune_list_app by (apply wf8_byte; cbn; lia). rewrite (rune_list_ascii ["("%byte]) by repeat constructor.
    cbn [codes map app]. change (byteN "(") with 40%N. rewrite tokenize_open.
    destruct (tokenize_from [] false false (rune_list u)); cbn; try discriminate. intros H. injection H as <-. eauto. }
  unfold parse_sexp_line, parse_shell_line. destruct (has_prefix t tok_open); destruct (tokenize t) as [ts|m|]; cbn [pbind]; try discriminate;
    specialize (T ts eq_refl).
  - destruct (parse_tokens (tok_fuel ts) ts) as [[v r]|m|] eqn:X; cbn; try discriminate. intros _.
    destruct (proj1 (parse_used _ _) _ _ X) as (u & E & Nu & N). exists (parens u), (parens r). rewrite <- T, E, parens_app.
    split; auto. split; auto. destruct (O eq_refl ts eq_refl) as [ts' ->]. destruct u as [|x u]; [congruence|]. injection E as <- _. discriminate.
  - destruct (shell_loop _ [] ts) eqn:X; cbn; try discriminate. intros _. rewrite <- T. eapply shell_used; eauto.
Qed.

(** ** A list followed by anything on the same line *)
Lemma tokenize_list E l : writable (VList l) -> forall r,
  tokenize_from [] false false (rune_list (show E (VList l)) ++ r) = pprepend (toks E (VList l)) (tokenize_from [] false false r).
Proof.
  intros W r. pose proof (proj1 (writable_list l) W) as Wl.
  assert (F : Forall (value_text E) l) by (eapply Forall_impl; [|exact Wl]; intros; now apply value_shown).
  destruct (joined E l F) as (Wf & _ & _ & _ & T). rewrite show_list.
  change ("("%byte :: join sp (map (show E) l) ++ [")"%byte]) with (["("%byte] ++ join sp (map (show E) l) ++ [")"%byte]).
  rewrite rune_list_app by (apply wf8_byte; cbn; lia). rewrite rune_list_app by auto.
  rewrite (rune_list_ascii ["("%byte]), (rune_list_ascii [")"%byte]) by (repeat constructor). rewrite <- !app_assoc. cbn [codes map app].
  change (byteN "(") with 40%N. change (byteN ")") with 41%N. rewrite tokenize_open.
  rewrite T by (cbn; auto). rewrite tokenize_close. rewrite <- !pprepend_app. cbn [toks]. reflexivity.
Qed.
