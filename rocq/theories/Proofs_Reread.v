(** Whatever the parser produces can be written as s-expressions and parsed again. *)
From Coq Require Import ZArith NArith List Bool Lia ZifyBool ZifyN ZifyNat Strings.Byte.
From Verif Require Import Base Float Ext Utf8 Strconv Values Buffer Spec Parser Writer SpecText
  Proofs_Base Proofs_Utf8 Proofs_Float Proofs_Number Proofs_Token Proofs_Script Proofs_Lines Proofs_Round.
Import ListNotations.
Open Scope Z_scope.

(** ** Texts that are one token *)
Record tok_text (a : str) : Prop := {
  tt_wf : wf8 a;
  tt_ne : a <> [];
  tt_tok : forall l, tokenize_from [] false false (rune_list a ++ l) = tokenize_from a false false l;
  tt_semi : semi_pass false a;
  tt_nl : ~ In nl a
}.
Lemma tt_not_open a : tok_text a -> a <> tok_open /\ a <> tok_close.
Proof.
  intros T. pose proof (tt_tok a T [97%N]) as H. split; intros ->; vm_compute in H; discriminate.
Qed.
Lemma atom_tok a : atom_text a -> tok_text a.
Proof.
  intros A. split; try apply A.
Qed.

Definition readable_atom (v : value) : Prop :=
  match v with
  | VSym n => tok_text n /\ parse_token n = POk (VSym n)
  | VStr _ => True
  | VNum f => f64_valid f = true
  | VList _ => False
  end.
Definition readable (v : value) : Prop := all_atoms readable_atom v.
Lemma readable_list l : readable (VList l) <-> Forall readable l.
Proof.
  unfold readable. cbn [all_atoms]. induction l as [|x l IH]; [split; [constructor|auto]|]. split.
  - intros [A B]. constructor; auto. now apply IH.
  - intros H. inversion H; subst. split; auto. now apply IH.
Qed.
Lemma readable_shown E v : readable v -> is_atom v -> tok_text (show E v) /\ parse_token (show E v) = POk v.
Proof.
  destruct v as [n|s|f|l]; intros W A; cbn [show].
  - exact W.
  - split; [apply atom_tok, quote_atom|apply parse_token_quote].
  - split; [apply atom_tok, num_plain, num_string_num; auto|now apply num_token].
  - destruct A.
Qed.

(** ** Writing readable values *)
Record vtext (E : Ext) (v : value) : Prop := {
  vx_wf : wf8 (show E v);
  vx_tok : forall l, ends_token l ->
    tokenize_from [] false false (rune_list (show E v) ++ l) = pprepend (toks E v) (tokenize_from [] false false l);
  vx_semi : semi_pass false (show E v);
  vx_nl : ~ In nl (show E v)
}.
Lemma vjoined E l : Forall (vtext E) l ->
  wf8 (join sp (map (show E) l)) /\ semi_pass false (join sp (map (show E) l)) /\ ~ In nl (join sp (map (show E) l)) /\
  forall r, ends_token r -> tokenize_from [] false false (rune_list (join sp (map (show E) l)) ++ r)
    = pprepend (flat_map (toks E) l) (tokenize_from [] false false r).
Proof.
  assert (Wsp : wf8 sp) by (apply wf8_byte; cbn; lia).
  intros H. induction H as [|v l V _ (W & S & N & T)].
  - split; [apply wf8_nil|]. split; [apply semi_pass_nil|]. split; [auto|].
    intros r _. cbn. now rewrite pprepend_nil.
  - destruct l as [|v' l'].
    + cbn [map join flat_map]. rewrite app_nil_r. split; [apply V|]. split; [apply V|]. split; apply V.
    + cbn [map flat_map] in *. set (m := show E v' :: map (show E) l') in *.
      assert (Nm : m <> []) by discriminate.
      rewrite join_cons by auto. split; [|split; [|split]].
      * repeat apply wf8_app; auto. apply V.
      * apply semi_pass_app; [apply V|apply V|]. apply semi_pass_app; auto. apply semi_ascii; try discriminate. cbn. lia.
      * intros I. apply in_app_or in I as [I|I]; [now apply (vx_nl E v V)|].
        apply in_app_or in I as [[I|[]]|I]; [discriminate|auto].
      * intros r Hr. rewrite rune_list_app, rune_list_app by (auto; apply V). rewrite <- !app_assoc.
        rewrite (vx_tok E v V) by (left; reflexivity). change (rune_list sp) with [32%N]. cbn [app].
        rewrite tokenize_space, T by auto. now rewrite (pprepend_app (toks E v)).
Qed.
Lemma readable_text E v : readable v -> vtext E v.
Proof.
  induction v as [n|s|f|l IH] using value_ind'; intros W.
  1-3: destruct (readable_shown E _ W I) as [A _]; split; try apply A; intros r Hr; rewrite (tt_tok _ A);
    apply token_ends; auto; apply A.
  apply readable_list in W. assert (F : Forall (vtext E) l).
  { rewrite Forall_forall in *. intros x Hx. apply IH; auto. }
  destruct (vjoined E l F) as (Wf & S & N & T).
  assert (Wo : wf8 ["("%byte]) by (apply wf8_byte; cbn; lia). assert (Wc : wf8 [")"%byte]) by (apply wf8_byte; cbn; lia).
  assert (Q : show E (VList l) = ["("%byte] ++ join sp (map (show E) l) ++ [")"%byte]) by apply show_list.
  split; rewrite Q.
  - repeat apply wf8_app; auto.
  - intros r Hr. rewrite !rune_list_app by auto. rewrite <- !app_assoc. change (rune_list ["("%byte]) with [40%N].
    change (rune_list [")"%byte]) with [41%N]. cbn [app]. rewrite tokenize_open, T by (right; now right).
    rewrite tokenize_close. rewrite <- !pprepend_app. reflexivity.
  - repeat apply semi_pass_app; auto; apply semi_ascii; try discriminate; cbn; lia.
  - intros I. apply in_app_or in I as [[I|[]]|I]; [discriminate|].
    apply in_app_or in I as [I|[I|[]]]; [auto|discriminate].
Qed.
Lemma list_edge E l : Forall readable l -> edge_ok (show E (VList l)).
Proof.
  intros W. assert (F : Forall (vtext E) l) by (eapply Forall_impl; [|exact W]; intros; now apply readable_text).
  destruct (vjoined E l F) as (Wf & _). rewrite show_list.
  change ("("%byte :: join sp (map (show E) l) ++ [")"%byte]) with (["("%byte] ++ join sp (map (show E) l) ++ [")"%byte]).
  assert (Wo : wf8 ["("%byte]) by (apply wf8_byte; cbn; lia).
  apply edge_cons; auto using wf8_app; apply edge_byte; try reflexivity; cbn; lia.
Qed.
Lemma read_toks E v : readable v -> forall fuel rest, (2 * length (toks E v) <= fuel)%nat ->
  parse_tokens fuel (toks E v ++ rest) = POk (v, rest).
Proof.
  induction v as [n|s|f|l IH] using value_ind'; intros W fuel rest L.
  1-3: destruct (readable_shown E _ W I) as [A P]; destruct (tt_not_open _ A) as [A1 A2]; destruct fuel as [|fuel]; [cbn in L; lia|];
    cbn [toks app parse_tokens]; rewrite (proj2 (str_eqb_neq _ _) A1), (proj2 (str_eqb_neq _ _) A2), P; reflexivity.
  apply readable_list in W. cbn [toks length] in L. rewrite app_length in L. cbn [length] in L.
  destruct fuel as [|fuel]; [lia|]. cbn [toks app parse_tokens]. change (str_eqb tok_open tok_open) with true. cbv iota.
  rewrite <- app_assoc. cbn [app].
  assert (G : forall acc fuel, (1 + 2 * length (flat_map (toks E) l) <= fuel)%nat ->
    parse_list fuel acc (flat_map (toks E) l ++ tok_close :: rest) = POk (VList (rev acc ++ l), rest)).
  { clear L fuel. induction l as [|x l IHl]; intros acc fuel L.
    - destruct fuel as [|fuel]; [lia|]. cbn. now rewrite app_nil_r.
    - inversion IH as [|? ? Hx Hl]; subst. inversion W as [|? ? Wx Wl]; subst.
      destruct fuel as [|fuel]; [lia|]. cbn [flat_map] in *. rewrite app_length in L. pose proof (toks_ne E x).
      rewrite <- app_assoc. set (R := flat_map (toks E) l ++ tok_close :: rest).
      assert (exists t u, toks E x = t :: u /\ t <> tok_close) as (t & u & Et & Hc).
      { destruct x as [n|s|f|m]; try (destruct (readable_shown E _ Wx I) as [A _]; eexists _, []; split; [reflexivity|now apply tt_not_open]).
        eexists _, _. split; [reflexivity|discriminate]. }
      replace (parse_list (S fuel) acc (toks E x ++ R)) with
        (match parse_tokens fuel (toks E x ++ R) with
         | POk (v, toks') => parse_list fuel (v :: acc) toks'
         | PErr e => PErr e | PFuel => PFuel end)
        by (rewrite Et; cbn [app parse_list]; rewrite (proj2 (str_eqb_neq _ _) Hc); reflexivity).
      rewrite Hx by (auto; lia). unfold R. rewrite IHl by (auto; lia). cbn [rev]. now rewrite <- app_assoc. }
  rewrite G by lia. reflexivity.
Qed.
Lemma read_line_list E l : readable (VList l) -> parse_line (show E (VList l)) = POk (VList l).
Proof.
  intros W. pose proof (readable_text E _ W) as V. unfold parse_line.
  replace (has_prefix (show E (VList l)) tok_open) with true.
  2:{ rewrite show_list. symmetry. apply has_prefix_one. }
  unfold parse_sexp_line, tokenize. rewrite <- (app_nil_r (rune_list _)), (vx_tok E _ V [] I).
  cbn [tokenize_from flush pprepend pbind]. rewrite app_nil_r.
  rewrite <- (app_nil_r (toks E (VList l))) at 2. rewrite read_toks; auto. unfold tok_fuel. lia.
Qed.
Definition sexp_text (E : Ext) (p : list value) : str := unlines (map (show E) p).
Lemma write_sexp_text E p : write_program E (bs "sexp") p = (sexp_text E p, None).
Proof. unfold sexp_text. cbn. induction p as [|v p IH]; [reflexivity|]. cbn [write_loop sexp_line]. rewrite IH. reflexivity. Qed.
Lemma readable_reread E p : Forall (fun v => exists l, v = VList l) p -> Forall readable p ->
  Forall (fun v => zlen (show E v) < 65536) p -> parse_string (sexp_text E p) = POk p.
Proof.
  intros Hl W L. unfold parse_string, sexp_text. rewrite raw_lines_unlines.
  2:{ apply Forall_map. eapply Forall_impl; [|exact W]. intros v Wv. apply (vx_nl _ _ (readable_text E v Wv)). }
  apply parse_lines_ok. induction p as [|v p IH]; [constructor|]. inversion Hl as [|? ? [l ->]]; inversion W; inversion L; subst.
  cbn [map]. constructor; auto. split; [unfold max_line; auto|]. pose proof (readable_text E (VList l) ltac:(auto)) as V.
  rewrite parse_single; try apply V; [now rewrite read_line_list|]. apply list_edge. now apply readable_list.
Qed.

(** ** No semicolon outside string literals *)
Fixpoint free (st : bool * bool) (l : list rune) : Prop :=
  match l with
  | [] => True
  | r :: l' => (st = (false, false) -> r <> 59%N) /\ free (qstep st r) l'
  end.
Lemma free_app a : forall st b, free st (a ++ b) <-> free st a /\ free (qrun st a) b.
Proof.
  induction a as [|r a IH]; intros st b; cbn [app free]; [cbn; tauto|]. rewrite IH. unfold qrun. cbn [fold_left]. tauto.
Qed.
Lemma qrun_spaces ws : all_space ws -> qrun (false, false) ws = (false, false).
Proof.
  intros H. induction H as [|r ws S _ IH]; [reflexivity|]. apply space_plain in S as (A & B & _). unfold qrun. cbn [fold_left qstep].
  replace (r =? 92)%N with false by lia. replace (r =? 34)%N with false by lia. exact IH.
Qed.
Lemma trim_runes_split l : exists ws ws', all_space ws /\ all_space ws' /\ l = ws ++ trim_runes l ++ ws'.
Proof.
  unfold trim_runes. destruct (trim_left_or l) as [[A ->]|(ws & r & l' & E & A & B & ->)].
  - exists l, []. cbn. rewrite app_nil_r. repeat split; auto; constructor.
  - destruct (trim_left_or (rev (r :: l'))) as [[A' E']|(ws' & r' & m & E' & A' & B' & ->)].
    + exfalso. apply all_space_rev in A'. rewrite rev_involutive in A'. inversion A'. congruence.
    + exists ws, (rev ws'). split; auto. split; [now apply all_space_rev|]. rewrite E. f_equal.
      rewrite <- rev_app_distr, <- E'. now rewrite rev_involutive.
Qed.

(** ** The pieces between semicolons *)
Definition piece (p : str) : Prop := wf8 p /\ ~ In 10%N (rune_list p) /\ free (false, false) (rune_list p).
Lemma parts_pieces l : Forall valid l -> ~ In 10%N l -> forall cur q e, piece cur ->
  qrun (false, false) (rune_list cur) = (q, e) -> Forall piece (semi_parts cur q e l).
Proof.
  assert (Nil : piece []) by (split; [apply wf8_nil|split; [intros []|exact I]]).
  intros V. induction V as [|r l Vr _ IH]; intros N cur q e (W & C & F) Q; cbn [semi_parts].
  - constructor; [split; auto|constructor].
  - assert (Nr : r <> 10%N) by (intros ->; apply N; now left). assert (Nl : ~ In 10%N l) by (intros I; apply N; now right).
    assert (R : rune_list (cur ++ encode_rune r) = rune_list cur ++ [r])
      by (rewrite rune_list_app by auto; now rewrite rune_list_rune).
    assert (P : ((q, e) = (false, false) -> r <> 59%N) -> piece (cur ++ encode_rune r)).
    { intros H. split; [apply wf8_app; auto using wf8_rune|]. rewrite R. split.
      - rewrite in_app_iff. cbn. intros [I|[I|[]]]; [auto|congruence].
      - apply free_app. rewrite Q. split; auto. cbn. split; auto. }
    assert (K : forall q' e', qstep (q, e) r = (q', e') -> qrun (false, false) (rune_list (cur ++ encode_rune r)) = (q', e')).
    { intros q' e' X. rewrite R, qrun_app, Q. exact X. }
    cbn [qstep] in K.
    semi_cases r q e; try (apply IH; auto; apply P; intros; try congruence; lia).
    constructor; [split; auto|]. apply IH; auto.
Qed.
Lemma rune_list_no_nl (s : str) : ~ In nl s -> ~ In 10%N (rune_list s).
Proof.
  intros N. revert N. induction s as [|r t V IH|b t B D IH] using runes_ind; intros N.
  - intros [].
  - rewrite rune_list_app, rune_list_rune by (auto using wf8_rune). cbn [app]. intros [->|I].
    + apply N. now left.
    + apply IH; auto. intros X. apply N. apply in_or_app. now right.
  - unfold rune_list. rewrite runes_bad by auto. cbn [map]. intros [X|I]; [discriminate|]. apply IH; auto.
    intros X. apply N. now right.
Qed.
Lemma trim_piece p : piece p -> piece (trim_space p) /\ rune_list (trim_space p) = trim_runes (rune_list p).
Proof.
  intros ((rs & V & ->) & N & F). rewrite rune_list_utf8 in * by auto. rewrite trim_space_utf8 by auto.
  destruct (trim_runes_split rs) as (ws & ws' & A & A' & E). set (m := trim_runes rs) in *. clearbody m. subst rs.
  apply Forall_app in V as [_ V]. apply Forall_app in V as [V _].
  rewrite !in_app_iff in N. apply free_app in F as [_ F]. rewrite qrun_spaces in F by auto. apply free_app in F as [F _].
  rewrite rune_list_utf8 by auto. split; auto. split; [now exists m|]. rewrite rune_list_utf8 by auto. split; auto.
Qed.

(** ** Tokens of a piece *)
Record inv (cur : str) (q e : bool) : Prop := {
  iv_wf : wf8 cur;
  iv_nl : ~ In nl cur;
  iv_esc : e = true -> q = true;
  iv_tok : forall l, tokenize_from [] false false (rune_list cur ++ l) = tokenize_from cur q e l;
  iv_semi : forall c l, split_semi_from c false false (rune_list cur ++ l) = split_semi_from (c ++ cur) q e l
}.
Lemma inv_nil : inv [] false false.
Proof. split; auto using wf8_nil. intros c l. cbn [rune_list map runes app]. now rewrite app_nil_r. Qed.
Lemma inv_step cur q e r q' e' : inv cur q e -> valid r -> r <> 10%N -> ((q, e) = (false, false) -> r <> 59%N) ->
  qstep (q, e) r = (q', e') ->
  (forall l, tokenize_from cur q e (r :: l) = tokenize_from (cur ++ encode_rune r) q' e' l) ->
  inv (cur ++ encode_rune r) q' e'.
Proof.
  intros I V N F Q T.
  assert (R : rune_list (cur ++ encode_rune r) = rune_list cur ++ [r])
      by (rewrite rune_list_app by apply I; now rewrite rune_list_rune).
  split.
  - apply wf8_app; [apply I|now apply wf8_rune].
  - rewrite in_app_iff. intros [X|X]; [now apply (iv_nl _ _ _ I)|]. destruct (encode_bytes r nl V X) as [[K _]|K]; cbn in K; [|lia].
    now subst r.
  - pose proof (iv_esc _ _ _ I) as E. destruct e; [rewrite E in * by auto|]; cbn in Q.
    + injection Q as <- <-. discriminate.
    + destruct (r =? 92)%N; [injection Q as <- <-; auto|]. destruct (r =? 34)%N; injection Q as <- <-; discriminate.
  - intros l. rewrite R, <- app_assoc. cbn [app]. rewrite (iv_tok _ _ _ I). apply T.
  - intros c l. rewrite R, <- app_assoc. cbn [app]. rewrite (iv_semi _ _ _ I). cbn [split_semi_from]. rewrite app_assoc.
    unfold rn_backslash, rn_quote, rn_semi. cbn [qstep] in Q. destruct e; [injection Q as <- <-; reflexivity|].
    destruct (r =? 92)%N; [injection Q as <- <-; reflexivity|]. destruct (r =? 34)%N; [injection Q as <- <-; reflexivity|].
    injection Q as <- <-. destruct (r =? 59)%N eqn:S; [|reflexivity]. destruct q; [reflexivity|]. exfalso. apply F; auto. lia.
Qed.
Definition token_ok (t : str) : Prop := t = tok_open \/ t = tok_close \/ tok_text t.
Lemma inv_token cur : inv cur false false -> cur <> [] -> tok_text cur.
Proof. intros I N. split; auto; try apply I. intros c l. apply I. Qed.
Lemma pflush_ok cur r ts : pflush cur r = POk ts -> exists us, r = POk us /\ (ts = us \/ cur <> [] /\ ts = cur :: us).
Proof.
  destruct cur as [|c cur]; cbn.
  - intros ->. eauto.
  - destruct r as [us| |]; cbn; [intros [= <-]|discriminate..]. exists us. split; auto. right. split; [discriminate|auto].
Qed.
Lemma pcons_ok t r ts : pcons t r = POk ts -> exists us, r = POk us /\ ts = t :: us.
Proof. destruct r as [us| |]; cbn; [intros [= <-]; eauto|discriminate..]. Qed.
Lemma tokens_ok l : Forall valid l -> ~ In 10%N l -> forall cur q e ts, inv cur q e -> free (q, e) l ->
  tokenize_from cur q e l = POk ts -> Forall token_ok ts.
Proof.
  intros V. induction V as [|r l Vr _ IH]; intros N cur q e ts I F T.
  - cbn in T. destruct q; [discriminate|]. injection T as <-.
    assert (e = false) as -> by (destruct e; auto; now pose proof (iv_esc _ _ _ I eq_refl)).
    destruct cur as [|c cur]; cbn [flush]; [constructor|]. constructor; [|constructor].
    right. right. apply inv_token; auto. discriminate.
  - assert (Nr : r <> 10%N) by (intros ->; apply N; now left). assert (Nl : ~ In 10%N l) by (intros X; apply N; now right).
    destruct F as [F0 F].
    assert (Step : forall q' e', qstep (q, e) r = (q', e') ->
      (forall l, tokenize_from cur q e (r :: l) = tokenize_from (cur ++ encode_rune r) q' e' l) -> Forall token_ok ts).
    { intros q' e' Q X. rewrite X in T. rewrite Q in F. eapply IH; [auto| |exact F|exact T].
      eapply inv_step; eauto. }
    cbn [tokenize_from qstep] in *. unfold rn_backslash, rn_quote, rn_open, rn_close in *.
    destruct e; [eapply Step; eauto|].
    destruct (r =? 92)%N eqn:C92; [eapply Step; eauto|]. destruct (r =? 34)%N eqn:C34; [eapply Step; eauto|].
    assert (Fl : cur <> [] -> q = false -> token_ok cur) by (intros Hc ->; right; right; now apply inv_token).
    destruct ((r =? 40) || (r =? 41))%N eqn:Par.
    + destruct q; [eapply Step; eauto|]. apply pflush_ok in T as (us & U & O). apply pcons_ok in U as (vs & U & ->).
      assert (G : Forall token_ok vs) by (eapply IH; [auto|apply inv_nil|exact F|exact U]).
      assert (token_ok (encode_rune r)).
      { assert (r = 40 \/ r = 41)%N as [->| ->] by lia; [now left|right; now left]. }
      destruct O as [->|[Hc ->]]; auto.
    + destruct (is_blank r).
      * destruct q; [eapply Step; eauto|]. apply pflush_ok in T as (us & U & O).
        assert (G : Forall token_ok us) by (eapply IH; [auto|apply inv_nil|exact F|exact U]).
        destruct O as [->|[Hc ->]]; auto.
      * eapply Step; eauto.
Qed.

(** ** Values *)
Lemma parse_token_readable t v : tok_text t -> parse_token t = POk v -> readable v.
Proof.
  intros T P. pose proof P as P'. unfold parse_token in P.
  destruct (_ && _).
  - destruct (_ <? _); [discriminate|]. destruct (unquote t); [|discriminate]. injection P as <-. exact I.
  - destruct (parse_float t) as [f|] eqn:F; injection P as <-.
    + exact (parse_float_valid _ _ F).
    + split; auto.
Qed.
Lemma tokens_readable fuel : forall ts, Forall token_ok ts ->
  (forall v r, parse_tokens fuel ts = POk (v, r) -> readable v /\ Forall token_ok r) /\
  (forall acc v r, Forall readable acc -> parse_list fuel acc ts = POk (v, r) ->
     readable v /\ (exists l, v = VList l) /\ Forall token_ok r).
Proof.
  induction fuel as [|fuel IH]; intros ts F; [split; discriminate|].
  assert (A : forall v r, parse_tokens (S fuel) ts = POk (v, r) -> readable v /\ Forall token_ok r).
  { intros v r H. cbn [parse_tokens] in H. destruct ts as [|t ts]; [discriminate|]. inversion F as [|? ? Ft Fts]; subst.
    destruct (str_eqb t tok_open) eqn:O.
    - destruct (IH ts Fts) as [_ B]. destruct (B [] v r ltac:(constructor) H) as (X & _ & Y). auto.
    - destruct (str_eqb t tok_close) eqn:C; [discriminate|]. destruct (parse_token t) as [w| |] eqn:P; try discriminate.
      injection H as <- <-. split; auto. eapply parse_token_readable; eauto.
      destruct Ft as [->|[->|Ft]]; auto; discriminate. }
  split; [exact A|]. intros acc v r Ha H. cbn [parse_list] in H. destruct ts as [|t ts]; [discriminate|].
  inversion F as [|? ? Ft Fts]; subst. destruct (str_eqb t tok_close) eqn:C.
  - injection H as <- <-. split; [apply readable_list; now apply Forall_rev|]. split; [eauto|auto].
  - destruct (parse_tokens fuel (t :: ts)) as [[w r']| |] eqn:P; try discriminate.
    destruct (IH (t :: ts) F) as [B _]. destruct (B _ _ P) as [Rw Fr]. destruct (IH r' Fr) as [_ D].
    eapply D; [|exact H]. constructor; auto.
Qed.
Lemma shell_readable fuel : forall acc ts v, Forall token_ok ts -> Forall readable acc ->
  shell_loop fuel acc ts = POk v -> readable v /\ exists l, v = VList l.
Proof.
  induction fuel as [|fuel IH]; intros acc ts v F A H; [discriminate|]. cbn [shell_loop] in H.
  destruct ts as [|t ts]; [injection H as <-; split; [apply readable_list; now apply Forall_rev|eauto]|].
  inversion F as [|? ? Ft Fts]; subst. destruct (str_eqb t tok_open) eqn:O.
  - destruct (parse_tokens _ (t :: ts)) as [[w r]| |] eqn:P; try discriminate.
    destruct (tokens_readable (tok_fuel (t :: ts)) (t :: ts) F) as [B _]. destruct (B _ _ P). eapply IH; [| |exact H]; auto.
  - destruct (str_eqb t tok_close) eqn:C; [discriminate|]. destruct (parse_token t) as [w| |] eqn:P; try discriminate.
    eapply IH; [| |exact H]; auto. constructor; auto. eapply parse_token_readable; eauto.
    destruct Ft as [->|[->|Ft]]; auto; discriminate.
Qed.
Lemma line_readable p v : piece p -> parse_line p = POk v -> readable v /\ exists l, v = VList l.
Proof.
  intros (W & N & F) H. unfold parse_line in H.
  assert (T : forall ts, tokenize p = POk ts -> Forall token_ok ts).
  { intros ts. unfold tokenize. apply (tokens_ok (rune_list p)); auto; [apply rune_list_valid|apply inv_nil]. }
  destruct (has_prefix p tok_open) eqn:P.
  - unfold parse_sexp_line in H. destruct (tokenize p) as [ts| |] eqn:K; try discriminate. cbn [pbind] in H.
    destruct (parse_tokens (tok_fuel ts) ts) as [[w r]| |] eqn:Q; try discriminate. cbn in H. injection H as <-.
    apply has_prefix_iff in P as [u ->]. unfold tokenize in K. change (tok_open ++ u) with ([] ++ "("%byte :: u) in K.
    rewrite rune_list_app_ascii in K by (cbn; lia).
    change (rune_list [] ++ byteN "(" :: rune_list u) with (40%N :: rune_list u) in K. rewrite tokenize_open in K.
    destruct (tokenize_from [] false false (rune_list u)) as [us| |]; try discriminate. injection K as <-.
    specialize (T _ eq_refl). inversion T as [|? ? _ Fu]; subst. cbn [tok_fuel parse_tokens app] in Q.
    change (str_eqb tok_open tok_open) with true in Q. cbv iota in Q.
    destruct (tokens_readable (length (tok_open :: us) + length (tok_open :: us)) us Fu) as [_ B].
    destruct (B [] w r ltac:(constructor) Q) as (X & Y & _). auto.
  - unfold parse_shell_line in H. destruct (tokenize p) as [ts| |] eqn:K; try discriminate. cbn [pbind] in H.
    eapply shell_readable; [| |exact H]; auto.
Qed.
Lemma commands_readable cs : Forall piece cs -> forall p, parse_commands cs = POk p ->
  Forall (fun v => readable v /\ exists l, v = VList l) p.
Proof.
  intros F. induction F as [|c cs Fc _ IH]; intros p H; cbn [parse_commands] in H; [injection H as <-; constructor|].
  destruct (trim_piece c Fc) as [Pt _]. destruct (trim_space c) as [|b c'] eqn:T; [auto|].
  destruct (parse_line (b :: c')) as [v| |] eqn:L; try discriminate. cbn [pbind] in H.
  destruct (parse_commands cs) as [vs| |]; try discriminate. injection H as <-. constructor; auto. eapply line_readable; eauto.
Qed.
Lemma parsed_readable s p : parse_string s = POk p -> Forall (fun v => readable v /\ exists l, v = VList l) p.
Proof.
  rewrite parse_split.
  assert (N : Forall (fun l => ~ In nl l) (split_byte nl s)).
  { clear. induction s as [|x s IH]; cbn; [constructor; [intros []|constructor]|]. destruct (Byte.eqb x nl) eqn:C; [constructor; auto|].
    destruct (split_byte nl s) as [|l ls]; [constructor; [|constructor]|]; apply byte_eqb_neq in C.
    - intros [X|[]]; congruence.
    - inversion IH; subst. constructor; auto. intros [X|X]; [congruence|auto]. }
  revert p. induction N as [|l ls Nl _ IH]; intros p H; [injection H as <-; constructor|].
  rewrite parse_lines_cons in H. unfold line_result in H. destruct (max_line <=? zlen l); [destruct (parse_lines ls); discriminate|].
  rewrite line_commands in H. destruct (parse_commands _) as [a| |] eqn:A; [|discriminate..].
  destruct (parse_lines ls) as [b| |]; [|discriminate..]. cbn [pseq] in H. injection H as <-. apply Forall_app. split; auto.
  eapply commands_readable; [|exact A]. apply parts_pieces; auto.
  - apply rune_list_valid. - now apply rune_list_no_nl. - split; [apply wf8_nil|split; [intros []|exact I]].
Qed.
(** the closure theorem *)
Lemma parsed_reread E s p : parse_string s = POk p -> Forall (fun v => zlen (show E v) < 65536) p ->
  parse_string (sexp_text E p) = POk p.
Proof.
  intros H L. apply parsed_readable in H. apply readable_reread; auto; (eapply Forall_impl; [|exact H]); intros v [A B]; auto.
Qed.
Lemma float64s_list l : float64s (VList l) <-> Forall float64s l.
Proof.
  unfold float64s. cbn [numbers]. induction l as [|x l IH]; [split; [constructor|auto]|]. split.
  - intros [A B]. constructor; auto. now apply IH.
  - intros H. inversion H; subst. split; auto. now apply IH.
Qed.
Lemma readable_numbers v : readable v -> float64s v.
Proof.
  induction v as [n|s|f|l IH] using value_ind'; intros R; try exact I; [exact R|]. apply readable_list in R.
  apply float64s_list. rewrite Forall_forall in *. auto.
Qed.
