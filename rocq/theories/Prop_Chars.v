(** Editing keeps well-formed UTF-8. *)
From Coq Require Import ZArith NArith List Bool Lia Strings.Byte ZifyBool.
From Verif Require Import Base Float Ext Utf8 Strconv Values Buffer Builtins Eval Spec SpecText SpecBytes RefExt
  Proofs_Base Proofs_Utf8 Proofs_Loops Proofs_Exec Proofs_Effects Proofs_Safe Proofs_Chars
  Prop_Edit Prop_Lines Prop_Regexp Prop_Calls Prop_Eval Prop_Safe.
Import ListNotations.
Open Scope Z_scope.

(** ** C60 *)

Definition whole (v : value) : Prop := forall s, v = VStr s -> utf8_text s.
Definition yields {A} (m : M A) (Q : A -> Prop) : Prop := forall b a b', m b = Done a b' -> Q a.
Lemma yields_ret {A} (a : A) (Q : A -> Prop) : Q a -> yields (ret a) Q.
Proof. intros H b x b' E. injection E as <- _. exact H. Qed.
Lemma yields_fail {A} e (Q : A -> Prop) : yields (fail e) Q.
Proof. intros b x b' E. discriminate. Qed.
Lemma yields_bind {A B} (m : M A) (k : A -> M B) P Q : yields m P -> (forall a, P a -> yields (k a) Q) -> yields (bind m k) Q.
Proof. intros H K b x b' E. unfold bind in E. destruct (m b) eqn:X; try discriminate. apply (K a (H _ _ _ X) _ _ _ E). Qed.
Lemma yields_any {A B} (m : M A) (k : A -> M B) Q : (forall a, yields (k a) Q) -> yields (bind m k) Q.
Proof. intros K. apply (yields_bind m k (fun _ => True)); [now intros b a b'|auto]. Qed.
Lemma whole_int z : whole (VInt z). Proof. discriminate. Qed.
Lemma whole_nil : whole VNil. Proof. discriminate. Qed.
Lemma whole_t : whole VT. Proof. discriminate. Qed.
Lemma whole_empty : whole VEmpty. Proof. intros s E. injection E as <-. apply text_nil. Qed.
Lemma whole_str s : utf8_text s -> whole (VStr s). Proof. intros H t E. now injection E as <-. Qed.
Lemma yields_alloc s (Q : str -> Prop) : Q s -> yields (alloc s) Q.
Proof. intros H b a b' E. unfold alloc in E. destruct (max_alloc <? zlen s); [discriminate|]. now injection E as <- _. Qed.
Lemma yields_concat args i acc : Forall whole args -> utf8_text acc -> yields (concat_loop args i acc) whole.
Proof.
  intros H. revert i acc. induction H as [|v args V _ IH]; intros i acc A; cbn [concat_loop]; [now apply yields_ret, whole_str|].
  destruct v; try apply yields_fail. apply (yields_bind _ _ utf8_text); [|intros a Ha; now apply IH].
  apply yields_alloc, text_app; auto.
Qed.
Ltac ywalk := repeat (cbv beta iota; match goal with
  | |- yields (ret _) _ => apply yields_ret; first [apply whole_int|apply whole_nil|apply whole_t|apply whole_empty]
  | |- yields (fail _) _ => apply yields_fail
  | |- yields (got _ _ _) _ => apply yields_fail
  | |- yields (wants _ _) _ => apply yields_fail
  | |- yields (alloc _) _ => fail 1
  | |- yields (bind (alloc _) _) _ => fail 1
  | |- yields (bind _ _) _ => apply yields_any; intros
  | |- yields (let x := ?v in @?k x) ?Q => let y := fresh "y" in generalize v; intros y; change (yields (k y) Q)
  | |- yields (match ?x with _ => _ end) _ => destruct x
  end).
Lemma query_whole E n args : In n queries -> ~ In n ["buffer-substring"; "substring"; "replace-regexp-in-string"]%string ->
  Forall whole args -> yields (call E n args) whole.
Proof.
  intros I N W. cbn [queries In] in I.
  repeat (destruct I as [I|I]; [subst n; try (exfalso; apply N; cbn; tauto); clear N|]); [..|destruct I]; call;
    try (match goal with |- yields (?f _) _ => unfold f | |- yields (?f _ _) _ => unfold f end;
         unfold no_args, one_string, slice_to, slice_from; ywalk; fail).
  - now apply yields_concat, text_nil.
  - unfold b_upcase, one_string. ywalk. apply (yields_bind _ _ utf8_text); [apply yields_alloc, text_mapped|intros t H; now apply yields_ret, whole_str].
  - unfold b_downcase, one_string. ywalk. apply (yields_bind _ _ utf8_text); [apply yields_alloc, text_mapped|intros t H; now apply yields_ret, whole_str].
  - unfold b_capitalize, one_string. ywalk. apply (yields_bind _ _ utf8_text); [apply yields_alloc, text_app; apply text_mapped|intros t H; now apply yields_ret, whole_str].
Qed.

(** evaluating arguments *)
Definition same (b : buffer) {A} (o : outcome A) (Q : A -> Prop) : Prop :=
  match o with
  | Done a b' => b' = b /\ Q a
  | Fail _ b' => b' = b
  | OutOfMemory => True
  | Panic | Diverge => False
  end.
Lemma plain_list E args : Forall (fun e => forall b, good b -> same b (eval_expr E (default_env E) e b) whole) args ->
  forall b, good b -> same b (eval_list E (default_env E) args b) (Forall whole).
Proof.
  induction 1 as [|e l He Hl IH]; intros b Hb; [split; auto|]. rewrite eval_list_cons.
  specialize (He b Hb). unfold bind at 1. destruct (eval_expr E (default_env E) e b) as [v b'| | | |]; cbn [same] in *; auto. destruct He as [-> Wv].
  specialize (IH b Hb). unfold bind. destruct (eval_list E (default_env E) l b) as [vs b'| | | |]; cbn [same] in *; auto. destruct IH as [-> Wvs].
  cbn. split; auto.
Qed.
Lemma not_risky E n args b : ~ In n ["beginning-of-line"; "exchange-point-and-mark"; "backward-char"; "delete-char"]%string -> ~ risky E n args b.
Proof. intros N [(-> & _)|[(-> & _)|[(-> & _)|(-> & _)]]]; apply N; cbn; tauto. Qed.
Lemma call_env E n : In n (queries ++ motions ++ searches ++ mark_setters ++ editors) -> default_env E (bs n) = Some (call E n).
Proof.
  intros I. assert (X : exists f, default_env E (bs n) = Some f).
  { cbn [queries motions searches mark_setters editors app In] in I. repeat (destruct I as [<-|I]; [eexists; reflexivity|]). destruct I. }
  destruct X as (f & X). unfold call. now rewrite X.
Qed.
Lemma plain_eval E e : ext_ok E -> plain e -> forall b, good b -> same b (eval_expr E (default_env E) e b) whole.
Proof.
  intros HE. induction e as [n|s|f|l IH] using value_ind'; intros P b Hb; inversion P as [|? U|name args I N A]; subst.
  - split; auto. now apply whole_str.
  - split; auto. discriminate.
  - rewrite eval_call, (call_env E name) by (apply in_or_app; now left).
    inversion IH as [|? ? _ IHa]; subst.
    assert (L : same b (eval_list E (default_env E) args b) (Forall whole)).
    { apply plain_list; auto. clear - IHa A. induction IHa as [|x l Hx Hl IHl]; constructor; inversion A; auto. }
    unfold bind. destruct (eval_list E (default_env E) args b) as [vs b'| | | |]; cbn [same] in *; auto. destruct L as [-> W].
    pose proof (calls_are_safe E name vs b HE Hb) as S. 
    assert (R : ~ risky E name vs b).
    { apply not_risky. intros J. clear - I J. cbn [queries In] in I, J. 
      repeat (destruct J as [J|J]; [subst name; repeat (destruct I as [I|I]; [discriminate|]); destruct I|]); destruct J. }
    specialize (S R). destruct (call E name vs b) as [v b'| | | |] eqn:C; auto. split.
    + apply (queries_change_nothing E name vs b v b'); auto.
    + apply (query_whole E name vs I N W b v b' C).
Qed.

(** what is known of a buffer *)
Definition on_chars (m k : bool) (b : buffer) : Prop :=
  fits (content b) /\ char_pos (content b) (point b) /\ int_ok (mark b) /\
  (m = true -> last_match b = [] \/ char_pos (content b) (last_start b) /\ char_pos (content b) (last_end b)) /\
  (k = true -> char_pos (content b) (mark b)).
Lemma pos_valid s p : char_pos s p -> valid_pos s p.
Proof. intros (u & v & -> & _ & _ & ->). unfold valid_pos. zl. Qed.
Lemma on_good m k b : on_chars m k b -> good b.
Proof. intros (F & P & M & _). split; auto. split; auto. now apply pos_valid. Qed.
Lemma fits_int s p : fits s -> char_pos s p -> int_ok p.
Proof. intros F P. apply pos_valid in P. unfold valid_pos in P. ints. lia. Qed.

Lemma accepted E name s args b v b' : In (name, s) signatures -> name <> "concat"%string -> call E name args b = Done v b' -> accepts s args.
Proof.
  intros I N C. destruct (acceptsb s args) eqn:X; [now apply acceptsb_spec|]. exfalso.
  destruct (wrong_arguments_are_rejected E name s args b I) as (e & K); [|congruence|congruence].
  rewrite <- acceptsb_spec, X. discriminate.
Qed.
Lemma takes_none args : accepts NoArgs args -> args = [].
Proof. intros (ks & [<-|[]] & F). inversion F. auto. Qed.
Lemma takes_string args : accepts AString args -> exists s, args = [VStr s].
Proof. intros (ks & [<-|[]] & F). inversion F as [|? v ? ? K F']; subst. inversion F'; subst. destruct v; try contradiction. eauto. Qed.
Lemma takes_number args : accepts ANumber args -> exists f, args = [VNum f].
Proof. intros (ks & [<-|[]] & F). inversion F as [|? v ? ? K F']; subst. inversion F'; subst. destruct v; try contradiction. eauto. Qed.
Lemma takes_count E args : accepts OptNumber args -> exists n, count_arg E args n.
Proof.
  intros (ks & [<-|[<-|[]]] & F).
  - inversion F. exists 1. now left.
  - inversion F as [|? v ? ? K F']; subst. inversion F'; subst. destruct v as [| |f|]; try contradiction. exists (f_to_int E f). right. exists f. split; auto. apply int_arg_exists.
Qed.
Ltac sig := cbn [signatures In]; tauto.

(** text, point, match and mark of a buffer reached by moving, marking, searching or editing *)
Lemma on_moved m k b p : on_chars m k b -> char_pos (content b) p -> on_chars m k (at_point b p).
Proof. intros (F & P & M & A & B) H. split; [|split; [|split; [|split]]]; cbn; auto. Qed.
Lemma on_marked m k b p : on_chars m k b -> char_pos (content b) p -> on_chars m true (with_mark b p).
Proof. intros (F & P & M & A & B) H. split; [|split; [|split; [|split]]]; cbn; auto; now apply (fits_int (content b)). Qed.
Lemma on_matched m k b p t s e : on_chars m k b -> char_pos (content b) p -> char_pos (content b) s -> char_pos (content b) e -> on_chars true k (with_match b p t s e).
Proof. intros (F & P & M & A & B) H1 H2 H3. split; [|split; [|split; [|split]]]; cbn; auto. Qed.
Lemma on_edited m k b t p : on_chars m k b -> fits t -> char_pos t p -> on_chars false false (with_text b t p).
Proof. intros (F & P & M & A & B) H1 H2. split; [|split; [|split; [|split]]]; cbn; auto; discriminate. Qed.
Lemma on_forget m k b : on_chars m k b -> on_chars false false b.
Proof. intros (F & P & M & A & B). split; [|split; [|split; [|split]]]; auto; discriminate. Qed.

Section Steps.
Variables (E : Ext) (HE : ext_ok E) (HM : matches_characters E).
Notation done n vs b b' := (exists v, call E n vs b = Done v b').

Lemma step_move n vs b v b' m k : In n ["goto-line"; "beginning-of-buffer"; "end-of-buffer"; "end-of-line"; "forward-word"; "backward-word"; "mark-word"]%string ->
  call E n vs b = Done v b' -> on_chars m k b -> on_chars m k b'.
Proof.
  intros I C O. pose proof O as (F & (u & w & Ec & U & W & Ep) & _).
  destruct I as [<-|[<-|[<-|[<-|[<-|[<-|[<-|[]]]]]]]].
  - destruct (takes_number vs) as (f & ->); [eapply accepted; [| |exact C]; [sig|discriminate]|].
    pose proof (int_arg_exists E f) as A. pose proof (newlines_nonneg (content b)) as NN.
    destruct (line_start_exists (content b) (clamp 1 (newlines (content b) + 1) (f_to_int E f) - 1)) as (a & z & E1 & E2 & E3); [unfold clamp; lia|].
    rewrite (goto_line_moves E b f (f_to_int E f) a z) in C; auto; [|lia]. injection C as _ <-. apply on_moved; auto.
    destruct (lines_cut a z) as [A1 A2]; [rewrite <- E1, Ec; now apply text_app|auto|]. now apply (pos_at _ a z).
  - assert (vs = []) as -> by (apply takes_none; eapply accepted; [| |exact C]; [sig|discriminate]).
    change (Done (VStr []) (at_point b 1) = Done v b') in C. injection C as _ <-. apply on_moved; auto.
    apply (pos_at _ [] (content b)); auto; [apply text_nil|rewrite Ec; now apply text_app].
  - assert (vs = []) as -> by (apply takes_none; eapply accepted; [| |exact C]; [sig|discriminate]).
    change (Done (VStr []) (at_point b (zlen (content b) + 1)) = Done v b') in C. injection C as _ <-. apply on_moved; auto.
    apply (pos_at _ (content b) []); auto; [now rewrite app_nil_r|rewrite Ec; now apply text_app|apply text_nil].
  - assert (vs = []) as -> by (apply takes_none; eapply accepted; [| |exact C]; [sig|discriminate]).
    destruct (first_newline w) as (l & r & -> & N & R). rewrite (end_of_line_moves E b u l r) in C; auto; [|now split].
    injection C as _ <-. apply on_moved; auto.
    assert (X : utf8_text l /\ utf8_text r).
    { destruct R as [->|(t & ->)]; [rewrite app_nil_r in W; split; auto; apply text_nil|]. now apply cut_before. }
    apply (pos_at _ (u ++ l) r); [now rewrite <- app_assoc|rewrite Ep; zl|now apply text_app|tauto].
  - destruct (takes_count E vs) as (c & A); [eapply accepted; [| |exact C]; [sig|discriminate]|].
    destruct (passes_words_total (Z.to_nat c) w) as (mv & r & P). rewrite (forward_word_moves E b vs c u w mv r) in C; auto; [|now split].
    injection C as _ <-. apply on_moved; auto. pose proof (passes_words_app _ _ _ _ P) as Ew. subst w.
    destruct (moved_cut mv r W (passes_words_end _ _ _ _ P)) as [X1 X2].
    apply (pos_at _ (u ++ mv) r); [now rewrite <- app_assoc|rewrite Ep; zl|now apply text_app|auto].
  - destruct (takes_count E vs) as (c & A); [eapply accepted; [| |exact C]; [sig|discriminate]|].
    destruct (passes_words_total (Z.to_nat c) (rev u)) as (mv & r & P).
    assert (P' : passes_words_back (Z.to_nat c) u (rev r) (rev mv)) by (unfold passes_words_back; now rewrite !rev_involutive).
    rewrite (backward_word_moves E b vs c u w (rev r) (rev mv)) in C; auto; [|now split].
    injection C as _ <-. apply on_moved; auto. destruct (back_cut _ _ _ _ U P') as (-> & X1 & X2).
    apply (pos_at _ (rev r) (rev mv ++ w)); [now rewrite <- app_assoc in Ec|auto|auto|now apply text_app].
  - assert (vs = []) as -> by (apply takes_none; eapply accepted; [| |exact C]; [sig|discriminate]).
    destruct (last_word u) as (a & w1 & -> & W1 & N1). destruct (first_word w) as (w2 & z & -> & W2 & N2).
    destruct (w2 ++ z) as [|x y] eqn:X.
    { rewrite mark_word_at_end in C; [now injection C as _ <-|auto|rewrite Ec, Ep; zl]. }
    rewrite <- X in *. assert (X' : w2 ++ z <> []) by (rewrite X; discriminate). clear x y X.
    rewrite (mark_word_selects E b a w1 w2 z) in C; auto; [|now split]. injection C as _ <-.
    assert (Y1 : utf8_text a /\ utf8_text w1).
    { destruct w1 as [|x w1]; [rewrite app_nil_r in U; split; [auto|apply text_nil]|]. apply cut_before; auto. inversion W1. now apply word_low. }
    assert (Y2 : utf8_text w2 /\ utf8_text z).
    { apply moved_cut; auto. destruct (last_case w2) as [->|(t & x & ->)]; [now left|]. right. right. exists t, x. split; auto.
      apply Forall_app in W2 as [_ W2]. inversion W2. now apply word_low. }
    assert (O' : on_chars m true (with_mark (at_point b (point b + zlen w2)) (zlen a + 1))).
    { apply (on_marked m k); [apply on_moved; auto|].
      - apply (pos_at _ ((a ++ w1) ++ w2) z); [rewrite Ec, <- !app_assoc; auto|rewrite Ep; zl|apply text_app; tauto|tauto].
      - cbn [content at_point]. apply (pos_at _ a (w1 ++ w2 ++ z)); [rewrite Ec, <- !app_assoc; auto|zl|tauto|repeat apply text_app; tauto]. }
    destruct O' as (O1 & O2 & O3 & O4 & O5). repeat (split; auto).
Qed.

Lemma step_search n vs b v b' m k : In n ["search-forward"; "search-backward"; "re-search-forward"; "re-search-backward"]%string ->
  Forall whole vs -> call E n vs b = Done v b' -> on_chars m k b -> on_chars true k b'.
Proof.
  intros I Wv C O. pose proof O as (F & (u & w & Ec & U & W & Ep) & _).
  assert (A : exists s, vs = [VStr s]).
  { apply takes_string. destruct I as [<-|[<-|[<-|[<-|[]]]]]; (eapply accepted; [| |exact C]; [sig|discriminate]). }
  destruct A as (s & ->). assert (Us : utf8_text s) by (inversion Wv as [|? ? X _]; now apply X).
  assert (Occ : forall pre post, utf8_text (pre ++ s ++ post) -> s <> [] \/ (utf8_text pre /\ utf8_text post) -> utf8_text pre /\ utf8_text post).
  { intros pre post T [N|X]; auto. now apply (cut_at pre s post). }
  destruct I as [<-|[<-|[<-|[<-|[]]]]].
  - destruct (first_occurrence_exists w s) as [(pre & post & -> & First)|None].
    + destruct (pre ++ s ++ post) as [|x y] eqn:X.
      { rewrite (search_forward_fails E b s u []) in C; auto; [discriminate|now split]. }
      rewrite <- X in *. assert (X' : pre ++ s ++ post <> []) by (rewrite X; discriminate). clear x y X.
      rewrite (search_forward_finds_first E b s u pre post) in C; auto; [|now split]. injection C as _ <-.
      assert (Y : utf8_text pre /\ utf8_text post).
      { apply Occ; auto. destruct s as [|x s]; [right|left; discriminate]. destruct pre as [|x pre]; [split; [apply text_nil|exact W]|].
        exfalso. apply (First 0); [zl|]. exists [], (x :: pre ++ post). cbn. split; auto. }
      destruct Y as [Y1 Y2]. assert (Q1 : char_pos (content b) (point b + zlen pre)).
      { apply (pos_at _ (u ++ pre) (s ++ post)); [now rewrite <- app_assoc|rewrite Ep; zl|now apply text_app|now apply text_app]. }
      assert (Q2 : char_pos (content b) (point b + zlen pre + zlen s)).
      { apply (pos_at _ (u ++ pre ++ s) post); [now rewrite <- !app_assoc|rewrite Ep; zl|now repeat apply text_app|auto]. }
      now apply (on_matched m).
    + rewrite (search_forward_fails E b s u w) in C; auto; [discriminate|now split].
  - destruct (last_occurrence_exists u s) as [(pre & post & -> & Last)|None].
    + rewrite (search_backward_finds_last E b s pre post w) in C; auto; [|now split]. injection C as _ <-.
      assert (Y : utf8_text pre /\ utf8_text post).
      { apply Occ; auto. destruct s as [|x s]; [right|left; discriminate]. destruct post as [|x post]; [split; [now rewrite app_nil_r in U|apply text_nil]|].
        exfalso. apply (Last (zlen (pre ++ x :: post))); [zl|]. exists (pre ++ x :: post), []. cbn. rewrite app_nil_r. split; auto. }
      destruct Y as [Y1 Y2]. assert (Q1 : char_pos (content b) (zlen pre + 1)).
      { apply (pos_at _ pre (s ++ post ++ w)); [rewrite Ec, <- !app_assoc; auto|zl|auto|now repeat apply text_app]. }
      assert (Q2 : char_pos (content b) (zlen pre + 1 + zlen s)).
      { apply (pos_at _ (pre ++ s) (post ++ w)); [rewrite Ec, <- !app_assoc; auto|zl|now repeat apply text_app|now repeat apply text_app]. }
      now apply (on_matched m).
    + rewrite (search_backward_fails E b s u w) in C; auto; [discriminate|now split].
  - destruct (re_search_forward_fails E b s u w F) as (R1 & R2 & R3); [now split|].
    destruct w as [|x y] eqn:Xw; [rewrite R1 in C; [discriminate|auto]|]. rewrite <- Xw in *.
    assert (X' : w <> []) by (rewrite Xw; discriminate). clear R1.
    destruct (re_error E s) as [msg|] eqn:Re; [rewrite (R2 X' msg) in C; [discriminate|auto]|].
    destruct (re_find E s w) as [[i j]|] eqn:Rf; [|rewrite (R3 X') in C; [discriminate|auto|auto]].
    destruct (HM s w W) as [H1 _]. destruct (H1 i j Rf) as [P1 P2].
    destruct (matched_exists w (i, j) (ok_find E HE _ _ _ Rf)) as (a & t & z & Mt).
    rewrite (re_search_forward_finds E b s u w (i, j) a t z) in C; auto; [|now split]. injection C as _ <-.
    destruct Mt as [-> Ma]. injection Ma as -> ->.
    apply (pos_inside u _ _ U) in P1, P2. rewrite <- Ec in P1, P2.
    replace (zlen u + (zlen a + 1)) with (point b + zlen a) in P1 by (rewrite Ep; lia).
    replace (zlen u + (zlen a + zlen t + 1)) with (point b + zlen a + zlen t) in P2 by (rewrite Ep; lia).
    now apply (on_matched m).
  - destruct (re_search_backward_fails E b s u w F) as (R2 & R3); [now split|].
    destruct (re_error E s) as [msg|] eqn:Re; [rewrite (R2 msg) in C; [discriminate|auto]|].
    destruct (last_case (re_find_all E s u)) as [N|(ms & [i j] & Rf)]; [rewrite R3 in C; [discriminate|auto|auto]|].
    assert (In (i, j) (re_find_all E s u)) as Im by (rewrite Rf; apply in_or_app; right; now left).
    destruct (HM s u U) as [_ H1]. destruct (H1 i j Im) as [P1 P2].
    destruct (matched_exists u (i, j) (ok_find_all E HE _ _ _ Im)) as (a & t & z & Mt).
    rewrite (re_search_backward_finds E b s u w ms (i, j) a t z) in C; auto; [|now split]. injection C as _ <-.
    destruct Mt as [-> Ma]. injection Ma as -> ->.
    apply (pos_inside_l _ w _ W) in P1, P2. rewrite <- Ec in P1, P2. now apply (on_matched m).
Qed.

Lemma step_mark n vs b v b' m k : In n ["set-mark"; "mark-line"; "mark-whole-buffer"]%string ->
  call E n vs b = Done v b' -> on_chars m k b -> on_chars m true b'.
Proof.
  intros I C O. pose proof O as (F & (u & w & Ec & U & W & Ep) & _).
  assert (PP : char_pos (content b) (point b)) by (now apply (pos_at _ u w)).
  destruct I as [<-|[<-|[<-|[]]]].
  - assert (vs = []) as -> by (apply takes_none; eapply accepted; [| |exact C]; [sig|discriminate]).
    change (Done (VStr []) (with_mark b (point b)) = Done v b') in C. injection C as _ <-. now apply (on_marked m k).
  - destruct (takes_count E vs) as (c & A); [eapply accepted; [| |exact C]; [sig|discriminate]|].
    destruct (last_newline u) as (a & l & -> & WL & NL). destruct (passes_lines_total (Z.to_nat c) w) as (mv & r & P).
    rewrite (mark_line_selects E b vs c a l w mv r) in C; auto; [|now split]. injection C as _ <-.
    destruct (lines_cut a l U WL) as [Y1 Y2]. pose proof (passes_lines_app _ _ _ _ P) as Ew. subst w.
    destruct (moved_cut mv r W (passes_lines_end _ _ _ _ P)) as [X1 X2].
    apply (on_marked m k); [apply on_moved; auto|].
    + apply (pos_at _ ((a ++ l) ++ mv) r); [rewrite Ec, <- !app_assoc; auto|rewrite Ep; zl|now apply text_app|auto].
    + cbn [content at_point]. apply (pos_at _ a (l ++ mv ++ r)); [rewrite Ec, <- !app_assoc; auto|zl|auto|now repeat apply text_app].
  - assert (vs = []) as -> by (apply takes_none; eapply accepted; [| |exact C]; [sig|discriminate]).
    change (Done (VStr []) (at_point (with_mark b 1) (zlen (content b) + 1)) = Done v b') in C. injection C as _ <-.
    apply on_moved; [apply (on_marked m k); auto|].
    + apply (pos_at _ [] (content b)); auto; [apply text_nil|rewrite Ec; now apply text_app].
    + apply (pos_at _ (content b) []); auto; [now rewrite app_nil_r|rewrite Ec; now apply text_app|apply text_nil].
Qed.
Lemma step_swap vs b v b' m : call E "exchange-point-and-mark" vs b = Done v b' -> on_chars m true b -> on_chars m true b'.
Proof.
  intros C O. assert (vs = []) as -> by (apply takes_none; eapply accepted; [| |exact C]; [sig|discriminate]).
  change (Done (VStr []) (with_mark (at_point b (mark b)) (point b)) = Done v b') in C. injection C as _ <-.
  pose proof O as (F & P & _ & _ & K). apply (on_marked m true); [apply on_moved; auto|exact P].
Qed.

(** a text too long for the address space cannot be made *)
Lemma replace_match_fits b u t v r : content b = u ++ t ++ v -> t <> [] -> last_match b <> [] ->
  last_start b = zlen u + 1 -> last_end b = zlen u + zlen t + 1 -> fits (content b) ->
  forall w b', call E "replace-match" [VStr r] b = Done w b' -> fits (u ++ r ++ v).
Proof.
  intros Hc Ht Hl Hs He Hf w b' H. destruct (Z_le_gt_dec (zlen (u ++ r ++ v)) max_alloc) as [L|L]; [exact L|exfalso].
  rewrite call_replace_match in H. assert (0 < zlen t) by (destruct t; [congruence|zl]).
  destruct b as [c p m lm ls le]. cbn in *. subst. revert H. exe. destruct lm; [congruence|]. unwrap. ifs. slices. ifs. discriminate.
Qed.
Lemma replace_region_fits b u t v r : ints_ok b -> region b u t v -> t <> [] ->
  forall w b', call E "replace-region" [VStr r] b = Done w b' -> fits (u ++ r ++ v).
Proof.
  intros Hi Hr Ht w b' H. destruct (Z_le_gt_dec (zlen (u ++ r ++ v)) max_alloc) as [L|L]; [exact L|exfalso].
  pose proof (region_bounds_spec b u t v Hr Hi) as B. destruct Hr as (Hc & _). destruct Hi as (Hf & _).
  rewrite call_replace_region in H. assert (0 < zlen t) by (destruct t; [congruence|zl]).
  destruct b as [c p m lm ls le]. cbn in *. subst. revert H.
  unfold b_replace_region, one_string, get_mark, get_point, get_content, bind. cbn [content mark point].
  rewrite B. replace (zlen t =? 0) with false by lia. exe. slices. ifs. discriminate.
Qed.
Lemma step_edit n vs b v b' m k : In n ["insert"; "kill-word"; "delete-line"]%string ->
  Forall whole vs -> call E n vs b = Done v b' -> on_chars m k b -> on_chars false false b'.
Proof.
  intros I Wv C O. pose proof O as (F & (u & w & Ec & U & W & Ep) & _).
  assert (F' := F). rewrite Ec in F'. unfold fits in F'. rewrite zlen_app in F'.
  destruct I as [<-|[<-|[<-|[]]]].
  - destruct (takes_string vs) as (s & ->); [eapply accepted; [| |exact C]; [sig|discriminate]|].
    assert (Us : utf8_text s) by (inversion Wv as [|? ? X _]; now apply X).
    destruct (Z_le_gt_dec (zlen (u ++ s ++ w)) max_alloc) as [L|L].
    + rewrite (insert_splices E b s u w) in C; auto; [|now split]. injection C as _ <-. apply (on_edited m k); auto.
      apply (pos_at _ (u ++ s) w); [now rewrite <- app_assoc|rewrite Ep; zl|now apply text_app|auto].
    + rewrite (insert_too_long E b s u w) in C; [discriminate|now split|auto|unfold fits; lia].
  - destruct (takes_count E vs) as (c & A); [eapply accepted; [| |exact C]; [sig|discriminate]|].
    destruct (passes_words_total (Z.to_nat c) w) as (mv & r & P). rewrite (kill_word_kills E b vs c u w mv r) in C; auto; [|now split].
    injection C as _ <-. pose proof (passes_words_app _ _ _ _ P) as Ew. subst w.
    destruct (moved_cut mv r W (passes_words_end _ _ _ _ P)) as [X1 X2]. apply (on_edited m k); auto; [unfold fits; zl|].
    now apply (pos_at _ u r).
  - destruct (takes_count E vs) as (c & A); [eapply accepted; [| |exact C]; [sig|discriminate]|].
    destruct (last_newline u) as (a & l & -> & WL & NL). destruct (passes_lines_total (Z.to_nat c) w) as (mv & r & P).
    rewrite (delete_line_deletes E b vs c a l w mv r) in C; auto; [|now split]. injection C as _ <-.
    destruct (lines_cut a l U WL) as [Y1 Y2]. pose proof (passes_lines_app _ _ _ _ P) as Ew. subst w.
    destruct (moved_cut mv r W (passes_lines_end _ _ _ _ P)) as [X1 X2]. apply (on_edited m k); auto; [unfold fits; zl|].
    now apply (pos_at _ a r).
Qed.
Lemma step_replace vs b v b' k : Forall whole vs -> call E "replace-match" vs b = Done v b' -> on_chars true k b -> on_chars false false b'.
Proof.
  intros Wv C O. destruct (takes_string vs) as (s & ->); [eapply accepted; [| |exact C]; [sig|discriminate]|].
  assert (Us : utf8_text s) by (inversion Wv as [|? ? X _]; now apply X).
  pose proof O as (F & _ & _ & M & _). destruct (last_match b) as [|x y] eqn:Lm.
  { rewrite replace_match_without_match in C by auto. discriminate. }
  assert (NL : last_match b <> []) by (rewrite Lm; discriminate). destruct M as [M|[M1 M2]]; [auto|discriminate|].
  destruct (Z_lt_le_dec (last_start b) (last_end b)) as [L|L].
  - destruct (pos_between _ _ _ M1 M2) as (u & t & w & Ec & U & T & W & E1 & E2); [lia|].
    assert (Tn : t <> []) by (intros ->; rewrite E1, E2 in L; unfold zlen in L; cbn in L; lia).
    pose proof (replace_match_fits b u t w s Ec Tn NL E1 E2 F v b' C) as Fr.
    rewrite (replace_match_replaces E b u t w s) in C; auto. injection C as _ <-. apply (on_edited true k); auto.
    apply (pos_at _ (u ++ s) w); [now rewrite <- app_assoc|zl|now apply text_app|auto].
  - exfalso. pose proof (fits_int _ _ F M1) as I1. pose proof (fits_int _ _ F M2) as I2. apply pos_valid in M1, M2. unfold valid_pos in M1, M2.
    rewrite call_replace_match in C. destruct b as [c p mk lm ls le]. cbn in *. revert C. exe. destruct lm; [congruence|]. unwrap. ifs. discriminate.
Qed.
Lemma step_region n vs b v b' m : In n ["delete-region"; "replace-region"]%string -> Forall whole vs ->
  call E n vs b = Done v b' -> on_chars m true b -> on_chars false false b'.
Proof.
  intros I Wv C O. pose proof O as (F & P & _ & _ & K). specialize (K eq_refl).
  assert (X : exists u t w, region b u t w /\ utf8_text u /\ utf8_text t /\ utf8_text w).
  { pose proof (pos_valid _ _ P) as V1. pose proof (pos_valid _ _ K) as V2. unfold valid_pos in V1, V2.
    destruct (Z_le_gt_dec (mark b) (point b)) as [L|L].
    - destruct (pos_between _ _ _ K P L) as (u & t & w & Ec & U & T & W & E1 & E2). exists u, t, w. split; auto. unfold region, clamp. split; auto. lia.
    - destruct (pos_between _ _ _ P K) as (u & t & w & Ec & U & T & W & E1 & E2); [lia|]. exists u, t, w. split; auto. unfold region, clamp. split; auto. lia. }
  destruct X as (u & t & w & R & U & T & W).
  assert (J : ints_ok b).
  { apply pos_valid in P, K. unfold valid_pos in P, K. unfold ints_ok, fits in *. ints. lia. }
  assert (F' := F). destruct R as (Ec & R1 & R2). rewrite Ec in F'. unfold fits in F'. rewrite !zlen_app in F'. assert (R : region b u t w) by (now split).
  destruct I as [<-|[<-|[]]].
  - assert (vs = []) as -> by (apply takes_none; eapply accepted; [| |exact C]; [sig|discriminate]).
    rewrite (delete_region_deletes E b u t w) in C by auto. injection C as _ <-. destruct t as [|x t']; [now apply (on_forget m true)|].
    apply (on_edited m true); auto; [unfold fits; zl|]. now apply (pos_at _ u w).
  - destruct (takes_string vs) as (s & ->); [eapply accepted; [| |exact C]; [sig|discriminate]|].
    assert (Us : utf8_text s) by (inversion Wv as [|? ? X _]; now apply X).
    destruct t as [|x t'].
    + destruct (Z_le_gt_dec (zlen (u ++ s ++ w)) max_alloc) as [L|L].
      * rewrite (replace_region_replaces E b u [] w s) in C by auto. injection C as _ <-. now apply (on_forget m true).
      * assert (b' = b) as ->; [|now apply (on_forget m true)].
        pose proof (region_bounds_spec b u [] w R J) as B. rewrite call_replace_region in C. destruct b as [c p mk lm ls le]. cbn in *. revert C.
        unfold b_replace_region, one_string, get_mark, get_point, get_content, bind. cbn [content mark point]. rewrite B. intros C. now injection C as _ <-.
    + pose proof (replace_region_fits b u (x :: t') w s J R ltac:(discriminate) v b' C) as Fr.
      rewrite (replace_region_replaces E b u (x :: t') w s) in C by auto. injection C as _ <-. apply (on_edited m true); auto.
      apply (pos_at _ (u ++ s) w); [now rewrite <- app_assoc|zl|now apply text_app|auto].
Qed.
End Steps.

(** one instruction *)
Definition kept (m k : bool) (b : buffer) (o : outcome value) : Prop :=
  match o with
  | Done _ b' => on_chars m k b'
  | Fail _ b' => b' = b
  | OutOfMemory => True
  | Panic | Diverge => False
  end.
Lemma kept_call E n args m k m' k' b : ext_ok E -> on_chars m k b -> Forall plain args ->
  In n (queries ++ motions ++ searches ++ mark_setters ++ editors) -> (forall vs, ~ risky E n vs b) ->
  (forall vs v b', Forall whole vs -> call E n vs b = Done v b' -> on_chars m' k' b') ->
  kept m' k' b (eval_expr E (default_env E) (VList (VSym (bs n) :: args)) b).
Proof.
  intros HE O A I R H. rewrite eval_call, (call_env E n) by auto. pose proof (on_good _ _ _ O) as G.
  assert (L : same b (eval_list E (default_env E) args b) (Forall whole)).
  { apply plain_list; auto. apply Forall_impl with (2 := A). intros e P b' G'. now apply plain_eval. }
  unfold bind. destruct (eval_list E (default_env E) args b) as [vs b'| | | |]; cbn [same] in *; auto. destruct L as [-> W].
  pose proof (calls_are_safe E n vs b HE G (R vs)) as S. destruct (call E n vs b) as [v b'| | | |] eqn:C; cbn [kept]; auto.
  eapply H; eauto.
Qed.
Lemma apart (l l' : list String.string) n : forallb (fun x => negb (existsb (String.eqb x) l')) l = true -> In n l -> ~ In n l'.
Proof.
  intros H I J. rewrite forallb_forall in H. specialize (H n I). apply negb_true_iff in H.
  assert (existsb (String.eqb n) l' = true) by (apply existsb_exists; exists n; split; auto; apply String.eqb_refl). congruence.
Qed.
Lemma within (l l' : list String.string) n : forallb (fun x => existsb (String.eqb x) l') l = true -> In n l -> In n l'.
Proof.
  intros H I. rewrite forallb_forall in H. specialize (H n I). apply existsb_exists in H as (y & J & X). apply String.eqb_eq in X. now subst y.
Qed.
Lemma kept_step E m k i m' k' b : ext_ok E -> matches_characters E -> careful_step m k i m' k' -> on_chars m k b ->
  kept m' k' b (eval_expr E (default_env E) i b).
Proof.
  intros HE HM S O.
  inversion S as [? ? ? P|? ? n args I A|? ? n args I A|? ? n args I A|? args A|? ? n args I A|? args A|? n args I A]; subst.
  - pose proof (plain_eval E i HE P b (on_good _ _ _ O)) as X. destruct (eval_expr E (default_env E) i b); cbn in *; auto. now destruct X as [-> _].
  - apply (kept_call E n args m' k'); auto; [revert I; now apply within|intros vs; apply not_risky; revert I; now apply apart|].
    intros vs v b' _ C. apply (step_move E n vs b v b'); auto.
  - apply (kept_call E n args m k'); auto; [revert I; now apply within|intros vs; apply not_risky; revert I; now apply apart|].
    intros vs v b' W C. apply (step_search E HE HM n vs b v b' m); auto.
  - apply (kept_call E n args m' k); auto; [revert I; now apply within|intros vs; apply not_risky; revert I; now apply apart|].
    intros vs v b' W C. apply (step_mark E n vs b v b' m' k); auto.
  - apply (kept_call E "exchange-point-and-mark"%string args m' true); auto; [cbn; tauto| |].
    + intros vs X. pose proof O as (_ & _ & _ & _ & K). specialize (K eq_refl). apply pos_valid in K.
      destruct X as [(? & _)|[(_ & X)|[(? & _)|(? & _)]]]; try discriminate. tauto.
    + intros vs v b' W C. apply (step_swap E vs b v b'); auto.
  - apply (kept_call E n args m k); auto; [revert I; now apply within|intros vs; apply not_risky; revert I; now apply apart|].
    intros vs v b' W C. apply (step_edit E n vs b v b' m k); auto.
  - apply (kept_call E "replace-match"%string args true k); auto; [cbn; tauto|intros vs; apply not_risky; apply (apart ["replace-match"%string]); [reflexivity|now left]|].
    intros vs v b' W C. apply (step_replace E vs b v b' k); auto.
  - apply (kept_call E n args m true); auto; [revert I; now apply within|intros vs; apply not_risky; revert I; now apply apart|].
    intros vs v b' W C. apply (step_region E n vs b v b' m); auto.
Qed.

Definition kept_result (r : eval_result) : Prop :=
  match r with
  | EvDone _ b' | EvError _ b' => utf8_text (content b') /\ char_pos (content b') (point b')
  | EvOutOfMemory => True
  | EvPanic | EvDiverge => False
  end.
Lemma pos_whole s p : char_pos s p -> utf8_text s.
Proof. intros (u & v & -> & U & V & _). now apply text_app. Qed.
Lemma on_kept m k b : on_chars m k b -> utf8_text (content b) /\ char_pos (content b) (point b).
Proof. intros (_ & P & _). split; auto. eapply pos_whole; eauto. Qed.
Lemma kept_from E prog m k p : ext_ok E -> matches_characters E -> careful m k p -> forall r i b, on_chars m k b ->
  kept_result (fst (eval_from E (default_env E) (@None (@callback unit)) prog i p r tt b)).
Proof.
  intros HE HM. induction 1 as [m k|m k e m' k' p S C IH]; intros r i b O; cbn [eval_from fst]; [eapply on_kept; eauto|].
  pose proof (kept_step E m k e m' k' b HE HM S O) as K. destruct (eval_expr E (default_env E) e b); cbn [kept fst] in *; auto.
  subst. cbn [kept_result]. eapply on_kept; eauto.
Qed.

(** a careful program leaves well-formed text with point between two characters, and does
    not crash; whether it finishes or stops at an error *)
Theorem careful_programs_keep_characters E p text : ext_ok E -> matches_characters E ->
  careful true true p -> utf8_text text -> fits text ->
  match eval E (default_env E) p (new_buffer text) with
  | EvDone _ b' | EvError _ b' => utf8_text (content b') /\ char_pos (content b') (point b')
  | EvOutOfMemory => True
  | EvPanic | EvDiverge => False
  end.
Proof.
  intros HE HM C U F.
  assert (O : on_chars true true (new_buffer text)).
  { assert (char_pos text 1) by (apply (pos_at _ [] text); auto; apply text_nil). split; [|split; [|split; [|split]]]; cbn; auto.
    vm_compute; split; discriminate. }
  apply (kept_from E p true true p HE HM C (VStr []) 0 _ O).
Qed.

(** an engine that matches whole characters: any engine, with the matches that end inside a
    character dropped *)
Definition at_char (s : str) (i : Z) : bool :=
  match skipn (Z.to_nat i) s with [] => true | c :: _ => negb (cont c) end.
Definition by_characters (E : Ext) : Ext :=
  let all p s := filter (fun m => at_char s (fst m) && at_char s (snd m)) (re_find_all E p s) in
  {| re_error := re_error E; re_find := fun p s => hd_error (all p s); re_find_all := all; re_replace_all := re_replace_all E;
     uc_upper := uc_upper E; uc_lower := uc_lower E; uc_print := uc_print E; f2i_oob := f2i_oob E |}.
Lemma at_char_pos s i : utf8_text s -> 0 <= i <= zlen s -> at_char s i = true -> char_pos s (i + 1).
Proof.
  intros U B A. assert (X : s = firstn (Z.to_nat i) s ++ skipn (Z.to_nat i) s) by (symmetry; apply firstn_skipn).
  rewrite X in U. destruct (cut _ _ U) as [U1 U2].
  - intros c t E. unfold at_char in A. rewrite E in A. now apply negb_true_iff in A.
  - apply (pos_at _ _ _ _ X); auto. unfold zlen in *. rewrite firstn_length. lia.
Qed.
Lemma by_characters_matches E : ext_ok E -> matches_characters (by_characters E).
Proof.
  intros HE p s U.
  assert (H : forall i j, In (i, j) (re_find_all (by_characters E) p s) -> char_pos s (i + 1) /\ char_pos s (j + 1)).
  { intros i j I. apply filter_In in I as [I A]. apply andb_true_iff in A as [A1 A2]. apply (ok_find_all E HE) in I. unfold match_ok in I. cbn [fst snd] in *.
    split; apply at_char_pos; auto; lia. }
  split; auto. intros i j F. apply H. cbn [re_find by_characters] in F. cbn [re_find_all by_characters].
  destruct (filter _ _) as [|x l]; [discriminate|]. injection F as ->. now left.
Qed.
Lemma by_characters_ok E : ext_ok E -> ext_ok (by_characters E).
Proof.
  intros HE. assert (H : forall p s m, In m (re_find_all (by_characters E) p s) -> match_ok s m).
  { intros p s m I. apply filter_In in I as [I _]. eapply ok_find_all; eauto. }
  split; auto; intros p s.
  - intros m F. apply (H p). cbn [re_find re_find_all by_characters] in *. destruct (filter _ _); [discriminate|]. injection F as ->. now left.
  - cbn [re_find re_find_all by_characters]. destruct (filter _ _); [tauto|split; discriminate].
  - intros m F. cbn [re_find re_find_all by_characters] in *. destruct (filter _ _) as [|x l]; [discriminate|]. injection F as ->. eauto.
Qed.

Definition cmd (n : String.string) (args : list value) : value := VList (VSym (bs n) :: args).
Arguments cmd n%string_scope args.
Definition e_acute : str := encode_rune 233%N.
Definition menu : str := bs "th" ++ e_acute ++ bs " vert, caf" ++ e_acute ++ bs " noir".
Definition order : list value :=
  [cmd "search-forward" [VStr e_acute]; cmd "replace-match" [VStr (bs "e")];
   cmd "re-search-forward" [VStr (bs "caf" ++ e_acute)]; cmd "replace-match" [VStr (encode_rune 9749%N)];
   cmd "backward-word" [VNum (f_of_Z 1)]; cmd "set-mark" []; cmd "end-of-line" []; cmd "replace-region" [cmd "upcase" [cmd "concat" [VStr e_acute; VStr (bs "x")]]]].
Lemma text_ascii (t : String.string) : forallb (fun c => N.ltb (byteN c) 128) (bs t) = true -> utf8_text (bs t).
Proof.
  intros H. rewrite forallb_forall in H. revert H. induction (bs t) as [|c s IH]; intros H; [apply text_nil|].
  apply (text_app [c]); [|apply IH; intros x I; apply H; now right]. rewrite <- encode_byte; [apply text_rune|]. apply N.ltb_lt, H. now left.
Qed.
Example menu_ordered :
  careful true true order /\ utf8_text menu /\
  match eval (by_characters ref_ext) (default_env (by_characters ref_ext)) order (new_buffer menu) with
  | EvDone _ b => content b = bs "the " ++ e_acute ++ bs "X"
  | _ => False
  end.
Proof.
  split; [|split].
  - assert (P : forall n, plain (VStr (encode_rune n))) by (intros n; constructor; apply text_rune).
    assert (P' : plain (VStr e_acute)) by apply P.
    unfold order, cmd. eapply careful_cons; [apply st_search; [cbn; tauto|auto]|].
    eapply careful_cons; [apply st_replace; constructor; [|auto]; constructor; now apply text_ascii|].
    eapply careful_cons; [apply st_search; [cbn; tauto|]; constructor; [|auto]; constructor; apply text_app; [now apply text_ascii|apply text_rune]|].
    eapply careful_cons; [apply st_replace; auto|].
    eapply careful_cons; [apply st_move; [cbn; tauto|]; constructor; [|auto]; constructor|].
    eapply careful_cons; [apply st_mark; [cbn; tauto|auto]|].
    eapply careful_cons; [apply st_move; [cbn; tauto|auto]|].
    eapply careful_cons; [apply st_region; [cbn; tauto|]|apply careful_nil].
    constructor; [|auto]. apply plain_query; [cbn; tauto|apply (apart ["upcase"%string]); [reflexivity|now left]|].
    constructor; [|auto]. apply plain_query; [cbn; tauto|apply (apart ["concat"%string]); [reflexivity|now left]|].
    constructor; [apply P|]. constructor; [|auto]. constructor. now apply text_ascii.
  - repeat apply text_app; try apply text_rune; now apply text_ascii.
  - vm_compute. reflexivity.
Qed.

(** each of the commands and uses left out can cut a character *)
Definition cuts_a_character (p : list value) (text : str) : Prop :=
  utf8_text text /\ forall E, match eval E (default_env E) p (new_buffer text) with EvDone _ b => ~ utf8_text (content b) | _ => False end.
Lemma not_text s : existsb r_bad (runes s) = true -> ~ utf8_text s.
Proof.
  intros H (rs & V & ->). pose proof (runes_utf8 rs [] V) as R. rewrite runes_nil, !app_nil_r in R. unfold utf8 in R. rewrite R in H.
  apply existsb_exists in H as (x & I & B). apply in_map_iff in I as (r & <- & _). discriminate.
Qed.
Definition left_over (p : list value) (text : str) : str :=
  match eval ref_ext (default_env ref_ext) p (new_buffer text) with EvDone _ b => content b | _ => [] end.
Lemma cuts p text : utf8_text text -> existsb r_bad (runes (left_over p text)) = true ->
  (forall E, match eval E (default_env E) p (new_buffer text) with EvDone _ b => content b = left_over p text | _ => False end) -> cuts_a_character p text.
Proof.
  intros U B H. split; auto. intros E. specialize (H E). destruct (eval E (default_env E) p (new_buffer text)); auto. rewrite H. now apply not_text.
Qed.
Theorem other_commands_keep_characters_refuted :
  cuts_a_character [cmd "delete-char" []] e_acute /\
  cuts_a_character [cmd "forward-char" []; cmd "insert" [VStr (bs "x")]] e_acute /\
  cuts_a_character [cmd "end-of-buffer" []; cmd "backward-char" []; cmd "insert" [VStr (bs "x")]] e_acute /\
  cuts_a_character [cmd "goto-char" [VInt 2]; cmd "insert" [VStr (bs "x")]] e_acute /\
  cuts_a_character [cmd "beginning-of-line" []; cmd "insert" [VStr e_acute]; cmd "insert" [VStr (bs "x")]] [] /\
  cuts_a_character [cmd "kill-line" []] e_acute /\
  cuts_a_character [cmd "backward-kill-word" []] e_acute /\
  cuts_a_character [cmd "insert" [cmd "buffer-substring" [VInt 1; VInt 2]]] e_acute /\
  cuts_a_character [cmd "insert" [cmd "substring" [VStr e_acute; VInt 1; VInt 2]]] [].
Proof.
  assert (U : utf8_text e_acute) by apply text_rune. assert (N : utf8_text []) by apply text_nil.
  repeat match goal with |- _ /\ _ => split end; (apply cuts; [assumption|vm_compute; reflexivity|intros E; vm_compute; reflexivity]).
Qed.
(** the last match, and the mark, used after the text has changed *)
Theorem stale_positions_keep_characters_refuted :
  cuts_a_character [cmd "search-forward" [VStr e_acute]; cmd "beginning-of-buffer" []; cmd "insert" [VStr (bs "x")]; cmd "replace-match" [VStr (bs "y")]] (bs "a" ++ e_acute) /\
  cuts_a_character [cmd "end-of-buffer" []; cmd "set-mark" []; cmd "beginning-of-buffer" []; cmd "insert" [VStr (bs "x")]; cmd "delete-region" []] (bs "a" ++ e_acute) /\
  cuts_a_character [cmd "end-of-buffer" []; cmd "set-mark" []; cmd "beginning-of-buffer" []; cmd "insert" [VStr (bs "x")];
                    cmd "exchange-point-and-mark" []; cmd "insert" [VStr (bs "y")]] (bs "a" ++ e_acute).
Proof.
  assert (U : utf8_text (bs "a" ++ e_acute)) by (apply text_app; [now apply text_ascii|apply text_rune]).
  repeat match goal with |- _ /\ _ => split end; (apply cuts; [assumption|vm_compute; reflexivity|intros E; vm_compute; reflexivity]).
Qed.

(** ** Assumptions of every theorem above *)
Print Assumptions careful_programs_keep_characters.
Print Assumptions other_commands_keep_characters_refuted.
Print Assumptions stale_positions_keep_characters_refuted.
