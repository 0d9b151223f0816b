(** Writing a value and parsing it again; script lines. *)
From Coq Require Import ZArith NArith List Bool Lia ZifyBool ZifyN ZifyNat Strings.Byte.
From Verif Require Import Base Float Ext Utf8 Strconv Values Buffer Spec Parser Writer SpecText
  Proofs_Base Proofs_Utf8 Proofs_Float Proofs_Number Proofs_Token.
Import ListNotations.
Open Scope Z_scope.

(** induction on writable values *)
Lemma writable_list l : writable (VList l) <-> Forall writable l.
Proof.
  unfold writable. cbn [all_atoms]. induction l as [|x l IH]; [split; [constructor|auto]|]. split.
  - intros [A B]. constructor; auto. now apply IH.
  - intros H. inversion H; subst. split; auto. now apply IH.
Qed.

Definition is_atom (v : value) : Prop := match v with VList _ => False | _ => True end.

Lemma symbol_plain r : symbol_rune r -> plain_rune r.
Proof. intros (V & N & S). unfold plain_rune. cbn in N. repeat split; auto; intros ->; tauto. Qed.
Lemma symbol_atom n : token_symbol n -> atom_text n /\ parse_token n = POk (VSym n).
Proof.
  intros (rs & Ne & F & -> & P). assert (P' : Forall plain_rune rs) by (eapply Forall_impl; [|exact F]; apply symbol_plain).
  split; [now apply plain_runes_atom|]. unfold parse_token. fold (utf8 rs) in *.
  destruct (has_prefix (utf8 rs) (bs """")) eqn:X; [|cbn [andb]; now rewrite P].
  exfalso. apply has_prefix_iff in X as [v X].
  assert (V : Forall valid rs) by (eapply Forall_impl; [|exact F]; now intros r (? & _)).
  destruct (utf8_bytes rs """"%byte V) as [I|I]; [rewrite X; now left| |cbn in I; lia].
  rewrite Forall_forall in F. apply F in I as (_ & I & _). apply I. now left.
Qed.
Lemma atom_shown E v : writable v -> is_atom v -> atom_text (show E v) /\ parse_token (show E v) = POk v.
Proof.
  destruct v as [n|s|f|l]; intros W A; cbn [show].
  - now apply symbol_atom.
  - split; [apply quote_atom|apply parse_token_quote].
  - split; [apply num_plain, num_string_num; auto|now apply num_token].
  - destruct A.
Qed.

(** ** Tokens of a written value *)
Fixpoint toks (E : Ext) (v : value) : list str :=
  match v with
  | VList l => tok_open :: flat_map (toks E) l ++ [tok_close]
  | _ => [show E v]
  end.
Lemma toks_ne E v : (1 <= length (toks E v))%nat.
Proof. destruct v; cbn; lia. Qed.

(** where a token may end: at the end, a blank or a parenthesis *)
Definition ends_token (l : list rune) : Prop :=
  match l with [] => True | r :: _ => is_blank r = true \/ r = 40%N \/ r = 41%N end.
Definition pprepend (ts : list str) (r : presult (list str)) : presult (list str) :=
  pbind r (fun l => POk (ts ++ l)).
Lemma pprepend_app a b r : pprepend (a ++ b) r = pprepend a (pprepend b r).
Proof. destruct r; cbn; auto. now rewrite app_assoc. Qed.
Lemma pcons_prepend t r : pcons t r = pprepend [t] r.
Proof. reflexivity. Qed.
Lemma pprepend_nil r : pprepend [] r = r.
Proof. destruct r; reflexivity. Qed.

Lemma token_ends a l : a <> [] -> ends_token l ->
  tokenize_from a false false l = pprepend [a] (tokenize_from [] false false l).
Proof.
  intros N H. assert (F : forall r, pflush a r = pprepend [a] r) by (intros r; destruct a; [congruence|reflexivity]).
  destruct l as [|r l]; cbn [tokenize_from].
  - destruct a; [congruence|reflexivity].
  - destruct (r =? rn_backslash)%N eqn:B; [exfalso; unfold rn_backslash in B; destruct H as [H|H]; [unfold is_blank in H; lia|lia]|].
    destruct (r =? rn_quote)%N eqn:Q; [exfalso; unfold rn_quote in Q; destruct H as [H|H]; [unfold is_blank in H; lia|lia]|].
    destruct ((r =? rn_open) || (r =? rn_close))%N eqn:P.
    + now rewrite F.
    + destruct H as [H|H]; [|unfold rn_open, rn_close in P; lia]. now rewrite H, F.
Qed.
Lemma tokenize_atom a l : atom_text a -> ends_token l ->
  tokenize_from [] false false (rune_list a ++ l) = pprepend [a] (tokenize_from [] false false l).
Proof. intros A H. rewrite (at_tok a A). cbn [app]. apply token_ends; auto. apply A. Qed.

Lemma tokenize_open l : tokenize_from [] false false (40%N :: l) = pprepend [tok_open] (tokenize_from [] false false l).
Proof. reflexivity. Qed.
Lemma tokenize_close l : tokenize_from [] false false (41%N :: l) = pprepend [tok_close] (tokenize_from [] false false l).
Proof. reflexivity. Qed.
Lemma tokenize_space l : tokenize_from [] false false (32%N :: l) = tokenize_from [] false false l.
Proof. reflexivity. Qed.

(** facts about the text of any writable value *)
Record value_text (E : Ext) (v : value) : Prop := {
  vt_wf : wf8 (show E v);
  vt_tok : forall l, ends_token l ->
    tokenize_from [] false false (rune_list (show E v) ++ l) = pprepend (toks E v) (tokenize_from [] false false l);
  vt_semi : semi_pass false (show E v);
  vt_nl : ~ In nl (show E v);
  vt_edge : edge_ok (show E v)
}.
Lemma semi_ascii c : (byteN c < 128)%N -> c <> """"%byte -> c <> ";"%byte -> semi_pass false [c].
Proof.
  intros H A B. rewrite <- (encode_byte c H). apply plain_semi; [now apply valid_ascii|..]; intros X.
  - apply A. now apply byteN_inj. - apply B. now apply byteN_inj.
Qed.

Lemma join_cons sep a l : l <> [] -> join sep (a :: l) = a ++ sep ++ join sep l.
Proof. destruct l; [congruence|reflexivity]. Qed.

Definition sp : str := [" "%byte].
(** a sequence of values separated by single blanks *)
Lemma joined E l : Forall (value_text E) l ->
  wf8 (join sp (map (show E) l)) /\ semi_pass false (join sp (map (show E) l)) /\ ~ In nl (join sp (map (show E) l)) /\
  (l <> [] -> edge_ok (join sp (map (show E) l))) /\
  forall r, ends_token r -> tokenize_from [] false false (rune_list (join sp (map (show E) l)) ++ r)
    = pprepend (flat_map (toks E) l) (tokenize_from [] false false r).
Proof.
  assert (Wsp : wf8 sp) by (apply wf8_byte; cbn; lia).
  intros H. induction H as [|v l V _ (W & S & N & Ed & T)].
  - split; [apply wf8_nil|]. split; [apply semi_pass_nil|]. split; [auto|]. split; [congruence|].
    intros r _. cbn. now rewrite pprepend_nil.
  - destruct l as [|v' l'].
    + cbn [map join flat_map]. rewrite app_nil_r. split; [apply V|]. split; [apply V|]. split; [apply V|]. split; [intros _; apply V|apply V].
    + cbn [map flat_map] in *. set (m := show E v' :: map (show E) l') in *.
      assert (Nm : m <> []) by discriminate.
      rewrite join_cons by auto. split; [|split; [|split; [|split]]].
      * repeat apply wf8_app; auto. apply V.
      * apply semi_pass_app; [apply V|apply V|]. apply semi_pass_app; auto. apply semi_ascii; try discriminate. cbn. lia.
      * intros I. apply in_app_or in I as [I|I]; [now apply (vt_nl E v V)|].
        apply in_app_or in I as [[I|[]]|I]; [discriminate|auto].
      * intros _. apply edge_cons; [apply V| |apply V|apply Ed; discriminate]. apply wf8_app; auto. apply V.
      * intros r Hr. rewrite rune_list_app, rune_list_app by (auto; apply V). rewrite <- !app_assoc.
        rewrite (vt_tok E v V) by (left; reflexivity). change (rune_list sp) with [32%N]. cbn [app].
        rewrite tokenize_space, T by auto. now rewrite (pprepend_app (toks E v)).
Qed.
Lemma show_list E l : show E (VList l) = "("%byte :: join sp (map (show E) l) ++ [")"%byte].
Proof. destruct l; reflexivity. Qed.

Lemma value_shown E v : writable v -> value_text E v.
Proof.
  induction v as [n|s|f|l IH] using value_ind'; intros W.
  1-3: destruct (atom_shown E _ W I) as [A _]; split; try apply A; intros r Hr; now apply tokenize_atom.
  apply writable_list in W. assert (F : Forall (value_text E) l).
  { rewrite Forall_forall in *. intros x Hx. apply IH; auto. }
  destruct (joined E l F) as (Wf & S & N & Ed & T).
  assert (Wo : wf8 ["("%byte]) by (apply wf8_byte; cbn; lia). assert (Wc : wf8 [")"%byte]) by (apply wf8_byte; cbn; lia).

  assert (Q : show E (VList l) = ["("%byte] ++ join sp (map (show E) l) ++ [")"%byte]) by apply show_list.
  split; rewrite Q.
  - repeat apply wf8_app; auto.
  - intros r Hr. rewrite !rune_list_app by auto. rewrite <- !app_assoc. change (rune_list ["("%byte]) with [40%N].
    change (rune_list [")"%byte]) with [41%N]. cbn [app]. rewrite tokenize_open, T by (right; now right).
    rewrite tokenize_close. rewrite <- !pprepend_app. reflexivity.
  - repeat apply semi_pass_app; auto; apply semi_ascii; try discriminate; cbn; lia.
  - intros I. apply in_app_or in I as [[I|[]]|I]; [discriminate|].
    apply in_app_or in I as [I|[I|[]]]; [auto|discriminate].
  - apply edge_cons; auto using wf8_app; apply edge_byte; try reflexivity; cbn; lia.
Qed.

(** ** Parsing the tokens back *)
Lemma parse_toks E v : writable v -> forall fuel rest, (2 * length (toks E v) <= fuel)%nat ->
  parse_tokens fuel (toks E v ++ rest) = POk (v, rest).
Proof.
  induction v as [n|s|f|l IH] using value_ind'; intros W fuel rest L.
  1-3: destruct (atom_shown E _ W I) as [A P]; destruct fuel as [|fuel]; [cbn in L; lia|];
    cbn [toks app parse_tokens]; rewrite (proj2 (str_eqb_neq _ _) (at_open _ A)), (proj2 (str_eqb_neq _ _) (at_close _ A)), P; reflexivity.
  apply writable_list in W. cbn [toks length] in L. rewrite app_length in L. cbn [length] in L.
  destruct fuel as [|fuel]; [lia|]. cbn [toks app parse_tokens]. change (str_eqb tok_open tok_open) with true. cbv iota.
  rewrite <- app_assoc. cbn [app].
  assert (G : forall acc fuel, (1 + 2 * length (flat_map (toks E) l) <= fuel)%nat ->
    parse_list fuel acc (flat_map (toks E) l ++ tok_close :: rest) = POk (VList (rev acc ++ l), rest)).
  { clear L fuel. induction l as [|x l IHl]; intros acc fuel L.
    - destruct fuel as [|fuel]; [lia|]. cbn. now rewrite app_nil_r.
    - inversion IH as [|? ? Hx Hl]; subst. inversion W as [|? ? Wx Wl]; subst.
      destruct fuel as [|fuel]; [lia|]. cbn [flat_map] in *. rewrite app_length in L. pose proof (toks_ne E x).
      rewrite <- app_assoc. set (R := flat_map (toks E) l ++ tok_close :: rest).
      assert (exists t u, toks E x = t :: u /\ t <> tok_close) as (t & u & Et & Hc).
      { destruct x as [n|s|f|m]; try (destruct (atom_shown E _ Wx I) as [A _]; eexists _, []; split; [reflexivity|apply A]).
        eexists _, _. split; [reflexivity|discriminate]. }
      replace (parse_list (S fuel) acc (toks E x ++ R)) with
        (match parse_tokens fuel (toks E x ++ R) with
         | POk (v, toks') => parse_list fuel (v :: acc) toks'
         | PErr e => PErr e | PFuel => PFuel end)
        by (rewrite Et; cbn [app parse_list]; rewrite (proj2 (str_eqb_neq _ _) Hc); reflexivity).
      rewrite Hx by (auto; lia). unfold R. rewrite IHl by (auto; lia). cbn [rev]. now rewrite <- app_assoc. }
  rewrite G by lia. reflexivity.
Qed.

(** ** Lines *)
Lemma split_byte_app c a b : ~ In c a -> split_byte c (a ++ c :: b) = a :: split_byte c b.
Proof.
  induction a as [|x a IH]; intros H; cbn [app split_byte].
  - now rewrite byte_eqb_refl.
  - cbn in H. replace (Byte.eqb x c) with false by (symmetry; apply byte_eqb_neq; tauto).
    rewrite IH by tauto. reflexivity.
Qed.
Lemma split_byte_ne c s : split_byte c s <> [].
Proof. destruct s as [|x s]; cbn; [discriminate|]. destruct (Byte.eqb x c); [discriminate|]. now destruct (split_byte c s). Qed.
Lemma split_byte_none c s : ~ In c s -> split_byte c s = [s].
Proof.
  induction s as [|x s IH]; intros H; [reflexivity|]. cbn in *. replace (Byte.eqb x c) with false by (symmetry; apply byte_eqb_neq; tauto).
  now rewrite IH by tauto.
Qed.
Definition unlines (ls : list str) : str := flat_map (fun l => l ++ [nl]) ls.
Lemma raw_lines_cons l s : ~ In nl l -> raw_lines (l ++ nl :: s) = l :: raw_lines s.
Proof.
  intros H. unfold raw_lines. rewrite split_byte_app by auto. cbn. pose proof (split_byte_ne nl s).
  destruct (split_byte nl s); [congruence|reflexivity].
Qed.
Lemma raw_lines_unlines ls : Forall (fun l => ~ In nl l) ls -> raw_lines (unlines ls) = ls.
Proof.
  intros H. induction H as [|l ls Hl _ IH]; [reflexivity|]. cbn [unlines flat_map]. fold (unlines ls).
  rewrite <- app_assoc. cbn [app]. rewrite raw_lines_cons by auto. now rewrite IH.
Qed.

Lemma drop_cr_edge s : wf8 s -> edge_ok s -> drop_cr s = s.
Proof.
  intros W [_ (r & l & R & S)]. unfold drop_cr. destruct (rev s) as [|c t] eqn:E; [reflexivity|].
  destruct (Byte.eqb c x0d) eqn:C; [|reflexivity]. exfalso. apply byte_eqb_eq in C. subst c.
  assert (Es : s = rev t ++ [x0d]) by (rewrite <- (rev_involutive s), E; reflexivity).
  destruct W as (rs & V & ->). rewrite rune_list_utf8 in R by auto. subst rs.
  rewrite utf8_app in Es. cbn [utf8 flat_map] in Es. rewrite app_nil_r in Es.
  apply Forall_app in V as [_ V]. inversion V as [|? ? Vr _]; subst.
  assert (I : In x0d (encode_rune r)).
  { destruct (@exists_last _ (encode_rune r) (encode_nonempty r)) as (a & b & Eab). rewrite Eab in *.
    rewrite app_assoc in Es. apply app_inj_tail in Es as [_ ->]. apply in_or_app. right. now left. }
  destruct (encode_bytes r x0d Vr I) as [[K _]|K]; cbn in K; [|lia]. subst r. discriminate S.
Qed.
Lemma split_semi_one s : s <> [] -> semi_pass false s -> split_semi s = [s].
Proof.
  intros N S. unfold split_semi. rewrite <- (app_nil_r (rune_list s)), (S [] []). cbn. destruct s; [congruence|reflexivity].
Qed.
Lemma edge_ne s : edge_ok s -> s <> [].
Proof. intros [(r & l & E & _) _] ->. discriminate. Qed.
(** a line that is a single command without surrounding white space *)
Lemma parse_single s : wf8 s -> semi_pass false s -> edge_ok s ->
  parse_physical_line (drop_cr s) = pbind (parse_line s) (fun v => POk [v]).
Proof.
  intros W S Ed. rewrite drop_cr_edge by auto. unfold parse_physical_line. rewrite trim_left_edge by auto.
  pose proof (edge_ne s Ed) as N. destruct s as [|c t] eqn:Es; [congruence|]. rewrite <- Es in *.
  rewrite split_semi_one by (auto; congruence). cbn [parse_commands]. rewrite trim_space_edge by auto.
  rewrite Es. destruct (parse_line (c :: t)) as [v|e|]; reflexivity.
Qed.

Lemma parse_line_list E l : writable (VList l) -> parse_line (show E (VList l)) = POk (VList l).
Proof.
  intros W. pose proof (value_shown E _ W) as V. unfold parse_line.
  replace (has_prefix (show E (VList l)) tok_open) with true.
  2:{ rewrite show_list. symmetry. apply has_prefix_one. }
  unfold parse_sexp_line, tokenize. rewrite <- (app_nil_r (rune_list _)), (vt_tok E _ V [] I).
  cbn [tokenize_from flush pprepend pbind]. rewrite app_nil_r. 
  rewrite <- (app_nil_r (toks E (VList l))) at 2. rewrite parse_toks; auto. unfold tok_fuel. lia.
Qed.

(** ** Whole programs *)
Lemma parse_lines_ok ls vs : Forall2 (fun l v => zlen l < max_line /\ parse_physical_line (drop_cr l) = POk [v]) ls vs ->
  parse_lines ls = POk vs.
Proof.
  intros H. induction H as [|l v ls vs (L & P) _ IH]; [reflexivity|]. cbn [parse_lines].
  replace (max_line <=? zlen l) with false by lia. rewrite P. cbn. now rewrite IH.
Qed.
