(** The reasons given for refusing a script, and SpecRefuse *)
From Coq Require Import ZArith NArith List Bool Lia ZifyBool ZifyN ZifyNat Strings.Byte.
From Verif Require Import Base Float Ext Utf8 Strconv Values Parser Spec SpecText SpecJson SpecLines SpecRefuse
  Proofs_Base Proofs_Utf8 Proofs_Number Proofs_Token Proofs_Script Proofs_Lines Proofs_Grammar Proofs_Words.
Import ListNotations.
Open Scope Z_scope.

(** ** Words *)
Lemma bad_word_iff t e : parse_token t = PErr e <-> bad_word t e.
Proof.
  unfold parse_token.
  assert (Dec : has_prefix t (bs """") && has_suffix t (bs """") = true <-> t = [dquote] \/ exists b, t = dquote :: b ++ [dquote]).
  { rewrite andb_true_iff, has_prefix_iff, has_suffix_iff. change (bs """") with [dquote]. split.
    - intros [[a ->] [b E]]. destruct b as [|x b]; [left; exact E|right]. injection E as -> ->. now exists b.
    - intros [->|[b ->]]; (split; [now eexists|]); [now exists []|now exists (dquote :: b)]. }
  destruct (has_prefix t (bs """") && has_suffix t (bs """")) eqn:P.
  - destruct (proj1 Dec eq_refl) as [->|[b ->]].
    + change (zlen [dquote] <? 2) with true. cbv iota. split; intros H; [injection H as <-; apply bw_lone|]. inversion H as [X|b N E X]; subst; [reflexivity|]. destruct b; discriminate.
    + replace (zlen _ <? 2) with false. 2:{ symmetry. apply Z.ltb_ge. rewrite zlen_cons, zlen_app, zlen_cons, zlen_nil. pose proof (zlen_nonneg b). lia. }
      change (unquote (dquote :: b ++ [dquote])) with (unquote_loop (S (length (b ++ [dquote]))) (b ++ [dquote])).
      split.
      * destruct (unquote_loop _ _) as [s|] eqn:U; [discriminate|]. intros H. injection H as <-. apply bw_literal. intros s L.
        rewrite (literal_complete b s L) in U; [discriminate|]. rewrite app_length. cbn. lia.
      * intros H. inversion H as [X|b' N X]; subst; [destruct b; discriminate|]. apply app_inj_tail in X as [-> _].
        destruct (unquote_loop _ _) as [s|] eqn:U; [|reflexivity]. apply literal_sound in U as (t & X & L). apply app_inj_tail in X as [-> _]. now apply N in L.
  - assert (N1 : t <> [dquote]) by (intros X; assert (false = true) by (apply Dec; auto); discriminate).
    assert (N2 : forall b, t <> dquote :: b ++ [dquote]) by (intros b X; assert (false = true) by (apply Dec; eauto); discriminate).
    split; [now destruct (parse_float t)|]. intros H. inversion H; subst; [congruence|exfalso; now eapply N2].
Qed.

(** ** Lists *)
Lemma list_through a vs : exprs a vs -> Forall tok_fine a -> forall fuel acc rest, (2 * length a < fuel)%nat ->
  exists fuel', (fuel <= fuel' + length a)%nat /\ parse_list fuel acc (map tok_str a ++ rest) = parse_list fuel' (rev vs ++ acc) rest.
Proof.
  induction 1 as [|ts v us vs X _ IH]; intros F fuel acc rest L.
  - exists fuel. split; [cbn; lia|reflexivity].
  - rewrite app_length in *. apply Forall_app in F as [F1 F2]. destruct fuel as [|fuel]; [lia|].
    destruct (expr_head _ _ X) as (t & ts' & -> & Nc). cbn [length] in *.
    destruct (IH F2 fuel (v :: acc) rest) as (f' & Lf & E); [lia|]. exists f'. split; [lia|].
    rewrite map_app, <- app_assoc.
    pose proof (proj1 exprs_complete _ _ X F1 fuel (map tok_str us ++ rest)) as P.
    cbn [map app] in P |- *. cbn [parse_list]. inversion F1; subst. rewrite not_close by auto.
    cbn [rev]. rewrite <- app_assoc. cbn [app]. destruct t; [|congruence|]; (rewrite P by (cbn [length]; lia); exact E).
Qed.
Lemma bad_list_complete ts e : bad_list ts e -> Forall tok_fine ts -> forall fuel acc, (2 * length ts < fuel)%nat -> parse_list fuel acc (map tok_str ts) = PErr e.
Proof.
  induction 1 as [ts vs X|ts vs w us e X B|ts vs us e X _ IH]; intros F fuel acc L.
  - destruct (list_through ts vs X F fuel acc [] L) as (f & Lf & E). rewrite app_nil_r in E. rewrite E. destruct f as [|f]; [lia|reflexivity].
  - rewrite app_length in L. cbn [length] in L. apply Forall_app in F as [F1 F2]. rewrite map_app. cbn [map].
    destruct (list_through ts vs X F1 fuel acc (tok_str (Word w) :: map tok_str us)) as (f & Lf & E); [lia|]. rewrite E.
    destruct f as [|[|f]]; [lia..|]. cbn [parse_list]. inversion F2; subst. rewrite not_close by auto. cbn [parse_tokens]. rewrite not_open, not_close by auto.
    cbn [tok_str]. apply bad_word_iff in B. now rewrite B.
  - rewrite app_length in L. cbn [length] in L. apply Forall_app in F as [F1 F2]. rewrite map_app. cbn [map].
    destruct (list_through ts vs X F1 fuel acc (tok_str Open :: map tok_str us)) as (f & Lf & E); [lia|]. rewrite E.
    destruct f as [|[|f]]; [lia..|]. cbn [parse_list]. inversion F2; subst. rewrite not_close by auto. cbn [parse_tokens]. rewrite not_open by auto.
    rewrite (IH ltac:(assumption) f []) by lia. reflexivity.
Qed.
Lemma bad_list_more ts v us e : expr ts v -> bad_list us e -> bad_list (ts ++ us) e.
Proof.
  intros X. destruct 1 as [us vs Y|us vs w ws e Y B|us vs ws e Y B]; rewrite ?app_assoc.
  - apply (bl_end _ (v :: vs)). now constructor.
  - apply (bl_word _ (v :: vs)); auto. now constructor.
  - apply (bl_list _ (v :: vs)); auto. now constructor.
Qed.
Lemma bad_words_more ts v us e : expr ts v -> bad_words us e -> bad_words (ts ++ us) e.
Proof.
  intros X. destruct 1 as [us vs ws Y|us vs w ws e Y B|us vs ws e Y B]; rewrite ?app_assoc.
  - apply (bo_close _ (v :: vs)). now constructor.
  - apply (bo_word _ (v :: vs)); auto. now constructor.
  - apply (bo_list _ (v :: vs)); auto. now constructor.
Qed.
Lemma bad_list_sound fuel : forall ts, Forall tok_fine ts ->
  (forall e, parse_tokens fuel (map tok_str ts) = PErr e ->
     ts = [] \/ (exists us, ts = Close :: us) \/ (exists w us, ts = Word w :: us /\ bad_word (text w) e) \/ (exists us, ts = Open :: us /\ bad_list us e)) /\
  (forall acc e, parse_list fuel acc (map tok_str ts) = PErr e -> bad_list ts e).
Proof.
  induction fuel as [|fuel IH]; intros ts F; [split; discriminate|]. split.
  - intros e. cbn [parse_tokens]. destruct ts as [|t ts]; [auto|]. cbn [map]. inversion F; subst. rewrite not_open, not_close by auto. destruct t as [| |w].
    + intros H. right. right. right. exists ts. split; auto. now apply (proj2 (IH ts ltac:(assumption))) in H.
    + intros _. right. left. eauto.
    + destruct (parse_token (tok_str (Word w))) as [x|e'|] eqn:P; try discriminate. intros H. injection H as ->. right. right. left. exists w, ts. split; auto. now apply bad_word_iff.
  - intros acc e. cbn [parse_list]. destruct ts as [|t ts]; [intros H; injection H as <-; apply (bl_end [] []); constructor|]. cbn [map]. inversion F; subst.
    rewrite not_close by auto. destruct (match t with Close => true | _ => false end) eqn:C; [discriminate|].
    destruct (parse_tokens fuel (tok_str t :: map tok_str ts)) as [[x r]|e'|] eqn:P; try discriminate; intros H.
    + destruct (exprs_sound fuel (t :: ts) F) as [K _]. apply K in P as (a & b & E & A & ->). rewrite E in F |- *. apply Forall_app in F as [_ F].
      apply (proj2 (IH b F)) in H. now apply (bad_list_more a x).
    + injection H as ->. apply (proj1 (IH (t :: ts) F)) in P as [P|[[us P]|[(w & us & P & B)|(us & P & B)]]]; [discriminate|..]; injection P as -> ->; try discriminate.
      * apply (bl_word [] []); [constructor|exact B].
      * apply (bl_list [] []); [constructor|exact B].
Qed.

(** ** Words outside parentheses *)
Lemma shell_through ts vs : exprs ts vs -> Forall tok_fine ts -> forall fuel acc rest, (length ts < fuel)%nat ->
  exists fuel', (fuel <= fuel' + length ts)%nat /\ shell_loop fuel acc (map tok_str ts ++ rest) = shell_loop fuel' (rev vs ++ acc) rest.
Proof.
  induction 1 as [|ts v us vs X _ IH]; intros F fuel acc rest L.
  - exists fuel. split; [cbn; lia|reflexivity].
  - rewrite app_length in *. apply Forall_app in F as [F1 F2]. destruct fuel as [|fuel]; [lia|].
    assert (E : shell_loop (S fuel) acc (map tok_str (ts ++ us) ++ rest) = shell_loop fuel (v :: acc) (map tok_str us ++ rest)).
    { pose proof (proj1 exprs_complete _ _ X F1 (tok_fuel (map tok_str (ts ++ us) ++ rest)) (map tok_str us ++ rest)) as P.
      rewrite map_app, <- app_assoc in P |- *. destruct X as [w v A|ts vs' A].
      - cbn [map app shell_loop]. inversion F1; subst. rewrite not_open, not_close by auto. cbn [tok_str]. apply atom_iff in A. now rewrite A.
      - cbn [map app shell_loop] in P |- *. change (str_eqb (tok_str Open) tok_open) with true. cbv iota. rewrite P; [reflexivity|].
        unfold tok_fuel. cbn [length]. rewrite !app_length, !map_length, !app_length. cbn [length]. lia. }
    destruct (expr_head _ _ X) as (t & ts' & -> & _). cbn [length] in *.
    destruct (IH F2 fuel (v :: acc) rest) as (f' & Lf & E'); [lia|]. exists f'. split; [lia|]. rewrite E, E'. cbn [rev]. now rewrite <- app_assoc.
Qed.
Lemma bad_words_complete ts e : bad_words ts e -> Forall tok_fine ts -> forall fuel acc, (length ts < fuel)%nat -> shell_loop fuel acc (map tok_str ts) = PErr e.
Proof.
  assert (K : forall ts vs t us e, exprs ts vs -> Forall tok_fine (ts ++ t :: us) ->
    (forall fuel acc, shell_loop (S fuel) acc (map tok_str (t :: us)) = PErr e) ->
    forall fuel acc, (length (ts ++ t :: us) < fuel)%nat -> shell_loop fuel acc (map tok_str (ts ++ t :: us)) = PErr e).
  { intros ts0 vs t us e0 X F H fuel acc L. rewrite app_length in L. cbn [length] in L. apply Forall_app in F as [F1 F2]. rewrite map_app.
    destruct (shell_through ts0 vs X F1 fuel acc (map tok_str (t :: us))) as (f & Lf & E); [lia|]. rewrite E. destruct f as [|f]; [lia|]. apply H. }
  destruct 1 as [ts vs us X|ts vs w us e X B|ts vs us e X B]; intros F; eapply K; eauto; intros fuel acc; cbn [map shell_loop];
    apply Forall_app in F as [_ F]; inversion F; subst; rewrite not_open by auto; [rewrite not_close by auto..|].
  - cbn [tok_str]. apply bad_word_iff in B. now rewrite B.
  - change (tok_str Open :: map tok_str us) with (map tok_str (Open :: us)). unfold tok_fuel. rewrite map_length. cbn [length map]. 
    cbn [parse_tokens Nat.add]. rewrite not_open by auto. rewrite (bad_list_complete us e B) by (auto; lia). reflexivity.
Qed.
Lemma bad_words_sound fuel : forall ts acc e, Forall tok_fine ts -> shell_loop fuel acc (map tok_str ts) = PErr e -> bad_words ts e.
Proof.
  induction fuel as [|fuel IH]; intros ts acc e F; [discriminate|]. cbn [shell_loop]. destruct ts as [|t ts]; [discriminate|].
  cbn [map]. inversion F; subst. rewrite not_open, not_close by auto. destruct t as [| |w].
  - change (tok_str Open :: map tok_str ts) with (map tok_str (Open :: ts)).
    destruct (parse_tokens _ _) as [[x r]|e'|] eqn:P; try discriminate; intros H.
    + destruct (exprs_sound (tok_fuel (map tok_str (Open :: ts))) _ F) as [K _].
      apply K in P as (a & b & E & A & ->). rewrite E in F |- *. apply Forall_app in F as [_ F]. apply IH in H; auto. now apply (bad_words_more a x).
    + injection H as ->. apply (proj1 (bad_list_sound _ _ F)) in P as [P|[[us P]|[(w & us & P & B)|(us & P & B)]]]; try discriminate. injection P as <-.
      apply (bo_list [] []); [constructor|exact B].
  - intros H. injection H as <-. apply (bo_close [] []). constructor.
  - destruct (parse_token (tok_str (Word w))) as [x|e'|] eqn:P; try discriminate; intros H.
    + apply atom_iff in P. apply IH in H; auto. apply (bad_words_more [Word w] x); auto. now constructor.
    + injection H as ->. apply bad_word_iff in P. apply (bo_word [] []); [constructor|exact P].
Qed.

(** ** Commands *)
Lemma tokenize_bad l : forall cur q e, if fst (qrun (q, e) l) then tokenize_from cur q e l = PErr (bs "unterminated string literal")
  else exists ts, tokenize_from cur q e l = POk ts.
Proof.
  intros cur q e. pose proof (tokenize_state l cur q e) as T. destruct (fst (qrun (q, e) l)); [|exact T]. destruct T as [m T]. rewrite T. f_equal.
  revert cur q e T. induction l as [|r l IH]; intros cur q e T; cbn [tokenize_from] in T.
  - destruct q; [now injection T|discriminate].
  -
    assert (Fl : forall c x, pflush c x = PErr m -> x = PErr m) by (intros [|? ?] [| |]; cbn; congruence).
    assert (Co : forall c x, pcons c x = PErr m -> x = PErr m) by (intros ? [| |]; cbn; congruence).
    destruct e; [eauto|]. destruct (r =? rn_backslash)%N; [eauto|]. destruct (r =? rn_quote)%N; [eauto|].
    destruct ((r =? rn_open) || (r =? rn_close))%N; [destruct q; eauto|]. destruct (is_blank r); [destruct q; eauto|eauto].
Qed.
Lemma tokens_open l ts : tokens (c_open :: l) ts -> exists us, ts = Open :: us.
Proof.
  intros T. inversion T as [|? ? ? S|? us T'|? ? T'|w ? ? [W P] _ _ E]; subst; eauto.
  - cbn in S. unfold c_open in S. intuition discriminate.
  - exfalso. destruct P as [|c w A B _|b w _ _]; [congruence| |discriminate]. injection E as -> _. apply B. now left.
Qed.
Lemma command_bad l e : Forall valid l -> (parse_line (text l) = PErr e <->
  (fst (qrun (false, false) l) = true /\ e = bs "unterminated string literal") \/ bad_command l e).
Proof.
  intros V. unfold parse_line, parse_sexp_line, parse_shell_line, tokenize. change (text l) with (utf8 l) at 2 3. rewrite rune_list_utf8 by exact V.
  pose proof (tokenize_bad l [] false false) as T.
  assert (Q : fst (qrun (false, false) l) = true -> ~ bad_command l e).
  { intros Q B. destruct B as [l ts e T' _|l ts e _ T' _]; rewrite (tokens_run _ _ T') in Q; discriminate. }
  destruct (fst (qrun (false, false) l)) eqn:Qe.
  { rewrite T. cbn [pbind]. split.
    - intros H. left. split; auto. destruct (has_prefix (text l) tok_open); now injection H.
    - intros [[_ ->]|B]; [now destruct (has_prefix (text l) tok_open)|]. now apply Q in B. }
  destruct T as [out T]. rewrite T. cbn [pbind]. apply tokens_iff in T as (ts & T & ->). pose proof (tokens_fine _ _ T) as F.
  destruct (has_prefix (text l) tok_open) eqn:P.
  - apply text_open in P as [u ->]. destruct (tokens_open _ _ T) as [us ->]. split.
    + destruct (parse_tokens _ _) as [[x r]|e'|] eqn:P; try discriminate. cbn [pbind]. intros H. injection H as ->. right.
      apply (proj1 (bad_list_sound _ _ F)) in P as [P|[[w P]|[(w & w' & P & B)|(w & P & B)]]]; try discriminate. injection P as <-. now apply (bc_list u us).
    + intros [[X _]|B]; [discriminate|]. inversion B as [l' us' e' T' B'|l' us' e' N T' B']; subst; [|exfalso; now apply (N u)].
      pose proof (tokens_complete _ _ T') as C1. rewrite (tokens_complete _ _ T) in C1. injection C1 as C1. cbn [map] in C1 |- *.
      rewrite C1. unfold tok_fuel. cbn [length]. cbn [Nat.add]. cbn [parse_tokens]. change (str_eqb (tok_str Open) tok_open) with true. cbv iota.
      assert (F' : Forall tok_fine us') by (pose proof (tokens_fine _ _ T') as X; now inversion X).
      rewrite (bad_list_complete us' e B' F') by (rewrite map_length; lia). reflexivity.
  - assert (N2 : forall u, l <> c_open :: u). { intros u E. assert (has_prefix (text l) tok_open = true) by (apply text_open; eauto). congruence. }
    split.
    + intros H. right. apply bad_words_sound in H; auto. now apply (bc_words l ts).
    + intros [[X _]|B]; [discriminate|]. inversion B as [l' us' e' T' B'|l' us' e' N T' B']; subst; [exfalso; now eapply N2|].
      pose proof (tokens_complete _ _ T') as C1. rewrite (tokens_complete _ _ T) in C1. injection C1 as C1. rewrite C1.
      rewrite (bad_words_complete us' e B'); [reflexivity|now apply (tokens_fine l)|]. rewrite map_length. lia.
Qed.
Lemma part_bad l e : Forall valid l -> (parse_commands [text l] = PErr e <->
  (fst (qrun (false, false) l) = true /\ e = bs "unterminated string literal") \/ bad_part l e).
Proof.
  intros V. cbn [parse_commands]. change (text l) with (utf8 l). rewrite trim_space_utf8 by exact V.
  assert (Nw : forall c, ~ In c white_space -> is_space c = false) by (intros c N; apply not_true_is_false; now rewrite <- white_in).
  assert (Wn : forall c, is_space c = false -> ~ In c white_space) by (intros c N; rewrite white_in; congruence).
  rewrite (trim_open l). destruct (trimmed l) as [[S E]|(a & m & b & -> & A & B & E & N & F & L)]; rewrite E.
  - split; [discriminate|]. intros [[X _]|P]; [discriminate|]. exfalso. destruct P as [a m b e A B F L C]. apply white_all in A, B.
    rewrite trim_core in E; auto; [|intros; apply Nw; eauto..]. subst m. inversion C as [|? ts ? _ T X]; subst.
    inversion T as [| | | |w ? ? [W _] _ _ Y]; subst.
    + inversion X as [ts ? us Y Z|ts ? ? us ? Y ? Z|ts ? us ? Y ? Z]; destruct ts; discriminate.
    + apply app_eq_nil in Y as [-> ->]. now apply W.
  - apply Forall_app in V as [_ V]. apply Forall_app in V as [V _]. pose proof (text_ne m N) as X. change (utf8 m) with (text m).
    replace (match text m with [] => POk [] | c' => pbind (parse_line c') (fun v => pbind (POk []) (fun vs => POk (v :: vs))) end)
      with (pbind (parse_line (text m)) (fun v => POk [v])) by (destruct (text m); [congruence|reflexivity]).
    transitivity (parse_line (text m) = PErr e); [destruct (parse_line (text m)); cbn; split; congruence|].
    rewrite command_bad by exact V. split; (intros [Y|Y]; [now left|right]).
    + apply white_all in A, B. constructor; auto; intros c u Z; apply Wn; eauto.
    + remember (a ++ m ++ b) as l eqn:El. destruct Y as [a' m' b' e A' B' F' L' C]. apply white_all in A', B'.
      rewrite trim_core in E; auto; [|intros; apply Nw; eauto..]. now subst m'.
Qed.

(** ** Lines *)
Lemma left_open_run stop l : left_open stop l -> fst (qrun (false, false) l) = true.
Proof.
  intros (a & b & -> & P & B). rewrite qrun_app, (pieces_run stop) by exact P. change (fst (qrun (true, false) b) = true).
  destruct B as [B|(b' & -> & B)]; [now rewrite quotes_run|]. now rewrite qrun_app, quotes_run.
Qed.
Lemma left_open_parts l : left_open [c_semicolon] l -> semi_parts [] false false l = [text l].
Proof.
  intros (a & b & -> & P & B). rewrite (pieces_parts a P [] (c_quote :: b)). cbn [app].
  change (semi_parts (text a ++ encode_rune c_quote) true false b = [text (a ++ c_quote :: b)]). change (a ++ c_quote :: b) with (a ++ [c_quote] ++ b).
  rewrite !text_app. change (text [c_quote]) with (encode_rune c_quote). rewrite app_assoc. destruct B as [B|(b' & -> & B)].
  - pose proof (quotes_parts b B (text a ++ encode_rune c_quote) []) as X. rewrite app_nil_r in X. rewrite X. reflexivity.
  - rewrite quotes_parts by exact B. rewrite text_app, app_assoc. reflexivity.
Qed.
Lemma inside_open stop q e l : inside stop q e l -> q = true -> left_open stop l.
Proof.
  intros I ->. destruct e; destruct I as (a & b & -> & P & B); [exists a, (b ++ [c_backslash])|exists a, b]; repeat split; auto. right. eauto.
Qed.
(** a line with no semicolon outside quotes is a sequence of pieces or ends in an open quote *)
Lemma open_or_pieces stop l : forall w q e, inside stop q e w ->
  (exists a c m, w ++ l = a ++ c :: m /\ In c stop /\ pieces stop a) \/ pieces stop (w ++ l) \/ left_open stop (w ++ l).
Proof.
  induction l as [|r l IH]; intros w q e I.
  - rewrite app_nil_r. destruct q; [right; right; now apply (inside_open stop true e)|]. destruct e; [destruct I|]. right. left. exact I.
  - destruct (in_dec N.eq_dec r stop) as [Y|Y].
    + destruct q eqn:Eq.
      * pose proof (inside_step stop true e w r I ltac:(discriminate)) as St. destruct (qstep (true, e) r) as [q' e']. apply (IH _ q' e') in St. now rewrite <- app_assoc in St.
      * destruct e; [destruct I|]. left. exists w, r, l. auto.
    + pose proof (inside_step stop q e w r I ltac:(auto)) as St. destruct (qstep (q, e) r) as [q' e']. apply (IH _ q' e') in St. now rewrite <- app_assoc in St.
Qed.
Lemma pseq_err a b e : pseq a b = PErr e -> b <> PFuel -> a = PErr e \/ exists p, a = POk p /\ b = PErr e.
Proof. destruct a, b; cbn; intros H N; try congruence; injection H as <-; eauto. Qed.
Lemma line_bad n : forall l e, (length l <= n)%nat -> Forall valid l -> (parse_commands (semi_parts [] false false l) = PErr e <-> bad_line l e).
Proof.
  induction n as [|n IH]; intros l e L V.
  { destruct l; [|cbn in L; lia]. split; [discriminate|]. intros H. exfalso. 
    assert (Pn : forall e', ~ bad_part [] e').
    { intros e' X. pose proof (proj2 (part_bad [] e' (Forall_nil _)) (or_intror X)) as Y. discriminate. }
    assert (G : forall l, l = [] -> ~ bad_line l e); [|now apply (G [])].
    clear - Pn. intros l El B. destruct B as [l O|l e P B|l e m P B|l p m e P B C]; [|subst; exact (Pn _ B)|destruct l; discriminate..].
    subst l. destruct O as (a & b & X & _). destruct a; discriminate. }
  assert (Sp : forall a m, a ++ c_semicolon :: m = l -> pieces [c_semicolon] a ->
    parse_commands (semi_parts [] false false l) = pseq (parse_commands [text a]) (parse_commands (semi_parts [] false false m))).
  { intros a m <- P.
    replace (semi_parts [] false false (a ++ c_semicolon :: m)) with (semi_parts [] false false a ++ semi_parts [] false false m)
      by (symmetry; apply parts_app; now apply (pieces_run [c_semicolon])). rewrite pieces_one by exact P. now rewrite parse_commands_app. }
  assert (Np : forall a x, pieces [c_semicolon] a -> (fst (qrun (false, false) a) = true /\ x) -> False).
  { intros a x P [Q _]. rewrite (pieces_run _ _ P) in Q. discriminate. }
  split.
  - destruct (open_or_pieces [c_semicolon] l [] false false (pc_end _)) as [(a & c & m & E & I & P)|[P|O]]; cbn [app] in *.
    + destruct I as [<-|[]]. rewrite (Sp a m) by auto. subst l. apply Forall_app in V as [Va Vm]. inversion Vm as [|? ? _ Vm']; subst.
      intros H. apply pseq_err in H as [H|(p & H1 & H2)]; [..|apply parse_commands_fuel].
      * apply part_bad in H as [H|H]; [exfalso; eauto| |exact Va]. now apply bn_first.
      * apply part_iff in H1; [|exact Va]. apply IH in H2; [|rewrite app_length in L; cbn [length] in L; lia|exact Vm']. now apply (bn_later a p).
    + rewrite pieces_one by exact P. intros H. apply part_bad in H as [H|H]; [exfalso; eauto| |exact V]. now apply bn_last.
    + rewrite left_open_parts by exact O. intros H. apply part_bad in H as [[_ ->]|H]; [now apply bn_open| |exact V].
      exfalso. assert (X : parse_commands [text l] = PErr e) by (apply part_bad; auto). assert (Y : parse_commands [text l] = PErr (bs "unterminated string literal")) by (apply part_bad; [auto|left; split; [now apply (left_open_run [c_semicolon])|reflexivity]]).
      destruct H as [a m b e A B F Lm C]. apply white_all in A, B.
      pose proof (left_open_run _ _ O) as Q. rewrite !qrun_app, qrun_lead in Q by exact A. rewrite qrun_spaces in Q by exact B.
      destruct C as [u ts e T _|u ts e _ T _]; rewrite (tokens_run _ _ T) in Q; discriminate.
  - intros H. inversion H as [l' O|l' e' P B|l' e' m P B|l' p m e' P B C]; subst.
    + rewrite left_open_parts by exact O. apply part_bad; auto. left. split; auto. now apply (left_open_run [c_semicolon]).
    + rewrite pieces_one by exact P. apply part_bad; auto.
    + rewrite (Sp l' m) by auto. apply Forall_app in V as [Va _]. rewrite (proj2 (part_bad l' e Va)) by auto. reflexivity.
    + rewrite (Sp l' m) by auto. apply Forall_app in V as [Va Vm]. inversion Vm as [|? ? _ Vm']; subst.
      apply part_iff in B; [|exact Va]. rewrite B. apply IH in C; [|rewrite app_length in L; cbn [length] in L; lia|exact Vm']. now rewrite C.
Qed.
Lemma first_bad l e : ~ In nl l -> (parse_string l = PErr e <-> bad_first l e).
Proof.
  intros N. rewrite parse_one by exact N. unfold line_result. change max_line with 65536. destruct (65536 <=? zlen l) eqn:L.
  - split; [intros H; injection H as <-; apply bf_long; lia|]. intros H. inversion H; subst; [reflexivity|lia].
  - rewrite line_commands, (line_bad (length (rune_list l))); auto using rune_list_valid. split.
    + intros H. apply (bf_line l (rune_list l)); [lia|now apply chars_iff|exact H].
    + intros H. inversion H as [l' Z|l' cs e' Z C B]; subst; [lia|]. apply chars_iff in C as <-. exact B.
Qed.
Lemma script_bad n : forall s e, (length s <= n)%nat -> (parse_string s = PErr e <-> bad_script s e).
Proof.
  induction n as [|n IH]; intros s e L.
  { destruct s; [|cbn in L; lia]. split; [discriminate|]. intros H. inversion H as [l e' N B|l e' s N B E|l cs p s e' N Z C A B E]; subst; [|destruct l; discriminate..].
    now apply first_bad in B. }
  split.
  - destruct (first_nl s) as [N|(a & b & -> & N)].
    + intros H. apply first_bad in H; auto. now apply br_last.
    + rewrite parse_newline. intros H. apply pseq_err in H as [H|(p & H1 & H2)]; [..|apply parse_string_fuel].
      * apply first_bad in H; auto. now apply br_first.
      * apply one_line in H1 as (Z & cs & C & H1); [|exact N]. apply IH in H2; [|rewrite app_length in L; cbn [length] in L; lia]. now apply (br_later a cs p).
  - intros H. inversion H as [l e' N B|l e' s' N B|l cs p s' e' N Z C A B]; subst.
    + now apply first_bad.
    + rewrite parse_newline. apply first_bad in B; auto. now rewrite B.
    + rewrite parse_newline. rewrite (proj2 (one_line l p N)) by eauto. apply IH in B; [|rewrite app_length in L; cbn [length] in L; lia]. now rewrite B.
Qed.

(** ** Single expressions *)
Lemma left_open_iff l : left_open [] l <-> fst (qrun (false, false) l) = true.
Proof.
  split; [apply left_open_run|]. intros Q. destruct (open_or_pieces [] l [] false false (pc_end _)) as [(a & c & m & _ & [] & _)|[P|O]]; cbn [app] in *; [|exact O].
  rewrite (pieces_run _ _ P) in Q. discriminate.
Qed.
Lemma sexp_bad l e : Forall valid l -> (parse_sexp (text l) = PErr e <-> bad_sexp l e).
Proof.
  intros V. unfold parse_sexp. change (text l) with (utf8 l). rewrite trim_space_utf8 by exact V.
  assert (S : forall m, m <> [] -> match utf8 m with [] => POk [] | t => if has_prefix t tok_open then pbind (parse_sexp_line t) (fun v => POk [v]) else pbind (parse_token t) (fun v => POk [v]) end = PErr e
    <-> (if has_prefix (text m) tok_open then parse_line (text m) else parse_token (text m)) = PErr e).
  { intros m N. pose proof (text_ne m N) as X. change (utf8 m) with (text m). unfold parse_line. destruct (text m) as [|c t]; [congruence|].
    destruct (has_prefix (c :: t) tok_open); [destruct (parse_sexp_line (c :: t))|destruct (parse_token (c :: t))]; cbn; split; congruence. }
  assert (Nw : forall c, ~ In c white_space -> is_space c = false) by (intros c N; apply not_true_is_false; now rewrite <- white_in).
  assert (Wn : forall c, is_space c = false -> ~ In c white_space) by (intros c N; rewrite white_in; congruence).
  assert (Opn : ~ In c_open white_space) by (rewrite white_in; discriminate).
  assert (Lst : forall k, (forall c u, k = u ++ [c] -> ~ In c white_space) -> forall c u, c_open :: k = u ++ [c] -> is_space c = false).
  { intros k Lk c u W. destruct u as [|z u]; injection W as W0 W; [rewrite <- W0; reflexivity|]. eauto. }
  destruct (trimmed l) as [[Sp E]|(a & m & b & -> & A & B & E & N & F & L)].
  - rewrite E. split; [discriminate|]. intros H. exfalso. destruct H as [x m y X Y Lm C|x m y e X Y Lm C|x m y e X Y Fm Lm C].
    1,2: apply Forall_app in Sp as [_ Sp]; inversion Sp; subst; apply Opn; now apply white_in.
    destruct m as [|c m]; [inversion C as [|b Z E']; discriminate|].
    apply Forall_app in Sp as [_ Sp]. inversion Sp; subst. apply (proj1 (Fm c m eq_refl)). now apply white_in.
  - pose proof (S m N) as Sm. cbv zeta in Sm |- *. rewrite E, Sm. clear Sm. apply Forall_app in V as [_ V]. apply Forall_app in V as [V _]. split.
    + destruct (has_prefix (text m) tok_open) eqn:P.
      * intros H. apply command_bad in H; auto. apply text_open in P as [u ->]. apply white_all in A, B. cbn [app].
        assert (Lu : forall c x, u = x ++ [c] -> ~ In c white_space) by (intros c x ->; apply Wn; eapply (L c (c_open :: x)); reflexivity).
        destruct H as [[Q ->]|H]; [apply bx_open; auto; now apply left_open_iff|now apply bx_list].
      * intros H. apply bad_word_iff in H. apply white_all in A, B.
        apply bx_word; auto; [|intros c u X; eauto]. intros c u X. split; [eauto|]. intros ->. assert (has_prefix (text m) tok_open = true) by (apply text_open; eauto). congruence.
    + remember (a ++ m ++ b) as l eqn:El. destruct 1 as [x k y X Y Lm C|x k y e X Y Lm C|x k y e X Y Fm Lm C].
      1,2: apply white_all in X, Y; change (x ++ c_open :: k ++ y) with (x ++ (c_open :: k) ++ y) in E;
        (rewrite trim_core in E; auto; [|intros c u W; injection W as <- _; reflexivity|apply Lst; exact Lm]);
        subst m; (replace (has_prefix (text (c_open :: k)) tok_open) with true by (symmetry; apply text_open; eauto)); apply command_bad; auto.
      { left. split; auto. now apply left_open_iff. }
      apply white_all in X, Y. rewrite trim_core in E; auto; [|intros c u W; apply Nw; apply (proj1 (Fm _ _ W))|intros c u W; eauto]. subst m.
      replace (has_prefix (text k) tok_open) with false.
      2:{ symmetry. apply not_true_is_false. rewrite text_open. intros [u W]. now apply (proj2 (Fm _ _ W)). }
      now apply bad_word_iff.
Qed.
