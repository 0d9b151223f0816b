(** Shell and s-expression scripts and the grammar of SpecLines *)
From Coq Require Import ZArith NArith List Bool Lia ZifyBool ZifyN ZifyNat Strings.Byte.
From Verif Require Import Base Float Ext Utf8 Strconv Values Parser Spec SpecText SpecJson SpecLines
  Proofs_Base Proofs_Utf8 Proofs_Number Proofs_Token Proofs_Script Proofs_Lines Proofs_Grammar.
Import ListNotations.
Open Scope Z_scope.

(** ** Characters *)
Lemma chars_iff s l : chars s l <-> rune_list s = l.
Proof.
  split.
  - induction 1 as [|r t l V _ IH|c t l N _ IH]; [reflexivity|..].
    + rewrite rune_list_app, rune_list_rune by (auto using wf8_rune). now rewrite IH.
    + assert (H : (128 <= byteN c)%N).
      { destruct (N.ltb_spec (byteN c) 128) as [L|L]; [|lia]. exfalso. apply (N (byteN c) t); [unfold valid_rune; lia|].
        rewrite encode_ascii by lia. rewrite byte_of_byteN. reflexivity. }
      destruct (high_decode c t H) as [(r & u & V & _ & E)|[_ D]]; [exfalso; exact (N r u V E)|].
      unfold rune_list. rewrite runes_bad by exact D. cbn [map]. now rewrite <- IH.
  - intros <-. induction s as [|r t V IH|b t B D IH] using runes_ind; [constructor|..].
    + rewrite rune_list_app, rune_list_rune by (auto using wf8_rune). now constructor.
    + unfold rune_list. rewrite runes_bad by exact D. cbn [map]. change (r_rune (bad_byte b)) with rune_error. apply chars_bad; [|exact IH].
      intros r u V E. rewrite E, decode_encode in D by exact V. injection D as -> L. discriminate L.
Qed.
Lemma text_app a b : text (a ++ b) = text a ++ text b.
Proof. apply flat_map_app. Qed.
Lemma text_snoc a r : text (a ++ [r]) = text a ++ encode_rune r.
Proof. rewrite text_app. cbn [text flat_map]. now rewrite app_nil_r. Qed.
Lemma text_nil l : text l = [] -> l = [].
Proof. destruct l as [|r l]; auto. cbn [text flat_map]. intros H. apply app_eq_nil in H as [H _]. now apply encode_nonempty in H. Qed.
Lemma text_ne l : l <> [] -> text l <> [].
Proof. intros N H. apply N. now apply text_nil. Qed.
Lemma encode_first r c t u : valid_rune r = true -> encode_rune r ++ u = c :: t -> (byteN c < 128)%N -> r = byteN c /\ u = t.
Proof.
  intros V E H. destruct (N.ltb_spec r 128) as [L|L].
  - rewrite encode_ascii in E by lia. injection E as <- ->. now rewrite byteN_of_N by lia.
  - pose proof (encode_high r V L) as F. pose proof (encode_nonempty r). destruct (encode_rune r) as [|x e]; [congruence|].
    injection E as -> _. inversion F; subst. lia.
Qed.

Lemma encode_first_any r c t u : encode_rune r ++ u = c :: t -> (byteN c < 128)%N -> r = byteN c.
Proof.
  intros E H. destruct (valid_rune r) eqn:V; [now apply (encode_first r c t u V E H)|]. exfalso.
  assert (X : encode_rune r = encode_rune rune_error) by (unfold encode_rune; now rewrite V). rewrite X in E.
  destruct (encode_first rune_error c t u eq_refl E H) as [Y _]. unfold rune_error in Y. lia.
Qed.

(** ** String literals *)
Lemma read_hex_sound k : forall acc s n rest, read_hex k acc s = Some (n, rest) ->
  exists h, s = h ++ rest /\ length h = k /\ forall h0, hexs h0 acc -> hexs (h0 ++ h) n.
Proof.
  induction k as [|k IH]; intros acc s n rest.
  - cbn. intros H. injection H as <- <-. exists []. repeat split; auto. intros h0 X. now rewrite app_nil_r.
  - cbn [read_hex]. destruct s as [|c s]; [discriminate|]. destruct (unhex c) as [d|] eqn:U; [|discriminate]. intros H.
    apply IH in H as (h & -> & L & H). exists (c :: h). cbn [app length]. repeat split; auto. intros h0 X.
    change (h0 ++ c :: h) with (h0 ++ [c] ++ h). rewrite app_assoc. apply H. replace (acc * 16 + d)%N with (16 * acc + d)%N by lia.
    constructor; auto. now apply hex_unhex.
Qed.
Lemma read_hex_complete h n : hexs h n -> forall k rest, read_hex (length h + k) 0 (h ++ rest) = read_hex k n rest.
Proof.
  induction 1 as [|h n c d _ IH C]; intros k rest; [reflexivity|]. rewrite app_length, <- app_assoc. cbn [length app].
  rewrite <- Nat.add_assoc, IH. cbn [Nat.add read_hex]. apply hex_unhex in C. rewrite C. f_equal. lia.
Qed.
Lemma read_hex_exact h n k rest : hexs h n -> length h = k -> read_hex k 0 (h ++ rest) = Some (n, rest).
Proof. intros H <-. pose proof (read_hex_complete h n H 0 rest) as E. rewrite Nat.add_0_r in E. now rewrite E. Qed.
Lemma octal_value c n : nth_error (bs "01234567") (N.to_nat n) = Some c <-> octal c = Some n.
Proof.
  remember (N.to_nat n) as k eqn:K. assert (n = N.of_nat k) as -> by lia. clear K. split.
  - intros H. do 8 (destruct k as [|k]; [injection H as <-; reflexivity|]). destruct k; discriminate.
  - destruct c; intros H; try discriminate H; (assert (k = N.to_nat (N.of_nat k)) as -> by lia); injection H as <-; auto.
Qed.
Lemma hexs_no_quote h n : hexs h n -> ~ In dquote h.
Proof.
  induction 1 as [|h n c d _ IH C]; [intros []|]. intros I. apply in_app_or in I as [I|[->|[]]]; [auto|]. apply hex_unhex in C. discriminate.
Qed.

Lemma literal_sound fuel : forall u s, unquote_loop fuel u = Some s -> exists t, u = t ++ [dquote] /\ literal t s.
Proof.
  induction fuel as [|fuel IH]; intros u s; [discriminate|]. cbn [unquote_loop]. destruct u as [|c t]; [discriminate|].
  destruct (Byte.eqb c """") eqn:Q.
  { destruct t; [|discriminate]. intros H. injection H as <-. apply byte_eqb_eq in Q as ->. exists []. split; [reflexivity|constructor]. }
  destruct (Byte.eqb c nl) eqn:Nl; [discriminate|].
  destruct (unquote_char (c :: t)) as [[out rest]|] eqn:U; [|discriminate].
  destruct (unquote_loop fuel rest) as [r|] eqn:R; [|discriminate]. intros H. injection H as <-.
  destruct (IH _ _ R) as (b & -> & B). clear IH R.
  assert (Em : forall pre o u, Some (o, u) = Some (out, b ++ [dquote]) -> c :: t = pre ++ u ->
     literal (pre ++ b) (o ++ r) -> exists t', c :: t = t' ++ [dquote] /\ literal t' (out ++ r)).
  { intros pre o u X E K. injection X as <- ->. exists (pre ++ b). rewrite <- app_assoc. auto. }
  apply byte_eqb_neq in Q, Nl. unfold unquote_char in U. rewrite (proj2 (byte_eqb_neq c """") Q) in U.
  destruct (128 <=? byteN c)%N eqn:H.
  { destruct (high_decode c t) as [(x & u & V & X & E)|[N D]]; [lia|..].
    - rewrite E in U. unfold decode_one in U. rewrite decode_encode in U by exact V. cbn [r_rune] in U. rewrite skipn_app_exact in U.
      apply (Em (encode_rune x) _ _ U E). constructor; auto. cbn [In]. lia.
    - unfold decode_one in U. rewrite D in U. cbn [r_rune skipn] in U. apply (Em [c] _ _ U eq_refl). apply lt_bad; auto.
      intros x u V E. injection U as _ ->. apply (N x (u ++ [dquote]) V). rewrite app_assoc, <- E. reflexivity. }
  destruct (Byte.eqb c "\") eqn:K; cbn [negb] in U.
  2:{ apply byte_eqb_neq in K. apply (Em [c] _ _ U eq_refl). pose proof (lt_char (byteN c) b r) as L. rewrite encode_ascii, byte_of_byteN in L by lia.
      apply L; auto; [unfold valid_rune; lia|]. cbn [In]. intros [X|[X|[X|[]]]]; [apply Q|apply K|apply Nl]; apply byteN_inj; rewrite <- X; reflexivity. }
  apply byte_eqb_eq in K as ->. destruct t as [|e u]; [discriminate|].
  repeat match type of U with (if Byte.eqb e ?x then Some _ else _) = _ =>
    let Q := fresh "Q" in destruct (Byte.eqb e x) eqn:Q;
      [apply byte_eqb_eq in Q as ->; apply (Em [_; _] _ _ U eq_refl); apply lt_letter; auto; cbn; tauto|]; clear Q end.
  destruct (Byte.eqb e "x") eqn:X.
  { apply byte_eqb_eq in X as ->. destruct (read_hex 2 0 u) as [[v u']|] eqn:R; [|discriminate].
    apply read_hex_sound in R as (h & -> & L & R). specialize (R [] hexs_end). apply (Em ("\"%byte :: "x"%byte :: h) _ _ U eq_refl). now apply lt_byte. }
  clear X. destruct (Byte.eqb e "u") eqn:X.
  { apply byte_eqb_eq in X as ->. destruct (read_hex 4 0 u) as [[v u']|] eqn:R; [|discriminate]. destruct (valid_rune v) eqn:V; [|discriminate].
    apply read_hex_sound in R as (h & -> & L & R). specialize (R [] hexs_end). apply (Em ("\"%byte :: "u"%byte :: h) _ _ U eq_refl). now apply lt_u. }
  clear X. destruct (Byte.eqb e "U") eqn:X.
  { apply byte_eqb_eq in X as ->. destruct (read_hex 8 0 u) as [[v u']|] eqn:R; [|discriminate]. destruct (valid_rune v) eqn:V; [|discriminate].
    apply read_hex_sound in R as (h & -> & L & R). specialize (R [] hexs_end). apply (Em ("\"%byte :: "U"%byte :: h) _ _ U eq_refl). now apply lt_U. }
  clear X.
  repeat match type of U with (if Byte.eqb e ?x then Some _ else _) = _ =>
    let Q := fresh "Q" in destruct (Byte.eqb e x) eqn:Q;
      [apply byte_eqb_eq in Q as ->; apply (Em [_; _] _ _ U eq_refl); apply lt_letter; auto; cbn; tauto|]; clear Q end.
  destruct (octal e) as [d0|] eqn:O0; [|discriminate]. destruct u as [|o1 [|o2 u]]; try discriminate.
  destruct (octal o1) as [d1|] eqn:O1; [|discriminate]. destruct (octal o2) as [d2|] eqn:O2; [|discriminate]. cbv zeta in U.
  destruct (d0 * 64 + d1 * 8 + d2 <=? 255)%N eqn:M; [|discriminate].
  apply (Em ["\"%byte; e; o1; o2] _ _ U eq_refl). apply (lt_octal [e; o1; o2] (d0 * 64 + d1 * 8 + d2)); auto; [|lia].
  exists e, o1, o2, d0, d1, d2. rewrite !octal_value. repeat split; auto. lia.
Qed.

Lemma unquote_char_letter e c u : In (e, c) go_escapes -> unquote_char (backslash :: e :: u) = Some ([c], u).
Proof. intros I. cbn [In go_escapes] in I. destruct I as [I|[I|[I|[I|[I|[I|[I|[I|[I|[]]]]]]]]]]; injection I as <- <-; reflexivity. Qed.
Lemma loop_step f s out rest c t : s = c :: t -> c <> dquote -> c <> nl -> unquote_char s = Some (out, rest) ->
  unquote_loop (S f) s = match unquote_loop f rest with Some r => Some (out ++ r) | None => None end.
Proof.
  intros -> A B U. cbn [unquote_loop]. replace (Byte.eqb c """") with false by (symmetry; apply byte_eqb_neq; exact A).
  replace (Byte.eqb c nl) with false by (symmetry; apply byte_eqb_neq; exact B). now rewrite U.
Qed.
Lemma literal_complete t s : literal t s -> forall f, (length t < f)%nat -> unquote_loop f (t ++ [dquote]) = Some s.
Proof.
  induction 1 as [|r t s V N _ IH|c t s N _ IH|e c t s I _ IH|h n t s H L _ IH|h n t s H L V _ IH|h n t s H L V _ IH|h n t s H L _ IH];
    intros f F; (destruct f as [|f]; [lia|]).
  - reflexivity.
  - rewrite <- app_assoc. rewrite app_length in F. cbn [In] in N.
    assert (X : unquote_char (encode_rune r ++ t ++ [dquote]) = Some (encode_rune r, t ++ [dquote])) by (apply unquote_raw; auto).
    pose proof (encode_nonempty r). destruct (encode_rune r) as [|c e] eqn:En; [congruence|]. cbn [length] in F.
    assert (D : forall k, (k < 128)%N -> r <> k -> c <> byte_of_N k).
    { intros k K R ->. destruct (encode_first r (byte_of_N k) e [] V) as [R' _]; [now rewrite app_nil_r| |].
      - rewrite byteN_of_N by lia. exact K. - rewrite byteN_of_N in R' by lia. congruence. }
    rewrite (loop_step f _ (c :: e) (t ++ [dquote]) c (e ++ t ++ [dquote])); auto; [now rewrite IH by lia|..].
    + apply (D 34%N); [lia|]. intros ->. apply N. auto.
    + apply (D 10%N); [lia|]. intros ->. apply N. auto.
  - cbn [app length] in *.
    assert (H : (128 <= byteN c)%N).
    { destruct (N.ltb_spec (byteN c) 128) as [L|L]; [|lia]. exfalso. apply (N (byteN c) t); [unfold valid_rune; lia|].
      rewrite encode_ascii by lia. rewrite byte_of_byteN. reflexivity. }
    assert (Q : c <> dquote) by (intros ->; cbn in H; lia).
    rewrite (loop_step f _ (encode_rune rune_error) (t ++ [dquote]) c (t ++ [dquote])); auto; [now rewrite IH by lia|intros ->; cbn in H; lia|].
    unfold unquote_char. rewrite (proj2 (byte_eqb_neq c """") Q). replace (128 <=? byteN c)%N with true by lia.
    destruct (high_decode c (t ++ [dquote]) H) as [(r & u & V & R & E)|[_ D]].
    + exfalso. destruct (before (encode_rune r) (c :: t) dquote [] u E (enc_no_quote r V R)) as (u' & X & _). exact (N r u' V X).
    + unfold decode_one. rewrite D. reflexivity.
  - cbn [app length] in *. rewrite (loop_step f _ [c] (t ++ [dquote]) backslash (e :: t ++ [dquote])); try discriminate; auto; [now rewrite IH by lia|].
    now apply unquote_char_letter.
  - cbn [app length] in *. rewrite app_length in F. rewrite <- app_assoc.
    rewrite (loop_step f _ [byte_of_N n] (t ++ [dquote]) backslash ("x"%byte :: h ++ t ++ [dquote])); try discriminate; auto; [now rewrite IH by lia|].
    change (match read_hex 2 0 (h ++ t ++ [dquote]) with Some (v, u') => Some ([byte_of_N v], u') | None => None end = Some ([byte_of_N n], t ++ [dquote])).
    now rewrite (read_hex_exact h n 2 _ H L).
  - cbn [app length] in *. rewrite app_length in F. rewrite <- app_assoc.
    rewrite (loop_step f _ (encode_rune n) (t ++ [dquote]) backslash ("u"%byte :: h ++ t ++ [dquote])); try discriminate; auto; [now rewrite IH by lia|].
    change (match read_hex 4 0 (h ++ t ++ [dquote]) with Some (v, u') => if valid_rune v then Some (encode_rune v, u') else None | None => None end = Some (encode_rune n, t ++ [dquote])).
    now rewrite (read_hex_exact h n 4 _ H L), V.
  - cbn [app length] in *. rewrite app_length in F. rewrite <- app_assoc.
    rewrite (loop_step f _ (encode_rune n) (t ++ [dquote]) backslash ("U"%byte :: h ++ t ++ [dquote])); try discriminate; auto; [now rewrite IH by lia|].
    change (match read_hex 8 0 (h ++ t ++ [dquote]) with Some (v, u') => if valid_rune v then Some (encode_rune v, u') else None | None => None end = Some (encode_rune n, t ++ [dquote])).
    now rewrite (read_hex_exact h n 8 _ H L), V.
  - destruct H as (a & b & c & na & nb & nc & -> & A & B & C & ->). rewrite octal_value in A, B, C. cbn [app length] in *.
    rewrite (loop_step f _ [byte_of_N (64 * na + 8 * nb + nc)] (t ++ [dquote]) backslash (a :: b :: c :: t ++ [dquote])); try discriminate; auto; [now rewrite IH by lia|].
    unfold unquote_char. change (Byte.eqb backslash """") with false. change (128 <=? byteN backslash)%N with false. change (negb (Byte.eqb backslash "\")) with false. cbv iota.
    assert (G : forall x, octal x = None -> Byte.eqb a x = false) by (intros x X; apply byte_eqb_neq; intros ->; congruence).
    rewrite !G by reflexivity. rewrite A, B, C. cbv zeta. replace (na * 64 + nb * 8 + nc)%N with (64 * na + 8 * nb + nc)%N by lia.
    now replace (64 * na + 8 * nb + nc <=? 255)%N with true by lia.
Qed.
Lemma atom_iff t v : parse_token t = POk v <-> atom t v.
Proof.
  unfold parse_token.
  assert (Dec : has_prefix t (bs """") && has_suffix t (bs """") = true <-> t = [dquote] \/ exists b, t = dquote :: b ++ [dquote]).
  { rewrite andb_true_iff, has_prefix_iff, has_suffix_iff. change (bs """") with [dquote]. split.
    - intros [[a ->] [b E]]. destruct b as [|x b]; [left; exact E|right]. injection E as -> ->. now exists b.
    - intros [->|[b ->]]; (split; [now eexists|]); [now exists []|now exists (dquote :: b)]. }
  destruct (has_prefix t (bs """") && has_suffix t (bs """")) eqn:P.
  - destruct (proj1 Dec eq_refl) as [->|[b ->]].
    + split; [discriminate|]. intros H. inversion H; subst; try congruence. destruct t; discriminate.
    + replace (zlen _ <? 2) with false. 2:{ symmetry. apply Z.ltb_ge. rewrite zlen_cons, zlen_app, zlen_cons, zlen_nil. pose proof (zlen_nonneg b). lia. }
      change (unquote (dquote :: b ++ [dquote])) with (unquote_loop (S (length (b ++ [dquote]))) (b ++ [dquote])).
      split.
      * destruct (unquote_loop _ _) as [s|] eqn:U; [|discriminate]. intros H. injection H as <-. apply literal_sound in U as (t & E & L).
        apply app_inj_tail in E as [-> _]. now constructor.
      * intros H. inversion H as [t s L E|t f N1 N2 E|t N1 N2 E]; subst; try (exfalso; now apply (N2 b)).
        apply app_inj_tail in E as [-> _]. rewrite (literal_complete b s L); [reflexivity|]. rewrite app_length. cbn. lia.
  - assert (N1 : t <> [dquote]) by (intros X; assert (false = true) by (apply Dec; auto); discriminate).
    assert (N2 : forall b, t <> dquote :: b ++ [dquote]) by (intros b X; assert (false = true) by (apply Dec; eauto); discriminate).
    destruct (parse_float t) as [f|] eqn:F.
    + split; [intros H; injection H as <-; now constructor|]. intros H. inversion H; subst; try congruence; now exfalso; eapply N2.
    + split; [intros H; injection H as <-; now constructor|]. intros H. inversion H; subst; try congruence; now exfalso; eapply N2.
Qed.

(** ** Words *)
Definition inside (stop : list rune) (inq esc : bool) (w : list rune) : Prop :=
  match inq, esc with
  | false, false => pieces stop w
  | true, false => exists a b, w = a ++ c_quote :: b /\ pieces stop a /\ between_quotes b
  | true, true => exists a b, w = a ++ c_quote :: b ++ [c_backslash] /\ pieces stop a /\ between_quotes b
  | false, true => False
  end.
Lemma pieces_app stop a b : pieces stop a -> pieces stop b -> pieces stop (a ++ b).
Proof.
  intros A B. induction A as [|c l N S _ IH|x l X _ IH]; [exact B|now constructor|]. cbn [app]. rewrite <- app_assoc. cbn [app]. now constructor.
Qed.
Lemma quotes_app a b : between_quotes a -> between_quotes b -> between_quotes (a ++ b).
Proof. intros A B. induction A; cbn [app]; [exact B|now apply bq_char|now apply bq_escape]. Qed.
Lemma inside_step stop inq esc w r : inside stop inq esc w ->
  (inq = false -> r <> 34%N -> ~ In r stop) ->
  let '(q', e') := qstep (inq, esc) r in inside stop q' e' (w ++ [r]).
Proof.
  intros I N. cbn [qstep]. destruct inq, esc; cbn [inside] in *; try contradiction.
  - destruct I as (a & b & -> & A & B). exists a, (b ++ [c_backslash; r]). split; [|split; auto].
    + rewrite <- app_assoc. cbn [app]. rewrite <- app_assoc. reflexivity.
    + apply quotes_app; auto. apply bq_escape. constructor.
  - destruct I as (a & b & -> & A & B). destruct (N.eqb_spec r 92) as [->|R].
    { exists a, b. split; [|auto]. now rewrite <- app_assoc. }
    destruct (N.eqb_spec r 34) as [->|R'].
    { cbn [negb inside]. rewrite <- app_assoc. cbn [app]. apply pieces_app; auto. apply pc_quoted; auto. constructor. }
    exists a, (b ++ [r]). split; [now rewrite <- app_assoc|]. split; auto. apply quotes_app; auto. constructor; auto. constructor.
  - destruct (N.eqb_spec r 92) as [->|R].
    { cbn [inside]. apply pieces_app; auto. constructor; [discriminate|apply N; [auto|discriminate]|constructor]. }
    destruct (N.eqb_spec r 34) as [->|R'].
    { cbn [negb inside]. exists w, []. repeat split; auto. constructor. }
    cbn [inside]. apply pieces_app; auto. constructor; auto. constructor.
Qed.
Lemma quotes_run b : between_quotes b -> qrun (true, false) b = (true, false).
Proof.
  induction 1 as [|c l A B _ IH|c l _ IH]; [reflexivity|..]; unfold qrun; cbn [fold_left qstep].
  - apply N.eqb_neq in A, B. change (c =? 92)%N with (c =? c_backslash)%N. rewrite B. change (c =? 34)%N with (c =? c_quote)%N. rewrite A. exact IH.
  - exact IH.
Qed.
Lemma pieces_run stop l : pieces stop l -> qrun (false, false) l = (false, false).
Proof.
  induction 1 as [|c l A B _ IH|b l B _ IH]; [reflexivity|..].
  - unfold qrun. cbn [fold_left qstep]. apply N.eqb_neq in A. change (c =? 34)%N with (c =? c_quote)%N. rewrite A. destruct (c =? 92)%N; exact IH.
  - change (qrun (true, false) (b ++ c_quote :: l) = (false, false)). rewrite qrun_app, quotes_run by exact B. exact IH.
Qed.

Definition tok_str (t : tok) : str := match t with Open => tok_open | Close => tok_close | Word w => text w end.
Definition tok_fine (t : tok) : Prop := match t with Word w => word w | _ => True end.
Lemma blank_in r : is_blank r = true <-> In r separators.
Proof. unfold is_blank, separators. cbn [In]. lia. Qed.
Lemma breaks_in r : In r breaks <-> r = 40%N \/ r = 41%N \/ is_blank r = true.
Proof. rewrite blank_in. unfold breaks, c_open, c_close. cbn [In]. intuition congruence. Qed.
Lemma tokens_fine l ts : tokens l ts -> Forall tok_fine ts.
Proof. induction 1; auto; constructor; cbn; auto. Qed.
Lemma tokens_run l ts : tokens l ts -> qrun (false, false) l = (false, false).
Proof.
  induction 1 as [|c l ts S _ IH|l ts _ IH|l ts _ IH|w l ts W _ _ IH]; try exact IH; try reflexivity.
  - unfold separators in S. cbn [In] in S. destruct S as [<-|[<-|[<-|[<-|[]]]]]; exact IH.
  - rewrite qrun_app, (pieces_run breaks) by apply W. exact IH.
Qed.

Lemma tokens_sound l : forall w inq esc out, inside breaks inq esc w -> tokenize_from (text w) inq esc l = POk out ->
  exists u l' ts, l = u ++ l' /\ pieces breaks (w ++ u) /\ (l' = [] \/ exists c x, l' = c :: x /\ In c breaks) /\ tokens l' ts /\
    out = flush (text (w ++ u)) (map tok_str ts).
Proof.
  induction l as [|r l IH]; intros w inq esc out I; cbn [tokenize_from].
  - destruct inq; [discriminate|]. destruct esc; [destruct I|]. intros H. injection H as <-. exists [], [], []. rewrite (app_nil_r w). repeat split; auto. constructor.
  - assert (Go : forall q' e', inside breaks q' e' (w ++ [r]) -> tokenize_from (text w ++ encode_rune r) q' e' l = POk out ->
      exists u l' ts, r :: l = u ++ l' /\ pieces breaks (w ++ u) /\ (l' = [] \/ exists c x, l' = c :: x /\ In c breaks) /\ tokens l' ts /\
        out = flush (text (w ++ u)) (map tok_str ts)).
    { intros q' e' I' H. rewrite <- text_snoc in H. destruct (IH _ _ _ _ I' H) as (u & l' & ts & -> & P & S & T & ->).
      exists (r :: u), l', ts. rewrite <- app_assoc in *. repeat split; auto. }
    assert (Start : forall out', tokenize_from [] false false l = POk out' -> exists ts, tokens l ts /\ out' = map tok_str ts).
    { intros out' H. destruct (IH [] false false out' (pc_end _) H) as (u & l' & ts & -> & P & S & T & ->). cbn [app] in *.
      destruct u as [|x u]; [exists ts; auto|]. exists (Word (x :: u) :: ts). split.
      - apply (tk_word (x :: u) l' ts); auto. split; [discriminate|exact P].
      - cbn [map tok_str]. pose proof (text_ne (x :: u) ltac:(discriminate)) as Ne. destruct (text (x :: u)); [congruence|reflexivity]. }
    assert (Stop : forall ts', In r breaks -> tokens (r :: l) ts' -> inq = false -> esc = false ->
      exists u l' ts, r :: l = u ++ l' /\ pieces breaks (w ++ u) /\ (l' = [] \/ exists c x, l' = c :: x /\ In c breaks) /\ tokens l' ts /\
        flush (text w) (map tok_str ts') = flush (text (w ++ u)) (map tok_str ts)).
    { intros ts' B T -> ->. exists [], (r :: l), ts'. rewrite (app_nil_r w). repeat split; eauto. }
    pose proof (inside_step breaks inq esc w r I) as St. cbn [qstep] in St.
    destruct esc.
    { destruct inq; [|destruct I]. apply Go. apply St. discriminate. }
    unfold rn_backslash, rn_quote, rn_open, rn_close.
    destruct (r =? 92)%N eqn:E92.
    { apply Go. destruct inq; apply St; try discriminate. intros _ _. rewrite breaks_in. unfold is_blank. lia. }
    destruct (r =? 34)%N eqn:E34.
    { apply Go. destruct inq; apply St; try discriminate. intros _ X. exfalso. apply X. lia. }
    destruct ((r =? 40) || (r =? 41))%N eqn:Pa.
    { destruct inq; [apply Go; apply St; discriminate|]. intros H.
      destruct (tokenize_from [] false false l) as [out'| |] eqn:T; [|destruct (text w); discriminate..].
      destruct (Start _ eq_refl) as (ts & Ts & ->). assert (B : In r breaks) by (rewrite breaks_in; lia).
      assert (K : exists t, tokens (r :: l) (t :: ts) /\ tok_str t = encode_rune r).
      { destruct (N.eqb_spec r 40) as [->|R]; [exists Open; split; [now constructor|reflexivity]|]. assert (r = 41%N) as -> by lia.
        exists Close; split; [now constructor|reflexivity]. }
      destruct K as (t & K & E). replace out with (flush (text w) (map tok_str (t :: ts))); [apply Stop; auto|].
      cbn [map]. rewrite E. destruct (text w); cbn in H |- *; injection H as <-; reflexivity. }
    destruct (is_blank r) eqn:Bl.
    { destruct inq; [apply Go; apply St; discriminate|]. intros H.
      destruct (tokenize_from [] false false l) as [out'| |] eqn:T; [|destruct (text w); discriminate..].
      destruct (Start _ eq_refl) as (ts & Ts & ->). assert (B : In r breaks) by (rewrite breaks_in; auto).
      replace out with (flush (text w) (map tok_str ts)); [apply Stop; auto; apply tk_separator; auto; now apply blank_in|].
      destruct (text w); cbn in H |- *; injection H as <-; reflexivity. }
    apply Go. destruct inq; apply St; try discriminate. intros _ _. rewrite breaks_in. intros [X|[X|X]]; [lia|lia|congruence].
Qed.
Lemma quotes_pass b : between_quotes b -> forall cur l, tokenize_from cur true false (b ++ l) = tokenize_from (cur ++ text b) true false l.
Proof.
  induction 1 as [|c b A B _ IH|c b _ IH]; intros cur l; [now rewrite app_nil_r|..]; cbn [app tokenize_from text flat_map]; fold (text b).
  - apply N.eqb_neq in A, B. change rn_backslash with c_backslash. change rn_quote with c_quote. rewrite A, B. rewrite app_assoc, <- IH.
    destruct (_ || _); [reflexivity|]. destruct (is_blank c); reflexivity.
  - change (c_backslash =? rn_backslash)%N with true. cbv iota. rewrite IH. now rewrite <- !app_assoc.
Qed.
Lemma word_pass w : pieces breaks w -> forall cur l, tokenize_from cur false false (w ++ l) = tokenize_from (cur ++ text w) false false l.
Proof.
  induction 1 as [|c w A B _ IH|b w B _ IH]; intros cur l; [now rewrite app_nil_r|..].
  - cbn [app tokenize_from text flat_map]; fold (text w). rewrite breaks_in in B. apply N.eqb_neq in A. change rn_quote with c_quote. rewrite A.
    rewrite app_assoc, <- IH. destruct (c =? rn_backslash)%N; [reflexivity|]. unfold rn_open, rn_close.
    replace ((c =? 40) || (c =? 41))%N with false by lia. destruct (is_blank c); [tauto|reflexivity].
  - cbn [app]. rewrite <- app_assoc.
    change (tokenize_from (cur ++ encode_rune c_quote) true false (b ++ (c_quote :: w) ++ l) = tokenize_from (cur ++ text (c_quote :: b ++ c_quote :: w)) false false l).
    rewrite quotes_pass by exact B.
    change (tokenize_from (((cur ++ encode_rune c_quote) ++ text b) ++ encode_rune c_quote) false false (w ++ l) = tokenize_from (cur ++ text (c_quote :: b ++ c_quote :: w)) false false l).
    rewrite IH. change (c_quote :: b ++ c_quote :: w) with ([c_quote] ++ b ++ [c_quote] ++ w). rewrite !text_app, !app_assoc. cbn [text flat_map]. now rewrite app_nil_r.
Qed.
Lemma tokens_complete l ts : tokens l ts -> tokenize_from [] false false l = POk (map tok_str ts).
Proof.
  induction 1 as [|c l ts S _ IH|l ts _ IH|l ts _ IH|w l ts [W P] E _ IH].
  - reflexivity.
  - cbn [In separators] in S. destruct S as [<-|[<-|[<-|[<-|[]]]]]; exact IH.
  - change (c_open :: l) with (40%N :: l). rewrite tokenize_open, IH. reflexivity.
  - change (c_close :: l) with (41%N :: l). rewrite tokenize_close, IH. reflexivity.
  - rewrite word_pass by exact P. cbn [app]. rewrite token_ends.
    + rewrite IH. reflexivity.
    + now apply text_ne.
    + destruct E as [->|(c & u & -> & I)]; [exact Logic.I|]. cbn. apply breaks_in in I. tauto.
Qed.
Lemma tokens_iff l out : tokenize_from [] false false l = POk out <-> exists ts, tokens l ts /\ out = map tok_str ts.
Proof.
  split.
  - intros H. destruct (tokens_sound l [] false false out (pc_end _) H) as (u & l' & ts & -> & P & S & T & ->). cbn [app] in *.
    destruct u as [|x u]; [exists ts; auto|]. exists (Word (x :: u) :: ts). split.
    + apply (tk_word (x :: u) l' ts); auto. split; [discriminate|exact P].
    + cbn [map tok_str]. pose proof (text_ne (x :: u) ltac:(discriminate)) as Ne. destruct (text (x :: u)); [congruence|reflexivity].
  - intros (ts & T & ->). now apply tokens_complete.
Qed.

(** text that begins with a parenthesis begins with that token *)
Lemma tokens_iff_open l t ts : tokens (c_open :: l) (t :: ts) -> t = Open /\ tokens l ts.
Proof.
  intros T. inversion T as [|? ? ? S|? ? T'|? ? T'|w ? ? [W P] _ _ E]; subst; auto.
  - cbn in S. unfold c_open in S. intuition discriminate.
  - exfalso. destruct P as [|c w A B _|b w _ _]; [congruence| |discriminate]. injection E as -> _. apply B. now left.
Qed.
(** ** Expressions *)
Lemma word_head w c t : word w -> text w = c :: t -> c <> "("%byte /\ c <> ")"%byte.
Proof.
  intros [N P] E. destruct P as [|r l A B _|b l _ _]; [discriminate| |injection E as <- _; split; discriminate]. rewrite breaks_in in B.
  split; intros ->; apply encode_first_any in E; try (cbn; lia); cbn in E; lia.
Qed.
Lemma not_open t : tok_fine t -> str_eqb (tok_str t) tok_open = match t with Open => true | _ => false end.
Proof.
  destruct t as [| |w]; intros F; [reflexivity..|]. apply str_eqb_neq. cbn [tok_str]. intros E. exact (proj1 (word_head w _ _ F E) eq_refl).
Qed.
Lemma not_close t : tok_fine t -> str_eqb (tok_str t) tok_close = match t with Close => true | _ => false end.
Proof.
  destruct t as [| |w]; intros F; [reflexivity..|]. apply str_eqb_neq. cbn [tok_str]. intros E. exact (proj2 (word_head w _ _ F E) eq_refl).
Qed.
Scheme expr_mut := Induction for expr Sort Prop with exprs_mut := Induction for exprs Sort Prop.
Combined Scheme expr_exprs_ind from expr_mut, exprs_mut.
Lemma expr_head ts v : expr ts v -> exists t us, ts = t :: us /\ t <> Close.
Proof. destruct 1; eexists _, _; split; try reflexivity; discriminate. Qed.

Lemma exprs_complete :
  (forall ts v, expr ts v -> Forall tok_fine ts -> forall fuel rest, (2 * length ts <= fuel)%nat ->
     parse_tokens fuel (map tok_str ts ++ rest) = POk (v, rest)) /\
  (forall ts vs, exprs ts vs -> Forall tok_fine ts -> forall fuel acc rest, (2 * length ts < fuel)%nat ->
     parse_list fuel acc (map tok_str ts ++ tok_close :: rest) = POk (VList (rev acc ++ vs), rest)).
Proof.
  apply expr_exprs_ind.
  - intros w v A F fuel rest L. cbn [length] in L. destruct fuel as [|fuel]; [lia|]. cbn [map app parse_tokens].
    inversion F; subst. rewrite not_open, not_close by auto. cbn [tok_str]. apply atom_iff in A. now rewrite A.
  - intros ts vs _ IH F fuel rest L. cbn [length] in L. rewrite app_length in L. cbn [length] in L. destruct fuel as [|fuel]; [lia|].
    inversion F as [|? ? _ F']; subst. apply Forall_app in F' as [F' _]. cbn [map app parse_tokens]. rewrite not_open by exact I.
    rewrite map_app, <- app_assoc. cbn [map app tok_str]. now rewrite (IH F' fuel [] rest) by lia.
  - intros _ fuel acc rest L. destruct fuel as [|fuel]; [cbn in L; lia|]. cbn [map app parse_list]. rewrite str_eqb_refl, app_nil_r. reflexivity.
  - intros ts v us vs X IHx _ IHs F fuel acc rest L. rewrite app_length in L. apply Forall_app in F as [F1 F2].
    destruct fuel as [|fuel]; [lia|]. rewrite map_app, <- app_assoc.
    destruct (expr_head _ _ X) as (t & ts' & -> & Nc). pose proof (IHx F1 fuel (map tok_str us ++ tok_close :: rest)) as P.
    cbn [map app] in P |- *. cbn [parse_list]. inversion F1; subst. rewrite not_close by auto. destruct t; [|congruence|];
      (rewrite P by (cbn [length] in *; lia); rewrite IHs by (auto; cbn [length] in *; lia); cbn [rev]; rewrite <- app_assoc; reflexivity).
Qed.
Lemma exprs_sound fuel : forall ts, Forall tok_fine ts ->
  (forall v rest, parse_tokens fuel (map tok_str ts) = POk (v, rest) -> exists a b, ts = a ++ b /\ expr a v /\ rest = map tok_str b) /\
  (forall acc v rest, parse_list fuel acc (map tok_str ts) = POk (v, rest) ->
     exists a vs b, ts = a ++ Close :: b /\ exprs a vs /\ v = VList (rev acc ++ vs) /\ rest = map tok_str b).
Proof.
  induction fuel as [|fuel IH]; intros ts F; [split; discriminate|]. split.
  - intros v rest. cbn [parse_tokens]. destruct ts as [|t ts]; [discriminate|]. cbn [map]. inversion F; subst.
    rewrite not_open, not_close by auto. destruct t as [| |w]; [|discriminate|].
    + intros H. destruct (IH ts) as [_ K]; auto. apply K in H as (a & vs & b & -> & A & -> & ->). exists (Open :: a ++ [Close]), b.
      repeat split; [|now constructor]. cbn [app]. now rewrite <- app_assoc.
    + destruct (parse_token (tok_str (Word w))) as [x| |] eqn:P; try discriminate. intros H. injection H as -> <-. apply atom_iff in P.
      exists [Word w], ts. repeat split. now constructor.
  - intros acc v rest. cbn [parse_list]. destruct ts as [|t ts]; [discriminate|]. cbn [map]. inversion F; subst.
    rewrite not_close by auto. destruct (match t with Close => true | _ => false end) eqn:C.
    + destruct t; try discriminate. intros H. injection H as <- <-. exists [], [], ts. rewrite app_nil_r. repeat split. constructor.
    + destruct (parse_tokens fuel (tok_str t :: map tok_str ts)) as [[x r]| |] eqn:P; try discriminate. intros H.
      destruct (IH (t :: ts) F) as [K _]. apply K in P as (a & b & E & A & ->). rewrite E in F |- *.
      apply Forall_app in F as [_ F]. destruct (IH b F) as [_ M]. apply M in H as (a' & vs & b' & -> & A' & -> & ->).
      exists (a ++ a'), (x :: vs), b'. rewrite <- app_assoc. repeat split; [now constructor|]. cbn [rev]. now rewrite <- app_assoc.
Qed.
Lemma shell_complete ts vs : exprs ts vs -> Forall tok_fine ts -> forall fuel acc, (length ts < fuel)%nat ->
  shell_loop fuel acc (map tok_str ts) = POk (VList (rev acc ++ vs)).
Proof.
  induction 1 as [|ts v us vs X _ IH]; intros F fuel acc L; (destruct fuel as [|fuel]; [lia|]).
  - cbn. now rewrite app_nil_r.
  - apply Forall_app in F as [F1 F2]. rewrite app_length in L.
    assert (E : shell_loop (S fuel) acc (map tok_str (ts ++ us)) = shell_loop fuel (v :: acc) (map tok_str us)).
    { pose proof (proj1 exprs_complete _ _ X F1 (tok_fuel (map tok_str (ts ++ us))) (map tok_str us)) as P.
      rewrite map_app in P |- *. destruct X as [w v A|ts vs' A].
      - cbn [map app shell_loop]. inversion F1; subst. rewrite not_open, not_close by auto. cbn [tok_str]. apply atom_iff in A. now rewrite A.
      - cbn [map app shell_loop] in P |- *. change (str_eqb (tok_str Open) tok_open) with true. cbv iota. rewrite P; [reflexivity|].
        unfold tok_fuel. cbn [length]. rewrite !app_length, !map_length, !app_length. cbn [length]. lia. }
    rewrite E. destruct (expr_head _ _ X) as (t & ts' & -> & _). cbn [length] in L. rewrite IH by (auto; lia). cbn [rev]. now rewrite <- app_assoc.
Qed.
Lemma shell_sound fuel : forall ts acc v, Forall tok_fine ts -> shell_loop fuel acc (map tok_str ts) = POk v ->
  exists vs, exprs ts vs /\ v = VList (rev acc ++ vs).
Proof.
  induction fuel as [|fuel IH]; intros ts acc v F; [discriminate|]. cbn [shell_loop]. destruct ts as [|t ts].
  - cbn [map]. intros H. injection H as <-. exists []. rewrite app_nil_r. split; [constructor|reflexivity].
  - cbn [map]. inversion F; subst. rewrite not_open, not_close by auto. destruct t as [| |w]; [|discriminate|].
    + destruct (parse_tokens _ _) as [[x r]| |] eqn:P; try discriminate. intros H.
      change (tok_str Open :: map tok_str ts) with (map tok_str (Open :: ts)) in P. destruct (exprs_sound (tok_fuel (map tok_str (Open :: ts))) _ F) as [K _].
      apply K in P as (a & b & E & A & ->). rewrite E in F |- *. apply Forall_app in F as [_ F]. apply IH in H as (vs & B & ->); auto.
      exists (x :: vs). split; [now constructor|]. cbn [rev]. now rewrite <- app_assoc.
    + destruct (parse_token (tok_str (Word w))) as [x| |] eqn:P; try discriminate. intros H. apply atom_iff in P. apply IH in H as (vs & B & ->); auto.
      exists (x :: vs). split; [|cbn [rev]; now rewrite <- app_assoc]. change (Word w :: ts) with ([Word w] ++ ts). constructor; auto. now constructor.
Qed.

(** ** Commands *)
Lemma text_open l : has_prefix (text l) tok_open = true <-> exists u, l = c_open :: u.
Proof.
  rewrite has_prefix_iff. split.
  - intros [v E]. destruct l as [|r l]; [discriminate|]. cbn [text flat_map] in E. apply encode_first_any in E; [|cbn; lia]. exists l. now rewrite E.
  - intros [u ->]. exists (text u). reflexivity.
Qed.
Lemma command_iff l v : Forall valid l -> l <> [] -> (parse_line (text l) = POk v <-> command l v).
Proof.
  intros V N. unfold parse_line, parse_sexp_line, parse_shell_line, tokenize. change (text l) with (utf8 l) at 2 3. rewrite rune_list_utf8 by exact V.
  destruct (has_prefix (text l) tok_open) eqn:P.
  - apply text_open in P as [u ->]. split.
    + destruct (tokenize_from [] false false (c_open :: u)) as [out| |] eqn:T; try discriminate. cbn [pbind].
      apply tokens_iff in T as (ts & T & ->). pose proof (tokens_fine _ _ T) as F.
      destruct (parse_tokens _ _) as [[x r]| |] eqn:P; try discriminate. cbn. intros H. injection H as <-.
      destruct (exprs_sound (tok_fuel (map tok_str ts)) ts F) as [K _]. apply K in P as (a & b & -> & A & _). now apply (cmd_list u a b x).
    + intros H. inversion H as [l ts rest x T X|l ts vs N1 N2 T X]; subst; [|exfalso; now apply (N2 u)].
      pose proof (tokens_fine _ _ T) as F. apply Forall_app in F as [F _]. rewrite (tokens_complete _ _ T). cbn [pbind].
      rewrite (map_app tok_str ts rest) at 2. rewrite (proj1 exprs_complete _ _ X F); [reflexivity|].
      unfold tok_fuel. rewrite map_length, app_length. lia.
  - assert (N2 : forall u, l <> c_open :: u). { intros u E. assert (has_prefix (text l) tok_open = true) by (apply text_open; eauto). congruence. }
    split.
    + destruct (tokenize_from [] false false l) as [out| |] eqn:T; try discriminate. cbn [pbind].
      apply tokens_iff in T as (ts & T & ->). intros H. apply shell_sound in H as (vs & X & ->); [|now apply (tokens_fine l)]. now apply (cmd_words l ts).
    + intros H. inversion H as [u ts rest x T X|u ts vs N1 N3 T X]; subst; [exfalso; now eapply N2|].
      rewrite (tokens_complete _ _ T). cbn [pbind]. rewrite (shell_complete ts vs X); [reflexivity|now apply (tokens_fine l)|]. rewrite map_length. lia.
Qed.
Lemma white_in r : In r white_space <-> is_space r = true.
Proof. unfold white_space, is_space. cbn [In]. lia. Qed.
Lemma white_all l : Forall (fun c => In c white_space) l <-> all_space l.
Proof. unfold all_space. split; intros H; (eapply Forall_impl; [|exact H]); intros c; apply white_in. Qed.
Lemma trimmed l : (all_space l /\ trim_runes l = []) \/
  (exists a m b, l = a ++ m ++ b /\ all_space a /\ all_space b /\ trim_runes l = m /\ m <> [] /\
     (forall c u, m = c :: u -> is_space c = false) /\ (forall c u, m = u ++ [c] -> is_space c = false)).
Proof.
  unfold trim_runes. destruct (trim_left_or l) as [[A B]|(ws & r & l' & -> & A & R & B)].
  - left. split; auto. now rewrite B.
  - right. rewrite B. destruct (trim_left_or (rev (r :: l'))) as [[C _]|(ws' & r' & l'' & E & C & R' & D)].
    + exfalso. apply all_space_rev in C. rewrite rev_involutive in C. inversion C; congruence.
    + rewrite D. assert (X : r :: l' = rev (r' :: l'') ++ rev ws').
      { rewrite <- rev_app_distr, <- E. now rewrite rev_involutive. }
      exists ws, (rev (r' :: l'')), (rev ws'). repeat split; auto.
      * now rewrite X.
      * now apply all_space_rev.
      * cbn [rev]. destruct (rev l''); discriminate.
      * intros c u Y. rewrite Y in X. injection X as -> _. exact R.
      * intros c u Y. cbn [rev] in Y. apply app_inj_tail in Y as [_ <-]. exact R'.
Qed.
Lemma trim_core a m b : all_space a -> all_space b -> (forall c u, m = c :: u -> is_space c = false) -> (forall c u, m = u ++ [c] -> is_space c = false) ->
  trim_runes (a ++ m ++ b) = m.
Proof.
  intros A B F L. rewrite trim_runes_spaces by auto. destruct (trimmed m) as [[S ->]|(x & n & y & E & X & Y & -> & Ne & _)].
  - destruct m as [|c m]; [reflexivity|]. inversion S; subst. rewrite (F c m eq_refl) in *. discriminate.
  - destruct x as [|c x]. 2:{ exfalso. inversion X; subst. cbn in F. rewrite (F _ _ eq_refl) in *. discriminate. }
    cbn [app] in E. destruct y as [|c y] using rev_ind; [now rewrite E, app_nil_r|]. exfalso. apply Forall_app in Y as [_ Y]. inversion Y; subst.
    rewrite app_assoc in L. rewrite (L _ _ eq_refl) in *. discriminate.
Qed.
Lemma part_iff l p : Forall valid l -> (parse_commands [text l] = POk p <-> part l p).
Proof.
  intros V. cbn [parse_commands]. change (text l) with (utf8 l). rewrite trim_space_utf8 by exact V.
  assert (K : forall m, m <> [] -> Forall valid m ->
    (match utf8 m with [] => POk [] | c' => pbind (parse_line c') (fun v => pbind (POk []) (fun vs => POk (v :: vs))) end = POk p <-> exists v, p = [v] /\ command m v)).
  { intros m N Vm. pose proof (text_ne m N) as X. change (utf8 m) with (text m). 
    replace (match text m with [] => POk [] | c' => pbind (parse_line c') (fun v => pbind (POk []) (fun vs => POk (v :: vs))) end)
      with (pbind (parse_line (text m)) (fun v => POk [v])) by (destruct (text m); [congruence|reflexivity]).
    split.
    - destruct (parse_line (text m)) as [v| |] eqn:P; try discriminate. cbn. intros H. injection H as <-. exists v. split; auto. now apply command_iff.
    - intros (v & -> & C). apply command_iff in C; auto. now rewrite C. }
  destruct (trimmed l) as [[S E]|(a & m & b & -> & A & B & E & N & F & L)].
  - rewrite E. split.
    + intros H. injection H as <-. constructor. now apply white_all.
    + intros H. destruct H as [a _|a m b v A B F L C]; [reflexivity|]. exfalso. apply white_all in A, B.
      rewrite trim_core in E; auto; [|intros; apply not_true_is_false; rewrite <- white_in; eauto..]. subst m.
      inversion C; congruence.
  - rewrite E. apply Forall_app in V as [_ V]. apply Forall_app in V as [V _]. rewrite (K m N V). split.
    + intros (v & -> & C). apply white_all in A, B. constructor; auto; intros c u Y; rewrite white_in; [rewrite (F c u Y)|rewrite (L c u Y)]; discriminate.
    + remember (a ++ m ++ b) as l eqn:El. intros H. destruct H as [l' S|a' m' b' v A' B' F' L' C].
      * exfalso. apply white_all in S. rewrite El in S. apply Forall_app in S as [_ S]. apply Forall_app in S as [S _].
        destruct m as [|c m]; [congruence|]. inversion S; subst. rewrite (F c m eq_refl) in *. discriminate.
      * exists v. split; auto. apply white_all in A', B'. rewrite El in E. rewrite <- El in E.
        rewrite trim_core in E; auto; [|intros; apply not_true_is_false; rewrite <- white_in; eauto..]. now rewrite <- E.
Qed.

(** ** Lines *)
Lemma quotes_parts b : between_quotes b -> forall cur l, semi_parts cur true false (b ++ l) = semi_parts (cur ++ text b) true false l.
Proof.
  induction 1 as [|c b A B _ IH|c b _ IH]; intros cur l; [now rewrite app_nil_r|..]; cbn [app semi_parts text flat_map]; fold (text b).
  - apply N.eqb_neq in A, B. change (c =? 92)%N with (c =? c_backslash)%N. change (c =? 34)%N with (c =? c_quote)%N. rewrite A, B. rewrite app_assoc, <- IH.
    destruct (c =? 59)%N; reflexivity.
  - change (c_backslash =? 92)%N with true. cbv iota. rewrite IH. now rewrite <- !app_assoc.
Qed.
Lemma pieces_parts w : pieces [c_semicolon] w -> forall cur l, semi_parts cur false false (w ++ l) = semi_parts (cur ++ text w) false false l.
Proof.
  induction 1 as [|c w A B _ IH|b w B _ IH]; intros cur l; [now rewrite app_nil_r|..].
  - cbn [app semi_parts text flat_map]; fold (text w). apply N.eqb_neq in A. change (c =? 34)%N with (c =? c_quote)%N. rewrite A.
    rewrite app_assoc, <- IH. destruct (c =? 92)%N; [reflexivity|]. destruct (N.eqb_spec c 59) as [->|X]; [exfalso; apply B; now left|reflexivity].
  - cbn [app]. rewrite <- app_assoc.
    change (semi_parts (cur ++ encode_rune c_quote) true false (b ++ (c_quote :: w) ++ l) = semi_parts (cur ++ text (c_quote :: b ++ c_quote :: w)) false false l).
    rewrite quotes_parts by exact B.
    change (semi_parts (((cur ++ encode_rune c_quote) ++ text b) ++ encode_rune c_quote) false false (w ++ l) = semi_parts (cur ++ text (c_quote :: b ++ c_quote :: w)) false false l).
    rewrite IH. change (c_quote :: b ++ c_quote :: w) with ([c_quote] ++ b ++ [c_quote] ++ w). rewrite !text_app, !app_assoc. cbn [text flat_map]. now rewrite app_nil_r.
Qed.
Lemma pieces_one w : pieces [c_semicolon] w -> semi_parts [] false false w = [text w].
Proof. intros P. pose proof (pieces_parts w P [] []) as X. rewrite app_nil_r in X. rewrite X. reflexivity. Qed.
(** the first semicolon outside quotes, if there is one *)
Lemma line_split l : forall w inq esc, inside [c_semicolon] inq esc w ->
  (exists a m, w ++ l = a ++ c_semicolon :: m /\ pieces [c_semicolon] a /\ (length m < length l)%nat) \/
  (pieces [c_semicolon] (w ++ l)) \/
  (fst (qrun (inq, esc) l) = true /\ semi_parts (text w) inq esc l = [text (w ++ l)]).
Proof.
  induction l as [|r l IH]; intros w inq esc I.
  - rewrite app_nil_r. destruct inq; [right; right; split; reflexivity|]. destruct esc; [destruct I|]. right. left. exact I.
  - assert (Go : forall q' e', qstep (inq, esc) r = (q', e') -> inside [c_semicolon] q' e' (w ++ [r]) ->
      semi_parts (text w) inq esc (r :: l) = semi_parts (text w ++ encode_rune r) q' e' l ->
      (exists a m, w ++ r :: l = a ++ c_semicolon :: m /\ pieces [c_semicolon] a /\ (length m < length (r :: l))%nat) \/
      (pieces [c_semicolon] (w ++ r :: l)) \/ (fst (qrun (inq, esc) (r :: l)) = true /\ semi_parts (text w) inq esc (r :: l) = [text (w ++ r :: l)])).
    { intros q' e' Q I' E. rewrite E, <- text_snoc. change (qrun (inq, esc) (r :: l)) with (qrun (qstep (inq, esc) r) l). rewrite Q.
      change (w ++ r :: l) with (w ++ [r] ++ l). rewrite app_assoc.
      destruct (IH _ _ _ I') as [(a & m & X & P & L)|[X|X]]; [left; exists a, m; cbn [length]; auto|right; left; exact X|right; right; exact X]. }
    pose proof (inside_step [c_semicolon] inq esc w r I) as St.
    destruct esc.
    { destruct inq; [|destruct I]. apply (Go true false); auto. apply St. discriminate. }
    destruct (r =? 92)%N eqn:E92.
    { apply (Go inq inq); cbn [qstep semi_parts] in *; rewrite E92 in *; auto. apply St. intros _ _ [X|[]]. unfold c_semicolon in X. lia. }
    destruct (r =? 34)%N eqn:E34.
    { apply (Go (negb inq) false); cbn [qstep semi_parts] in *; rewrite E92, E34 in *; auto. apply St. intros _ X. exfalso. lia. }
    destruct (r =? 59)%N eqn:E59.
    { destruct inq; [apply (Go true false); cbn [qstep semi_parts] in *; rewrite E92, E34 in *; try rewrite E59; auto; apply St; discriminate|].
      left. exists w, l. cbn [length]. assert (r = c_semicolon) as -> by (unfold c_semicolon; lia). auto. }
    apply (Go inq false); cbn [qstep semi_parts] in *; rewrite E92, E34 in *; try rewrite E59; auto. apply St. intros _ _ [X|[]]. unfold c_semicolon in X. lia.
Qed.
Lemma space_run a : all_space a -> qrun (false, false) a = (false, false).
Proof.
  induction 1 as [|r a S _ IH]; [reflexivity|]. apply space_plain in S as (A & B & _). unfold qrun. cbn [fold_left qstep].
  replace (r =? 92)%N with false by lia. replace (r =? 34)%N with false by lia. exact IH.
Qed.
Lemma command_run m v : command m v -> qrun (false, false) m = (false, false).
Proof. destruct 1 as [l ts rest v T _|l ts vs _ _ T _]; now apply tokens_run in T. Qed.
Lemma part_run l p : part l p -> qrun (false, false) l = (false, false).
Proof.
  destruct 1 as [a A|a m b v A B _ _ C].
  - now apply space_run, white_all.
  - apply white_all in A, B. now rewrite !qrun_app, (space_run a A), (command_run m v C), (space_run b B).
Qed.
Lemma line_iff n : forall l p, (length l <= n)%nat -> Forall valid l -> (parse_commands (semi_parts [] false false l) = POk p <-> line l p).
Proof.
  induction n as [|n IH]; intros l p L V.
  { destruct l; [|cbn in L; lia]. split.
    - intros H. injection H as <-. apply line_one; [constructor|]. apply part_empty. constructor.
    - intros H. inversion H as [l' p' _ P|l' p' m q _ _ _ E]; subst; [|destruct l'; discriminate]. inversion P as [|a m b v _ _ _ _ C E]; subst; [reflexivity|].
      apply app_eq_nil in E as [_ E]. apply app_eq_nil in E as [-> _]. inversion C; congruence. }
  split.
  - destruct (line_split l [] false false (pc_end _)) as [(a & m & E & P & Lm)|[P|[Q S]]].
    + cbn [app] in E. subst l. apply Forall_app in V as [Va Vm]. inversion Vm as [|? ? _ Vm']; subst.
      replace (semi_parts [] false false (a ++ c_semicolon :: m)) with (semi_parts [] false false a ++ semi_parts [] false false m)
        by (symmetry; apply parts_app; now apply (pieces_run [c_semicolon])). rewrite pieces_one by exact P.
      rewrite parse_commands_app. destruct (parse_commands [text a]) as [p1| |] eqn:P1; try discriminate.
      destruct (parse_commands (semi_parts [] false false m)) as [p2| |] eqn:P2; try discriminate. cbn. intros H. injection H as <-.
      apply part_iff in P1; [|exact Va]. apply IH in P2; [|rewrite app_length in L; cbn [length] in L; lia|exact Vm']. now apply line_more.
    + cbn [app] in P. rewrite pieces_one by exact P. intros H. apply part_iff in H; [|exact V]. now apply line_one.
    + cbn [app] in S. change (text []) with (@nil byte) in S. rewrite S. intros H. apply part_iff in H; [|exact V]. apply part_run in H. rewrite H in Q. discriminate.
  - intros H. inversion H as [l' p' P A|l' p1 m p2 P A B]; subst.
    + rewrite pieces_one by exact P. now apply part_iff.
    + apply Forall_app in V as [Va Vm]. inversion Vm as [|? ? _ Vm']; subst.
      replace (semi_parts [] false false (l' ++ c_semicolon :: m)) with (semi_parts [] false false l' ++ semi_parts [] false false m)
        by (symmetry; apply parts_app; now apply (pieces_run [c_semicolon])). rewrite pieces_one by exact P. rewrite parse_commands_app.
      apply part_iff in A; [|exact Va]. apply IH in B; [|rewrite app_length in L; cbn [length] in L; lia|exact Vm']. now rewrite A, B.
Qed.
Lemma physical_iff l p : parse_physical_line l = POk p <-> exists cs, chars l cs /\ line cs p.
Proof.
  rewrite line_commands, (line_iff (length (rune_list l))); auto using rune_list_valid. split.
  - intros H. exists (rune_list l). split; auto. now apply chars_iff.
  - intros (cs & C & H). apply chars_iff in C as <-. exact H.
Qed.
Lemma one_line l p : ~ In nl l -> (parse_string l = POk p <-> zlen l < 65536 /\ exists cs, chars l cs /\ line cs p).
Proof.
  intros N. rewrite parse_one by exact N. unfold line_result. change max_line with 65536. destruct (65536 <=? zlen l) eqn:L.
  - split; [discriminate|]. intros [X _]. lia.
  - rewrite physical_iff. split; [intros H; split; [lia|exact H]|tauto].
Qed.
Lemma first_nl s : ~ In nl s \/ exists a b, s = a ++ nl :: b /\ ~ In nl a.
Proof.
  induction s as [|c s IH]; [left; intros []|]. destruct (Byte.eqb c nl) eqn:C.
  - apply byte_eqb_eq in C as ->. right. exists [], s. split; [reflexivity|intros []].
  - apply byte_eqb_neq in C. destruct IH as [N|(a & b & -> & N)].
    + left. intros [X|X]; auto.
    + right. exists (c :: a), b. split; [reflexivity|]. intros [X|X]; auto.
Qed.
Lemma script_iff n : forall s p, (length s <= n)%nat -> (parse_string s = POk p <-> script s p).
Proof.
  induction n as [|n IH]; intros s p L.
  { destruct s; [|cbn in L; lia]. rewrite one_line by (intros []). split.
    - intros (Z & cs & C & H). eapply script_one; eauto.
    - intros H. inversion H as [l cs p' N Z C A|l cs p' s q N Z C A B E]; subst; [eauto|destruct l; discriminate]. }
  split.
  - destruct (first_nl s) as [N|(a & b & -> & N)].
    + rewrite one_line by exact N. intros (Z & cs & C & H). eapply script_one; eauto.
    + rewrite parse_newline. destruct (parse_string a) as [p1| |] eqn:A; try discriminate. destruct (parse_string b) as [p2| |] eqn:B; try discriminate.
      intros H. injection H as <-. apply one_line in A as (Z & cs & C & H); [|exact N]. apply IH in B; [|rewrite app_length in L; cbn [length] in L; lia].
      eapply script_more; eauto.
  - intros H. inversion H as [l cs p' N Z C A|l cs p1 s' p2 N Z C A B E]; subst.
    + apply one_line; eauto.
    + rewrite parse_newline. apply IH in B; [|rewrite app_length in L; cbn [length] in L; lia]. rewrite B.
      rewrite (proj2 (one_line l p1 N)); [reflexivity|eauto].
Qed.

(** ** Single expressions *)
Lemma sexp_iff l p : Forall valid l -> (parse_sexp (text l) = POk p <-> sexp l p).
Proof.
  intros V. unfold parse_sexp. change (text l) with (utf8 l). rewrite trim_space_utf8 by exact V.
  assert (S : forall m, m <> [] -> match utf8 m with [] => POk [] | t => if has_prefix t tok_open then pbind (parse_sexp_line t) (fun v => POk [v]) else pbind (parse_token t) (fun v => POk [v]) end
    = if has_prefix (text m) tok_open then pbind (parse_line (text m)) (fun v => POk [v]) else pbind (parse_token (text m)) (fun v => POk [v])).
  { intros m N. pose proof (text_ne m N) as X. change (utf8 m) with (text m). unfold parse_line. destruct (text m) as [|c t]; [congruence|].
    destruct (has_prefix (c :: t) tok_open); reflexivity. }
  assert (Nw : forall c, ~ In c white_space -> is_space c = false) by (intros c N; apply not_true_is_false; now rewrite <- white_in).
  assert (Wn : forall c, is_space c = false -> ~ In c white_space) by (intros c N; rewrite white_in; congruence).
  assert (Opn : ~ In c_open white_space) by (rewrite white_in; discriminate).
  destruct (trimmed l) as [[Sp E]|(a & m & b & -> & A & B & E & N & F & L)].
  - rewrite E. split; [intros H; injection H as <-; constructor; now apply white_all|].
    destruct 1 as [x X|x m y v X Y Lm C|x m y v X Y Ne Fm Lm C]; [reflexivity|..]; exfalso; apply white_all in X, Y.
    + apply Forall_app in Sp as [_ Sp]. inversion Sp; subst. apply Opn. now apply white_in.
    + apply Forall_app in Sp as [_ Sp]. destruct m as [|c m]; [congruence|]. inversion Sp; subst. apply (proj1 (Fm c m eq_refl)). now apply white_in.
  - pose proof (S m N) as Sm. cbv zeta in Sm |- *. rewrite E, Sm. clear Sm. apply Forall_app in V as [_ V]. apply Forall_app in V as [V _]. split.
    + destruct (has_prefix (text m) tok_open) eqn:P.
      * destruct (parse_line (text m)) as [v| |] eqn:Q; try discriminate. cbn. intros H. injection H as <-. apply command_iff in Q; auto.
        apply text_open in P as [u ->]. apply white_all in A, B. cbn [app]. apply sexp_list; auto. intros c x ->. apply Wn. eapply (L c (c_open :: x)). reflexivity.
      * destruct (parse_token (text m)) as [v| |] eqn:Q; try discriminate. cbn. intros H. injection H as <-. apply atom_iff in Q. apply white_all in A, B.
        apply sexp_atom; auto; [|intros c u X; eauto]. intros c u X. split; [eauto|]. intros ->. assert (has_prefix (text m) tok_open = true) by (apply text_open; eauto). congruence.
    + remember (a ++ m ++ b) as l eqn:El. destruct 1 as [x X|x k y v X Y Lm C|x k y v X Y Ne Fm Lm C].
      * exfalso. apply white_all in X. rewrite El in X. apply Forall_app in X as [_ X]. apply Forall_app in X as [X _].
        destruct m as [|c m]; [congruence|]. inversion X; subst. rewrite (F c m eq_refl) in *. discriminate.
      * apply white_all in X, Y. change (x ++ c_open :: k ++ y) with (x ++ (c_open :: k) ++ y) in E.
        rewrite trim_core in E; auto; [|intros c u W; injection W as <- _; reflexivity|].
        -- subst m. replace (has_prefix (text (c_open :: k)) tok_open) with true by (symmetry; apply text_open; eauto).
           apply command_iff in C; auto. now rewrite C.
        -- intros c u W. destruct u as [|z u]; injection W as W0 W; [rewrite <- W0; reflexivity|]. subst k. eauto.
      * apply white_all in X, Y. rewrite trim_core in E; auto; [|intros c u W; apply Nw; apply (proj1 (Fm _ _ W))|intros c u W; eauto]. subst m.
        replace (has_prefix (text k) tok_open) with false.
        2:{ symmetry. apply not_true_is_false. rewrite text_open. intros [u W]. now apply (proj2 (Fm _ _ W)). }
        apply atom_iff in C. now rewrite C.
Qed.
