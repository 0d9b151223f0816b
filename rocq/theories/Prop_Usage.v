(** C81: mistyped command lines, and what is said about them (commands/edit.go:161-180,
    commands/parse.go:42-43, commands/test.go:53-57, commands/doc.go:34-35, commands/mcp.go:34,
    cmd/texted/main.go:11-28). *)
From Coq Require Import ZArith NArith List Bool Lia ZifyBool ZifyN ZifyNat Strings.Byte.
From Verif Require Import Base Float Ext Utf8 Strconv Values Buffer Builtins Eval Parser Json Writer Files Cli Tools
  Testing Docs DocsData Flags TestCmd Serve RefExt Spec SpecText SpecFiles SpecNumber SpecJson SpecMeaning
  Proofs_Base Proofs_Numeral Proofs_Utf8 Proofs_Json Proofs_Files Proofs_Meaning Prop_Files Prop_Flags
  CmdLine SpecFlags SpecCmd Prop_CmdLine SpecUsage.
Import ListNotations.
Open Scope Z_scope.

(** ** C81 *)
Lemma letter_iff E c q : letter_shown E c q <-> q = quote_letter E c.
Proof.
  unfold quote_letter. destruct (Byte.eqb c "'"%byte) eqn:A; [apply byte_eqb_eq in A; subst c|apply byte_eqb_neq in A].
  { split; [intros H; destruct H as [K|K|t K1 K2 Q]; [reflexivity|discriminate K|now destruct K1]|intros ->; now apply ls_apostrophe]. }
  destruct (Byte.eqb c Flags.dquote) eqn:B; [apply byte_eqb_eq in B; subst c|apply byte_eqb_neq in B].
  { split; [intros H; destruct H as [K|K|t K1 K2 Q]; [discriminate K|reflexivity|now destruct K2]|intros ->; now apply ls_quote]. }
  assert (V : valid_rune (byteN c) = true) by (pose proof (byteN_lt c); unfold valid_rune; lia).
  assert (X : inner_quote E (encode_rune (byteN c)) = escape_rune E (byteN c) (encode_rune (byteN c))).
  { rewrite <- (app_nil_r (encode_rune (byteN c))) at 1. rewrite inner_rune by exact V. apply app_nil_r. }
  rewrite <- X. split.
  - intros H. destruct H as [K|K|t K1 K2 Q]; [now destruct A|now destruct B|]. apply escaped_inner in Q as ->. reflexivity.
  - intros ->. apply (ls_other E c (inner_quote E (encode_rune (byteN c)))); auto using inner_escaped.
Qed.

(** *** Places *)
Lemma place_plain b : ~ In x0a b -> forall k x l c, csv_place (length b + k) (b ++ x) l c = csv_place k x l (c + Z.of_nat (length b)).
Proof.
  induction b as [|d b IH]; intros N k x l c; [cbn [length Nat.add app]; f_equal; lia|].
  cbn [length Nat.add app csv_place]. replace (Byte.eqb d nl) with false by (symmetry; apply byte_eqb_neq; intros ->; apply N; now left).
  rewrite IH by (intros H; apply N; now right). f_equal. lia.
Qed.
Lemma place_lines a : forall k x l c, csv_place (length (a ++ [x0a]) + k) ((a ++ [x0a]) ++ x) l c = csv_place k x (l + Z.of_nat (count_occ Byte.byte_eq_dec (a ++ [x0a]) x0a)) 1.
Proof.
  induction a as [|d a IH]; intros k x l c.
  - reflexivity.
  - cbn [app length Nat.add csv_place]. destruct (Byte.eqb d nl) eqn:D.
    + apply byte_eqb_eq in D as ->. rewrite IH. change nl with x0a. rewrite (count_occ_cons_eq _ _ (eq_refl x0a)). rewrite Nat2Z.inj_succ. f_equal. lia.
    + apply byte_eqb_neq in D. rewrite IH. rewrite (count_occ_cons_neq _ _ D). reflexivity.
Qed.
Lemma spot_place pre line col x : spot pre line col -> csv_place (length pre) (pre ++ x) 1 1 = (line, col).
Proof.
  intros (a & b & -> & A & N & -> & ->). rewrite app_length, <- app_assoc. destruct A as [->|[a' ->]].
  - cbn [app length Nat.add]. rewrite <- (Nat.add_0_r (length b)) at 1. rewrite place_plain by exact N. destruct x; reflexivity.
  - rewrite place_lines. rewrite <- (Nat.add_0_r (length b)) at 1. rewrite place_plain by exact N. destruct x; reflexivity.
Qed.
Lemma spot_some pre : exists line col, spot pre line col.
Proof.
  induction pre as [|c pre (line & col & a & b & -> & A & N & -> & ->)] using rev_ind.
  - exists 1, 1, [], []. repeat split; auto.
  - destruct (Byte.byte_eq_dec c x0a) as [->|D].
    + exists (1 + Z.of_nat (count_occ Byte.byte_eq_dec ((a ++ b) ++ [x0a]) x0a)), 1, ((a ++ b) ++ [x0a]), []. rewrite app_nil_r. repeat split; eauto.
    + exists (1 + Z.of_nat (count_occ Byte.byte_eq_dec a x0a)), (1 + Z.of_nat (length (b ++ [c]))), a, (b ++ [c]). rewrite app_assoc. repeat split; auto.
      intros I. apply in_app_iff in I as [I|[I|[]]]; auto.
Qed.
Lemma spot_newlines k : spot (repeat x0a k) (1 + Z.of_nat k) 1.
Proof.
  exists (repeat x0a k), []. rewrite app_nil_r. repeat split; auto.
  - destruct k; [now left|right]. exists (repeat x0a k). replace (S k) with (k + 1)%nat by lia. rewrite repeat_app. reflexivity.
  - f_equal. f_equal. induction k as [|k IH]; [reflexivity|]. cbn [repeat]. rewrite (count_occ_cons_eq _ _ (eq_refl x0a)). congruence.
Qed.

(** *** Values of list flags *)
Definition flawed (e : csv_error) (s left : str) : Prop :=
  (exists pre, csv_flaw s pre (csv_reason e) /\ s = pre ++ left /\ left <> []) \/ e = CsvQuote /\ left = [] /\ csv_unclosed s.
Lemma flawed_more e t f s left : csv_field t f -> flawed e s left -> flawed e (t ++ ","%byte :: s) left.
Proof.
  intros F [(pre & H & -> & N)|(-> & -> & H)].
  - left. remember (pre ++ left) as s eqn:Es. remember (csv_reason e) as why eqn:Ew. destruct H as [b p more B P Q|b g u c more B D C].
    + exists ((t ++ ","%byte :: b) ++ p). repeat split; [|rewrite Es; now rewrite <- !app_assoc|exact N].
      replace (t ++ ","%byte :: b ++ p ++ x22 :: more) with ((t ++ ","%byte :: b) ++ p ++ x22 :: more) by (now rewrite <- app_assoc). apply fl_bare; auto. now apply (cb_field t f).
    + exists ((t ++ ","%byte :: b) ++ x22 :: u). repeat split; [|rewrite Es; now rewrite <- !app_assoc|exact N].
      replace (t ++ ","%byte :: b ++ x22 :: u ++ x22 :: c :: more) with ((t ++ ","%byte :: b) ++ x22 :: u ++ x22 :: c :: more) by (now rewrite <- app_assoc). apply (fl_closed _ g); auto. now apply (cb_field t f).
  - right. split; [reflexivity|]. split; [reflexivity|]. destruct H as [b g u B D].
    replace (t ++ ","%byte :: b ++ x22 :: u) with ((t ++ ","%byte :: b) ++ x22 :: u) by (now rewrite <- app_assoc). apply (uc_open _ g); auto. now apply (cb_field t f).
Qed.
Lemma read_flawed : forall s m cur t e left, pending m cur t -> (m = InPlain -> cur <> []) -> csv_fields m cur s = CsvError e left -> flawed e (t ++ s) left.
Proof.
  induction s as [|c s IH]; intros m cur t e left P NE H.
  - destruct m; try discriminate H. injection H as <- <-. destruct P as (u & D & ->). right. repeat split. rewrite app_nil_r. apply (uc_open [] (rev cur)); [constructor|exact D].
  - assert (Close : m <> InQuoted -> csv_field t (rev cur)).
    { intros N. destruct m; [| |congruence|].
      - destruct P as (-> & ->). apply cf_plain. repeat split; intros [].
      - destruct P as (P & ->). now apply cf_plain.
      - destruct P as (u & D & ->). now apply cf_quoted. }
    assert (Sep : m <> InQuoted -> c = comma -> csv_cons (rev cur) (csv_fields AtStart [] s) = CsvError e left -> flawed e (t ++ c :: s) left).
    { intros N -> K. destruct (csv_fields AtStart [] s) as [fs'|e' l'] eqn:R; [discriminate|]. injection K as <- <-. apply (flawed_more e' t (rev cur)); [now apply Close|].
      apply (IH AtStart [] [] e' l'); [now split|discriminate|auto]. }
    assert (Step : forall m' cur', pending m' cur' (t ++ [c]) -> (m' = InPlain -> cur' <> []) -> csv_fields m' cur' s = CsvError e left -> flawed e (t ++ c :: s) left).
    { intros m' cur' Q NQ K. specialize (IH m' cur' (t ++ [c]) e left Q NQ K). now rewrite <- app_assoc in IH. }
    cbn [csv_fields] in H. destruct m.
    + destruct (Byte.eqb c comma) eqn:C1; [apply byte_eqb_eq in C1; now apply Sep|]. destruct (Byte.eqb c nl) eqn:C2; [discriminate|].
      destruct P as (-> & ->). destruct (Byte.eqb c Flags.dquote) eqn:C3.
      * apply byte_eqb_eq in C3 as ->. apply (Step InQuoted []); auto; [|discriminate]. exists []. split; [constructor|reflexivity].
      * apply byte_eqb_neq in C1, C2, C3; unfold comma, nl, Flags.dquote in C1, C2, C3. apply (Step InPlain [c]); auto; [|discriminate]. split; [|reflexivity]. repeat split; intros [X|[]]; congruence.
    + destruct (Byte.eqb c comma) eqn:C1; [apply byte_eqb_eq in C1; now apply Sep|]. destruct (Byte.eqb c nl) eqn:C2; [discriminate|].
      destruct P as ((P1 & P2 & P3) & ->).
      destruct (Byte.eqb c Flags.dquote) eqn:C3.
      * apply byte_eqb_eq in C3 as ->. injection H as <- <-. left. exists (rev cur). split; [|split; [reflexivity|discriminate]].
        apply (fl_bare [] (rev cur) s); [constructor| |repeat split; auto]. intros X. apply (NE eq_refl). rewrite <- (rev_involutive cur), X. reflexivity.
      * apply byte_eqb_neq in C1, C2, C3; unfold comma, nl, Flags.dquote in C1, C2, C3. apply (Step InPlain (c :: cur)); auto; [|discriminate].
        split; [|reflexivity]. cbn [rev]. repeat split; intros X; apply in_app_iff in X as [X|[X|[]]]; auto; congruence.
    + destruct P as (u & D & ->). destruct (Byte.eqb c Flags.dquote) eqn:C3.
      * apply byte_eqb_eq in C3 as ->. apply (Step AfterQuote cur); auto; [|discriminate]. exists u. split; auto.
      * apply byte_eqb_neq in C3. apply (Step InQuoted (c :: cur)); auto; [|discriminate]. exists (u ++ [c]). split; [|reflexivity]. cbn [rev]. apply doubled_app; auto.
        apply db_other; auto. constructor.
    + destruct (Byte.eqb c Flags.dquote) eqn:C3.
      * apply byte_eqb_eq in C3 as ->. destruct P as (u & D & ->). apply (Step InQuoted (Flags.dquote :: cur)); auto; [|discriminate]. exists (u ++ [x22; x22]). split.
        -- cbn [rev]. apply doubled_app; auto. apply db_quote. constructor.
        -- cbn [app]. now rewrite <- !app_assoc.
      * destruct (Byte.eqb c comma) eqn:C1; [apply byte_eqb_eq in C1; now apply Sep|]. destruct (Byte.eqb c nl) eqn:C2; [discriminate|].
        injection H as <- <-. destruct P as (u & D & ->). left. exists (x22 :: u). apply byte_eqb_neq in C1, C2, C3. unfold comma, nl, Flags.dquote in C1, C2, C3.
        split; [|split; [cbn [app]; now rewrite <- app_assoc|discriminate]].
        replace ((x22 :: u ++ [x22]) ++ c :: s) with ([] ++ x22 :: u ++ x22 :: c :: s) by (cbn [app]; now rewrite <- app_assoc).
        apply (fl_closed [] (rev cur) u c s); [constructor|exact D|]. intros [X|[X|[X|[]]]]; congruence.
Qed.
Lemma flaw_read s pre why : csv_flaw s pre why -> exists e left, csv_fields AtStart [] s = CsvError e left /\ why = csv_reason e /\ s = pre ++ left /\ left <> [] /\ e <> CsvEOF.
Proof.
  intros H.
  assert (Skip : forall b x e left, csv_before b -> csv_fields AtStart [] x = CsvError e left -> csv_fields AtStart [] (b ++ x) = CsvError e left).
  { intros b x e left B X. induction B as [|t f b F B IH]; [exact X|]. rewrite <- app_assoc. change ((","%byte :: b) ++ x) with (comma :: b ++ x).
    rewrite (proj1 (field_run t f F)), IH. reflexivity. }
  destruct H as [b p more B P Q|b g u c more B D C].
  - exists CsvBareQuote, (x22 :: more). split; [|repeat split; try discriminate; now rewrite <- app_assoc]. apply Skip; [exact B|].
    rewrite plain_run by auto. destruct p as [|c p]; [congruence|]. reflexivity.
  - exists CsvQuote, (x22 :: c :: more). split; [|repeat split; try discriminate; now rewrite <- app_assoc]. apply Skip; [exact B|].
    cbn [csv_fields]. change (Byte.eqb x22 comma) with false. change (Byte.eqb x22 nl) with false. change (Byte.eqb x22 Flags.dquote) with true. cbv iota.
    rewrite (quoted_run g u D). cbn [csv_fields]. change (Byte.eqb x22 Flags.dquote) with true. cbv iota.
    assert (N : Byte.eqb c Flags.dquote = false /\ Byte.eqb c comma = false /\ Byte.eqb c nl = false).
    { repeat split; apply byte_eqb_neq; intros ->; apply C; cbn; auto. }
    destruct N as (-> & -> & ->). reflexivity.
Qed.
Lemma unclosed_read s : csv_unclosed s -> csv_fields AtStart [] s = CsvError CsvQuote [].
Proof.
  intros [b g u B D]. induction B as [|t f b F B IH].
  - cbn [app csv_fields]. change (Byte.eqb x22 comma) with false. change (Byte.eqb x22 nl) with false. change (Byte.eqb x22 Flags.dquote) with true. cbv iota.
    rewrite <- (app_nil_r u), (quoted_run g u D). reflexivity.
  - rewrite <- app_assoc. change ((","%byte :: b) ++ x22 :: u) with (comma :: b ++ x22 :: u). rewrite (proj1 (field_run t f F)), IH. reflexivity.
Qed.
Lemma place_told_iff first line col m : place_told first line col m <->
  m = (if first =? line then [] else bs "record on line " ++ itoa first ++ bs "; ") ++ bs "parse error on line " ++ itoa line ++ bs ", column " ++ itoa col ++ bs ": ".
Proof.
  split.
  - intros (f & l & c & F & L & C & ->). rewrite (int_text_itoa _ _ F), (int_text_itoa _ _ L), (int_text_itoa _ _ C). reflexivity.
  - intros ->. exists (itoa first), (itoa line), (itoa col). auto using itoa_text.
Qed.
Lemma skip_blank k s : (forall r, s <> x0a :: r) -> skip_newlines (repeat x0a k ++ s) = s.
Proof. intros N. apply (skip_newlines_app k s). intros c r -> ->. now apply (N r). Qed.
Lemma flawed_text v k s e left : csv_lines v = repeat x0a k ++ s -> (forall r, s <> x0a :: r) -> e <> CsvEOF -> forall line col pre x,
  match left with [] => repeat x0a k ++ s = pre ++ [x] /\ spot pre line (col - 1) | _ => repeat x0a k ++ s = pre ++ left /\ spot pre line col end ->
  csv_error_text v e left = ((if 1 + Z.of_nat k =? line then [] else bs "record on line " ++ itoa (1 + Z.of_nat k) ++ bs "; ") ++
    bs "parse error on line " ++ itoa line ++ bs ", column " ++ itoa col ++ bs ": ") ++ csv_reason e.
Proof.
  intros L N Ne line col pre x Q. unfold csv_error_text. rewrite L.
  rewrite skip_blank by exact N.
  assert (F : csv_place (length (repeat x0a k ++ s) - length s) (repeat x0a k ++ s) 1 1 = (1 + Z.of_nat k, 1)).
  { rewrite app_length. replace (length (repeat x0a k) + length s - length s)%nat with (length (repeat x0a k)) by lia. apply spot_place, spot_newlines. }
  rewrite F.
  assert (G : (match left with
      | [] => let (l, c) := csv_place (length (repeat x0a k ++ s) - 1) (repeat x0a k ++ s) 1 1 in (l, c + 1)
      | _ => csv_place (length (repeat x0a k ++ s) - length left) (repeat x0a k ++ s) 1 1
      end) = (line, col)).
  { destruct left as [|d left].
    - destruct Q as [-> Q]. rewrite app_length. replace (length pre + length [x] - 1)%nat with (length pre) by (cbn; lia).
      rewrite (spot_place pre line (col - 1) [x] Q). f_equal. lia.
    - destruct Q as [-> Q]. rewrite app_length. replace (length pre + length (d :: left) - length (d :: left))%nat with (length pre) by lia.
      apply spot_place. exact Q. }
  rewrite G. destruct e; [| |congruence]; rewrite <- !app_assoc; reflexivity.
Qed.
Lemma unreadable_iff v m : unreadable v m <-> exists e left, read_as_csv v = CsvError e left /\ m = csv_error_text v e left.
Proof.
  assert (R : forall k s, csv_lines v = repeat x0a k ++ s -> (forall r, s <> x0a :: r) -> s <> [] -> read_as_csv v = csv_fields AtStart [] s).
  { intros k s L N S0. assert (V : v <> []) by (intros ->; cbn in L; destruct k; [|discriminate]; destruct s; [congruence|discriminate]).
    unfold read_as_csv. destruct v as [|c v']; [congruence|]. unfold csv_read. rewrite L. rewrite skip_blank by exact N.
    destruct s; [congruence|reflexivity]. }
  split.
  - intros [k V U|k s pre why line col at_ U N F Sp Pl|k s pre c line col at_ U N F Q Sp Pl].
    + exists CsvEOF, []. split; [|reflexivity]. apply unix_text_iff in U. unfold read_as_csv. destruct v as [|c v']; [congruence|]. unfold csv_read. rewrite U.
      rewrite <- (app_nil_r (repeat x0a k)), (skip_blank k []) by discriminate. reflexivity.
    + apply unix_text_iff in U. apply place_told_iff in Pl as ->. destruct (flaw_read s pre why F) as (e & left & H & -> & Es & Nl & Ne). exists e, left.
      rewrite (R k s U N) by (intros ->; destruct pre; [|discriminate]; cbn in Es; congruence). split; [exact H|].
      symmetry. apply (flawed_text v k s e left U N Ne line col (repeat x0a k ++ pre) x00). destruct left; [congruence|]. split; [rewrite Es; now rewrite app_assoc|exact Sp].
    + apply unix_text_iff in U. apply place_told_iff in Pl as ->. exists CsvQuote, [].
      rewrite (R k s U N) by (intros ->; inversion F as [b g u B D K]; now destruct b). split; [now apply unclosed_read|].
      symmetry. apply (flawed_text v k s CsvQuote [] U N ltac:(discriminate) line (col + 1) pre c). split; [exact Q|]. replace (col + 1 - 1) with col by lia. exact Sp.
  - intros (e & left & H & ->). destruct (skip_newlines_spec (csv_lines v)) as (k & A & B). set (s := skip_newlines (csv_lines v)) in *. unfold nl in A, B. clearbody s.
    assert (N : forall r, s <> x0a :: r) by (intros r K; now apply (B _ _ K)).
    assert (U : unix_text v (repeat x0a k ++ s)) by (apply unix_text_iff; exact A).
    destruct s as [|c0 s0] eqn:Es.
    + assert (V : v <> []) by (intros ->; discriminate H). unfold read_as_csv in H. destruct v as [|c v']; [congruence|]. unfold csv_read in H. rewrite A in H.
      rewrite (skip_blank k []) in H by discriminate. injection H as <- <-. rewrite app_nil_r in U. exact (ur_blank _ k V U).
    + rewrite <- Es in *. rewrite (R k s A N) in H by (rewrite Es; discriminate). apply (read_flawed s AtStart [] [] e left) in H; [|now split|discriminate]. cbn [app] in H.
      destruct H as [(pre & F & Q & Nl)|(-> & -> & F)].
      * destruct (spot_some (repeat x0a k ++ pre)) as (line & col & Sp).
        assert (Ne : e <> CsvEOF) by (intros ->; inversion F).
        rewrite (flawed_text v k s e left A N Ne line col (repeat x0a k ++ pre) x00) by (destruct left; [congruence|]; split; [rewrite Q; now rewrite app_assoc|exact Sp]).
        eapply ur_flaw; eauto. now apply place_told_iff.
      * destruct (exists_last (l := repeat x0a k ++ s)) as (pre & x & Q); [rewrite Es; now destruct k|]. destruct (spot_some pre) as (line & col & Sp).
        rewrite (flawed_text v k s CsvQuote [] A N ltac:(discriminate) line (col + 1) pre x) by (split; [exact Q|]; replace (col + 1 - 1) with col by lia; exact Sp).
        eapply ur_unclosed; eauto. now apply place_told_iff.
Qed.


(** *** Flags *)
Lemma unsuited_iff E f v m : unsuited E f v m <-> set_error E f v = Some m.
Proof.
  assert (C : forall n, called f n <-> n = match g_short f with Some c => "-"%byte :: c :: bs ", --" ++ g_name f | None => bs "--" ++ g_name f end).
  { intros n. unfold called. destruct (g_short f); reflexivity. }
  split.
  - intros [q n k K N Q Ca Q2|q n k why K U Q Ca Q2]; apply C in Ca; apply quoted_iff in Q, Q2; subst; unfold set_error; rewrite K.
    + destruct (parse_bool v) eqn:B; [exfalso; apply N; apply parse_bool_any; congruence|]. reflexivity.
    + apply unreadable_iff in U as (e & left & -> & ->). reflexivity.
  - unfold set_error. destruct (g_kind f) eqn:K; [|discriminate|].
    + destruct (parse_bool v) eqn:B; [discriminate|]. intros H.
      replace m with (bs "invalid argument " ++ quote E v ++ bs " for " ++ quote E (match g_short f with Some c => "-"%byte :: c :: bs ", --" ++ g_name f | None => bs "--" ++ g_name f end) ++
        bs " flag: strconv.ParseBool: parsing " ++ quote E v ++ bs ": invalid syntax") by (injection H as <-; reflexivity).
      eapply us_bool; [exact K| |now apply quoted_iff|now apply C|now apply quoted_iff]. intros I. now apply parse_bool_any in I.
    + destruct (read_as_csv v) as [l|e left] eqn:R; [discriminate|]. intros H.
      replace m with (bs "invalid argument " ++ quote E v ++ bs " for " ++ quote E (match g_short f with Some c => "-"%byte :: c :: bs ", --" ++ g_name f | None => bs "--" ++ g_name f end) ++
        bs " flag: " ++ csv_error_text v e left) by (injection H as <-; reflexivity).
      eapply us_list; [exact K| |now apply quoted_iff|now apply C|now apply quoted_iff]. apply unreadable_iff. eauto.
Qed.

Section Tables.
Variable E : Ext.
Variable flags : list flag.
Hypothesis T : flag_table flags.

Lemma no_letter_iff c : no_letter flags c <-> find_short flags c = None.
Proof.
  split.
  - intros N. destruct (find_short flags c) as [f|] eqn:F; [|reflexivity]. apply (find_short_spec flags T) in F as [I S0]. now destruct (N f I).
  - intros F f I S0. rewrite (proj2 (find_short_spec flags T c f) (conj I S0)) in F. discriminate.
Qed.
Lemma no_name_iff n : no_name flags n <-> find_long flags n = None.
Proof.
  split.
  - intros N. destruct (find_long flags n) as [f|] eqn:F; [|reflexivity]. apply (find_long_spec flags T) in F as [I S0]. now destruct (N f I).
  - intros F f I S0. rewrite (proj2 (find_long_spec flags T n f) (conj I S0)) in F. discriminate.
Qed.
Lemma letters_flaw_read t m : letters_flaw E flags t m -> parse_short E flags t = ShError m.
Proof.
  induction 1 as [c t q N G Q|f c d t m I S0 K D L IH|f c v m I S0 N U|f c v m I S0 K N Q U].
  - cbn [parse_short]. apply letter_iff in Q as ->. destruct (has_prefix (c :: t) (bs "test.")) eqn:P; [apply has_prefix_iff in P as [u P]; now destruct (G u)|].
    apply no_letter_iff in N. rewrite N. reflexivity.
  - destruct (letter_spec flags T f c I S0) as (_ & _ & P). cbn [parse_short]. rewrite P, (proj2 (find_short_spec flags T c f) (conj I S0)), (proj2 (is_bool_spec f) K).
    assert (X : short_set E f (bs "true") (parse_short E flags (d :: t)) = ShError m).
    { rewrite IH, short_set_ok by now apply true_suits. reflexivity. }
    destruct t as [|y t]; [exact X|]. rewrite eqb_equals; [exact X|]. intros ->. now specialize (D eq_refl).
  - destruct (letter_spec flags T f c I S0) as (_ & _ & P). cbn [parse_short]. rewrite P, (proj2 (find_short_spec flags T c f) (conj I S0)).
    destruct v as [|x v]; [congruence|]. change (Byte.eqb equals "="%byte) with true. cbv iota. unfold short_set. apply unsuited_iff in U. now rewrite U.
  - destruct (letter_spec flags T f c I S0) as (_ & _ & P). cbn [parse_short]. rewrite P, (proj2 (find_short_spec flags T c f) (conj I S0)), (proj2 (is_bool_not f) K).
    apply unsuited_iff in U. destruct v as [|x v]; [congruence|]. destruct v as [|y v].
    + unfold short_set. now rewrite U.
    + rewrite eqb_equals; [unfold short_set; now rewrite U|]. intros ->. specialize (Q _ eq_refl). discriminate Q.
Qed.
Lemma short_set_error f v r m : short_set E f v r = ShError m -> unsuited E f v m \/ suits f v /\ r = ShError m.
Proof.
  unfold short_set. destruct (set_error E f v) eqn:X; intros H; [left; apply unsuited_iff; congruence|right].
  split; [now apply (set_error_suits E)|]. destruct r; try discriminate. injection H as ->. reflexivity.
Qed.
Lemma short_error t m : parse_short E flags t = ShError m -> letters_flaw E flags t m.
Proof.
  revert m. induction t as [|c t IH]; intros m H; [discriminate|]. cbn [parse_short] in H. destruct (has_prefix (c :: t) (bs "test.")) eqn:P; [discriminate|].
  destruct (find_short flags c) as [f|] eqn:F.
  2:{ match type of H with ShError ?x = _ => assert (Q0 : m = x) by congruence; rewrite Q0 end. apply lf_unknown; [now apply no_letter_iff| |now apply letter_iff]. intros u Q.
      assert (X : has_prefix (c :: t) (bs "test.") = true) by (apply has_prefix_iff; eauto). congruence. }
  apply (find_short_spec flags T) in F as [I S0].
  destruct t as [|d [|y v]].
  - destruct (is_bool f) eqn:B; [|discriminate]. apply is_bool_spec in B. rewrite short_set_ok in H by now apply true_suits. discriminate.
  - destruct (is_bool f) eqn:B.
    + apply is_bool_spec in B. rewrite short_set_ok in H by now apply true_suits. destruct (parse_short E flags [d]) eqn:R; try discriminate. injection H as ->.
      apply (lf_bools E flags f c d []); auto.
    + apply is_bool_not in B. apply short_set_error in H as [U|[_ H]]; [|discriminate]. apply (lf_rest E flags f c [d]); auto; [discriminate|].
      intros u Q. now injection Q as _ <-.
  - destruct (Byte.eqb d "="%byte) eqn:D.
    + apply byte_eqb_eq in D as ->. apply short_set_error in H as [U|[_ H]]; [|discriminate]. apply (lf_equals E flags f c (y :: v)); auto. discriminate.
    + apply byte_eqb_neq in D. destruct (is_bool f) eqn:B.
      * apply is_bool_spec in B. rewrite short_set_ok in H by now apply true_suits. destruct (parse_short E flags (d :: y :: v)) eqn:R; try discriminate. injection H as ->.
        apply (lf_bools E flags f c d (y :: v)); auto. intros ->. now destruct D.
      * apply is_bool_not in B. apply short_set_error in H as [U|[_ H]]; [|discriminate]. apply (lf_rest E flags f c (d :: y :: v)); auto; [discriminate|].
        intros u Q. injection Q as -> _. now destruct D.
Qed.
Lemma need_letter t s f x : parse_short E flags t = ShNeed s f x -> exists c, g_short f = Some c /\ x = [c].
Proof.
  revert s. induction t as [|c t IH]; intros s H; [discriminate|]. cbn [parse_short] in H. destruct (has_prefix (c :: t) (bs "test.")); [discriminate|].
  destruct (find_short flags c) as [g|] eqn:F; [|discriminate]. apply (find_short_spec flags T) in F as [I S0].
  assert (No : forall v s, short_set E g v (ShDone []) <> ShNeed s f x) by (intros v s' K; unfold short_set in K; now destruct (set_error E g v)).
  assert (Go : forall v s, short_set E g v (parse_short E flags t) = ShNeed s f x -> exists s', parse_short E flags t = ShNeed s' f x).
  { intros v s' K. unfold short_set in K. destruct (set_error E g v); [discriminate|]. destruct (parse_short E flags t) as [l|l f' x'|e]; try discriminate. injection K as _ -> ->. eauto. }
  destruct t as [|d [|y v]].
  - destruct (is_bool g); [now apply No in H|]. injection H as <- <- <-. eauto.
  - destruct (is_bool g); [|now apply No in H]. apply Go in H as [s' H]. eauto.
  - destruct (Byte.eqb d "="%byte); [now apply No in H|]. destruct (is_bool g); [|now apply No in H]. apply Go in H as [s' H]. eauto.
Qed.
Lemma set_then_error f v r m : set_then E f v r = ParseError m <-> unsuited E f v m \/ suits f v /\ r = ParseError m.
Proof.
  unfold set_then. rewrite unsuited_iff, <- (set_error_suits E). destruct (set_error E f v) as [e|].
  - split; [intros H; left; congruence|intros [H|[H _]]; congruence].
  - destruct r; cbn [add_sets]; split; intros H; try discriminate; [destruct H as [H|[_ H]]; discriminate|right; split; congruence|destruct H as [H|[_ H]]; congruence].
Qed.
Lemma long_step c n l : c <> dash -> c <> equals -> parse_args E flags ((dash :: dash :: c :: n) :: l) =
  let (name, v) := split_eq (c :: n) in
  match find_long flags name with
  | None => ParseError (bs "unknown flag: --" ++ name)
  | Some f =>
    match v with
    | Some v => set_then E f v (parse_args E flags l)
    | None =>
      if is_bool f then set_then E f (bs "true") (parse_args E flags l)
      else match l with
           | v :: rest' => set_then E f v (parse_args E flags rest')
           | [] => ParseError (bs "flag needs an argument: --" ++ c :: n)
           end
    end
  end.
Proof.
  intros C1 C2. cbn [parse_args]. change (Byte.eqb dash "-"%byte) with true. cbn [negb].
  rewrite (proj2 (byte_eqb_neq c "-"%byte) C1), (proj2 (byte_eqb_neq c "="%byte) C2). cbn [orb]. reflexivity.
Qed.
Lemma short_step c t l : c <> dash -> parse_args E flags ((dash :: c :: t) :: l) =
  match parse_short E flags (c :: t) with
  | ShError e => ParseError e
  | ShDone s => add_sets s (parse_args E flags l)
  | ShNeed s f x =>
    match l with
    | v :: rest' => add_sets s (set_then E f v (parse_args E flags rest'))
    | [] => ParseError (bs "flag needs an argument: " ++ quote_letter E (hd "-"%byte x) ++ bs " in -" ++ x)
    end
  end.
Proof.
  intros C. cbn [parse_args]. change (Byte.eqb dash "-"%byte) with true. cbn [negb].
  rewrite (proj2 (byte_eqb_neq c "-"%byte) C). reflexivity.
Qed.
Lemma named f v l : In f flags -> parse_args E flags ((dash :: dash :: g_name f ++ equals :: v) :: l) = set_then E f v (parse_args E flags l).
Proof.
  intros I. destruct (name_spec flags T f I) as (N & c & n & Hn & C1 & C2).
  replace (g_name f ++ equals :: v) with (c :: n ++ equals :: v) by (now rewrite Hn). rewrite long_step by auto.
  replace (c :: n ++ equals :: v) with (g_name f ++ equals :: v) by (now rewrite Hn). rewrite split_eq_name by auto.
  rewrite (proj2 (find_long_spec flags T _ f) (conj I eq_refl)). reflexivity.
Qed.
Lemma bare_named f l : In f flags -> parse_args E flags ((dash :: dash :: g_name f) :: l) =
  if is_bool f then set_then E f (bs "true") (parse_args E flags l)
  else match l with
       | v :: rest' => set_then E f v (parse_args E flags rest')
       | [] => ParseError (bs "flag needs an argument: --" ++ g_name f)
       end.
Proof.
  intros I. destruct (name_spec flags T f I) as (N & c & n & Hn & C1 & C2). rewrite Hn. rewrite long_step by auto. rewrite <- Hn. rewrite split_eq_bare by auto.
  rewrite (proj2 (find_long_spec flags T _ f) (conj I eq_refl)). reflexivity.
Qed.
Lemma add_sets_error s r m : add_sets s r = ParseError m <-> r = ParseError m.
Proof. destruct r; cbn [add_sets]; split; intros H; try discriminate; congruence. Qed.
Lemma flaw_said l m : args_flaw E flags l m -> parse_args E flags l = ParseError m.
Proof.
  induction 1 as [c t l I|n l N D Q U|n v l N D Q U|f v l m I U|f v l m I K U|f I K|t l m D L|t s f v l m L U|t s f c q L S0 Q|
    a l m A _ IH|f v l m I V _ IH|f l m I K _ IH|f v l m I K V _ IH|t s l m L _ IH|t s f v l m L V _ IH].
  - cbn [parse_args]. change (Byte.eqb dash "-"%byte) with true. cbn [negb]. destruct I as [<-|[<-|[]]]; reflexivity.
  - destruct n as [|c n]; [congruence|]. rewrite long_step; [|intros ->; now apply (D n)|intros ->; apply Q; now left]. rewrite split_eq_bare by exact Q.
    apply no_name_iff in U. rewrite U. reflexivity.
  - destruct n as [|c n]; [congruence|]. cbn [app]. rewrite long_step; [|intros ->; now apply (D n)|intros ->; apply Q; now left].
    change (c :: n ++ equals :: v) with ((c :: n) ++ equals :: v). rewrite split_eq_name by exact Q. apply no_name_iff in U. rewrite U. reflexivity.
  - rewrite named by exact I. apply set_then_error. now left.
  - rewrite bare_named, (proj2 (is_bool_not f) K) by exact I. apply set_then_error. now left.
  - rewrite bare_named, (proj2 (is_bool_not f) K) by exact I. reflexivity.
  - destruct t as [|c t]; [inversion L|]. rewrite short_step by (intros ->; now apply (D t)). rewrite (letters_flaw_read _ _ L). reflexivity.
  - destruct t as [|c t]; [inversion L|]. rewrite short_step by (now apply (open_letters_head flags T c t s f)). destruct (open_letters_read flags T E _ _ _ L) as [x ->].
    apply add_sets_error, set_then_error. now left.
  - destruct t as [|d t]; [inversion L|]. rewrite short_step by (now apply (open_letters_head flags T d t s f)). destruct (open_letters_read flags T E _ _ _ L) as [x X]. rewrite X.
    apply need_letter in X as (c' & S1 & ->). assert (c' = c) as -> by congruence. apply letter_iff in Q as ->. reflexivity.
  - cbn [parse_args]. rewrite IH. destruct a as [|d [|c t]]; try reflexivity.
    destruct (Byte.eqb d "-"%byte) eqn:D; [|reflexivity]. apply byte_eqb_eq in D as ->. specialize (A _ eq_refl). discriminate A.
  - rewrite named by exact I. apply set_then_error. right. auto.
  - rewrite bare_named, (proj2 (is_bool_spec f) K) by exact I. apply set_then_error. right. split; [now apply true_suits|exact IH].
  - rewrite bare_named, (proj2 (is_bool_not f) K) by exact I. apply set_then_error. right. auto.
  - destruct t as [|c t]; [inversion L|]. rewrite short_step by (now apply (letters_head flags T c t s)). rewrite (letters_read flags T E _ _ L). now apply add_sets_error.
  - destruct t as [|c t]; [inversion L|]. rewrite short_step by (now apply (open_letters_head flags T c t s f)). destruct (open_letters_read flags T E _ _ _ L) as [x ->].
    apply add_sets_error, set_then_error. right. auto.
Qed.
Lemma said_flaw m : forall n l, (length l <= n)%nat -> parse_args E flags l = ParseError m -> args_flaw E flags l m.
Proof.
  induction n as [|n IH]; intros [|a l] N H; try (cbn in N; lia); try discriminate H.
  cbn in N. assert (IH1 : parse_args E flags l = ParseError m -> args_flaw E flags l m) by (intros; apply IH; auto; lia).
  assert (IH2 : forall v l', l = v :: l' -> parse_args E flags l' = ParseError m -> args_flaw E flags l' m) by (intros v l' -> X; apply IH; auto; cbn in N; lia).
  clear IH N n.
  assert (File : add_file a (parse_args E flags l) = ParseError m -> (forall t, a = dash :: t -> t = []) -> args_flaw E flags (a :: l) m).
  { intros X A. destruct (parse_args E flags l) as [s' p'|e]; [discriminate|]. cbn in X. apply af_then_file; auto. }
  destruct a as [|d [|c t]]; [apply File; [exact H|discriminate]|apply File; [exact H|congruence]|].
  destruct (Byte.eqb d "-"%byte) eqn:D; [|apply File; [cbn [parse_args] in H; now rewrite D in H|intros u Hu; injection Hu as Hu _; apply byte_eqb_neq in D; now destruct D]].
  apply byte_eqb_eq in D as ->. change "-"%byte with dash in *. destruct (Byte.eqb c "-"%byte) eqn:C.
  - apply byte_eqb_eq in C as ->. change "-"%byte with dash in *. destruct t as [|x t]; [discriminate H|].
    destruct (Byte.byte_eq_dec x dash) as [->|X1].
    { assert (Q : parse_args E flags ((dash :: dash :: dash :: t) :: l) = ParseError (bs "bad flag syntax: --" ++ dash :: t)) by reflexivity.
      assert (H' := eq_trans (eq_sym Q) H). replace m with (bs "bad flag syntax: --" ++ dash :: t) by congruence. apply af_syntax. now left. }
    destruct (Byte.byte_eq_dec x equals) as [->|X2].
    { assert (Q : parse_args E flags ((dash :: dash :: equals :: t) :: l) = ParseError (bs "bad flag syntax: --" ++ equals :: t)) by reflexivity.
      assert (H' := eq_trans (eq_sym Q) H). replace m with (bs "bad flag syntax: --" ++ equals :: t) by congruence. apply af_syntax. right. now left. }
    rewrite long_step in H by auto. pose proof (split_eq_back (x :: t)) as B. destruct (split_eq (x :: t)) as [name v] eqn:Sp.
    assert (Ne : ~ In equals name).
    { clear - Sp. revert name v Sp. generalize (x :: t) as s. induction s as [|c s IH]; intros name v Sp; [injection Sp as <- <-; auto|]. cbn [split_eq] in Sp.
      destruct (Byte.eqb c "="%byte) eqn:C; [injection Sp as <- <-; auto|]. destruct (split_eq s) as [n' v']. injection Sp as <- <-. apply byte_eqb_neq in C. intros [K|K]; [now destruct C|].
      now apply (IH n' v' eq_refl). }
    assert (N0 : name <> []) by (intros ->; destruct v; [cbn in B; injection B as B _; now destruct X2|discriminate B]).
    assert (N1 : forall u, name <> dash :: u) by (intros u ->; destruct v; cbn in B; injection B as B _; now destruct X1).
    destruct (find_long flags name) as [f|] eqn:F.
    + apply (find_long_spec flags T) in F as [I <-]. destruct v as [v|].
      * rewrite B. apply set_then_error in H as [U|[V H]]; [now apply af_value|apply af_then_equals; auto].
      * rewrite B. destruct (is_bool f) eqn:K.
        -- apply is_bool_spec in K. apply set_then_error in H as [U|[V H]]; [exfalso; apply unsuited_iff in U; pose proof (proj2 (set_error_suits E f _) (true_suits f K)); congruence|].
           apply af_then_bool; auto.
        -- apply is_bool_not in K. destruct l as [|v l].
           ++ replace m with (bs "flag needs an argument: --" ++ g_name f) by (rewrite <- B; congruence). now apply af_missing.
           ++ apply set_then_error in H as [U|[V H]]; [now apply af_next|]. apply af_then_next; auto. now apply (IH2 v l).
    + apply no_name_iff in F. replace m with (bs "unknown flag: --" ++ name) by congruence. destruct v as [v|]; rewrite B.
      * now apply af_unknown_equals.
      * now apply af_unknown.
  - apply byte_eqb_neq in C. change "-"%byte with dash in C. rewrite short_step in H by exact C. pose proof (short_back flags T E (c :: t)) as B.
    destruct (parse_short E flags (c :: t)) as [l1|l1 f x|e] eqn:R.
    + destruct B as [[B _]|B]; [discriminate|]. apply (proj1 (add_sets_error l1 _ m)) in H. apply (af_then_letters E flags _ l1); auto.
    + destruct l as [|v l].
      * apply need_letter in R as (c' & S0 & ->). replace m with (bs "flag needs an argument: " ++ quote_letter E c' ++ bs " in -" ++ [c']) by (cbn [hd] in H; congruence).
        eapply af_open_missing; eauto. now apply letter_iff.
      * apply (proj1 (add_sets_error l1 _ m)) in H. apply set_then_error in H as [U|[V H]]; [now apply (af_open E flags _ l1 f)|]. apply (af_then_open E flags _ l1 f); auto. now apply (IH2 v l).
    + assert (e = m) as -> by congruence. apply af_letters; [intros u K; injection K as K _; now destruct C|now apply short_error].
Qed.
End Tables.

(** what is said about a value that is no list *)
Theorem list_value_refused v m : unreadable v m <-> exists e left, read_as_csv v = CsvError e left /\ csv_error_text v e left = m.
Proof. rewrite unreadable_iff. split; intros (e & left & H & Q); exists e, left; auto. Qed.
Example list_value_refused_witness : unreadable ([x0a] ++ bs "a,""b" ++ [x0d; x0a] ++ bs "c""d") (bs "record on line 2; parse error on line 3, column 2: extraneous or missing "" in quoted-field") /\
  unreadable (bs "search ""a""") (bs "parse error on line 1, column 8: bare "" in non-quoted field") /\
  unreadable (bs """a" ++ [x0a]) (bs "parse error on line 1, column 4: extraneous or missing "" in quoted-field") /\
  unreadable [x0a] (bs "EOF").
Proof. repeat split; apply list_value_refused; eexists; eexists; (split; [vm_compute; reflexivity|vm_compute; reflexivity]). Qed.
(** a value is a list, or is refused for one reason *)
Theorem list_value_decided v : (exists l, string_slice [v] = CsvRecord l /\ forall m, ~ unreadable v m) \/
  (exists m, unreadable v m /\ (forall m', unreadable v m' -> m' = m) /\ forall l, string_slice [v] <> CsvRecord l).
Proof.
  cbn [string_slice]. destruct (read_as_csv v) as [l|e left] eqn:R.
  - left. exists (l ++ []). split; [reflexivity|]. intros m U. apply list_value_refused in U as (e & left & H & _). congruence.
  - right. exists (csv_error_text v e left). split; [apply list_value_refused; eauto|]. split; [|discriminate].
    intros m' U. apply list_value_refused in U as (e' & left' & H & <-). rewrite R in H. injection H as <- <-. reflexivity.
Qed.
(** a flag is set, or says why not *)
Theorem flag_refused E f v m : set_error E f v = Some m <-> unsuited E f v m.
Proof. symmetry. apply unsuited_iff. Qed.
Example flag_refused_witness : unsuited ref_ext (mkFlag (bs "in-place") (Some "i"%byte) KBool) (bs "yes")
  (bs "invalid argument ""yes"" for ""-i, --in-place"" flag: strconv.ParseBool: parsing ""yes"": invalid syntax").
Proof. apply flag_refused. vm_compute. reflexivity. Qed.
(** every mistyped command line is refused with these words and no others *)
Theorem command_line_complaint E flags args m : flag_table flags -> (parse_args E flags args = ParseError m <-> args_flaw E flags args m).
Proof. intros T. split; [apply (said_flaw E flags T m (length args)); auto|now apply flaw_said]. Qed.
Example command_line_complaint_witness :
  args_flaw ref_ext edit_flags [bs "f"; bs "-qx"] (bs "unknown shorthand flag: 'x' in -x") /\
  args_flaw ref_ext edit_flags [bs "-i="; bs "f"] (bs "unknown shorthand flag: '=' in -=") /\
  args_flaw ref_ext edit_flags [bs "-'"] (bs "unknown shorthand flag: '\'' in -'") /\
  args_flaw ref_ext edit_flags [bs "--in_place=1"] (bs "unknown flag: --in_place") /\
  args_flaw ref_ext edit_flags [bs "---"] (bs "bad flag syntax: ---") /\
  args_flaw ref_ext edit_flags [bs "-s"; bs "--file"; bs "--file"] (bs "flag needs an argument: --file") /\
  args_flaw ref_ext edit_flags [bs "-is"] (bs "flag needs an argument: 's' in -s") /\
  args_flaw ref_ext edit_flags [bs "-e"; bs "insert ""x"""; bs "f"]
    (bs "invalid argument ""insert \""x\"""" for ""-e, --expression"" flag: parse error on line 1, column 8: bare "" in non-quoted field").
Proof. repeat split; apply command_line_complaint; try apply flag_tables; vm_compute; reflexivity. Qed.
(** arguments say something, or one thing is wrong with them, never both *)
Theorem command_line_decided E flags args : flag_table flags ->
  (exists s p, says flags args s p /\ forall m, ~ args_flaw E flags args m) \/
  (exists m, args_flaw E flags args m /\ (forall m', args_flaw E flags args m' -> m' = m) /\ forall s p, ~ says flags args s p).
Proof.
  intros T. destruct (parse_args E flags args) as [s p|m] eqn:H.
  - left. exists s, p. split; [now apply (command_line_grammar E)|]. intros m F. apply command_line_complaint in F; [congruence|exact T].
  - right. exists m. split; [now apply command_line_complaint|]. split.
    + intros m' F. apply command_line_complaint in F; [congruence|exact T].
    + intros s p S0. apply (command_line_grammar E) in S0; [congruence|exact T].
Qed.
(** the program then exits with status 1 and does nothing else *)
Theorem complaint_reported E os o name args flags m : 
  In (name, flags) [(bs "edit", edit_flags); (bs "parse", parse_flags); (bs "test", test_flags); (bs "doc", doc_flags); (bs "mcp", mcp_flags)] ->
  args_flaw E flags args m -> exists r, texted E os o (name :: args) = Some r /\ forall w, r w = (Ok (mkExit 1 (Some m)), w).
Proof.
  intros I F. exists (io_ret (mkExit 1 (Some m))). split; [|reflexivity].
  assert (R : parse_args E flags args = ParseError m).
  { apply command_line_complaint; [|exact F]. pose proof flag_tables as (A & B & C & D & G). repeat (destruct I as [I|I]; [injection I as _ <-; assumption|]). destruct I. }
  repeat (destruct I as [I|I]; [injection I as <- <-; (apply texted_runs; [cbn; tauto|]); unfold run_command, with_flags; rewrite R; reflexivity|]). destruct I.
Qed.
Example complaint_reported_witness : exists r, texted ref_ext demo_os demo_outer [bs "test"; bs "--include"] = Some r /\
  forall w, r w = (Ok (mkExit 1 (Some (bs "flag needs an argument: --include"))), w).
Proof. apply (complaint_reported ref_ext demo_os demo_outer (bs "test") _ test_flags); [cbn; auto|]. apply command_line_complaint; [apply flag_tables|]. vm_compute. reflexivity. Qed.

(** ** Assumptions of every theorem above *)
Print Assumptions list_value_refused.
Print Assumptions list_value_decided.
Print Assumptions flag_refused.
Print Assumptions command_line_complaint.
Print Assumptions command_line_decided.
Print Assumptions complaint_reported.
