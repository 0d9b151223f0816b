(** C52: what the flag -e delivers. *)
From Coq Require Import ZArith NArith List Bool Lia ZifyBool ZifyN ZifyNat Strings.Byte.
From Verif Require Import Base Float Ext Utf8 Strconv Values Buffer Builtins Eval Parser Json Writer Files Cli Flags
  Spec SpecText SpecFiles SpecFlags RefExt Proofs_Base Proofs_Files Proofs_Cli.
Import ListNotations.
Open Scope Z_scope.

(** ** C52 *)
Lemma csv_lines_unix s : unix_lines s -> csv_lines s = s.
Proof.
  induction s as [|c t IH]; intros U; [reflexivity|]. cbn [csv_lines].
  assert (U' : unix_lines t) by (intros a b H; apply (U (c :: a) b); cbn; congruence). destruct (Byte.eqb c cr) eqn:C; [|now rewrite IH].
  apply byte_eqb_eq in C as ->. destruct (U [] t eq_refl) as (d & r & -> & N). apply byte_eqb_neq in N. unfold nl. rewrite N. now rewrite IH.
Qed.
Lemma skip_newlines_app k s : (forall c r, s = c :: r -> c <> nl) -> skip_newlines (repeat nl k ++ s) = s.
Proof.
  intros H. induction k as [|k IH]; [|exact IH]. cbn [repeat app]. destruct s as [|c r]; [reflexivity|]. cbn [skip_newlines].
  assert (N : Byte.eqb c nl = false) by (apply byte_eqb_neq; eauto). now rewrite N.
Qed.
Lemma skip_newlines_spec s : exists k, s = repeat nl k ++ skip_newlines s /\ forall c r, skip_newlines s = c :: r -> c <> nl.
Proof.
  induction s as [|c t (k & A & B)]; [exists 0%nat; split; [reflexivity|discriminate]|]. cbn [skip_newlines]. destruct (Byte.eqb c nl) eqn:C.
  - apply byte_eqb_eq in C as ->. exists (S k). split; auto. cbn [repeat app]. congruence.
  - exists 0%nat. split; [reflexivity|]. intros d r H. injection H as <- <-. now apply byte_eqb_neq.
Qed.
Lemma plain_run u : plain_field u -> forall m cur rest, m = InPlain \/ m = AtStart /\ cur = [] ->
  csv_fields m cur (u ++ rest) = csv_fields (match u with [] => m | _ => InPlain end) (rev u ++ cur) rest.
Proof.
  induction u as [|c u IH]; intros P m cur rest Hm; [reflexivity|]. destruct P as (P1 & P2 & P3).
  assert (C1 : Byte.eqb c comma = false) by (apply byte_eqb_neq; intros ->; apply P1; now left).
  assert (C2 : Byte.eqb c dquote = false) by (apply byte_eqb_neq; intros ->; apply P2; now left).
  assert (C3 : Byte.eqb c nl = false) by (apply byte_eqb_neq; intros ->; apply P3; now left).
  assert (Q : plain_field u) by (repeat split; intros H; [apply P1|apply P2|apply P3]; now right).
  transitivity (csv_fields InPlain (c :: cur) (u ++ rest)).
  { destruct Hm as [->|[-> ->]]; cbn [app csv_fields]; now rewrite C1, C2, C3. }
  rewrite IH by auto. cbn [rev]. rewrite <- app_assoc. cbn [app]. now destruct u.
Qed.
Lemma quoted_run f t : doubled f t -> forall cur rest, csv_fields InQuoted cur (t ++ rest) = csv_fields InQuoted (rev f ++ cur) rest.
Proof.
  induction 1 as [|f t D IH|c f t N D IH]; intros cur rest; [reflexivity| |].
  - cbn [app csv_fields]. change (Byte.eqb x22 dquote) with true. cbv iota. rewrite IH. cbn [rev]. now rewrite <- app_assoc.
  - apply byte_eqb_neq in N. cbn [app csv_fields]. unfold dquote at 1. rewrite N, IH. cbn [rev]. now rewrite <- app_assoc.
Qed.
Lemma field_run t f : csv_field t f ->
  (forall s, csv_fields AtStart [] (t ++ comma :: s) = csv_cons f (csv_fields AtStart [] s)) /\
  (forall r, (forall c r', r = c :: r' -> c = nl) -> csv_fields AtStart [] (t ++ r) = CsvRecord [f]).
Proof.
  intros [g P|g u D].
  - split.
    + intros s. rewrite plain_run by auto. rewrite app_nil_r. destruct g; cbn [csv_fields]; change (Byte.eqb comma comma) with true; cbv iota; now rewrite rev_involutive.
    + intros r R. rewrite plain_run by auto. rewrite app_nil_r. destruct r as [|c r]; [destruct g; cbn [csv_fields]; now rewrite rev_involutive|].
      rewrite (R c r eq_refl). destruct g; cbn [csv_fields]; change (Byte.eqb nl comma) with false; change (Byte.eqb nl nl) with true; cbv iota; now rewrite rev_involutive.
  - assert (Q : forall z, csv_fields AtStart [] ((x22 :: u ++ [x22]) ++ z) = csv_fields AfterQuote (rev g) z).
    { intros z. cbn [app csv_fields]. change (Byte.eqb x22 comma) with false. change (Byte.eqb x22 nl) with false. change (Byte.eqb x22 dquote) with true. cbv iota.
      rewrite <- app_assoc, (quoted_run g u D). rewrite app_nil_r. reflexivity. }
    split.
    + intros s. rewrite Q. cbn [csv_fields]. change (Byte.eqb comma dquote) with false. change (Byte.eqb comma comma) with true. cbv iota. now rewrite rev_involutive.
    + intros r R. rewrite Q. destruct r as [|c r]; [cbn [csv_fields]; now rewrite rev_involutive|]. rewrite (R c r eq_refl). cbn [csv_fields].
      change (Byte.eqb nl dquote) with false. change (Byte.eqb nl comma) with false. change (Byte.eqb nl nl) with true. cbv iota. now rewrite rev_involutive.
Qed.
Lemma record_read s fs : csv_record s fs -> csv_fields AtStart [] s = CsvRecord fs.
Proof.
  induction 1 as [t f rest F R|t f s fs F R IH].
  - now apply (field_run t f F).
  - change ","%byte with comma. rewrite (proj1 (field_run t f F)), IH. reflexivity.
Qed.
(** a mode and the bytes read so far, as the text they were read from *)
Definition pending (m : csv_mode) (cur : str) (t : str) : Prop :=
  match m with
  | AtStart => cur = [] /\ t = []
  | InPlain => plain_field (rev cur) /\ t = rev cur
  | InQuoted => exists u, doubled (rev cur) u /\ t = x22 :: u
  | AfterQuote => exists u, doubled (rev cur) u /\ t = x22 :: u ++ [x22]
  end.
Lemma doubled_app f t : doubled f t -> forall g u, doubled g u -> doubled (f ++ g) (t ++ u).
Proof. induction 1; intros; cbn; auto; constructor; auto. Qed.
Lemma read_record : forall s m cur t fs, pending m cur t -> csv_fields m cur s = CsvRecord fs -> csv_record (t ++ s) fs.
Proof.
  induction s as [|c s IH]; intros m cur t fs P H.
  - assert (F : csv_field t (rev cur) /\ fs = [rev cur]).
    { destruct m; cbn [csv_fields] in H; try discriminate H; injection H as <-; (split; [|reflexivity]).
      - destruct P as (-> & ->). apply cf_plain. repeat split; intros [].
      - destruct P as (P & ->). now apply cf_plain.
      - destruct P as (u & D & ->). now apply cf_quoted. }
    destruct F as [F ->]. apply cr_last; auto. discriminate.
  - assert (Close : forall m', m' <> InQuoted -> pending m' cur t -> csv_field t (rev cur)).
    { intros m' N Q. destruct m'; [| |congruence|].
      - destruct Q as (-> & ->). apply cf_plain. repeat split; intros [].
      - destruct Q as (Q & ->). now apply cf_plain.
      - destruct Q as (u & D & ->). now apply cf_quoted. }
    assert (Sep : m <> InQuoted -> c = comma -> csv_cons (rev cur) (csv_fields AtStart [] s) = CsvRecord fs -> csv_record (t ++ c :: s) fs).
    { intros N -> K. destruct (csv_fields AtStart [] s) as [fs'|] eqn:R; [|discriminate]. injection K as <-. apply cr_more; [eapply Close; eauto|].
      apply (IH AtStart [] [] fs'); [now split|auto]. }
    assert (End : m <> InQuoted -> c = nl -> CsvRecord [rev cur] = CsvRecord fs -> csv_record (t ++ c :: s) fs).
    { intros N -> K. injection K as <-. apply cr_last; [eapply Close; eauto|]. intros d r X. now injection X as <- <-. }
    assert (Step : forall m' cur', pending m' cur' (t ++ [c]) -> csv_fields m' cur' s = CsvRecord fs -> csv_record (t ++ c :: s) fs).
    { intros m' cur' Q K. specialize (IH m' cur' (t ++ [c]) fs Q K). now rewrite <- app_assoc in IH. }
    cbn [csv_fields] in H. destruct m.
    + destruct (Byte.eqb c comma) eqn:C1; [apply byte_eqb_eq in C1; now apply Sep|]. destruct (Byte.eqb c nl) eqn:C2; [apply byte_eqb_eq in C2; now apply End|].
      destruct P as (-> & ->). destruct (Byte.eqb c dquote) eqn:C3.
      * apply byte_eqb_eq in C3 as ->. apply (Step InQuoted []); auto. exists []. split; [constructor|reflexivity].
      * apply byte_eqb_neq in C1, C2, C3; unfold comma, nl, dquote in C1, C2, C3. apply (Step InPlain [c]); auto. split; [|reflexivity]. repeat split; intros [X|[]]; congruence.
    + destruct (Byte.eqb c comma) eqn:C1; [apply byte_eqb_eq in C1; now apply Sep|]. destruct (Byte.eqb c nl) eqn:C2; [apply byte_eqb_eq in C2; now apply End|].
      destruct (Byte.eqb c dquote) eqn:C3; [discriminate|]. apply byte_eqb_neq in C1, C2, C3; unfold comma, nl, dquote in C1, C2, C3. apply (Step InPlain (c :: cur)); auto.
      destruct P as ((P1 & P2 & P3) & ->). split; [|reflexivity]. cbn [rev]. repeat split; intros X; apply in_app_iff in X as [X|[X|[]]]; auto; congruence.
    + destruct P as (u & D & ->). destruct (Byte.eqb c dquote) eqn:C3.
      * apply byte_eqb_eq in C3 as ->. apply (Step AfterQuote cur); auto. exists u. split; auto.
      * apply byte_eqb_neq in C3. apply (Step InQuoted (c :: cur)); auto. exists (u ++ [c]). split; [|reflexivity]. cbn [rev]. apply doubled_app; auto.
        apply db_other; auto. constructor.
    + destruct (Byte.eqb c dquote) eqn:C3.
      * apply byte_eqb_eq in C3 as ->. destruct P as (u & D & ->). apply (Step InQuoted (dquote :: cur)); auto. exists (u ++ [x22; x22]). split.
        -- cbn [rev]. apply doubled_app; auto. apply db_quote. constructor.
        -- cbn [app]. now rewrite <- !app_assoc.
      * destruct (Byte.eqb c comma) eqn:C1; [apply byte_eqb_eq in C1; now apply Sep|]. destruct (Byte.eqb c nl) eqn:C2; [apply byte_eqb_eq in C2; now apply End|]. discriminate.
Qed.
(** exactly the values accepted, and what they denote *)
Theorem flag_value s fs : unix_lines s -> s <> [] ->
  string_slice [s] = CsvRecord fs <->
  exists k rest, s = repeat x0a k ++ rest /\ (exists c r, rest = c :: r /\ c <> x0a) /\ csv_record rest fs.
Proof.
  intros U N. cbn [string_slice]. unfold read_as_csv. destruct s as [|c s]; [congruence|]. clear N. set (l := c :: s) in *. unfold csv_read. rewrite csv_lines_unix by auto.
  transitivity (match skip_newlines l with [] => CsvError CsvEOF [] | r => csv_fields AtStart [] r end = CsvRecord fs).
  { destruct (match skip_newlines l with [] => CsvError CsvEOF [] | r => csv_fields AtStart [] r end); [now rewrite app_nil_r|reflexivity]. }
  destruct (skip_newlines_spec l) as (k & A & B). split.
  - intros H. destruct (skip_newlines l) as [|d r] eqn:S; [discriminate|]. exists k, (d :: r). split; auto. split; [exists d, r; eauto|].
    apply (read_record (d :: r) AtStart [] [] fs); [now split|auto].
  - intros (k' & rest & -> & (d & r & -> & D) & R). rewrite skip_newlines_app by (intros ? ? H; now injection H as <- <-). now apply record_read.
Qed.
Example flag_value_witness : string_slice [x0a :: bs "a,""b,""""c"""",""" ++ x0a :: bs "rest"] = CsvRecord [bs "a"; bs "b,""c"","].
Proof. vm_compute. reflexivity. Qed.
(** lines that end in \r\n are lines like all others: such a value is accepted if and only if
    the one with \n is, and means the same *)
Lemma unix_text_iff s u : unix_text s u <-> csv_lines s = u.
Proof.
  split.
  - induction 1 as [| |s u _ IH|c s u H _ IH]; [reflexivity|reflexivity| |].
    + cbn [csv_lines]. change (Byte.eqb x0d cr) with true. change (Byte.eqb x0a nl) with true. cbv iota. exact IH.
    + cbn [csv_lines]. rewrite IH. destruct (Byte.eqb c cr) eqn:C; [|reflexivity]. apply byte_eqb_eq in C. destruct (H C) as (d & r & -> & N).
      destruct (Byte.eqb d nl) eqn:D; [apply byte_eqb_eq in D; now destruct N|]. now subst c.
  - revert u. induction s as [|c s IH]; intros u <-; [constructor|]. cbn [csv_lines]. destruct (Byte.eqb c cr) eqn:C.
    + apply byte_eqb_eq in C as ->. destruct s as [|d s]; [constructor|]. destruct (Byte.eqb d nl) eqn:D.
      * apply byte_eqb_eq in D as ->. apply ut_line. now apply IH.
      * apply ut_byte; [|now apply IH]. intros _. exists d, s. split; [reflexivity|]. intros ->. discriminate D.
    + apply ut_byte; [|now apply IH]. intros ->. discriminate C.
Qed.
Theorem flag_value_lines s u fs : unix_text s u -> s <> [] ->
  string_slice [s] = CsvRecord fs <->
  exists k rest, u = repeat x0a k ++ rest /\ (exists c r, rest = c :: r /\ c <> x0a) /\ csv_record rest fs.
Proof.
  intros U N. apply unix_text_iff in U. cbn [string_slice]. unfold read_as_csv. destruct s as [|c s]; [congruence|]. clear N. set (l := c :: s) in *. unfold csv_read. rewrite U.
  transitivity (match skip_newlines u with [] => CsvError CsvEOF [] | r => csv_fields AtStart [] r end = CsvRecord fs).
  { destruct (match skip_newlines u with [] => CsvError CsvEOF [] | r => csv_fields AtStart [] r end); [now rewrite app_nil_r|reflexivity]. }
  destruct (skip_newlines_spec u) as (k & A & B). split.
  - intros H. destruct (skip_newlines u) as [|d r] eqn:S; [discriminate|]. exists k, (d :: r). split; auto. split; [exists d, r; eauto|].
    apply (read_record (d :: r) AtStart [] [] fs); [now split|auto].
  - intros (k' & rest & -> & (d & r & -> & D) & R). rewrite skip_newlines_app by (intros ? ? H; now injection H as <- <-). now apply record_read.
Qed.
Theorem every_value_has_lines s : exists u, unix_text s u.
Proof. eexists. now apply unix_text_iff. Qed.
Example flag_value_lines_witness : unix_text (bs "a,""b" ++ x0d :: x0a :: bs "c""" ++ [x0d; x0d]) (bs "a,""b" ++ x0a :: bs "c""" ++ [x0d]) /\
  string_slice [bs "a,""b" ++ x0d :: x0a :: bs "c""" ++ [x0d]] = CsvRecord [bs "a"; bs "b" ++ x0a :: bs "c"].
Proof. split; [now apply unix_text_iff|reflexivity]. Qed.
(** several occurrences deliver their fields one after the other *)
Theorem flag_occurrences vs fs : string_slice vs = CsvRecord fs <->
  exists fss, Forall2 (fun v f => string_slice [v] = CsvRecord f) vs fss /\ fs = concat fss.
Proof.
  assert (One : forall v, string_slice [v] = read_as_csv v).
  { intros v. cbn [string_slice]. destruct (read_as_csv v); [now rewrite app_nil_r|reflexivity]. }
  revert fs. induction vs as [|v vs IH]; intros fs.
  - split; [intros H; injection H as <-; exists []; split; [constructor|reflexivity]|]. intros (fss & F & ->). inversion F. reflexivity.
  - split.
    + intros H. cbn [string_slice] in H. destruct (read_as_csv v) as [f|] eqn:R; [|discriminate]. destruct (string_slice vs) as [rest|] eqn:S; [|discriminate]. injection H as <-.
      destruct (proj1 (IH rest) eq_refl) as (fss & F & ->). exists (f :: fss). split; [|reflexivity]. constructor; auto. cbv beta. now rewrite One.
    + intros (fss & F & ->). inversion F as [|? f ? fss' A B]; subst. cbn [string_slice concat]. rewrite <- One, A.
      rewrite (proj2 (IH (concat fss'))) by eauto. reflexivity.
Qed.
Example flag_occurrences_witness : string_slice [bs "point"; bs "mark,point-max"] = CsvRecord [bs "point"; bs "mark"; bs "point-max"].
Proof. vm_compute. reflexivity. Qed.

Lemma no_cr_unix s : no_byte x0d s -> unix_lines s.
Proof. intros N a b ->. destruct N. apply in_app_iff. right. now left. Qed.
Lemma csv_lines_app a s : no_byte x0d a -> csv_lines (a ++ s) = a ++ csv_lines s.
Proof.
  induction a as [|c a IH]; intros N; [reflexivity|]. cbn [app csv_lines]. assert (C : Byte.eqb c cr = false) by (apply byte_eqb_neq; intros ->; apply N; now left).
  rewrite C, IH; [reflexivity|]. intros H. apply N. now right.
Qed.
Lemma simple_head a s : simple_expression a -> skip_newlines (a ++ s) = a ++ s.
Proof.
  intros (N & (_ & _ & P) & _). destruct a as [|c a]; [congruence|]. apply (skip_newlines_app 0). intros d r H. injection H as <- <-. intros ->. apply P. now left.
Qed.
Lemma simple_read a s : simple_expression a -> string_slice [a ++ s] =
  match csv_fields InPlain (rev a) (csv_lines s) with CsvRecord f => CsvRecord f | e => e end.
Proof.
  intros S. pose proof S as (N & P & C). cbn [string_slice]. assert (X : read_as_csv (a ++ s) = csv_fields InPlain (rev a) (csv_lines s)).
  { transitivity (csv_read (a ++ s)); [destruct a; [congruence|reflexivity]|]. unfold csv_read. rewrite csv_lines_app by auto. rewrite simple_head by auto.
    transitivity (csv_fields AtStart [] (a ++ csv_lines s)); [destruct a; [congruence|reflexivity]|]. rewrite plain_run by auto. rewrite app_nil_r. destruct a; [congruence|reflexivity]. }
  rewrite X. destruct (csv_fields InPlain (rev a) (csv_lines s)); [now rewrite app_nil_r|reflexivity].
Qed.
(** an expression without comma, quotation mark and line break arrives as it is *)
Theorem simple_expressions_arrive E os es a : Forall simple_expression es ->
  edit_command E os es a = run_edit E os (with_expressions a es).
Proof.
  intros H. unfold edit_command. replace (string_slice es) with (CsvRecord es); [reflexivity|]. symmetry. apply flag_occurrences. exists (map (fun e => [e]) es). split.
  - induction H as [|e es S _ IH]; [constructor|]. constructor; auto. rewrite <- (app_nil_r e) at 1. rewrite simple_read by auto. cbn [csv_lines csv_fields].
    now rewrite rev_involutive.
  - clear H. induction es as [|e es IH]; [reflexivity|]. cbn [map concat app]. congruence.
Qed.
Example simple_expressions_witness : Forall simple_expression [bs "forward-word 2"; bs "(point)"].
Proof.
  repeat constructor; try discriminate; repeat split; intros H; vm_compute in H; repeat destruct H as [H|H]; try discriminate H; try contradiction.
Qed.
(** an expression that contains a comma is cut in two *)
Theorem comma_splits a b : simple_expression a -> simple_expression b ->
  string_slice [a ++ bs "," ++ b] = CsvRecord [a; b].
Proof.
  intros A (Nb & Pb & Cb). rewrite simple_read by auto. rewrite csv_lines_app by (intros [H|[]]; discriminate). rewrite csv_lines_unix by now apply no_cr_unix.
  change (bs "," ++ b) with (comma :: b). cbn [csv_fields]. change (Byte.eqb comma comma) with true. cbv iota. rewrite <- (app_nil_r b) at 1. rewrite plain_run by auto. rewrite app_nil_r.
  destruct b; [congruence|]. cbn [csv_fields csv_cons]. now rewrite !rev_involutive.
Qed.
Example comma_splits_witness : string_slice [bs "search-forward a,b"] = CsvRecord [bs "search-forward a"; bs "b"].
Proof. reflexivity. Qed.
(** of an expression that spans several lines only the first line arrives *)
Theorem later_lines_dropped a more : simple_expression a -> string_slice [a ++ x0a :: more] = CsvRecord [a].
Proof.
  intros A. rewrite simple_read by auto. cbn [csv_lines]. change (Byte.eqb x0a cr) with false. cbv iota. cbn [csv_fields].
  change (Byte.eqb x0a comma) with false. change (Byte.eqb x0a nl) with true. cbv iota. now rewrite rev_involutive.
Qed.
Example later_lines_dropped_witness : string_slice [bs "forward-word" ++ x0a :: bs "delete-char 1"] = CsvRecord [bs "forward-word"].
Proof. reflexivity. Qed.
(** an expression with a string literal after something else is refused: nothing is read,
    evaluated, printed or written *)
Theorem literal_expression_refused E os a name rest more w : simple_expression name ->
  exists e, edit_command E os ((name ++ x22 :: rest) :: more) a w = (Err e, w).
Proof.
  intros S. exists (bs "invalid argument: " ++ csv_reason CsvBareQuote). unfold edit_command.
  assert (X : string_slice [name ++ x22 :: rest] = CsvError CsvBareQuote (x22 :: csv_lines rest)).
  { rewrite simple_read by auto. cbn [csv_lines]. change (Byte.eqb x22 cr) with false. cbv iota. cbn [csv_fields].
    change (Byte.eqb x22 comma) with false. change (Byte.eqb x22 nl) with false. change (Byte.eqb x22 dquote) with true. reflexivity. }
  cbn [string_slice] in *. destruct (read_as_csv (name ++ x22 :: rest)); [discriminate|]. injection X as -> _. reflexivity.
Qed.
Example literal_expression_witness : simple_expression (bs "insert ") /\ string_slice [bs "insert ""x"""] = CsvError CsvBareQuote (bs """x""").
Proof.
  split; [|reflexivity]. split; [discriminate|]. repeat split; intros H; vm_compute in H; repeat destruct H as [H|H]; try discriminate H; try contradiction.
Qed.
(** so the documented use of -e (README.md:51) always fails, although both expressions are
    valid programs *)
Theorem documented_expressions_refuted : let e1 := bs "upcase ""hello""" in let e2 := bs "downcase ""WORLD""" in
  (forall E input, (exists c, execute_script E input e1 = Ok c) /\ (exists c, execute_script E input e2 = Ok c)) /\
  forall E os a w, exists e, edit_command E os [e1; e2] a w = (Err e, w).
Proof.
  cbv zeta. split.
  - intros E input. split; exists input; unfold execute_script.
    + replace (parse_string (bs "upcase ""hello""")) with (POk [VList [VSym (bs "upcase"); VStr (bs "hello")]]) by (vm_compute; reflexivity).
      unfold run_program, eval, eval_with_trace. cbn [eval_from eval_expr]. change (default_env E (bs "upcase")) with (Some (b_upcase E)). cbv iota beta. reflexivity.
    + replace (parse_string (bs "downcase ""WORLD""")) with (POk [VList [VSym (bs "downcase"); VStr (bs "WORLD")]]) by (vm_compute; reflexivity).
      unfold run_program, eval, eval_with_trace. cbn [eval_from eval_expr]. change (default_env E (bs "downcase")) with (Some (b_downcase E)). cbv iota beta. reflexivity.
  - intros E os a w. change (bs "upcase ""hello""") with (bs "upcase " ++ x22 :: bs "hello"""). apply literal_expression_refused.
    split; [discriminate|]. repeat split; intros H; vm_compute in H; repeat destruct H as [H|H]; try discriminate H; try contradiction.
Qed.
Lemma doubled_unix s t : doubled s t -> (forall a b, s <> a ++ x0d :: x0a :: b) ->
  forall a b, t ++ [x22] = a ++ x0d :: b -> exists c r, b = c :: r /\ c <> x0a.
Proof.
  induction 1 as [|f t D IH|c f t Nc D IH]; intros N a b H.
  - destruct a as [|x [|y a]]; discriminate.
  - destruct a as [|x [|y a]]; [discriminate..|]. injection H as <- <- H. apply (IH (fun a' b' E => N (x22 :: a') b' (f_equal (cons x22) E)) a b H).
  - destruct a as [|x a].
    + injection H as -> <-. destruct D as [|f t D|d f t Nd D]; [exists x22, []; split; [reflexivity|discriminate]|exists x22, (x22 :: t ++ [x22]); split; [reflexivity|discriminate]|].
      exists d, (t ++ [x22]). split; [reflexivity|]. intros ->. now apply (N [] f).
    + injection H as <- H. apply (IH (fun a' b' E => N (c :: a') b' (f_equal (cons c) E)) a b H).
Qed.
(** the way around it: quotation marks doubled and the whole expression in quotation marks *)
Theorem quoted_expression_arrives s t : doubled s t -> (forall a b, s <> a ++ x0d :: x0a :: b) ->
  string_slice [x22 :: t ++ [x22]] = CsvRecord [s].
Proof.
  intros D N. rewrite flag_value; [|intros a b H|discriminate].
  - exists 0%nat, (x22 :: t ++ [x22]). split; [reflexivity|]. split; [exists x22, (t ++ [x22]); split; [reflexivity|discriminate]|].
    rewrite <- (app_nil_r (x22 :: t ++ [x22])). apply cr_last; [now apply cf_quoted|discriminate].
  - destruct a as [|c a]; [discriminate|]. injection H as <- H. now apply (doubled_unix s t D N a b).
Qed.
Example quoted_expression_witness : string_slice [bs """upcase """"hello"""""""] = CsvRecord [bs "upcase ""hello"""].
Proof. vm_compute. reflexivity. Qed.

(** ** Assumptions of every theorem above *)
Print Assumptions flag_value.
Print Assumptions flag_value_lines.
Print Assumptions every_value_has_lines.
Print Assumptions flag_occurrences.
Print Assumptions simple_expressions_arrive.
Print Assumptions comma_splits.
Print Assumptions later_lines_dropped.
Print Assumptions literal_expression_refused.
Print Assumptions documented_expressions_refuted.
Print Assumptions quoted_expression_arrives.
