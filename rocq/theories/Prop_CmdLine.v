(** C71: the command line. *)
From Coq Require Import ZArith NArith List Bool Lia ZifyBool ZifyN ZifyNat Strings.Byte.
From Verif Require Import Base Float Ext Utf8 Strconv Values Buffer Builtins Eval Parser Json Writer Files Cli Tools
  Testing Docs DocsData Flags TestCmd Serve CmdLine Spec SpecText SpecFiles SpecFlags SpecCmd RefExt Proofs_Base Proofs_Files
  Prop_Files Prop_Flags.
Import ListNotations.
Open Scope Z_scope.

(** ** C71 *)
Lemma eqb_dash c : Byte.eqb c "-"%byte = true <-> c = dash.
Proof. split; [apply byte_eqb_eq|intros ->; reflexivity]. Qed.

Section Tables.
Variable flags : list flag.
Hypothesis T : flag_table flags.

Lemma find_long_spec name f : find_long flags name = Some f <-> In f flags /\ g_name f = name.
Proof.
  destruct T as (N & _). unfold find_long. split.
  - intros H. apply find_some in H as [I E]. split; [exact I|now apply str_eqb_eq].
  - intros [I <-]. clear T. induction flags as [|g l IH]; [destruct I|]. cbn [find]. inversion N as [|? ? Ng N']; subst. destruct I as [->|I].
    + now rewrite (proj2 (str_eqb_eq _ _) eq_refl).
    + destruct (str_eqb (g_name g) (g_name f)) eqn:E; [|auto]. apply str_eqb_eq in E. exfalso. apply Ng. rewrite E. now apply in_map.
Qed.
Lemma find_short_spec c f : find_short flags c = Some f <-> In f flags /\ g_short f = Some c.
Proof.
  destruct T as (_ & _ & U & _). unfold find_short. split.
  - intros H. apply find_some in H as [I E]. split; [exact I|]. destruct (g_short f); [|discriminate]. f_equal. now apply byte_eqb_eq.
  - intros [I E]. destruct (find _ flags) as [g|] eqn:F.
    + apply find_some in F as [I' E']. f_equal. apply (U g f c); auto. destruct (g_short g); [|discriminate]. f_equal. now apply byte_eqb_eq.
    + apply (find_none _ _ F) in I. rewrite E in I. rewrite (proj2 (byte_eqb_eq c c) eq_refl) in I. discriminate.
Qed.
Lemma is_bool_spec f : is_bool f = true <-> g_kind f = KBool.
Proof. unfold is_bool. destruct (g_kind f); split; congruence. Qed.
Lemma is_bool_not f : is_bool f = false <-> g_kind f <> KBool.
Proof. unfold is_bool. destruct (g_kind f); split; congruence. Qed.

Lemma in_texts v l : existsb (str_eqb v) l = true <-> In v l.
Proof.
  rewrite existsb_exists. split; [intros (x & I & E); apply str_eqb_eq in E; now subst|].
  intros I. exists v. split; [exact I|now apply str_eqb_eq].
Qed.
Lemma parse_bool_yes v : parse_bool v = Some true <-> In v yes.
Proof.
  unfold parse_bool. rewrite <- (in_texts v yes). fold yes no. destruct (existsb _ yes); [tauto|].
  destruct (existsb _ no); split; discriminate.
Qed.
Lemma parse_bool_any v : parse_bool v <> None <-> In v (yes ++ no).
Proof.
  rewrite in_app_iff, <- !in_texts. unfold parse_bool. fold yes no.
  destruct (existsb _ yes); [split; [auto|discriminate]|]. destruct (existsb _ no); split; auto; try discriminate; try tauto.
  intros [X|X]; discriminate.
Qed.
Lemma set_error_suits E f v : set_error E f v = None <-> suits f v.
Proof.
  unfold set_error, suits. destruct (g_kind f).
  - rewrite <- parse_bool_any. destruct (parse_bool v); split; congruence.
  - tauto.
  - cbn [string_slice]. destruct (read_as_csv v) as [l|e w]; [|split; [discriminate|intros [l X]; discriminate]].
    split; [intros _; exists (l ++ []); reflexivity|reflexivity].
Qed.
Lemma true_suits f : g_kind f = KBool -> suits f (bs "true").
Proof. unfold suits. intros ->. apply in_texts. reflexivity. Qed.

Lemma split_eq_name n v : ~ In equals n -> split_eq (n ++ equals :: v) = (n, Some v).
Proof.
  induction n as [|c n IH]; intros N; [reflexivity|]. cbn [app split_eq].
  replace (Byte.eqb c "="%byte) with false by (symmetry; apply byte_eqb_neq; intros ->; apply N; now left).
  rewrite IH; [reflexivity|]. intros H. apply N. now right.
Qed.
Lemma split_eq_bare n : ~ In equals n -> split_eq n = (n, None).
Proof.
  induction n as [|c n IH]; intros N; [reflexivity|]. cbn [split_eq].
  replace (Byte.eqb c "="%byte) with false by (symmetry; apply byte_eqb_neq; intros ->; apply N; now left).
  rewrite IH; [reflexivity|]. intros H. apply N. now right.
Qed.
Lemma split_eq_back s : match split_eq s with (n, Some v) => s = n ++ equals :: v | (n, None) => s = n end.
Proof.
  induction s as [|c s IH]; [reflexivity|]. cbn [split_eq]. destruct (Byte.eqb c "="%byte) eqn:C.
  - apply byte_eqb_eq in C as ->. reflexivity.
  - destruct (split_eq s) as [n [v|]]; cbn; congruence.
Qed.

Lemma not_gotest c t : c <> "t"%byte -> has_prefix (c :: t) (bs "test.") = false.
Proof. intros N. destruct (has_prefix _ _) eqn:H; [|reflexivity]. apply has_prefix_iff in H as [v H]. injection H as H _. congruence. Qed.
Lemma letter_spec f c : In f flags -> g_short f = Some c -> c <> dash /\ c <> equals /\ forall t, has_prefix (c :: t) (bs "test.") = false.
Proof. destruct T as (_ & _ & _ & L). intros I S0. destruct (L f c I S0) as (A & B & C). repeat split; auto. intros t. now apply not_gotest. Qed.
Lemma eqb_equals d : d <> equals -> Byte.eqb d "="%byte = false.
Proof. intros N. now apply byte_eqb_neq. Qed.
Lemma short_set_ok E f v r : suits f v -> short_set E f v r = short_cons (g_name f, v) r.
Proof. intros S0. unfold short_set. now rewrite (proj2 (set_error_suits E f v) S0). Qed.
Lemma short_set_back E f v r q : short_set E f v r = q -> (forall e, q <> ShError e) -> suits f v /\ short_cons (g_name f, v) r = q.
Proof.
  unfold short_set. destruct (set_error E f v) eqn:X; intros <- N; [now destruct (N s)|]. split; [|reflexivity]. now apply (set_error_suits E).
Qed.

Lemma letters_read E t s : letters flags t s -> parse_short E flags t = ShDone s.
Proof.
  induction 1 as [f c I S0 K|f c d t s I S0 K D L IH|f c v I S0 N V|f c v I S0 K N Q V|t].
  - destruct (letter_spec f c I S0) as (_ & _ & P). cbn [parse_short]. rewrite P, (proj2 (find_short_spec c f) (conj I S0)), (proj2 (is_bool_spec f) K).
    rewrite short_set_ok by now apply true_suits. reflexivity.
  - destruct (letter_spec f c I S0) as (_ & _ & P). cbn [parse_short]. rewrite P, (proj2 (find_short_spec c f) (conj I S0)), (proj2 (is_bool_spec f) K).
    rewrite (eqb_equals d D). change (short_set E f (bs "true")) with (short_set E f (bs "true")).
    assert (X : short_set E f (bs "true") (parse_short E flags (d :: t)) = ShDone ((g_name f, bs "true") :: s)).
    { rewrite IH, short_set_ok by now apply true_suits. reflexivity. }
    destruct t; exact X.
  - destruct (letter_spec f c I S0) as (_ & _ & P). cbn [parse_short]. rewrite P, (proj2 (find_short_spec c f) (conj I S0)).
    destruct v as [|x v]; [congruence|]. change (Byte.eqb equals "="%byte) with true. cbv iota. rewrite short_set_ok by auto. reflexivity.
  - destruct (letter_spec f c I S0) as (_ & _ & P). cbn [parse_short]. rewrite P, (proj2 (find_short_spec c f) (conj I S0)), (proj2 (is_bool_not f) K).
    destruct v as [|x v]; [congruence|]. destruct v as [|y v].
    + rewrite short_set_ok by auto. reflexivity.
    + rewrite eqb_equals; [rewrite short_set_ok by auto; reflexivity|]. intros ->. specialize (Q _ eq_refl). discriminate Q.
  - assert (P : has_prefix (bs "test." ++ t) (bs "test.") = true) by (apply has_prefix_iff; eauto).
    change (bs "test." ++ t) with ("t"%byte :: bs "est." ++ t) in *. cbn [parse_short]. now rewrite P.
Qed.
Lemma open_letters_read E t s f : open_letters flags t s f -> exists x, parse_short E flags t = ShNeed s f x.
Proof.
  induction 1 as [f c I S0 K|f c d t s g I S0 K D L (x & IH)].
  - destruct (letter_spec f c I S0) as (_ & _ & P). cbn [parse_short]. rewrite P, (proj2 (find_short_spec c f) (conj I S0)), (proj2 (is_bool_not f) K). eauto.
  - destruct (letter_spec f c I S0) as (_ & _ & P). cbn [parse_short]. rewrite P, (proj2 (find_short_spec c f) (conj I S0)), (proj2 (is_bool_spec f) K).
    rewrite (eqb_equals d D). exists x.
    assert (X : short_set E f (bs "true") (parse_short E flags (d :: t)) = ShNeed ((g_name f, bs "true") :: s) g x).
    { rewrite IH, short_set_ok by now apply true_suits. reflexivity. }
    destruct t; exact X.
Qed.
Lemma short_back E t : match parse_short E flags t with
  | ShDone s => t = [] /\ s = [] \/ letters flags t s
  | ShNeed s f _ => open_letters flags t s f
  | ShError _ => True
  end.
Proof.
  induction t as [|c t IH]; [now left|]. cbn [parse_short]. destruct (has_prefix (c :: t) (bs "test.")) eqn:P.
  { apply has_prefix_iff in P as [v ->]. right. constructor. }
  destruct (find_short flags c) as [f|] eqn:F; [|exact I]. apply find_short_spec in F as [If S0].
  destruct t as [|d [|y v]].
  - destruct (is_bool f) eqn:B.
    + apply is_bool_spec in B. rewrite short_set_ok by now apply true_suits. right. now constructor.
    + apply is_bool_not in B. now constructor.
  - destruct (is_bool f) eqn:B.
    + apply is_bool_spec in B. rewrite short_set_ok by now apply true_suits.
      destruct (parse_short E flags [d]) as [l|l g x|e] eqn:R; [|cbn [short_cons]|exact I].
      * destruct IH as [[X _]|IH]; [discriminate|]. right. cbn [short_cons]. constructor; auto. intros ->. clear - IH T.
        inversion IH; subst; try discriminate; match goal with H : g_short ?f = Some ?c, I : In ?f flags |- _ => destruct T as (_ & _ & _ & L); destruct (L f c I H) as (_ & N & _); now apply N end.
      * constructor; auto. intros ->. clear - IH T.
        inversion IH; subst; match goal with H : g_short ?f = Some ?c, I : In ?f flags |- _ => destruct T as (_ & _ & _ & L); destruct (L f c I H) as (_ & N & _); now apply N end.
    + apply is_bool_not in B. destruct (short_set E f [d] (ShDone [])) eqn:R; [| |exact I].
      * apply short_set_back in R as [V R]; [|discriminate]. injection R as <-. right. apply lt_rest; auto; [discriminate|]. intros u Hu. now injection Hu as _ <-.
      * apply short_set_back in R as [V R]; [discriminate|discriminate].
  - destruct (Byte.eqb d "="%byte) eqn:D.
    + apply byte_eqb_eq in D as ->. destruct (short_set E f (y :: v) (ShDone [])) eqn:R; [| |exact I].
      * apply short_set_back in R as [V R]; [|discriminate]. injection R as <-. right. apply (lt_equals flags f c (y :: v)); auto. discriminate.
      * apply short_set_back in R as [V R]; [discriminate|discriminate].
    + apply byte_eqb_neq in D. destruct (is_bool f) eqn:B.
      * apply is_bool_spec in B. rewrite short_set_ok by now apply true_suits.
        destruct (parse_short E flags (d :: y :: v)) as [l|l g x|e] eqn:R; [|cbn [short_cons]|exact I].
        -- destruct IH as [[X _]|IH]; [discriminate|]. right. cbn [short_cons]. now constructor.
        -- now constructor.
      * apply is_bool_not in B. destruct (short_set E f (d :: y :: v) (ShDone [])) eqn:R; [| |exact I].
        -- apply short_set_back in R as [V R]; [|discriminate]. injection R as <-. right. apply lt_rest; auto; [discriminate|]. intros u Hu. injection Hu as Hu _. now apply D in Hu.
        -- apply short_set_back in R as [V R]; [discriminate|discriminate].
Qed.

Lemma set_then_ok E f v r : suits f v -> set_then E f v r = add_sets [(g_name f, v)] r.
Proof. intros S0. unfold set_then. now rewrite (proj2 (set_error_suits E f v) S0). Qed.
Lemma set_then_back E f v r s p : set_then E f v r = Parsed s p -> suits f v /\ exists s', r = Parsed s' p /\ s = (g_name f, v) :: s'.
Proof.
  unfold set_then. destruct (set_error E f v) eqn:X; [discriminate|]. intros H. split; [now apply (set_error_suits E)|].
  destruct r as [s' p'|e]; [|discriminate]. injection H as <- <-. eauto.
Qed.
Lemma letters_head c t s : letters flags (c :: t) s -> c <> dash.
Proof.
  intros H. inversion H; subst; try discriminate;
    match goal with H : g_short ?f = Some c, I : In ?f flags |- _ => destruct (letter_spec f c I H) as (N & _); exact N end.
Qed.
Lemma open_letters_head c t s g : open_letters flags (c :: t) s g -> c <> dash.
Proof.
  intros H. inversion H; subst; try discriminate;
    match goal with H : g_short ?f = Some c, I : In ?f flags |- _ => destruct (letter_spec f c I H) as (N & _); exact N end.
Qed.
Lemma name_spec f : In f flags -> ~ In equals (g_name f) /\ exists c n, g_name f = c :: n /\ c <> dash /\ c <> equals.
Proof.
  destruct T as (_ & N & _). intros I. destruct (N f I) as (A & c & n & B & C). split; [exact A|]. exists c, n. repeat split; auto.
  intros ->. apply A. rewrite B. now left.
Qed.

Lemma says_read E l s p : says flags l s p -> parse_args E flags l = Parsed s p.
Proof.
  induction 1 as [|p|a l s p A H IH|f v l s p I V H IH|f l s p I K H IH|f v l s p I K V H IH|t s1 l s p L H IH|t s1 f v l s p L V H IH].
  - reflexivity.
  - reflexivity.
  - cbn [parse_args]. rewrite IH. destruct a as [|d [|c t]]; try reflexivity.
    destruct (Byte.eqb d "-"%byte) eqn:D; [|reflexivity]. apply byte_eqb_eq in D as ->. specialize (A _ eq_refl). discriminate A.
  - destruct (name_spec f I) as (N & c & n & Hn & C1 & C2). cbn [parse_args]. change (Byte.eqb dash "-"%byte) with true. cbn [negb].
    destruct (g_name f ++ equals :: v) as [|x y] eqn:X; [now rewrite Hn in X|]. assert (x = c) as -> by (rewrite Hn in X; now injection X as <- _).
    rewrite (proj2 (byte_eqb_neq c "-"%byte) C1), (proj2 (byte_eqb_neq c "="%byte) C2). cbn [orb]. rewrite <- X, split_eq_name by auto.
    rewrite (proj2 (find_long_spec _ f) (conj I eq_refl)), set_then_ok, IH by auto. reflexivity.
  - destruct (name_spec f I) as (N & c & n & Hn & C1 & C2). cbn [parse_args]. change (Byte.eqb dash "-"%byte) with true. cbn [negb].
    destruct (g_name f) as [|x y] eqn:X; [discriminate|]. assert (x = c) as -> by now injection Hn as <- _.
    rewrite (proj2 (byte_eqb_neq c "-"%byte) C1), (proj2 (byte_eqb_neq c "="%byte) C2). cbn [orb]. rewrite split_eq_bare by auto.
    rewrite (proj2 (find_long_spec _ f) (conj I X)), (proj2 (is_bool_spec f) K), set_then_ok, IH, X by now apply true_suits. reflexivity.
  - destruct (name_spec f I) as (N & c & n & Hn & C1 & C2). cbn [parse_args]. change (Byte.eqb dash "-"%byte) with true. cbn [negb].
    destruct (g_name f) as [|x y] eqn:X; [discriminate|]. assert (x = c) as -> by now injection Hn as <- _.
    rewrite (proj2 (byte_eqb_neq c "-"%byte) C1), (proj2 (byte_eqb_neq c "="%byte) C2). cbn [orb]. rewrite split_eq_bare by auto.
    rewrite (proj2 (find_long_spec _ f) (conj I X)), (proj2 (is_bool_not f) K), set_then_ok, IH, X by auto. reflexivity.
  - destruct t as [|c t]; [inversion L|]. pose proof (letters_head c t s1 L) as C. cbn [parse_args]. change (Byte.eqb dash "-"%byte) with true. cbn [negb].
    rewrite (proj2 (byte_eqb_neq c "-"%byte) C), (letters_read E _ _ L), IH. reflexivity.
  - destruct t as [|c t]; [inversion L|]. pose proof (open_letters_head c t s1 f L) as C. cbn [parse_args]. change (Byte.eqb dash "-"%byte) with true. cbn [negb].
    rewrite (proj2 (byte_eqb_neq c "-"%byte) C). destruct (open_letters_read E _ _ _ L) as [x ->]. rewrite set_then_ok, IH by auto. reflexivity.
Qed.
Lemma read_says E : forall n l s p, (length l <= n)%nat -> parse_args E flags l = Parsed s p -> says flags l s p.
Proof.
  induction n as [|n IH]; intros [|a l] s p N H; try (cbn in N; lia); try (injection H as <- <-; constructor).
  cbn in N. assert (IH1 : forall s p, parse_args E flags l = Parsed s p -> says flags l s p) by (intros; apply IH; auto; lia).
  assert (IH2 : forall v l' s p, l = v :: l' -> parse_args E flags l' = Parsed s p -> says flags l' s p) by (intros v l' s' p' -> X; apply IH; auto; cbn in N; lia).
  clear IH N n.
  assert (File : add_file a (parse_args E flags l) = Parsed s p -> (forall t, a = dash :: t -> t = []) -> says flags (a :: l) s p).
  { intros X A. destruct (parse_args E flags l) as [s' p'|e]; [|discriminate]. injection X as <- <-. constructor; auto. }
  cbn [parse_args] in H. destruct a as [|d [|c t]]; [apply File; [exact H|discriminate]|apply File; [exact H|congruence]|].
  destruct (Byte.eqb d "-"%byte) eqn:D; cbn [negb] in H; [|apply File; [exact H|intros u Hu; injection Hu as Hu _; apply byte_eqb_neq in D; now destruct D]].
  apply byte_eqb_eq in D as ->. destruct (Byte.eqb c "-"%byte) eqn:C.
  - apply byte_eqb_eq in C as ->. destruct t as [|m t]; [injection H as <- <-; apply sy_end|]. destruct (_ || _); [discriminate|].
    pose proof (split_eq_back (m :: t)) as B. destruct (split_eq (m :: t)) as [name v]. destruct (find_long flags name) as [f|] eqn:F; [|discriminate].
    apply find_long_spec in F as [I <-]. destruct v as [v|].
    + rewrite B. apply set_then_back in H as (V & s' & H & ->). now apply sy_equals; auto.
    + rewrite B. destruct (is_bool f) eqn:K.
      * apply is_bool_spec in K. apply set_then_back in H as (V & s' & H & ->). now apply sy_bool; auto.
      * apply is_bool_not in K. destruct l as [|v l]; [discriminate|]. apply set_then_back in H as (V & s' & H & ->). apply sy_next; auto. now apply (IH2 v l).
  - pose proof (short_back E (c :: t)) as B. destruct (parse_short E flags (c :: t)) as [l1|l1 f x|e]; [| |discriminate].
    + destruct B as [[B _]|B]; [discriminate|]. destruct (parse_args E flags l) as [s' p'|e]; [|discriminate]. injection H as <- <-. constructor; auto.
    + destruct l as [|v l]; [discriminate|]. destruct (set_then E f v _) as [s' p'|e] eqn:R; [|discriminate]. injection H as <- <-.
      apply set_then_back in R as (V & s2 & R & ->). apply sy_open; auto. now apply (IH2 v l).
Qed.
End Tables.

(** *** The tables *)
Ltac no_in H := repeat (destruct H as [H|H]; [discriminate H|]); destruct H.
Ltac distinct_names := repeat (apply NoDup_cons; [let H := fresh in intros H; no_in H|]); apply NoDup_nil.
Ltac each_flag I := repeat (destruct I as [<-|I]; [|]); [..|destruct I].
Ltac table := split; [cbn [map g_name]; distinct_names|]; split; [
    let f := fresh in let I := fresh in intros f I; each_flag I; (split; [let H := fresh in intros H; no_in H|do 2 eexists; split; [reflexivity|discriminate]])|];
  split; [
    let f := fresh in let g := fresh in let c := fresh in let I := fresh in let J := fresh in let A := fresh in let B := fresh in
    intros f g c I J A B; each_flag I; try discriminate A; injection A as <-; each_flag J; (discriminate B || reflexivity)|
    let f := fresh in let c := fresh in let I := fresh in let A := fresh in
    intros f c I A; each_flag I; (discriminate A || (injection A as <-; repeat split; discriminate))].
(** in the tables of the five commands no name or letter occurs twice *)
Theorem flag_tables : flag_table edit_flags /\ flag_table parse_flags /\ flag_table test_flags /\ flag_table doc_flags /\ flag_table mcp_flags.
Proof. split; [table|]. split; [table|]. split; [table|]. split; table. Qed.

(** *** The grammar *)
Theorem command_line_grammar E flags args s p : flag_table flags -> (parse_args E flags args = Parsed s p <-> says flags args s p).
Proof. intros T. split; [now apply (read_says flags T E (length args))|now apply says_read]. Qed.
Example command_line_witness : says edit_flags [bs "-qifx"; bs "--backup=.bak"; bs "a"; bs "-s"; bs "-"; bs "--"; bs "-b"]
  [(bs "quiet", bs "true"); (bs "in-place", bs "true"); (bs "file", bs "x"); (bs "backup", bs ".bak"); (bs "script", bs "-")] [bs "a"; bs "-b"].
Proof. apply (command_line_grammar ref_ext); [apply flag_tables|vm_compute; reflexivity]. Qed.
(** a command line has one meaning, and is refused if it has none *)
Theorem command_line_refused E flags args : flag_table flags ->
  ((exists e, parse_args E flags args = ParseError e) <-> forall s p, ~ says flags args s p).
Proof.
  intros T. split.
  - intros [e H] s p S0. apply (command_line_grammar E) in S0; [congruence|auto].
  - intros N. destruct (parse_args E flags args) as [s p|e] eqn:H; [|eauto]. apply command_line_grammar in H; [|auto]. now destruct (N s p).
Qed.
Example command_line_refused_witness : forall s p, ~ says edit_flags [bs "-ix"; bs "f"] s p.
Proof. apply (command_line_refused ref_ext); [apply flag_tables|]. eexists. vm_compute. reflexivity. Qed.

Theorem command_line_composes E flags l1 l2 s1 p1 : flag_table flags -> says flags l1 s1 p1 -> ~ In [dash; dash] l1 ->
  parse_args E flags (l1 ++ l2) = match parse_args E flags l2 with
    | Parsed s2 p2 => Parsed (s1 ++ s2) (p1 ++ p2)
    | ParseError e => ParseError e
    end.
Proof.
  intros T.
  induction 1 as [|p|a l s p A H IH|f v l s p I V H IH|f l s p I K H IH|f v l s p I K V H IH|t s1 l s p L H IH|t s1 f v l s p L V H IH]; intros N.
  all: try (assert (N' : ~ In [dash; dash] l) by (intros X; apply N; cbn; auto); specialize (IH N')).
  - cbn [app]. now destruct (parse_args E flags l2).
  - destruct N. now left.
  - cbn [app parse_args]. rewrite IH.
    assert (G : add_file a (match parse_args E flags l2 with Parsed s2 p2 => Parsed (s ++ s2) (p ++ p2) | ParseError e => ParseError e end) =
      match parse_args E flags l2 with Parsed s2 p2 => Parsed (s ++ s2) ((a :: p) ++ p2) | ParseError e => ParseError e end) by (now destruct (parse_args E flags l2)).
    destruct a as [|d [|c t]]; try exact G.
    destruct (Byte.eqb d "-"%byte) eqn:D; [|exact G]. apply byte_eqb_eq in D as ->. specialize (A _ eq_refl). discriminate A.
  - destruct (name_spec flags T f I) as (Ne & c & n & Hn & C1 & C2). cbn [app parse_args]. change (Byte.eqb dash "-"%byte) with true. cbn [negb].
    destruct (g_name f ++ equals :: v) as [|x y] eqn:X; [now rewrite Hn in X|]. assert (x = c) as -> by (rewrite Hn in X; now injection X as <- _).
    rewrite (proj2 (byte_eqb_neq c "-"%byte) C1), (proj2 (byte_eqb_neq c "="%byte) C2). cbn [orb]. rewrite <- X, split_eq_name by auto.
    rewrite (proj2 (find_long_spec flags T _ f) (conj I eq_refl)), set_then_ok, IH by auto. now destruct (parse_args E flags l2).
  - destruct (name_spec flags T f I) as (Ne & c & n & Hn & C1 & C2). cbn [app parse_args]. change (Byte.eqb dash "-"%byte) with true. cbn [negb].
    destruct (g_name f) as [|x y] eqn:X; [discriminate|]. assert (x = c) as -> by now injection Hn as <- _.
    rewrite (proj2 (byte_eqb_neq c "-"%byte) C1), (proj2 (byte_eqb_neq c "="%byte) C2). cbn [orb]. rewrite split_eq_bare by auto.
    rewrite (proj2 (find_long_spec flags T _ f) (conj I X)), (proj2 (is_bool_spec f) K), set_then_ok, IH, X by now apply true_suits. now destruct (parse_args E flags l2).
  - destruct (name_spec flags T f I) as (Ne & c & n & Hn & C1 & C2). cbn [app parse_args]. change (Byte.eqb dash "-"%byte) with true. cbn [negb].
    destruct (g_name f) as [|x y] eqn:X; [discriminate|]. assert (x = c) as -> by now injection Hn as <- _.
    rewrite (proj2 (byte_eqb_neq c "-"%byte) C1), (proj2 (byte_eqb_neq c "="%byte) C2). cbn [orb]. rewrite split_eq_bare by auto.
    rewrite (proj2 (find_long_spec flags T _ f) (conj I X)), (proj2 (is_bool_not f) K), set_then_ok, IH, X by auto. now destruct (parse_args E flags l2).
  - destruct t as [|c t]; [inversion L|]. pose proof (letters_head flags T c t s1 L) as C. cbn [app parse_args]. change (Byte.eqb dash "-"%byte) with true. cbn [negb].
    rewrite (proj2 (byte_eqb_neq c "-"%byte) C), (letters_read flags T E _ _ L), IH. destruct (parse_args E flags l2); [|reflexivity]. cbn [add_sets]. now rewrite app_assoc.
  - destruct t as [|c t]; [inversion L|]. pose proof (open_letters_head flags T c t s1 f L) as C. cbn [app parse_args]. change (Byte.eqb dash "-"%byte) with true. cbn [negb].
    rewrite (proj2 (byte_eqb_neq c "-"%byte) C). destruct (open_letters_read flags T E _ _ _ L) as [x ->]. rewrite set_then_ok, IH by auto.
    destruct (parse_args E flags l2); [|reflexivity]. cbn [add_sets app]. now rewrite <- app_assoc.
Qed.
(** whatever follows two dashes is a file *)
Theorem after_two_dashes E flags l s p files : flag_table flags -> says flags l s p -> ~ In [dash; dash] l ->
  parse_args E flags (l ++ [dash; dash] :: files) = Parsed s (p ++ files).
Proof. intros T S0 N. rewrite (command_line_composes E flags l _ s p) by auto. cbn. now rewrite app_nil_r. Qed.
Example after_two_dashes_witness : parse_args ref_ext edit_flags [bs "-i"; bs "--"; bs "--backup"; bs "-f"; bs "--"] =
  Parsed [(bs "in-place", bs "true")] [bs "--backup"; bs "-f"; bs "--"].
Proof. vm_compute. reflexivity. Qed.
(** without the two dashes, arguments before and after can be read separately; two dashes that
    are the value of a flag are in the way of neither *)
Example composes_witness : parse_args ref_ext edit_flags ([bs "-i"; bs "a"] ++ [bs "-s"; bs "--"; bs "b"]) =
  Parsed [(bs "in-place", bs "true"); (bs "script", bs "--")] [bs "a"; bs "b"].
Proof. vm_compute. reflexivity. Qed.

(** *** Ways to spell a flag *)
Theorem value_spellings E flags f v rest s p : flag_table flags -> In f flags -> g_kind f <> KBool -> suits f v ->
  parse_args E flags rest = Parsed s p ->
  let it := Parsed ((g_name f, v) :: s) p in
  parse_args E flags ((dash :: dash :: g_name f) :: v :: rest) = it /\
  parse_args E flags ((dash :: dash :: g_name f ++ equals :: v) :: rest) = it /\
  forall c, g_short f = Some c ->
    parse_args E flags ([dash; c] :: v :: rest) = it /\
    (v <> [] -> parse_args E flags ((dash :: c :: equals :: v) :: rest) = it) /\
    (v <> [] -> (forall u, v = equals :: u -> u = []) -> parse_args E flags ((dash :: c :: v) :: rest) = it).
Proof.
  intros T I K V R it. subst it. apply command_line_grammar in R; [|auto].
  split; [apply command_line_grammar; auto; now apply sy_next|]. split; [apply command_line_grammar; auto; now apply sy_equals|].
  intros c S0. split; [apply command_line_grammar; auto; apply (sy_open flags [c] [] f); auto; now apply ol_here|].
  split; [intros Nv|intros Nv Ne]; apply command_line_grammar; auto; apply (sy_letters flags (c :: _) [(g_name f, v)]); auto.
  - now apply lt_equals.
  - now apply lt_rest.
Qed.
Example value_spellings_witness : let it := Parsed [(bs "script", bs "upcase x")] [bs "f"] in
  parse_args ref_ext edit_flags [bs "--script"; bs "upcase x"; bs "f"] = it /\ parse_args ref_ext edit_flags [bs "--script=upcase x"; bs "f"] = it /\
  parse_args ref_ext edit_flags [bs "-s"; bs "upcase x"; bs "f"] = it /\ parse_args ref_ext edit_flags [bs "-s=upcase x"; bs "f"] = it /\
  parse_args ref_ext edit_flags [bs "-supcase x"; bs "f"] = it.
Proof. vm_compute. repeat split; reflexivity. Qed.
(** the two conditions are needed: -s= and -s==x are read differently *)
Example value_spellings_needed : parse_args ref_ext edit_flags [bs "-s="; bs "f"] = Parsed [(bs "script", bs "=")] [bs "f"] /\
  parse_args ref_ext edit_flags [bs "-s==x"] = Parsed [(bs "script", bs "=x")] [].
Proof. vm_compute. split; reflexivity. Qed.

(** a flag that is on or off never takes the argument after it *)
Theorem bool_spellings E flags f rest s p : flag_table flags -> In f flags -> g_kind f = KBool -> parse_args E flags rest = Parsed s p ->
  let it := Parsed ((g_name f, bs "true") :: s) p in
  parse_args E flags ((dash :: dash :: g_name f) :: rest) = it /\
  parse_args E flags ((dash :: dash :: g_name f ++ bs "=true") :: rest) = it /\
  (forall c, g_short f = Some c -> parse_args E flags ([dash; c] :: rest) = it /\
     forall t s', t <> [] -> letters flags t s' -> (forall u, t <> equals :: u) ->
       parse_args E flags ((dash :: c :: t) :: rest) = parse_args E flags ([dash; c] :: (dash :: t) :: rest)).
Proof.
  intros T I K R it. subst it. apply command_line_grammar in R; [|auto].
  split; [apply command_line_grammar; auto; now apply sy_bool|]. split; [apply command_line_grammar; auto; apply (sy_equals flags f (bs "true")); auto; now apply true_suits|].
  intros c S0. split; [apply command_line_grammar; auto; apply (sy_letters flags [c] [(g_name f, bs "true")]); auto; now apply lt_bool|].
  intros t s' Nt L Ne. transitivity (Parsed ((g_name f, bs "true") :: s' ++ s) p); [|symmetry]; apply command_line_grammar; auto.
  - destruct t as [|d t]; [congruence|]. apply (sy_letters flags (c :: d :: t) ((g_name f, bs "true") :: s')); auto. apply lt_bools; auto. intros ->. now apply (Ne t).
  - apply (sy_letters flags [c] [(g_name f, bs "true")]); [now apply lt_bool|]. now apply sy_letters.
Qed.
Example bool_spellings_witness : let it := Parsed [(bs "quiet", bs "true"); (bs "in-place", bs "true"); (bs "file", bs "x")] [bs "a"] in
  parse_args ref_ext edit_flags [bs "-qifx"; bs "a"] = it /\ parse_args ref_ext edit_flags [bs "-q"; bs "-i"; bs "-f"; bs "x"; bs "a"] = it /\
  parse_args ref_ext edit_flags [bs "--quiet"; bs "--in-place=true"; bs "-fx"; bs "a"] = it.
Proof. vm_compute. repeat split; reflexivity. Qed.

(** so turning a flag off with a separate word does not turn it off, and the word is a file *)
Theorem separate_off_refuted E : exists s, parse_args E edit_flags [bs "--in-place"; bs "false"; bs "f"] = Parsed s [bs "false"; bs "f"] /\
  get_flag s (bs "in-place") = true /\
  exists s', parse_args E edit_flags [bs "--in-place=false"; bs "f"] = Parsed s' [bs "f"] /\ get_flag s' (bs "in-place") = false.
Proof.
  eexists. split; [reflexivity|]. split; [reflexivity|]. eexists. split; reflexivity.
Qed.

(** *** What the settings mean *)
Lemma texts_all s name vs : set_texts s name = vs <-> all_set name s vs.
Proof.
  split.
  - intros <-. unfold set_texts. induction s as [|[n v] s IH]; [constructor|]. cbn [filter fst]. destruct (str_eqb n name) eqn:N.
    + apply str_eqb_eq in N as ->. cbn [map snd]. now constructor.
    + apply str_eqb_neq in N. now constructor.
  - unfold set_texts. induction 1 as [|v s vs _ IH|n v s vs N _ IH]; [reflexivity| |].
    + cbn [filter fst]. rewrite (proj2 (str_eqb_eq name name) eq_refl). cbn [map snd]. now rewrite IH.
    + cbn [filter fst]. rewrite (proj2 (str_eqb_neq n name) N). exact IH.
Qed.
Lemma texts_app s t name : set_texts (s ++ t) name = set_texts s name ++ set_texts t name.
Proof. unfold set_texts. now rewrite filter_app, map_app. Qed.
Lemma texts_none s name : set_texts s name = [] <-> forall u, ~ In (name, u) s.
Proof.
  unfold set_texts. induction s as [|[n v] s IH]; [split; auto|]. cbn [filter fst]. destruct (str_eqb n name) eqn:N.
  - apply str_eqb_eq in N as ->. split; [discriminate|]. intros H. destruct (H v). now left.
  - apply str_eqb_neq in N. rewrite IH. split; intros H u; [intros [X|X]; [congruence|now apply (H u)]|intros X; apply (H u); now right].
Qed.
Lemma get_str_set s name d v : get_str s name d = v <-> set_to s name d v.
Proof.
  unfold get_str, set_to. split.
  - intros <-. revert d. induction s as [|[n v] s IH] using rev_ind; intros d; [right; split; [intros u []|reflexivity]|]. rewrite texts_app.
    match goal with |- context [set_texts s name ++ ?y] => replace y with (if str_eqb n name then [v] else []) by (unfold set_texts; cbn [filter fst]; now destruct (str_eqb n name)) end.
    destruct (str_eqb n name) eqn:N.
    + apply str_eqb_eq in N as ->. left. rewrite last_last. exists s, []. split; [reflexivity|intros u []].
    + apply str_eqb_neq in N. rewrite app_nil_r. destruct (IH d) as [(s1 & s2 & Hs & A)|(A & B)].
      * left. exists s1, (s2 ++ [(n, v)]). split; [rewrite Hs at 1; now rewrite <- app_assoc|]. intros u I. apply in_app_or in I as [I|[I|[]]]; [now apply (A u)|congruence].
      * right. split; [|exact B]. intros u I. apply in_app_or in I as [I|[I|[]]]; [now apply (A u)|congruence].
  - intros [(s1 & s2 & -> & A)|(A & ->)].
    + rewrite texts_app. change ((name, v) :: s2) with ([(name, v)] ++ s2). rewrite texts_app, (proj2 (texts_none s2 name) A), app_nil_r.
      unfold set_texts at 2. cbn [filter fst]. rewrite (proj2 (str_eqb_eq name name) eq_refl). apply last_last.
    + now rewrite (proj2 (texts_none s name) A).
Qed.
(** the last setting counts, except for expressions and patterns, where all count *)
Theorem last_setting_counts s name :
  (forall d v, get_str s name d = v <-> set_to s name d v) /\
  (get_flag s name = true <-> exists v, set_to s name (bs "false") v /\ In v yes) /\
  (forall vs l, all_set name s vs -> string_slice vs = CsvRecord l -> get_list s name = l).
Proof.
  split; [intros; apply get_str_set|]. split.
  - unfold get_flag. destruct (parse_bool _) as [[|]|] eqn:B.
    + split; [intros _|reflexivity]. apply parse_bool_yes in B. eexists. split; [apply get_str_set; reflexivity|exact B].
    + split; [discriminate|]. intros (v & A & Y). apply get_str_set in A. apply parse_bool_yes in Y. congruence.
    + split; [discriminate|]. intros (v & A & Y). apply get_str_set in A. apply parse_bool_yes in Y. congruence.
  - intros vs l A R. unfold get_list. apply texts_all in A. now rewrite A, R.
Qed.
Example last_setting_witness : let s := [(bs "script", bs "a"); (bs "in-place", bs "true"); (bs "script", bs "b"); (bs "in-place", bs "F"); (bs "expression", bs "x,y"); (bs "expression", bs "z")] in
  get_str s (bs "script") [] = bs "b" /\ get_flag s (bs "in-place") = false /\ get_list s (bs "expression") = [bs "x"; bs "y"; bs "z"].
Proof. vm_compute. repeat split; reflexivity. Qed.

(** *** Every run can be asked for *)
(** an expression as it can be typed: in quotation marks, those in it doubled, and a carriage
    return before each line feed *)
Definition typed (e : str) : str :=
  x22 :: flat_map (fun c => if Byte.eqb c x22 then [x22; x22] else if Byte.eqb c x0a then [x0d; x0a] else [c]) e ++ [x22].
Lemma typed_read e : read_as_csv (typed e) = CsvRecord [e].
Proof.
  unfold read_as_csv, typed, csv_read. set (enc := fun c => _). cbn [csv_lines]. change (Byte.eqb x22 cr) with false. cbv iota.
  assert (L : forall s, csv_lines (flat_map enc s ++ [x22]) = flat_map (fun c => if Byte.eqb c x22 then [x22; x22] else [c]) s ++ [x22]).
  { assert (Hd : forall s, exists d t, flat_map enc s ++ [x22] = d :: t /\ d <> nl).
    { intros [|c s]; [exists x22, []; split; [reflexivity|discriminate]|]. cbn [flat_map]. unfold enc at 1. destruct (Byte.eqb c x22); [eexists _, _; split; [reflexivity|discriminate]|].
      destruct (Byte.eqb c x0a) eqn:C; [eexists _, _; split; [reflexivity|discriminate]|]. eexists _, _. split; [reflexivity|]. now apply byte_eqb_neq. }
    induction s as [|c s IH]; [reflexivity|]. cbn [flat_map]. unfold enc at 1. destruct (Byte.eqb c x22) eqn:Q; [|destruct (Byte.eqb c x0a) eqn:C].
    - cbn [app csv_lines]. change (Byte.eqb x22 cr) with false. cbv iota. now rewrite IH.
    - apply byte_eqb_eq in C as ->. cbn [app csv_lines]. change (Byte.eqb x0d cr) with true. change (Byte.eqb x0a nl) with true. change (Byte.eqb x0a cr) with false. cbv iota. now rewrite IH.
    - cbn [app csv_lines]. rewrite IH. destruct (Byte.eqb c cr) eqn:R; [|reflexivity]. destruct (Hd s) as (d & t & H & N). rewrite H.
      now rewrite (proj2 (byte_eqb_neq d nl) N). }
  rewrite L. cbn [skip_newlines]. change (Byte.eqb x22 nl) with false. cbv iota. clear L enc.
  assert (D : doubled e (flat_map (fun c => if Byte.eqb c x22 then [x22; x22] else [c]) e)).
  { induction e as [|c e IH]; [constructor|]. cbn [flat_map]. destruct (Byte.eqb c x22) eqn:Q.
    - apply byte_eqb_eq in Q as ->. now constructor.
    - apply byte_eqb_neq in Q. now constructor. }
  destruct (field_run _ _ (cf_quoted _ _ D)) as [_ F]. specialize (F [] ltac:(discriminate)). now rewrite app_nil_r in F.
Qed.
Lemma typed_suits f e : g_kind f = KSlice -> suits f (typed e).
Proof. unfold suits. intros ->. cbn [string_slice]. rewrite typed_read. eauto. Qed.
Lemma typed_list es : string_slice (map typed es) = CsvRecord es.
Proof. induction es as [|e es IH]; [reflexivity|]. cbn [map string_slice]. now rewrite typed_read, IH. Qed.

Definition on_off (b : bool) : str := if b then bs "true" else bs "false".
(** settings written out, each as --name=value *)
Definition spell (s : list setting) : list str := map (fun x => dash :: dash :: fst x ++ equals :: snd x) s.
Definition fits (flags : list flag) (x : setting) : Prop := exists f, In f flags /\ g_name f = fst x /\ suits f (snd x).
Lemma spell_says flags s files : Forall (fits flags) s -> says flags (spell s ++ [dash; dash] :: files) s files.
Proof.
  induction 1 as [|[n v] s (f & I & X & V) _ IH]; [apply sy_end|]. cbn [fst snd] in X, V. subst n. cbn [spell map app fst snd]. now apply sy_equals.
Qed.
Lemma texts_map name n es : set_texts (map (fun e => (n, typed e)) es) name = if str_eqb n name then map typed es else [].
Proof.
  unfold set_texts. induction es as [|e es IH]; [now destruct (str_eqb n name)|]. cbn [map filter fst]. destruct (str_eqb n name); [|exact IH]. cbn [map snd]. now rewrite IH.
Qed.
Ltac fit := match goal with |- fits ?l (?n, _) => let rec pick l := match l with
  | ?f :: ?r => first [exists f; split; [cbn; tauto|]; split; [reflexivity|] | pick r] end in let l' := eval unfold edit_flags, test_flags, doc_flags, parse_flags, mcp_flags in l in pick l' end.

Definition edit_settings (a : edit_args) : list setting :=
  [(bs "format", a_format a); (bs "script", a_script a); (bs "file", a_script_file a); (bs "in-place", on_off (a_in_place a));
   (bs "output", a_output a); (bs "backup", a_backup a); (bs "verbose", on_off (a_verbose a)); (bs "quiet", on_off (a_quiet a));
   (bs "dry-run", on_off (a_dry_run a)); (bs "shell", on_off (a_shell a)); (bs "sexp", on_off (a_sexp a)); (bs "json", on_off (a_json a));
   (bs "output-format", a_output_format a)] ++ map (fun e => (bs "expression", typed e)) (a_expressions a).
Lemma on_off_suits f b : g_kind f = KBool -> suits f (on_off b).
Proof. intros K. unfold suits. rewrite K. apply in_texts. now destruct b. Qed.
Lemma edit_settings_fit a : Forall (fits edit_flags) (edit_settings a).
Proof.
  unfold edit_settings. apply Forall_app. split.
  - repeat (apply Forall_cons; [fit; first [exact I|now apply on_off_suits]|]). apply Forall_nil.
  - apply Forall_forall. intros x Hx. apply in_map_iff in Hx as (e & <- & _). fit. now apply typed_suits.
Qed.
Lemma get_flag_on_off s name b : get_str s name (bs "false") = on_off b -> get_flag s name = b.
Proof. unfold get_flag. intros ->. now destruct b. Qed.
Lemma edit_settings_mean a : edit_args_of (edit_settings a) (a_files a) = a /\ get_flag (edit_settings a) (bs "help") = false.
Proof.
  assert (Str : forall n d, str_eqb (bs "expression") n = false -> get_str (edit_settings a) n d = get_str (firstn 13 (edit_settings a)) n d).
  { intros n d N. unfold get_str, edit_settings. rewrite texts_app, texts_map, N, app_nil_r. reflexivity. }
  split.
  - unfold edit_args_of. rewrite !Str by reflexivity.
    rewrite !(get_flag_on_off _ (bs "in-place") (a_in_place a)) by (rewrite Str; reflexivity).
    rewrite !(get_flag_on_off _ (bs "verbose") (a_verbose a)) by (rewrite Str; reflexivity).
    rewrite !(get_flag_on_off _ (bs "quiet") (a_quiet a)) by (rewrite Str; reflexivity).
    rewrite !(get_flag_on_off _ (bs "dry-run") (a_dry_run a)) by (rewrite Str; reflexivity).
    rewrite !(get_flag_on_off _ (bs "shell") (a_shell a)) by (rewrite Str; reflexivity).
    rewrite !(get_flag_on_off _ (bs "sexp") (a_sexp a)) by (rewrite Str; reflexivity).
    rewrite !(get_flag_on_off _ (bs "json") (a_json a)) by (rewrite Str; reflexivity).
    assert (L : get_list (edit_settings a) (bs "expression") = a_expressions a).
    { unfold get_list, edit_settings. rewrite texts_app, texts_map. change (str_eqb (bs "expression") (bs "expression")) with true. cbv iota.
      change (set_texts _ (bs "expression") ++ map typed (a_expressions a)) with (map typed (a_expressions a)). now rewrite typed_list. }
    rewrite L. destruct a. reflexivity.
  - apply (get_flag_on_off _ _ false). now rewrite Str.
Qed.
(** whatever texted edit can do, with any script, any expressions and any file names, there is
    a command line for it *)
Theorem every_edit_can_be_asked_for a : exists args, forall E os o, texted E os o (bs "edit" :: args) = Some (exit_of (run_edit E os a)).
Proof.
  exists (spell (edit_settings a) ++ [dash; dash] :: a_files a). intros E os o. unfold texted, run_command.
  change (str_eqb (bs "edit") [] || has_prefix (bs "edit") (bs "-") || existsb (str_eqb (bs "edit")) cobra_commands) with false.
  change (str_eqb (bs "edit") (bs "edit")) with true. cbv iota. unfold with_flags.
  rewrite (proj2 (command_line_grammar E edit_flags _ _ _ (proj1 flag_tables)) (spell_says _ _ (a_files a) (edit_settings_fit a))).
  destruct (edit_settings_mean a) as [-> ->]. reflexivity.
Qed.
Example every_edit_witness : exists args, texted ref_ext demo_os (mkOutside (fun _ => inr []) [] (fun s => s) (mkOrders (fun _ => []) (fun _ => []) (fun _ => [])) (fun _ => io_ret tt) (fun _ => []))
  (bs "edit" :: args) = Some (exit_of (run_edit ref_ext demo_os (mkEditArgs (bs "shell") [] [] [bs "a,b"; [x22; x0d; x0a; x0d]] false [] [] true false true false false false (bs "json") [bs "--"; []]))).
Proof. destruct (every_edit_can_be_asked_for (mkEditArgs (bs "shell") [] [] [bs "a,b"; [x22; x0d; x0a; x0d]] false [] [] true false true false false false (bs "json") [bs "--"; []])) as [args H]. eauto. Qed.

Lemma texted_runs E os o name args m : In name [bs "edit"; bs "parse"; bs "test"; bs "doc"; bs "mcp"] ->
  run_command E os o name args = Some m -> texted E os o (name :: args) = Some m.
Proof. intros I H. unfold texted. rewrite H. repeat (destruct I as [<-|I]; [reflexivity|]). destruct I. Qed.
(** the same for texted test *)
Theorem every_test_can_be_asked_for a : exists args, forall E os o, texted E os o (bs "test" :: args) =
  Some (io_bind (run_tests (o_decode o) E os (o_glob o) a) (fun z => io_ret (mkExit z None))).
Proof.
  set (l := [(bs "verbose", on_off (ta_verbose a)); (bs "quiet", on_off (ta_quiet a)); (bs "fail-only", on_off (ta_fail_only a)); (bs "trace", on_off (ta_trace a))]).
  set (s := l ++ map (fun e => (bs "include", typed e)) (ta_include a)).
  exists (spell s ++ [dash; dash] :: ta_files a). intros E os o. apply texted_runs; [cbn; tauto|]. unfold run_command.
  change (str_eqb (bs "test") (bs "edit")) with false. change (str_eqb (bs "test") (bs "parse")) with false. change (str_eqb (bs "test") (bs "test")) with true. cbv iota. unfold with_flags.
  assert (F : Forall (fits test_flags) s).
  { apply Forall_app. split; [repeat (apply Forall_cons; [fit; now apply on_off_suits|]); apply Forall_nil|].
    apply Forall_forall. intros x Hx. apply in_map_iff in Hx as (e & <- & _). fit. now apply typed_suits. }
  rewrite (proj2 (command_line_grammar E test_flags _ _ _ (proj1 (proj2 (proj2 flag_tables)))) (spell_says _ _ (ta_files a) F)).
  assert (Str : forall n d, str_eqb (bs "include") n = false -> get_str s n d = get_str l n d).
  { intros n d N. unfold get_str, s. now rewrite texts_app, texts_map, N, app_nil_r. }
  rewrite (get_flag_on_off s (bs "help") false) by (rewrite Str; reflexivity). unfold test_args_of.
  rewrite (get_flag_on_off s (bs "verbose") (ta_verbose a)) by (rewrite Str; reflexivity).
  rewrite (get_flag_on_off s (bs "quiet") (ta_quiet a)) by (rewrite Str; reflexivity).
  rewrite (get_flag_on_off s (bs "fail-only") (ta_fail_only a)) by (rewrite Str; reflexivity).
  rewrite (get_flag_on_off s (bs "trace") (ta_trace a)) by (rewrite Str; reflexivity).
  assert (L : get_list s (bs "include") = ta_include a).
  { unfold get_list, s. rewrite texts_app, texts_map. change (str_eqb (bs "include") (bs "include")) with true. cbv iota.
    change (set_texts l (bs "include") ++ map typed (ta_include a)) with (map typed (ta_include a)). now rewrite typed_list. }
  rewrite L. now destruct a.
Qed.
(** and for the other commands *)
Theorem other_commands_can_be_asked_for :
  (forall i t, exists args, forall E os o, texted E os o (bs "parse" :: args) = Some (exit_of (run_parse E os i t))) /\
  (forall names cat v, exists args, forall E os o, texted E os o (bs "doc" :: args) =
     Some (exit_of (io_bind (io_res (run_doc (o_title o) (o_maps o) registered names cat v)) print))) /\
  (forall prefix, exists args, forall E os o, texted E os o (bs "mcp" :: args) = Some (exit_of (o_serve o prefix))).
Proof.
  destruct flag_tables as (_ & Tp & _ & Td & Tm). split; [|split].
  - intros i t. exists (spell [(bs "input-format", i); (bs "output-format", t)] ++ [dash; dash] :: []). intros E os o. apply texted_runs; [cbn; tauto|]. unfold run_command.
    change (str_eqb (bs "parse") (bs "edit")) with false. change (str_eqb (bs "parse") (bs "parse")) with true. cbv iota. unfold with_flags.
    rewrite (proj2 (command_line_grammar E parse_flags _ [(bs "input-format", i); (bs "output-format", t)] [] Tp)); [reflexivity|]. apply spell_says.
    repeat (apply Forall_cons; [fit; exact I|]). apply Forall_nil.
  - intros names cat v. exists (spell [(bs "category", cat); (bs "verbose", on_off v)] ++ [dash; dash] :: names). intros E os o. apply texted_runs; [cbn; tauto|]. unfold run_command.
    change (str_eqb (bs "doc") (bs "edit")) with false. change (str_eqb (bs "doc") (bs "parse")) with false. change (str_eqb (bs "doc") (bs "test")) with false. change (str_eqb (bs "doc") (bs "doc")) with true. cbv iota. unfold with_flags.
    rewrite (proj2 (command_line_grammar E doc_flags _ [(bs "category", cat); (bs "verbose", on_off v)] names Td)).
    + rewrite (get_flag_on_off _ (bs "verbose") v) by reflexivity. reflexivity.
    + apply spell_says. apply Forall_cons; [fit; exact I|]. apply Forall_cons; [fit; now apply on_off_suits|]. apply Forall_nil.
  - intros prefix. exists (spell [(bs "prefix", prefix)] ++ [dash; dash] :: []). intros E os o. apply texted_runs; [cbn; tauto|]. unfold run_command.
    change (str_eqb (bs "mcp") (bs "edit")) with false. change (str_eqb (bs "mcp") (bs "parse")) with false. change (str_eqb (bs "mcp") (bs "test")) with false. change (str_eqb (bs "mcp") (bs "doc")) with false. change (str_eqb (bs "mcp") (bs "mcp")) with true. cbv iota. unfold with_flags.
    rewrite (proj2 (command_line_grammar E mcp_flags _ [(bs "prefix", prefix)] [] Tm)); [reflexivity|]. apply spell_says. apply Forall_cons; [fit; exact I|]. apply Forall_nil.
Qed.
(** without arguments: the documented defaults *)
Theorem default_options E os o :
  texted E os o [bs "edit"] = Some (exit_of (run_edit E os (mkEditArgs (bs "shell") [] [] [] false [] [] false false false false false false (bs "shell") []))) /\
  texted E os o [bs "parse"] = Some (exit_of (run_parse E os (bs "shell") (bs "sexp"))) /\
  texted E os o [bs "mcp"] = Some (exit_of (o_serve o [])) /\
  texted E os o [bs "doc"] = Some (exit_of (io_bind (io_res (run_doc (o_title o) (o_maps o) registered [] [] false)) print)) /\
  texted E os o [bs "test"] = Some (io_bind (run_tests (o_decode o) E os (o_glob o) (mkTestArgs [] [] false false false false)) (fun z => io_ret (mkExit z None))).
Proof. repeat split; reflexivity. Qed.

(** *** Exit status *)
(** texted edit ends with status 0 exactly if the edit succeeds, otherwise with status 1 and an
    error on standard error *)
Theorem edit_exit_status E os o args s p : says edit_flags args s p -> get_flag s (bs "help") = false ->
  exists m, texted E os o (bs "edit" :: args) = Some m /\ forall w, m w =
    match run_edit E os (edit_args_of s p) w with
    | (Ok _, w') => (Ok (mkExit 0 None), w')
    | (Err e, w') => (Ok (mkExit 1 (Some e)), w')
    | (Crash c, w') => (Crash c, w')
    end.
Proof.
  intros S0 H. exists (exit_of (run_edit E os (edit_args_of s p))). split.
  - apply texted_runs; [cbn; tauto|]. unfold run_command. change (str_eqb (bs "edit") (bs "edit")) with true. cbv iota. unfold with_flags.
    rewrite (proj2 (command_line_grammar E edit_flags args s p (proj1 flag_tables)) S0), H. reflexivity.
  - intros w. unfold exit_of, io_try. destruct (run_edit E os (edit_args_of s p) w) as [[x|e|c] w']; reflexivity.
Qed.
(** a command line without meaning, or an unknown command: status 1, nothing touched *)
Theorem refused_without_effect E os o name args flags :
  In (name, flags) [(bs "edit", edit_flags); (bs "parse", parse_flags); (bs "test", test_flags); (bs "doc", doc_flags); (bs "mcp", mcp_flags)] ->
  (forall s p, ~ says flags args s p) ->
  exists m e, texted E os o (name :: args) = Some m /\ forall w, m w = (Ok (mkExit 1 (Some e)), w).
Proof.
  intros I N. assert (T : flag_table flags).
  { destruct flag_tables as (T1 & T2 & T3 & T4 & T5). repeat (destruct I as [I|I]; [injection I as <- <-; assumption|]). destruct I. }
  destruct (proj2 (command_line_refused E flags args T) N) as [e R]. exists (io_ret (mkExit 1 (Some e))), e. split; [|reflexivity].
  repeat (destruct I as [I|I]; [injection I as <- <-; (apply texted_runs; [cbn; tauto|]); unfold run_command, with_flags; rewrite R; reflexivity|]). destruct I.
Qed.
Example refused_witness E os o : exists m e, texted E os o [bs "edit"; bs "-ix"; bs "f"] = Some m /\ forall w, m w = (Ok (mkExit 1 (Some e)), w).
Proof. apply (refused_without_effect E os o _ _ edit_flags); [now left|apply command_line_refused_witness]. Qed.
Theorem unknown_command_refused E os o name args : name <> [] -> (forall t, name <> dash :: t) ->
  ~ In name [bs "help"; bs "completion"; bs "__complete"; bs "__completeNoDesc"] ->
  ~ In name [bs "edit"; bs "parse"; bs "test"; bs "doc"; bs "mcp"] ->
  exists m, texted E os o (name :: args) = Some m /\
    forall w, m w = (Ok (mkExit 1 (Some (bs "unknown command " ++ quote E name ++ bs " for ""texted"""))), w).
Proof.
  intros N0 N1 N2 N3. eexists. unfold texted. rewrite (proj2 (str_eqb_neq name []) N0).
  replace (has_prefix name (bs "-")) with false by (symmetry; destruct (has_prefix name (bs "-")) eqn:P; [apply has_prefix_iff in P as [v ->]; now destruct (N1 v)|reflexivity]).
  replace (existsb (str_eqb name) cobra_commands) with false by (symmetry; destruct (existsb _ _) eqn:P; [apply in_texts in P; now destruct N2|reflexivity]).
  cbn [orb]. unfold run_command. rewrite !(proj2 (str_eqb_neq name _)) by (intros ->; apply N3; cbn; tauto). split; reflexivity.
Qed.
Example unknown_command_witness E os o : exists m, texted E os o [bs "edits"; bs "-i"] = Some m /\
    forall w, m w = (Ok (mkExit 1 (Some (bs "unknown command " ++ quote E (bs "edits") ++ bs " for ""texted"""))), w).
Proof. apply unknown_command_refused; [discriminate..| |]; intros H; no_in H. Qed.
(** asking for help, anywhere before two dashes, only prints *)
Theorem help_only_prints E os o name args flags s p :
  In (name, flags) [(bs "edit", edit_flags); (bs "parse", parse_flags); (bs "test", test_flags); (bs "doc", doc_flags); (bs "mcp", mcp_flags)] ->
  says flags args s p -> (exists v, set_to s (bs "help") (bs "false") v /\ In v yes) ->
  exists m, texted E os o (name :: args) = Some m /\ forall w, exists w', m w = (Ok (mkExit 0 None), w') /\ no_write w w' /\
    w_stdout w' = w_stdout w ++ o_help o name.
Proof.
  intros I S0 H. apply last_setting_counts in H. assert (T : flag_table flags).
  { destruct flag_tables as (T1 & T2 & T3 & T4 & T5). repeat (destruct I as [I|I]; [injection I as <- <-; assumption|]). destruct I. }
  apply (command_line_grammar E) in S0; [|exact T]. exists (io_seq (print (o_help o name)) (io_ret (mkExit 0 None))). split.
  - repeat (destruct I as [I|I]; [injection I as <- <-; (apply texted_runs; [cbn; tauto|]); unfold run_command, with_flags; rewrite S0, H; reflexivity|]). destruct I.
  - intros w. eexists. split; [reflexivity|]. split; [split; reflexivity|reflexivity].
Qed.
Example help_witness E os o w : exists m w', texted E os o [bs "edit"; bs "-is"; bs "delete-line"; bs "f"; bs "-h"] = Some m /\ m w = (Ok (mkExit 0 None), w') /\ no_write w w'.
Proof.
  destruct (help_only_prints E os o (bs "edit") [bs "-is"; bs "delete-line"; bs "f"; bs "-h"] edit_flags
    [(bs "in-place", bs "true"); (bs "script", bs "delete-line"); (bs "help", bs "true")] [bs "f"]) as (m & H & K).
  - now left.
  - apply (command_line_grammar E); [apply flag_tables|reflexivity].
  - exists (bs "true"). split; [left; exists [(bs "in-place", bs "true"); (bs "script", bs "delete-line")], []; split; [reflexivity|intros u []]|cbn; tauto].
  - destruct (K w) as (w' & A & B & _). eauto.
Qed.

(** *** From the command line to the disk *)
Theorem in_place_from_command_line E os o script files m w w' : script <> [] -> files <> [] -> NoDup (map (canon os) files) ->
  texted E os o (bs "edit" :: bs "-i" :: bs "-s" :: script :: bs "--" :: files) = Some m -> m w = (Ok (mkExit 0 None), w') ->
  forall f, In f files -> exists c out, w_fs w (canon os f) = Some c /\
    execute_script_fmt E c script (bs "shell") = Ok out /\ w_fs w' (canon os f) = Some out.
Proof.
  intros Ns Nf ND H M f If. set (s := [(bs "in-place", bs "true"); (bs "script", script)]).
  assert (S0 : says edit_flags (bs "-i" :: bs "-s" :: script :: bs "--" :: files) s files) by (apply (command_line_grammar E); [apply flag_tables|reflexivity]).
  destruct (edit_exit_status E os o _ s files S0 eq_refl) as (m' & H' & K). rewrite H in H'. injection H' as <-. rewrite K in M.
  destruct (run_edit E os (edit_args_of s files) w) as [[[]|e|c] w1] eqn:R; try discriminate. injection M as ->.
  destruct (backup_after_success E os (edit_args_of s files) w w' eq_refl eq_refl eq_refl) as (format & sc & Ff & Fs & All); auto.
  { change (a_backup (edit_args_of s files)) with (@nil byte). cbn [nonempty]. now rewrite app_nil_r. }
  destruct (All f If) as (c & out & A & B & C & _). exists c, out. split; [exact A|]. split; [|exact C].
  destruct Ff as [[X _]|[(_ & X & _)|[(_ & _ & X & _)|(_ & _ & _ & ->)]]]; try discriminate X.
  destruct Fs as [[X _]|(_ & <- & _)]; [now destruct X|exact B].
Qed.
Definition demo_outer : outer := mkOutside (fun _ => inr []) [] (fun s => s) (mkOrders (fun _ => []) (fun _ => []) (fun _ => [])) (fun _ => io_ret tt) (fun _ => []).
Example in_place_witness : exists m, texted ref_ext demo_os demo_outer [bs "edit"; bs "-i"; bs "-s"; bs "insert ""!"""; bs "--"; bs "f"] = Some m /\
  let '(r, w') := m (demo [(bs "f", bs "x")]) in r = Ok (mkExit 0 None) /\ w_fs w' (bs "f") = Some (bs "!x").
Proof. eexists. split; [reflexivity|]. vm_compute. split; reflexivity. Qed.

(** without --in-place no file changes, other than one named by --output *)
Theorem without_in_place E os o args s p m w r w' : says edit_flags args s p -> get_flag s (bs "help") = false -> get_flag s (bs "in-place") = false ->
  texted E os o (bs "edit" :: args) = Some m -> m w = (r, w') ->
  writes_only (fun k => exists f, set_to s (bs "output") [] f /\ f <> [] /\ k = canon os f) w w'.
Proof.
  intros S0 H IP M R. destruct (edit_exit_status E os o args s p S0 H) as (m' & H' & K). rewrite M in H'. injection H' as <-. rewrite K in R.
  assert (W : snd (run_edit E os (edit_args_of s p) w) = w') by (destruct (run_edit E os (edit_args_of s p) w) as [[x|e|c] w1]; now injection R as _ <-).
  rewrite <- W. destruct (not_in_place_writes_output_only E os (edit_args_of s p) w IP) as (l & Hl & A). exists l. split; [exact Hl|].
  intros z k I N. apply A; auto. intros [X Y]. apply N. exists (a_output (edit_args_of s p)). split; [|auto]. now apply get_str_set.
Qed.
(** the help text of texted edit says otherwise: if files are specified, the script is applied
    to each file in place *)
Theorem files_edited_in_place_refuted : exists args m w w' f c out, texted ref_ext demo_os demo_outer (bs "edit" :: args) = Some m /\ In f args /\
  m w = (Ok (mkExit 0 None), w') /\ w_fs w f = Some c /\ execute_script_fmt ref_ext c (bs "insert ""!""") (bs "shell") = Ok out /\ out <> c /\
  In (bs "insert ""!""") args /\ w_fs w' f = Some c.
Proof.
  set (args := [bs "-s"; bs "insert ""!"""; bs "f"]). set (w := demo [(bs "f", bs "x")]).
  set (m := exit_of (run_edit ref_ext demo_os (edit_args_of [(bs "script", bs "insert ""!""")] [bs "f"]))).
  exists args, m, w, (snd (m w)), (bs "f"), (bs "x"), (bs "!x"). split; [reflexivity|]. split; [cbn; tauto|].
  split; [apply pair_snd; vm_compute; reflexivity|]. split; [reflexivity|]. split; [vm_compute; reflexivity|]. split; [discriminate|]. split; [cbn; tauto|].
  vm_compute. reflexivity.
Qed.

(** ** Assumptions of every theorem above *)
Print Assumptions flag_tables.
Print Assumptions command_line_grammar.
Print Assumptions command_line_refused.
Print Assumptions command_line_composes.
Print Assumptions after_two_dashes.
Print Assumptions value_spellings.
Print Assumptions bool_spellings.
Print Assumptions separate_off_refuted.
Print Assumptions last_setting_counts.
Print Assumptions every_edit_can_be_asked_for.
Print Assumptions every_test_can_be_asked_for.
Print Assumptions other_commands_can_be_asked_for.
Print Assumptions default_options.
Print Assumptions edit_exit_status.
Print Assumptions refused_without_effect.
Print Assumptions unknown_command_refused.
Print Assumptions help_only_prints.
Print Assumptions in_place_from_command_line.
Print Assumptions without_in_place.
Print Assumptions files_edited_in_place_refuted.
