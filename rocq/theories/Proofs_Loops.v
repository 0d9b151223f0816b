(** The scanning loops. *)
From Coq Require Import ZArith NArith List Bool Lia Strings.Byte ZifyBool.
From Verif Require Import Base Float Ext Values Buffer Builtins Eval Spec Proofs_Base.
Import ListNotations.
Open Scope Z_scope.

Definition stops (p : byte -> bool) (s : str) : Prop :=
  match s with [] => True | c :: _ => p c = false end.

(** longest prefix satisfying [p] *)
Lemma span_exists (p : byte -> bool) s : exists s1 s2,
  s = s1 ++ s2 /\ forallb p s1 = true /\ stops p s2.
Proof.
  induction s as [|c s (s1 & s2 & -> & H1 & H2)].
  - exists [], []. cbn. auto.
  - destruct (p c) eqn:E.
    + exists (c :: s1), s2. cbn. rewrite E. auto.
    + exists [], (c :: s1 ++ s2). cbn. auto.
Qed.
Lemma span_back_exists (p : byte -> bool) s : exists s1 s2,
  s = s1 ++ s2 /\ forallb p s2 = true /\ stops p (rev s1).
Proof.
  destruct (span_exists p (rev s)) as (u & v & E & H1 & H2).
  exists (rev v), (rev u). rewrite <- (rev_involutive s), E, rev_app_distr, rev_involutive.
  split; [reflexivity|]. split; auto. rewrite forallb_forall in *. intros x Hx. apply H1.
  now apply in_rev.
Qed.

Lemma scan_fwd_run fuel p v1 : forall u v2 b,
  forallb p v1 = true -> stops p v2 -> (length v1 < fuel)%nat ->
  scan_fwd fuel (u ++ v1 ++ v2) p (zlen u) b = Done (zlen u + zlen v1) b.
Proof.
  revert fuel. induction v1 as [|c v1 IH]; intros [|fuel] u v2 b H1 H2 Hf; cbn [length] in Hf; try lia.
  - cbn [scan_fwd app]. destruct v2 as [|c v2].
    + replace (zlen u <? zlen (u ++ [])) with false by zl. unfold ret. f_equal. zl.
    + replace (zlen u <? zlen (u ++ c :: v2)) with true by zl.
      unfold index_m, bind. replace (index (u ++ c :: v2) (zlen u)) with (Some c)
        by (symmetry; apply index_some; eauto).
      cbn. cbn in H2. rewrite H2. unfold ret. f_equal. zl.
  - cbn [scan_fwd]. replace (zlen u <? zlen (u ++ (c :: v1) ++ v2)) with true by zl.
    unfold index_m, bind. replace (index (u ++ (c :: v1) ++ v2) (zlen u)) with (Some c)
      by (symmetry; apply index_some; cbn; eauto).
    cbn in H1. apply andb_true_iff in H1. destruct H1 as [Hc H1]. cbn [ret]. unfold ret. rewrite Hc.
    replace (u ++ (c :: v1) ++ v2) with ((u ++ [c]) ++ v1 ++ v2) by (rewrite <- app_assoc; reflexivity).
    replace (zlen u + 1) with (zlen (u ++ [c])) by zl.
    rewrite IH; auto; [|lia]. f_equal. zl.
Qed.

Lemma scan_fwd_spec p u v b : exists v1 v2,
  v = v1 ++ v2 /\ forallb p v1 = true /\ stops p v2 /\
  scan_fwd (loop_fuel (u ++ v)) (u ++ v) p (zlen u) b = Done (zlen u + zlen v1) b.
Proof.
  destruct (span_exists p v) as (v1 & v2 & -> & H1 & H2). exists v1, v2. repeat split; auto.
  apply scan_fwd_run; auto. unfold loop_fuel. rewrite !app_length. lia.
Qed.
(** all starting positions *)
Lemma scan_fwd_beyond c p pos b : zlen c <= pos -> scan_fwd (loop_fuel c) c p pos b = Done pos b.
Proof. intros. cbn. now replace (pos <? zlen c) with false by lia. Qed.
Lemma scan_fwd_neg c p pos b : pos < 0 -> scan_fwd (loop_fuel c) c p pos b = Panic.
Proof.
  intros. cbn. replace (pos <? zlen c) with true by zl. unfold bind, index_m.
  replace (index c pos) with (@None byte) by (symmetry; apply index_none; lia). reflexivity.
Qed.

Lemma scan_bwd_run fuel p u2 : forall u1 v b,
  forallb p u2 = true -> stops p (rev u1) -> (length u2 < fuel)%nat ->
  scan_bwd fuel (u1 ++ u2 ++ v) p (zlen u1 + zlen u2) b = Done (zlen u1) b.
Proof.
  revert fuel. induction u2 as [|c u2 IH] using rev_ind; intros [|fuel] u1 v b H1 H2 Hf;
    rewrite ?app_length in Hf; cbn [length] in Hf; try lia.
  - cbn [scan_bwd app]. destruct u1 as [|c u1 _] using rev_ind.
    + reflexivity.
    + replace (0 <? zlen (u1 ++ [c]) + zlen []) with true by zl.
      unfold index_m, bind.
      replace (index ((u1 ++ [c]) ++ v) (zlen (u1 ++ [c]) + zlen [] - 1)) with (Some c).
      2:{ symmetry. apply index_some. exists u1, v. split; [now rewrite <- app_assoc|zl]. }
      unfold ret. rewrite rev_app_distr in H2. cbn in H2. rewrite H2. f_equal. zl.
  - cbn [scan_bwd]. replace (0 <? zlen u1 + zlen (u2 ++ [c])) with true by zl.
    unfold index_m, bind.
    replace (index (u1 ++ (u2 ++ [c]) ++ v) (zlen u1 + zlen (u2 ++ [c]) - 1)) with (Some c).
    2:{ symmetry. apply index_some. exists (u1 ++ u2), v. split; [now rewrite <- !app_assoc|zl]. }
    rewrite forallb_app in H1. apply andb_true_iff in H1. destruct H1 as [H1 Hc]. cbn in Hc.
    rewrite andb_true_r in Hc. unfold ret. rewrite Hc.
    replace (zlen u1 + zlen (u2 ++ [c]) - 1) with (zlen u1 + zlen u2) by zl.
    replace (u1 ++ (u2 ++ [c]) ++ v) with (u1 ++ u2 ++ [c] ++ v) by (now rewrite <- !app_assoc).
    apply IH; auto. lia.
Qed.
Lemma scan_bwd_spec p u v b : exists u1 u2,
  u = u1 ++ u2 /\ forallb p u2 = true /\ stops p (rev u1) /\
  scan_bwd (loop_fuel (u ++ v)) (u ++ v) p (zlen u) b = Done (zlen u1) b.
Proof.
  destruct (span_back_exists p u) as (u1 & u2 & -> & H1 & H2). exists u1, u2. repeat split; auto.
  rewrite <- app_assoc. replace (zlen (u1 ++ u2)) with (zlen u1 + zlen u2) by zl.
  apply scan_bwd_run; auto. unfold loop_fuel. rewrite !app_length. lia.
Qed.
Lemma scan_bwd_low c p pos b : pos <= 0 -> scan_bwd (loop_fuel c) c p pos b = Done pos b.
Proof. intros. cbn. now replace (0 <? pos) with false by lia. Qed.
Lemma scan_bwd_beyond c p pos b : zlen c < pos -> scan_bwd (loop_fuel c) c p pos b = Panic.
Proof.
  intros. cbn. pose proof (zlen_nonneg c). replace (0 <? pos) with true by lia. unfold bind, index_m.
  replace (index c (pos - 1)) with (@None byte) by (symmetry; apply index_none; lia). reflexivity.
Qed.

(** ** bytes: letters and newlines *)
Lemma is_letter_word c : is_letter c = true <-> word_byte c.
Proof.
  assert (H : forall c, is_letter c = existsb (Byte.eqb c)
    (bs "abcdefghijklmnopqrstuvwxyzABCDEFGHIJKLMNOPQRSTUVWXYZ0123456789")) by (intros []; reflexivity).
  rewrite H, existsb_exists. unfold word_byte. split.
  - intros (x & Hx & E). apply byte_eqb_eq in E. now subst.
  - intros Hc. exists c. now rewrite byte_eqb_refl.
Qed.
Lemma not_letter_word c : negb (is_letter c) = true <-> ~ word_byte c.
Proof. rewrite negb_true_iff, <- not_true_iff_false, is_letter_word. reflexivity. Qed.
Lemma letters_word s : forallb is_letter s = true <-> all_word s.
Proof. rewrite forallb_forall. unfold all_word. rewrite Forall_forall. split; intros H x Hx; apply is_letter_word; auto. Qed.
Lemma nonletters_word s : forallb (fun c => negb (is_letter c)) s = true <-> no_word s.
Proof. rewrite forallb_forall. unfold no_word. rewrite Forall_forall. split; intros H x Hx; apply not_letter_word; auto. Qed.
Lemma not_nl_newline s : forallb (fun c => negb (is_nl c)) s = true <-> no_newline s.
Proof.
  rewrite forallb_forall. unfold no_newline. split.
  - intros H Hn. apply H in Hn. discriminate.
  - intros H x Hx. apply negb_true_iff, byte_eqb_neq. congruence.
Qed.
Lemma stops_not_nl s : stops (fun c => negb (is_nl c)) s <-> s = [] \/ starts_with_newline s.
Proof.
  unfold starts_with_newline. destruct s as [|c s]; cbn; [intuition|].
  rewrite negb_false_iff, is_nl_true. split; [intros ->; eauto|]. intros [H|[t H]]; [discriminate|congruence].
Qed.
Lemma stops_not_nl_rev s : stops (fun c => negb (is_nl c)) (rev s) <-> s = [] \/ ends_with_newline s.
Proof.
  rewrite stops_not_nl. unfold starts_with_newline, ends_with_newline. split; (intros [H|[t H]]; [left|right]).
  - now apply (f_equal (@rev _)) in H; rewrite rev_involutive in H.
  - exists (rev t). now rewrite <- (rev_involutive s), H.
  - now subst.
  - exists (rev t). subst. now rewrite rev_app_distr.
Qed.

(** ** word loops *)
Lemma bind_done {A B} (m : M A) (k : A -> M B) b a b' : m b = Done a b' -> bind m k b = k a b'.
Proof. unfold bind. now intros ->. Qed.
Lemma bind_panic {A B} (m : M A) (k : A -> M B) b : m b = Panic -> bind m k b = Panic.
Proof. unfold bind. now intros ->. Qed.
Lemma bind_fail {A B} (m : M A) (k : A -> M B) b e b' : m b = Fail e b' -> bind m k b = Fail e b'.
Proof. unfold bind. now intros ->. Qed.

Lemma loop_fuel_app (u v : str) : loop_fuel (u ++ v) = S (length u + length v).
Proof. unfold loop_fuel. now rewrite app_length. Qed.

Lemma fwd_words_spec fuel : forall u v count i b, (length v < fuel)%nat -> 0 <= i ->
  exists moved rest, v = moved ++ rest /\ passes_words (Z.to_nat (count - i)) v moved rest /\
  fwd_words fuel (u ++ v) count i (zlen u) b = Done (zlen u + zlen moved) b.
Proof.
  induction fuel as [|fuel IH]; intros u v count i b Hf Hi; [lia|].
  cbn [fwd_words]. destruct (i <? count) eqn:Hc.
  2:{ exists [], v. replace (Z.to_nat (count - i)) with 0%nat by lia. cbn. split; [auto|]. split; [constructor|].
      unfold ret. f_equal. lens. lia. }
  replace (Z.to_nat (count - i)) with (S (Z.to_nat (count - (i + 1)))) by lia.
  destruct v as [|c v'].
  { replace (zlen u <? zlen (u ++ [])) with false by zl. cbn. exists [], []. split; auto. split; [constructor|].
    unfold ret. f_equal. zl. }
  remember (c :: v') as v eqn:Ev. replace (zlen u <? zlen (u ++ v)) with true by (subst; zl). cbn [andb].
  destruct (scan_fwd_spec (fun ch => negb (is_letter ch)) u v b) as (gap & v2 & -> & Hg & Hs & E1).
  rewrite (bind_done _ _ _ _ _ E1).
  replace (zlen u + zlen gap) with (zlen (u ++ gap)) by zl.
  rewrite app_assoc.
  destruct (scan_fwd_spec is_letter (u ++ gap) v2 b) as (word & rest & -> & Hw & Hr & E2).
  rewrite (bind_done _ _ _ _ _ E2).
  replace (zlen (u ++ gap) + zlen word) with (zlen ((u ++ gap) ++ word)) by zl.
  rewrite app_assoc.
  assert (Hne : word <> [] \/ (rest = [] /\ gap <> [])).
  { destruct word as [|w word]; [|left; discriminate]. right. destruct rest as [|r rest].
    - split; auto. intros ->. discriminate.
    - cbn in *. destruct (is_letter r); discriminate. }
  destruct (IH ((u ++ gap) ++ word) rest count (i + 1) b) as (moved & rest' & Er & Hp & E).
  { rewrite !app_length in Hf. destruct Hne as [H|[-> H]].
    - destruct word; [congruence|]. cbn in Hf. lia.
    - destruct gap; [congruence|]. cbn in *. lia. }
  { lia. }
  exists (gap ++ word ++ moved), rest'. rewrite Er, <- !app_assoc. split; auto. rewrite <- Er. split.
  - constructor; auto; [now apply nonletters_word|now apply letters_word|].
    intros x t ->. cbn in Hr. intros Hx. apply is_letter_word in Hx. congruence.
  - rewrite <- !app_assoc in E. rewrite E. f_equal. zl.
Qed.

Lemma bwd_words_spec fuel : forall u v count i b, (length u < fuel)%nat -> 0 <= i ->
  exists moved rest, u = rest ++ moved /\ passes_words_back (Z.to_nat (count - i)) u rest moved /\
  bwd_words fuel (u ++ v) count i (zlen u) b = Done (zlen rest) b.
Proof.
  unfold passes_words_back.
  induction fuel as [|fuel IH]; intros u v count i b Hf Hi; [lia|].
  cbn [bwd_words]. destruct (i <? count) eqn:Hc.
  2:{ exists [], u. replace (Z.to_nat (count - i)) with 0%nat by lia. rewrite app_nil_r.
      cbn. split; [auto|]. split; [constructor|]. reflexivity. }
  replace (Z.to_nat (count - i)) with (S (Z.to_nat (count - (i + 1)))) by lia.
  destruct u as [|c u'] eqn:Eu.
  { exists [], []. cbn. repeat split. constructor. }
  rewrite <- Eu in *. replace (0 <? zlen u) with true by (subst; zl). cbn [andb].
  assert (Hu : u <> []) by (subst; discriminate). clear c u' Eu.
  destruct (scan_bwd_spec (fun ch => negb (is_letter ch)) u v b) as (u1 & gap & -> & Hg & Hs & E1).
  rewrite (bind_done _ _ _ _ _ E1). rewrite <- app_assoc in *.
  destruct (scan_bwd_spec is_letter u1 (gap ++ v) b) as (rest & word & -> & Hw & Hr & E2).
  rewrite (bind_done _ _ _ _ _ E2). rewrite <- app_assoc in *.
  assert (Hne : word <> [] \/ (rest = [] /\ gap <> [])).
  { destruct word as [|w word]; [|left; discriminate]. right. destruct rest as [|r rest _] using rev_ind.
    - split; [auto|exact Hu].
    - rewrite app_nil_r, rev_app_distr in *. cbn in *. destruct (is_letter r); discriminate. }
  destruct (IH rest (word ++ gap ++ v) count (i + 1) b) as (moved & rest' & Er & Hp & E).
  { rewrite !app_length in Hf. destruct Hne as [H|[-> H]].
    - destruct word; [congruence|]. cbn in Hf. lia.
    - destruct gap; [congruence|]. cbn in *. lia. }
  { lia. }
  exists (moved ++ word ++ gap), rest'. split; [rewrite Er, <- !app_assoc; reflexivity|]. split.
  - rewrite !rev_app_distr, <- !app_assoc. constructor; auto.
    + apply nonletters_word. rewrite forallb_forall in *. intros x Hx. apply Hg. now apply in_rev.
    + apply letters_word. rewrite forallb_forall in *. intros x Hx. apply Hw. now apply in_rev.
    + destruct Hne as [H|[-> H]]; [left|right; split; auto].
      * intros X. apply H. rewrite <- (rev_involutive word), X. reflexivity.
      * intros X. apply H. rewrite <- (rev_involutive gap), X. reflexivity.
    + intros x t X. rewrite X in Hr. cbn in Hr. intros Hx. apply is_letter_word in Hx. congruence.
  - rewrite <- app_assoc; exact E.
Qed.

(** ** line loops *)
Lemma line_step_spec u v b :
  (no_newline v /\ line_step (u ++ v) (zlen u) b = Done (zlen u + zlen v) b) \/
  (exists line rest, v = line ++ nl :: rest /\ no_newline line /\
     line_step (u ++ v) (zlen u) b = Done (zlen u + zlen line + 1) b).
Proof.
  unfold line_step.
  destruct (scan_fwd_spec (fun ch => negb (is_nl ch)) u v b) as (line & rest & -> & Hl & Hr & E).
  rewrite (bind_done _ _ _ _ _ E). apply stops_not_nl in Hr. apply not_nl_newline in Hl.
  destruct Hr as [->|[t ->]].
  - left. rewrite app_nil_r. split; auto.
    replace (zlen u + zlen line <? zlen (u ++ line)) with false by zl. reflexivity.
  - right. exists line, t. split; auto. split; auto.
    replace (zlen u + zlen line <? zlen (u ++ line ++ nl :: t)) with true by zl.
    unfold index_m. replace (index (u ++ line ++ nl :: t) (zlen u + zlen line)) with (Some nl).
    2:{ symmetry. apply index_some. exists (u ++ line), t. rewrite <- app_assoc. split; auto. zl. }
    reflexivity.
Qed.

Lemma line_steps_nonpos c n pos : n <= 0 -> line_steps c n pos = ret pos.
Proof. intros. unfold line_steps. destruct n; try reflexivity. lia. Qed.
Lemma line_steps_nat c n pos : 0 <= n -> line_steps c n pos =
  nat_rect (fun _ => M Z) (ret pos) (fun _ m => q <- m ;; line_step c q) (Z.to_nat n).
Proof. intros. unfold line_steps. rewrite iter_nat_of_Z by lia. now rewrite <- Zabs2Nat.abs_nat_nonneg by lia. Qed.

(* iterating from the other end *)
Fixpoint steps (n : nat) (c : str) (pos : Z) : M Z :=
  match n with
  | O => ret pos
  | S n' => q <- line_step c pos ;; steps n' c q
  end.
Lemma bind_assoc {A B C} (m : M A) (f : A -> M B) (g : B -> M C) b :
  bind (bind m f) g b = bind m (fun x => bind (f x) g) b.
Proof. unfold bind. destruct (m b); reflexivity. Qed.
Lemma bind_ext {A B} (m : M A) (f g : A -> M B) b : (forall x b', f x b' = g x b') -> bind m f b = bind m g b.
Proof. intros H. unfold bind. destruct (m b); auto. Qed.
Lemma bind_ret {A} (m : M A) b : bind m ret b = m b.
Proof. unfold bind, ret. now destruct (m b). Qed.
Lemma steps_S n : forall c pos b, steps (S n) c pos b = bind (steps n c pos) (line_step c) b.
Proof.
  induction n as [|n IH]; intros c pos b.
  - cbn [steps]. now rewrite bind_ret.
  - change (steps (S (S n)) c pos b) with (bind (line_step c pos) (steps (S n) c) b).
    cbn [steps]. rewrite bind_assoc. apply bind_ext. intros. apply IH.
Qed.
Lemma line_steps_steps c n pos b : line_steps c n pos b = steps (Z.to_nat n) c pos b.
Proof.
  destruct (Z_le_gt_dec n 0).
  - rewrite line_steps_nonpos by lia. now replace (Z.to_nat n) with 0%nat by lia.
  - rewrite line_steps_nat by lia. generalize (Z.to_nat n). clear. intros n. revert b.
    induction n as [|n IH]; intros b; [reflexivity|].
    rewrite steps_S. cbn. unfold bind. now rewrite IH.
Qed.
Lemma steps_end n c b : steps n c (zlen c) b = Done (zlen c) b.
Proof.
  induction n as [|n IH]; [reflexivity|]. cbn [steps].
  replace (line_step c (zlen c) b) with (@Done Z (zlen c) b) in *.
  - rewrite (bind_done _ _ _ (zlen c) b); auto.
    unfold line_step. rewrite (bind_done _ _ _ (zlen c) b) by (apply scan_fwd_beyond; lia).
    now replace (zlen c <? zlen c) with false by lia.
  - unfold line_step. rewrite (bind_done _ _ _ (zlen c) b) by (apply scan_fwd_beyond; lia).
    now replace (zlen c <? zlen c) with false by lia.
Qed.
Lemma steps_spec n : forall u v b, exists moved rest,
  v = moved ++ rest /\ passes_lines n v moved rest /\
  steps n (u ++ v) (zlen u) b = Done (zlen u + zlen moved) b.
Proof.
  induction n as [|n IH]; intros u v b.
  - exists [], v. split; auto. split; [constructor|]. cbn. unfold ret. f_equal. lens. lia.
  - cbn [steps]. destruct (line_step_spec u v b) as [[Hn E]|(line & rest & -> & Hn & E)];
      rewrite (bind_done _ _ _ _ _ E).
    + exists v, []. rewrite app_nil_r. split; auto. split; [now constructor|].
      replace (zlen u + zlen v) with (zlen (u ++ v)) by zl. apply steps_end.
    + replace (u ++ line ++ nl :: rest) with ((u ++ line ++ [nl]) ++ rest)
        by (rewrite <- !app_assoc; reflexivity).
      destruct (IH (u ++ line ++ [nl]) rest b) as (moved & rest' & -> & Hp & E').
      exists (line ++ nl :: moved), rest'. split; [now rewrite <- app_assoc|]. split; [now constructor|].
      replace (zlen u + zlen line + 1) with (zlen (u ++ line ++ [nl])) by zl.
      rewrite E'. f_equal. zl.
Qed.
Lemma line_steps_spec n u v b : exists moved rest,
  v = moved ++ rest /\ passes_lines (Z.to_nat n) v moved rest /\
  line_steps (u ++ v) n (zlen u) b = Done (zlen u + zlen moved) b.
Proof.
  destruct (steps_spec (Z.to_nat n) u v b) as (moved & rest & H1 & H2 & H3).
  exists moved, rest. rewrite line_steps_steps. auto.
Qed.

(** the relations are functional *)
Lemma passes_lines_app n s m r : passes_lines n s m r -> s = m ++ r.
Proof. induction 1; cbn; rewrite ?app_nil_r; auto. now rewrite <- app_assoc, IHpasses_lines. Qed.
Lemma passes_words_app n s m r : passes_words n s m r -> s = m ++ r.
Proof. induction 1; cbn; auto. now rewrite IHpasses_words, <- !app_assoc. Qed.

Lemma first_split {A} (P : A -> Prop) (u v u' v' : list A) :
  u ++ v = u' ++ v' -> Forall P u -> Forall P u' ->
  (forall c t, v = c :: t -> ~ P c) -> (forall c t, v' = c :: t -> ~ P c) -> u = u' /\ v = v'.
Proof.
  revert u'. induction u as [|x u IH]; intros [|y u'] E Hu Hu' Hv Hv'; cbn in E.
  - auto.
  - inversion Hu'; subst. exfalso. eapply Hv; eauto.
  - inversion Hu; subst. exfalso. eapply Hv'; eauto.
  - injection E as -> E. inversion Hu; inversion Hu'; subst.
    destruct (IH u' E) as [-> ->]; auto.
Qed.
Lemma passes_words_fun n s m r : passes_words n s m r ->
  forall m' r', passes_words n s m' r' -> m = m' /\ r = r'.
Proof.
  assert (Hgap : forall gap word rest : str, all_word word -> (word <> [] \/ rest = [] /\ gap <> []) ->
    forall c t, word ++ rest = c :: t -> ~ ~ word_byte c).
  { intros gap word rest Hw Hne c t E. destruct word as [|w word].
    - destruct Hne as [|[-> _]]; [congruence|]. discriminate.
    - cbn in E. injection E as -> _. inversion Hw; auto. }
  induction 1; intros m' r' H'.
  - inversion H'; subst; auto.
  - inversion H' as [| |n0 gap' word' rest0 moved' rest0' Hg' Hw' Hne' Hr' Hp' En Es Em Er]; subst; auto.
    apply app_eq_nil in Es. destruct Es as [-> Es]. apply app_eq_nil in Es. destruct Es as [-> ->].
    cbn in Hne'. destruct Hne' as [X|[_ X]]; now elim X.
  - inversion H' as [| |n0 gap' word' rest0 moved' rest0' Hg' Hw' Hne' Hr' Hp' En Es Em Er]; subst.
    + exfalso. match goal with X : [] = _ |- _ => symmetry in X; apply app_eq_nil in X; destruct X as [-> X];
        apply app_eq_nil in X; destruct X as [-> ->] end.
      destruct H1 as [X|[_ X]]; congruence.
    + destruct (first_split (fun c => ~ word_byte c) gap (word ++ rest) gap' (word' ++ rest0)) as [-> E]; auto.
      { eapply Hgap; eauto. } { eapply Hgap; eauto. }
      destruct (first_split word_byte word rest word' rest0) as [-> ->]; auto.
      destruct (IHpasses_words _ _ Hp') as [-> ->]. auto.
Qed.
Lemma passes_lines_fun n s m r : passes_lines n s m r ->
  forall m' r', passes_lines n s m' r' -> m = m' /\ r = r'.
Proof.
  assert (F : forall l, no_newline l -> Forall (fun c => c <> nl) l).
  { intros l Hl. apply Forall_forall. intros x Hx ->. auto. }
  induction 1 as [s|n s Hn|n line rest moved rest' Hl Hp IH]; intros m' r' H'.
  - inversion H'; subst; auto.
  - inversion H'; subst; auto. exfalso. apply Hn. apply in_or_app. right. now left.
  - inversion H' as [|n0 s0 Hn Hs E1 E2|n0 line' rest0 moved' rest0' Hl' Hp' En Es Em]; subst.
    + exfalso. apply Hn. apply in_or_app. right. now left.
    + destruct (first_split (fun c => c <> nl) line (nl :: rest) line' (nl :: rest0)) as [-> E]; auto;
        try (intros c t X Hc; apply Hc; congruence).
      assert (rest = rest0) as -> by congruence. destruct (IH _ _ Hp') as [-> ->]. auto.
Qed.
