(** Proofs used for C90. *)
From Coq Require Import ZArith NArith List Bool Lia Strings.Byte ZifyBool.
From Verif Require Import Base Float Ext Utf8 Strconv Values Parser Buffer Builtins Eval Files Spec SpecText SpecNumber SpecJson SpecLines SpecManual SpecMeaning SpecRewrite SpecJoin
  Proofs_Base Proofs_Exec Proofs_Effects Proofs_Utf8 Proofs_Token Proofs_Json Proofs_Grammar Proofs_Words Prop_Calls Prop_Eval Prop_Safe Prop_Manual Proofs_Meaning Proofs_Rewrite.
Import ListNotations.
Open Scope Z_scope.

Inductive joined {A} : outcome A -> outcome A -> Prop :=
| jo_done v b b' : linked b b' -> joined (Done v b) (Done v b')
| jo_fail m b b' : linked b b' -> joined (Fail m b) (Fail m b')
| jo_no_search b o : joined (Fail (bs "no previous search") b) o
| jo_crash : joined Panic Panic
| jo_memory : joined OutOfMemory OutOfMemory.
Definition other (b : buffer) (m : str) (s e : Z) : buffer := mkBuffer (content b) (point b) (mark b) m s e.
Lemma linked_other b m s e : last_match b = [] -> linked b (other b m s e).
Proof. intros H. repeat split. congruence. Qed.
Lemma linked_refl b : linked b b.
Proof. repeat split. Qed.
Lemma linked_cases b b' : linked b b' -> b = b' \/ last_match b = [] /\ exists m s e, b' = other b m s e.
Proof.
  intros (C & P & M & L). destruct (last_match b) as [|c t] eqn:Q; [right|left; apply L; discriminate].
  split; auto. exists (last_match b'), (last_start b'), (last_end b'). destruct b'. cbn in *. subst. reflexivity.
Qed.

Ltac lk := first [apply linked_refl | split; [reflexivity|split; [reflexivity|split; [reflexivity|]]]; cbn [last_match at_point with_text with_mark]; congruence].
Ltac jo := first [apply jo_no_search | apply jo_done; lk | apply jo_fail; lk | apply jo_crash | apply jo_memory].
Ltac fin := first [eassumption | left; split; [eassumption|reflexivity] | right; split; [eassumption|reflexivity]].
Lemma manual_other E n args b o m s e : manual E n args b o -> last_match b = [] ->
  o = Fail (bs "no previous search") b \/ exists o', manual E n args (other b m s e) o' /\ joined o o'.
Proof.
  intros H Q. destruct H;
    try match goal with H : becomes _ _ _ _ |- _ => destruct H as [[? ->]|[? ->]] end;
    try match goal with H : gives _ _ _ |- _ => destruct H as [[? ->]|[? ->]] end;
    try match goal with H : yes_if _ _ _ |- _ => destruct H as [[? ->]|[? ->]] end;
    try contradiction.
  all: solve [left; reflexivity|right; eexists; split; [econstructor; fin|jo]].
Qed.
Lemma joined_same {A} (o : outcome A) : o <> Diverge -> joined o o.
Proof. destruct o; intros H; try (constructor; apply linked_refl); try constructor. congruence. Qed.
Section Join.
Variable E : Ext.
Hypothesis X : ext_ok E.
Lemma call_joined name args b b' : machine b -> machine b' -> held args -> (exists s, In (name, s) signatures) -> linked b b' ->
  joined (call E name args b) (call E name args b').
Proof.
  intros M M' A N L. destruct (linked_cases b b' L) as [->|(Q & m & s & e & ->)].
  - apply joined_same. pose proof (call_lands E X name args b' M' A N) as H. intros K. now rewrite K in H.
  - pose proof (proj1 (manual_exact E name args b _ X M A N) eq_refl) as H.
    destruct (manual_other E name args b _ m s e H Q) as [K|(o' & H' & J)].
    + rewrite K. apply jo_no_search.
    + apply (manual_exact E name args _ o' X M' A N) in H'. now rewrite H'.
Qed.
Definition joins (e : value) : Prop := holds_texts e -> forall b b', machine b -> machine b' -> linked b b' ->
  joined (eval_expr E (default_env E) e b) (eval_expr E (default_env E) e b').
Lemma list_joins args : Forall joins args -> Forall holds_texts args -> forall b b', machine b -> machine b' -> linked b b' ->
  joined (eval_list E (default_env E) args b) (eval_list E (default_env E) args b').
Proof.
  induction 1 as [|e es He _ IH]; intros T b b' M M' L.
  - now apply jo_done.
  - rewrite eval_list_cons. inversion T as [|? ? T1 T2]; subst. specialize (He T1 b b' M M' L). unfold bind.
    pose proof (eval_lands E X e T1 b M) as K. pose proof (eval_lands E X e T1 b' M') as K'.
    inversion He as [v c c' Lc Q1 Q2|m c c' Lc Q1 Q2|c o Q1 Q2|Q1 Q2|Q1 Q2]; rewrite <- Q1 in K; try rewrite <- Q2 in K'; try constructor; auto.
    destruct K as [K _], K' as [K' _]. specialize (IH T2 c c' K K' Lc).
    inversion IH; constructor; auto.
Qed.
Lemma expr_joins e : joins e.
Proof.
  induction e as [n|s|f|l IH] using value_ind'; intros T b b' M M' L; cbn [eval_expr].
  - now constructor.
  - now constructor.
  - now constructor.
  - apply all_atoms_list in T. destruct l as [|h args]; [now constructor|]. destruct h as [n|s|f|l']; try now constructor.
    change (joined (eval_expr E (default_env E) (VList (VSym n :: args)) b) (eval_expr E (default_env E) (VList (VSym n :: args)) b')). rewrite !eval_call.
    destruct (default_env E n) as [f|] eqn:D; [|now constructor]. inversion IH as [|? ? _ IH']; subst. inversion T as [|? ? _ T']; subst.
    pose proof (list_joins args IH' T' b b' M M' L) as J. pose proof (list_lands E X args T' b M) as K. pose proof (list_lands E X args T' b' M') as K'. unfold bind.
    inversion J as [v c c' Lc Q1 Q2|m c c' Lc Q1 Q2|c o Q1 Q2|Q1 Q2|Q1 Q2]; rewrite <- Q1 in K; try rewrite <- Q2 in K'; try constructor; auto.
    destruct K as [K H1], K' as [K' _]. destruct (known_call E n f v c D) as (name & s & I & -> & ->).
    replace (f v c') with (call E name v c') by (unfold call; now rewrite D). apply call_joined; eauto.
Qed.
Lemma from_joins : forall rest p i p' i' v b b', Forall holds_texts rest -> machine b -> machine b' -> linked b b' ->
  follows (fst (eval_from E (default_env E) (@None (@callback unit)) p i rest v tt b)) (fst (eval_from E (default_env E) (@None (@callback unit)) p' i' rest v tt b')).
Proof.
  induction rest as [|e rest IH]; intros p i p' i' v b b' T M M' L; cbn [eval_from fst]; [now constructor|].
  inversion T as [|? ? T1 T2]; subst. pose proof (expr_joins e T1 b b' M M' L) as J.
  pose proof (eval_lands E X e T1 b M) as K. pose proof (eval_lands E X e T1 b' M') as K'.
  inversion J as [w c c' Lc Q1 Q2|m c c' Lc Q1 Q2|c o Q1 Q2|Q1 Q2|Q1 Q2]; rewrite <- Q1 in K; try rewrite <- Q2 in K'; cbn [fst].
  - destruct K as [K _], K' as [K' _]. now apply IH.
  - now apply fo_fail.
  - now apply fo_no_search.
  - constructor.
  - constructor.
Qed.
Lemma from_done r : forall l p i v b w b1 p' i', fst (eval_from E (default_env E) (@None (@callback unit)) p i l v tt b) = EvDone w b1 ->
  exists j, fst (eval_from E (default_env E) (@None (@callback unit)) p' i' (l ++ r) v tt b) = fst (eval_from E (default_env E) (@None (@callback unit)) p' j r w tt b1).
Proof.
  induction l as [|e l IH]; intros p i v b w b1 p' i'; cbn [eval_from app fst].
  - intros H. injection H as <- <-. now exists i'.
  - destruct (eval_expr E (default_env E) e b); cbn [fst]; try discriminate. apply IH.
Qed.
Lemma from_lands : forall l p i v b, Forall holds_texts l -> machine b -> forall w b1,
  fst (eval_from E (default_env E) (@None (@callback unit)) p i l v tt b) = EvDone w b1 -> machine b1.
Proof.
  induction l as [|e l IH]; intros p i v b T M w b1; cbn [eval_from fst].
  - intros H. now injection H as _ <-.
  - inversion T as [|? ? T1 T2]; subst. pose proof (eval_lands E X e T1 b M) as K. destruct (eval_expr E (default_env E) e b); cbn [fst]; try discriminate.
    destruct K as [K _]. now apply IH.
Qed.
End Join.
