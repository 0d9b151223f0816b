(** Proofs used for C91. *)
From Coq Require Import ZArith NArith List Bool Lia Strings.Byte ZifyBool.
From Verif Require Import Base Float Ext Utf8 Strconv Values Parser Buffer Builtins Eval Files Spec SpecText SpecNumber SpecJson SpecLines SpecManual SpecMeaning SpecGrowth SpecLibrary
  Proofs_Base Proofs_Exec Proofs_Effects Proofs_Utf8 Proofs_Token Proofs_Json Proofs_Grammar Proofs_Words Proofs_Growth Prop_Calls Prop_Eval Prop_Safe Prop_Manual Proofs_Meaning.
Import ListNotations.
Open Scope Z_scope.

Section Two.
Variables E E' : Ext.
Lemma int_arg_same f n : same_numbers E E' -> int_arg E f n -> int_arg E' f n.
Proof. intros H [A|[A B]]; [left; auto|right]. split; auto. now rewrite <- H. Qed.
Lemma count_arg_same l n : same_numbers E E' -> count_arg E l n -> count_arg E' l n.
Proof. intros H [A|(f & A & B)]; [left; auto|right]. exists f. split; auto. now apply int_arg_same. Qed.
Lemma case_same (letter : byte -> byte -> Prop) (t t' : N -> N) r r' : (forall r, t r = t' r) -> case_of letter t r r' -> case_of letter t' r r'.
Proof. intros H [A|[A B]]; [left; auto|right]. split; auto. now rewrite <- H. Qed.
Lemma cases_same (letter : byte -> byte -> Prop) (t t' : N -> N) l l' : (forall r, t r = t' r) -> Forall2 (case_of letter t) l l' -> Forall2 (case_of letter t') l l'.
Proof. intros H. induction 1; constructor; auto. eapply case_same; eauto. Qed.
Lemma escaped_same s t : same_print E E' -> escaped E s t -> escaped E' s t.
Proof.
  intros H. assert (P : forall r, printable E r <-> printable E' r) by (intros r; unfold printable; now rewrite H).
  induction 1; econstructor; eauto; now rewrite <- P.
Qed.
Lemma quote_same s : same_print E E' -> quote E s = quote E' s.
Proof. intros H. apply quoted_iff. destruct (proj2 (quoted_iff E s (quote E s)) eq_refl) as (t & A & B). exists t. split; auto. now apply escaped_same. Qed.

Ltac fin := first [eassumption | left; split; [eassumption|reflexivity] | right; split; [eassumption|reflexivity]].
Lemma manual_same n args b o : (In n patterned -> same_regexps E E') -> (In n cased -> same_case E E') -> (In n counted -> same_numbers E E') ->
  manual E n args b o -> manual E' n args b o.
Proof.
  intros Hr Hc Hn H. destruct H.
  all: try specialize (Hr ltac:(cbn; tauto)).
  all: try specialize (Hc ltac:(cbn; tauto)).
  all: try specialize (Hn ltac:(cbn; tauto)).
  all: repeat match goal with H : int_arg E _ _ |- _ => apply (int_arg_same _ _ Hn) in H | H : count_arg E _ _ |- _ => apply (count_arg_same _ _ Hn) in H end.
  all: try match goal with H : same_regexps _ _ |- _ => destruct H as (R1 & R2 & R3 & R4); rewrite ?R1, ?R2, ?R3, ?R4 in * end.
  all: try solve [econstructor; fin].
  - apply (m_upcase E' s l l'); auto. eapply cases_same; [|eassumption]. apply Hc.
  - apply (m_downcase E' s l l'); auto. eapply cases_same; [|eassumption]. apply Hc.
  - apply (m_capitalize E' c s r l l'); auto; [eapply case_same; [|eassumption]; apply Hc|eapply cases_same; [|eassumption]; apply Hc].
Qed.

Hypothesis X : ext_ok E.
Hypothesis X' : ext_ok E'.
Lemma call_same name args b : machine b -> held args -> (exists s, In (name, s) signatures) ->
  (In name patterned -> same_regexps E E') -> (In name cased -> same_case E E') -> (In name counted -> same_numbers E E') ->
  call E name args b = call E' name args b.
Proof.
  intros M A N Hr Hc Hn. symmetry. apply (manual_exact E' name args b _ X' M A N). apply manual_same; auto.
  now apply (manual_exact E name args b _ X M A N).
Qed.
Lemma mentions_in n x l : In x l -> mentions n x -> mentions n (VList l).
Proof. induction l as [|y l IH]; intros I M; [destruct I|]. apply mentions_cons. destruct I as [->|I]; auto. Qed.
Lemma enough_in e l : In e l -> enough E E' (VList l) -> enough E E' e.
Proof.
  intros I (A & B & C & D).
  assert (K : forall names, needs names e -> needs names (VList l)) by (intros names (n & J & M); exists n; split; auto; eapply mentions_in; eauto).
  split; [intros N; now apply A, K|]. split; [intros N; now apply B, K|]. split; [intros N; now apply C, K|].
  intros (n & M & N). apply D. exists n. split; auto. eapply mentions_in; eauto.
Qed.
Lemma eval_list_none (F : Ext) env : eval_list F env [] = ret [].
Proof. reflexivity. Qed.
Definition agrees (e : value) : Prop := holds_texts e -> enough E E' e -> forall b, machine b ->
  eval_expr E (default_env E) e b = eval_expr E' (default_env E') e b.
Lemma list_agrees args : Forall agrees args -> Forall holds_texts args -> (forall e, In e args -> enough E E' e) -> forall b, machine b ->
  eval_list E (default_env E) args b = eval_list E' (default_env E') args b.
Proof.
  induction 1 as [|e es He _ IH]; intros T N b M; [rewrite !eval_list_none; reflexivity|].
  rewrite !eval_list_cons. inversion T as [|? ? T1 T2]; subst. unfold bind. rewrite <- (He T1 (N e (or_introl eq_refl)) b M).
  pose proof (eval_lands E X e T1 b M) as K. destruct (eval_expr E (default_env E) e b) as [v c|m c| | |]; [|reflexivity|reflexivity|reflexivity|reflexivity].
  rewrite (IH T2 (fun x I => N x (or_intror I)) c (proj1 K)). reflexivity.
Qed.
Lemma expr_agrees e : agrees e.
Proof.
  induction e as [n|s|f|l IH] using value_ind'; intros T N b M; [cbn [eval_expr]; reflexivity|cbn [eval_expr]; reflexivity|cbn [eval_expr]; reflexivity|].
  apply all_atoms_list in T. destruct l as [|h args]; [cbn [eval_expr]; reflexivity|].
  destruct h as [n|s|f|l']; [|cbn [eval_expr]; reflexivity|cbn [eval_expr]; reflexivity|cbn [eval_expr]; reflexivity].
  rewrite !eval_call. inversion IH as [|? ? _ IH']; subst. inversion T as [|? ? _ T']; subst.
  assert (Mn : mentions n (VList (VSym n :: args))) by (apply mentions_cons; now left).
  destruct (default_env E n) as [f|] eqn:D.
  - assert (K : known n) by (apply (known_iff E); congruence). destruct (known_some E' n K) as (f' & D'). rewrite D'. unfold bind.
    rewrite <- (list_agrees args IH' T' (fun e I => enough_in e (VSym n :: args) (or_intror I) N) b M).
    pose proof (list_lands E X args T' b M) as L. destruct (eval_list E (default_env E) args b) as [vs c|m c| | |]; [|reflexivity|reflexivity|reflexivity|reflexivity]. destruct L as [M1 H1].
    destruct (known_call E n f vs c D) as (name & s & I & -> & ->). replace (f' vs c) with (call E' name vs c) by (unfold call; now rewrite D').
    destruct N as (A & B & C & _). apply call_same; [exact M1|exact H1|exists s; exact I| | |]; intros J; [apply A|apply B|apply C]; exists name; (split; [exact J|exact Mn]).
  - assert (K : ~ known n) by (rewrite (known_iff E); congruence). destruct (default_env E' n) as [f'|] eqn:D'.
    + exfalso. apply K. apply (known_iff E'). congruence.
    + destruct N as (_ & _ & _ & P). rewrite (quote_same n); [reflexivity|]. apply P. exists n. auto.
Qed.
Lemma from_agrees : forall rest p i v b, Forall holds_texts rest -> (forall e, In e rest -> enough E E' e) -> machine b ->
  eval_from E (default_env E) (@None (@callback unit)) p i rest v tt b = eval_from E' (default_env E') (@None (@callback unit)) p i rest v tt b.
Proof.
  induction rest as [|e rest IH]; intros p i v b T N M; cbn [eval_from]; [reflexivity|].
  inversion T as [|? ? T1 T2]; subst. rewrite <- (expr_agrees e T1 (N e (or_introl eq_refl)) b M).
  pose proof (eval_lands E X e T1 b M) as K. destruct (eval_expr E (default_env E) e b) as [w c|m c| | |]; [|reflexivity|reflexivity|reflexivity|reflexivity].
  apply IH; [exact T2|intros x I; apply N; now right|apply K].
Qed.
End Two.
