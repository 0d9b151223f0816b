(** Lemmas for C78, continued: every entry of the manual is right, and every call has an entry. *)
From Coq Require Import ZArith NArith QArith List Bool Lia Strings.Byte ZifyBool.
From Verif Require Import Proofs_Round.
From Verif Require Import Base Float Ext Utf8 Strconv Values Buffer Builtins Eval Spec SpecNumber SpecLines SpecManual
  Proofs_Base Proofs_Loops Proofs_Exec Proofs_Float Proofs_Numeral Proofs_Utf8  Proofs_Unique Proofs_Safe
  Prop_Edit Prop_Lines Prop_Strings Prop_Regexp Prop_Numbers Prop_Words Prop_Calls Proofs_Manual Proofs_Manual2.
Import ListNotations.
Open Scope Z_scope.

(** ** Refusals *)
Lemma counts_got name what args msg b : counts name what args msg -> @got name what value args b = Fail msg b.
Proof. intros (k & T & ->). rewrite (int_text_itoa _ _ T). reflexivity. Qed.
Lemma says_wants name what msg b : says name what msg -> @wants name what value b = Fail msg b.
Proof. now intros ->. Qed.
Ltac each_name H := unfold taking, signatures in H; cbn [In] in H;
  repeat match type of H with _ \/ _ => destruct H as [H|H] end; try contradiction; try discriminate H; injection H as <-.
Lemma zlen_one {A} (l : list A) : zlen l = 1 -> exists x, l = [x].
Proof. destruct l as [|x [|y l]]; intros H; try (exfalso; revert H; zl; fail). eauto. Qed.
Lemma refused_no E name args msg b : taking NoArgs name -> args <> [] -> counts name "0 arguments" args msg -> call E name args b = Fail msg b.
Proof.
  intros T N C. destruct args as [|v args]; [congruence|]. pose proof (counts_got _ _ _ _ b C) as G. clear C N.
  each_name T; call; exact G.
Qed.
Lemma refused_text E name v msg b : taking AString name -> ~ has_kind KString v -> says name "a string argument" msg -> call E name [v] b = Fail msg b.
Proof.
  intros T N C. pose proof (says_wants _ _ _ b C) as G. clear C. destruct v; try (now destruct N); clear N; each_name T; call; exact G.
Qed.
Lemma refused_text_count E name args msg b : taking AString name -> zlen args <> 1 -> counts name "1 argument" args msg -> call E name args b = Fail msg b.
Proof.
  intros T N C. pose proof (counts_got _ _ _ _ b C) as G. clear C. destruct args as [|v [|w args]]; [|exfalso; now apply N|]; clear N.
  - each_name T; call; exact G.
  - each_name T; call; destruct v; exact G.
Qed.
Lemma refused_number E name v msg b : taking ANumber name -> ~ has_kind KNumber v -> says name "a number argument" msg -> call E name [v] b = Fail msg b.
Proof.
  intros T N C. pose proof (says_wants _ _ _ b C) as G. clear C. destruct v; try (now destruct N); clear N; each_name T; call; exact G.
Qed.
Lemma refused_number_count E name args msg b : taking ANumber name -> zlen args <> 1 -> counts name "1 argument" args msg -> call E name args b = Fail msg b.
Proof.
  intros T N C. pose proof (counts_got _ _ _ _ b C) as G. clear C. destruct args as [|v [|w args]]; [|exfalso; now apply N|]; clear N.
  - each_name T; call; exact G.
  - each_name T; call; destruct v; exact G.
Qed.
Lemma refused_most E name v msg b : taking OptNumber name -> ~ has_kind KNumber v -> says name "a number argument" msg -> call E name [v] b = Fail msg b.
Proof.
  intros T N C. pose proof (says_wants _ _ _ b C) as G. clear C. destruct v; try (now destruct N); clear N; each_name T; call; exact G.
Qed.
Lemma refused_most_count E name args msg b : taking OptNumber name -> 1 < zlen args -> counts name "at most 1 argument" args msg -> call E name args b = Fail msg b.
Proof.
  intros T N C. pose proof (counts_got _ _ _ _ b C) as G. clear C. destruct args as [|v [|w args]]; [exfalso; revert N; zl|exfalso; revert N; zl|]; clear N.
  each_name T; call; destruct v; exact G.
Qed.
Lemma refused_right E name args msg b : refused name args msg -> call E name args b = Fail msg b.
Proof.
  intros H. destruct H.
  - now apply refused_no.
  - now apply refused_text.
  - now apply refused_text_count.
  - now apply refused_number.
  - now apply refused_number_count.
  - now apply refused_most.
  - now apply refused_most_count.
  - pose proof (says_wants _ _ _ b H0) as G. call. unfold b_buffer_substring. destruct v, w; try exact G. now destruct H.
  - pose proof (counts_got _ _ _ _ b H0) as G. call. unfold b_buffer_substring.
    destruct args as [|v [|w [|x args]]]; try destruct v; try destruct w; try exact G; now destruct H.
  - pose proof (says_wants _ _ _ b H1) as G. call. unfold b_substring.
    destruct rest as [|x [|y rest]]; [| |exfalso; revert H; zl]; destruct v; try exact G; now destruct H0.
  - pose proof (says_wants _ _ _ b H2) as G. call. unfold b_substring. destruct v; try contradiction.
    destruct rest as [|x [|y rest]]; [| |exfalso; revert H; zl]; destruct w; try exact G; now destruct H1.
  - pose proof (says_wants _ _ _ b H2) as G. call. unfold b_substring. destruct v; try contradiction. destruct w; try contradiction.
    destruct x; try exact G. now destruct H1.
  - pose proof (counts_got _ _ _ _ b H0) as G. call. unfold b_substring.
    destruct args as [|v [|w [|x [|y args]]]]; try exact G; exfalso; revert H; zl.
  - pose proof (says_wants _ _ _ b H0) as G. call. unfold b_string_match. destruct v, w; try exact G. now destruct H.
  - pose proof (counts_got _ _ _ _ b H0) as G. call. unfold b_string_match.
    destruct args as [|v [|w [|x args]]]; try destruct v; try destruct w; try exact G; now destruct H.
  - pose proof (says_wants _ _ _ b H0) as G. call. unfold b_replace_regexp_in_string. destruct v, w, x; try exact G. destruct H; cbn; auto.
  - pose proof (counts_got _ _ _ _ b H0) as G. call. unfold b_replace_regexp_in_string.
    destruct args as [|v [|w [|x [|y args]]]]; try destruct v; try destruct w; try destruct x; try exact G; now destruct H.
Qed.
