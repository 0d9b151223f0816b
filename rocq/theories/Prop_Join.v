(** C90: two scripts run one after the other, and as one. *)
From Coq Require Import ZArith NArith List Bool Lia Strings.Byte ZifyBool.
From Verif Require Import Base Float Ext Utf8 Strconv Values Parser Buffer Builtins Eval Files Spec SpecText SpecNumber SpecJson SpecLines SpecFiles SpecManual SpecMeaning SpecRewrite SpecJoin
  Proofs_Base Proofs_Files Proofs_Growth Proofs_Rewrite Proofs_Join Prop_Calls Prop_Safe Prop_Manual Prop_Meaning Prop_Script Prop_Words Prop_Files Prop_Growth RefExt Proofs_Ref.
Import ListNotations.
Open Scope Z_scope.

(** ** C90 *)

(** after a program that finishes, starting over and running a second program ends as the
    second program does by itself on the text made by the first, unless that one fails for want
    of a search the first may have made *)
Theorem programs_joined E t p q v b : ext_ok E -> fits t -> Forall holds_texts p -> Forall holds_texts q ->
  eval E (default_env E) p (new_buffer t) = EvDone v b ->
  follows (eval E (default_env E) q (new_buffer (content b))) (eval E (default_env E) (p ++ start_over ++ q) (new_buffer t)).
Proof.
  intros X F Tp Tq H. assert (M : machine b) by (eapply (from_lands E X); [exact Tp|apply (machine_begins t F)|exact H]).
  destruct (from_done E (start_over ++ q) p _ _ _ _ _ _ (p ++ start_over ++ q) 0 H) as (j & Q). unfold eval at 2. unfold eval_with_trace. rewrite Q.
  assert (S : fst (eval_from E (default_env E) (@None (@callback unit)) start_over 0 start_over v tt b) = EvDone (VStr []) (with_mark (at_point b 1) 1)) by reflexivity.
  destruct (from_done E q start_over _ _ _ _ _ _ (p ++ start_over ++ q) j S) as (k & ->).
  apply (from_joins E X); auto.
  - apply machine_begins. apply M.
  - destruct M as (A & B & C & D). unfold machine, with_mark, at_point. cbn [content point mark last_start last_end]. repeat split; try apply A; try apply D; try (ints; lia).
  - repeat split. cbn. congruence.
Qed.
(** if the first program does not finish, what follows does not matter *)
Theorem first_decides E t p q : (forall v b, eval E (default_env E) p (new_buffer t) <> EvDone v b) ->
  alike (eval E (default_env E) (p ++ start_over ++ q) (new_buffer t)) (eval E (default_env E) p (new_buffer t)).
Proof.
  intros H. pose proof (eval_app E p (start_over ++ q) (new_buffer t)) as A.
  destruct (eval E (default_env E) p (new_buffer t)) as [v b|x b| | |]; auto. now destruct (H v b).
Qed.

(** the scripts themselves: the second is put behind the first with a line between *)
Definition joined_script (s s' : str) : str := s ++ nl :: start_over_line ++ nl :: s'.
Theorem joined_script_program s s' p q : SpecLines.script s p -> SpecLines.script s' q -> SpecLines.script (joined_script s s') (p ++ start_over ++ q).
Proof.
  intros S S'. apply script_grammar in S, S'. apply script_grammar. unfold joined_script. rewrite newline_separates, newline_separates, S, S'.
  replace (parse_string start_over_line) with (POk start_over) by (vm_compute; reflexivity). reflexivity.
Qed.
Theorem scripts_joined E t s s' p q t1 : ext_ok E -> fits t -> SpecLines.script s p -> SpecLines.script s' q -> execute_script E t s = Ok t1 ->
  match execute_script E t1 s' with
  | Ok t2 => execute_script E t (joined_script s s') = Ok t2
  | Crash c => execute_script E t (joined_script s s') = Crash c
  | Err m => (exists m', execute_script E t (joined_script s s') = Err m') \/ exists x b, eval E (default_env E) q (new_buffer t1) = EvError x b /\ x_error x = bs "no previous search"
  end.
Proof.
  intros X F S S' H. pose proof (joined_script_program s s' p q S S') as J. unfold execute_script in *.
  rewrite (proj2 (script_grammar _ _) S) in H. rewrite (proj2 (script_grammar _ _) S'), (proj2 (script_grammar _ _) J). cbn [run_program] in *.
  destruct (eval E (default_env E) p (new_buffer t)) as [v b|x b| | |] eqn:Q; try discriminate H. injection H as <-.
  pose proof (programs_joined E t p q v b X F (script_texts s p S) (script_texts s' q S') Q) as K.
  revert K. generalize (eval E (default_env E) q (new_buffer (content b))) as r1, (eval E (default_env E) (p ++ start_over ++ q) (new_buffer t)) as r2.
  intros r1 r2 K. destruct K as [w c c' L|x x' c c' L R|x c r R| |]; try reflexivity.
  - now rewrite (proj1 L).
  - left. eexists. reflexivity.
  - right. eauto.
Qed.
(** so, given a result of running the two scripts one after the other, it is the result of
    running them as one *)
Theorem scripts_joined_result E t s s' t1 t2 : ext_ok E -> fits t -> execute_script E t s = Ok t1 -> execute_script E t1 s' = Ok t2 ->
  execute_script E t (joined_script s s') = Ok t2.
Proof.
  intros X F H H'. assert (G : forall u z r, execute_script E u z = Ok r -> exists p, SpecLines.script z p).
  { intros u z r Q. unfold execute_script in Q. destruct (parse_string z) as [p|m|] eqn:P; try discriminate. exists p. now apply script_grammar. }
  destruct (G _ _ _ H) as (p & S), (G _ _ _ H') as (q & S'). pose proof (scripts_joined E t s s' p q t1 X F S S' H) as K. now rewrite H' in K.
Qed.
(** and a file edited twice is the file edited once *)
Theorem file_edited_once E os f s s' t t1 t2 w : ext_ok E -> no_faults os -> w_fs w (canon os f) = Some t -> fits t ->
  execute_script E t s = Ok t1 -> execute_script E t1 s' = Ok t2 ->
  exists w1 w2 w', edit_file E os f s w = (Ok tt, w1) /\ edit_file E os f s' w1 = (Ok tt, w2) /\ edit_file E os f (joined_script s s') w = (Ok tt, w') /\
    (forall k, w_fs w2 k = w_fs w' k) /\ w_fs w' (canon os f) = Some t2.
Proof.
  intros X NF W F H H'. pose proof (scripts_joined_result E t s s' t1 t2 X F H H') as J.
  assert (F1 : fits t1).
  { unfold execute_script in H. destruct (parse_string s) as [p|m|] eqn:P; try discriminate. apply script_grammar in P. cbn [run_program] in H.
    destruct (eval E (default_env E) p (new_buffer t)) as [v b|x b| | |] eqn:Q; try discriminate H. injection H as <-.
    assert (M : machine b) by (eapply (from_lands E X); [exact (script_texts s p P)|apply (machine_begins t F)|exact Q]). apply M. }
  destruct (edit_file_succeeds E os f s w t t1 NF W F H) as (w1 & E1 & U1).
  destruct (edit_file_succeeds E os f s' w1 t1 t2 NF) as (w2 & E2 & U2); auto; [rewrite U1; apply upd_here|].
  destruct (edit_file_succeeds E os f (joined_script s s') w t t2 NF W F J) as (w' & E' & U').
  exists w1, w2, w'. repeat (split; [assumption|]). split.
  - intros k. rewrite U2, U'. destruct (list_eq_dec Byte.byte_eq_dec k (canon os f)) as [->|N]; [now rewrite !upd_here|]. rewrite !upd_else by exact N. rewrite U1. now apply upd_else.
  - rewrite U'. apply upd_here.
Qed.

(** without the line between, the second script begins where the first ended *)
Theorem just_appending_refuted : exists t s s' t1 t2 t3, execute_script ref_ext t s = Ok t1 /\ execute_script ref_ext t1 s' = Ok t2 /\
  execute_script ref_ext t (s ++ nl :: s') = Ok t3 /\ t3 <> t2.
Proof.
  exists (bs "b"), (bs "end-of-buffer"), (bs "insert ""a"""), (bs "b"), (bs "ab"), (bs "ba"). repeat (split; [vm_compute; reflexivity|]). discriminate.
Qed.
(** a second script that replaces without searching fails by itself, but not behind a search *)
Theorem joined_may_do_more_refuted : exists t s s' t1 m t2, execute_script ref_ext t s = Ok t1 /\ execute_script ref_ext t1 s' = Err m /\
  execute_script ref_ext t (joined_script s s') = Ok t2.
Proof.
  exists (bs "abc"), (bs "search-forward ""b"""), (bs "replace-match ""x"""), (bs "abc"). eexists. exists (bs "axc"). repeat (split; [vm_compute; reflexivity|]). vm_compute. reflexivity.
Qed.

(** ** Witness *)
Example joined_witness : execute_script ref_ext (bs "one two") (bs "search-forward ""two""; replace-match ""2""") = Ok (bs "one 2") /\
  execute_script ref_ext (bs "one 2") (bs "search-forward ""one""; replace-match ""1""") = Ok (bs "1 2") /\
  execute_script ref_ext (bs "one two") (joined_script (bs "search-forward ""two""; replace-match ""2""") (bs "search-forward ""one""; replace-match ""1""")) = Ok (bs "1 2").
Proof. repeat split; vm_compute; reflexivity. Qed.

(** ** Assumptions of every theorem above *)
Print Assumptions programs_joined.
Print Assumptions first_decides.
Print Assumptions joined_script_program.
Print Assumptions scripts_joined.
Print Assumptions scripts_joined_result.
Print Assumptions file_edited_once.
Print Assumptions just_appending_refuted.
Print Assumptions joined_may_do_more_refuted.
