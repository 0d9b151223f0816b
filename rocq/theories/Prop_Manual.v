(** C78: the manual of the commands is exactly what the commands do. *)
From Coq Require Import ZArith NArith QArith List Bool Lia Strings.Byte ZifyBool.
From Verif Require Import Proofs_Round.
From Verif Require Import Base Float Ext Utf8 Strconv Values Buffer Builtins Eval Spec SpecNumber SpecLines SpecManual
  Proofs_Base Proofs_Exec Proofs_Float Proofs_Manual4 Proofs_Manual5 Proofs_Manual6 RefExt Proofs_Ref.
Import ListNotations.
Open Scope Z_scope.

(** ** C78 *)

(** for every command, every list of arguments and every state of the machine: the call has
    the outcome that the manual gives, and no other *)
Theorem manual_exact E name args b o : ext_ok E -> machine b -> held args -> (exists s, In (name, s) signatures) ->
  (call E name args b = o <-> manual E name args b o).
Proof.
  intros X M A N. split; [|intros H; now apply manual_right].
  intros <-. destruct (manual_total E name args b X M A N) as [o H]. now rewrite (manual_right _ _ _ _ _ H X M A).
Qed.

(** the manual leaves nothing open *)
Theorem manual_one_outcome E name args b o o' : ext_ok E -> machine b -> held args ->
  manual E name args b o -> manual E name args b o' -> o = o'.
Proof. intros X M A H H'. now rewrite <- (manual_right _ _ _ _ _ H X M A), <- (manual_right _ _ _ _ _ H' X M A). Qed.
Theorem manual_complete E name args b : ext_ok E -> machine b -> held args -> (exists s, In (name, s) signatures) ->
  exists o, manual E name args b o.
Proof. apply manual_total. Qed.

(** the states of the machine are all that are ever reached: editing begins in one and no call leaves them *)
Theorem machine_begins s : fits s -> machine (new_buffer s).
Proof. intros F. split; [exact F|]. repeat split; cbv; discriminate. Qed.
Theorem machine_kept E name args b : ext_ok E -> machine b -> held args -> (exists s, In (name, s) signatures) ->
  match call E name args b with
  | Done v b' => machine b' /\ held [v]
  | Fail _ b' => b' = b
  | Panic | OutOfMemory => True
  | Diverge => False
  end.
Proof.
  intros X M A N. destruct (manual_total E name args b X M A N) as [o H].
  rewrite (manual_right _ _ _ _ _ H X M A). pose proof (manual_keeps _ _ _ _ _ H X M A) as K.
  destruct o; auto. inversion H;
  match goal with H : becomes _ _ _ _ |- _ => destruct H as [[_ Q]|[_ Q]]; discriminate | H : gives _ _ _ |- _ => destruct H as [[_ Q]|[_ Q]]; discriminate
   | H : yes_if _ _ _ |- _ => destruct H as [[_ Q]|[_ Q]]; discriminate end.
Qed.

(** a point that has left the text: what the manual says about it *)
Definition strayed : buffer := mkBuffer (bs "one two") 101 1 [] 0 0.
Lemma strayed_machine : machine strayed.
Proof. split; [cbv; discriminate|]. repeat split; cbv; discriminate. Qed.
Lemma strayed_late : late strayed. Proof. left. reflexivity. Qed.
Example strays : call ref_ext "backward-char" [VInt (-100)] (new_buffer (bs "one two")) = fine strayed.
Proof.
  apply manual_exact; [apply ref_ext_ok|apply machine_begins; cbv; discriminate|intros s [Q|[]]; discriminate|eexists; cbn; eauto 60|].
  apply (m_backward_char ref_ext (new_buffer (bs "one two")) [VInt (-100)] (-100) 101).
  - apply count_lit. lia.
  - split; [split; cbv; discriminate|]. now exists 0.
Qed.
Example stray_insert : manual ref_ext "insert" [VStr (bs "!")] strayed (fine (mkBuffer (bs "one two!") 102 1 [] 0 0)).
Proof.
  apply (m_insert_back ref_ext strayed (bs "!") 102); [reflexivity|split; [split; cbv; discriminate|now exists 0]|].
  left. split; [cbv; discriminate|reflexivity].
Qed.
Example stray_kill : manual ref_ext "kill-word" [] strayed Panic.
Proof. apply (m_kill_word_crash ref_ext strayed [] 1); [now left|right; apply strayed_late]. Qed.
Example stray_search : manual ref_ext "search-backward" [VStr (bs "o")] strayed
  (fine (mkBuffer (bs "one two") 8 1 (bs "o") 7 8)).
Proof.
  apply (m_search_backward ref_ext strayed (bs "o") (bs "one tw") [] []).
  - right. repeat split. left. reflexivity.
  - intros i Q (u & v & Q1 & Q2). assert (L : zlen (u ++ bs "o" ++ v) = 7) by (rewrite <- Q1; reflexivity).
    revert L. autorewrite with zlen. change (zlen (bs "o")) with 1. change (zlen (bs "one tw")) with 6 in Q. pose proof (zlen_nonneg v). lia.
Qed.
Example four_arguments : manual ref_ext "substring" [VStr (bs "abc"); VInt 1; VInt 2; VInt 3] strayed
  (Fail (bs "substring expects 2 or 3 arguments, got 4") strayed).
Proof.
  apply m_refused, substring_count; [now right|]. exists (bs "4"). split; [|reflexivity].
  exists (bs "4"), 4. repeat split; try discriminate; [|now left].
  apply (dv_snoc [] 0 "4"%byte 4); [constructor|reflexivity].
Qed.

(** ** Assumptions of every theorem above *)
Print Assumptions manual_exact.
Print Assumptions manual_one_outcome.
Print Assumptions manual_complete.
Print Assumptions machine_begins.
Print Assumptions machine_kept.
