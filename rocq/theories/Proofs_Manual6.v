(** Lemmas for C78, continued: the states and values of the machine stay among themselves. *)
From Coq Require Import ZArith NArith QArith List Bool Lia Strings.Byte ZifyBool.
From Verif Require Import Proofs_Round.
From Verif Require Import Base Float Ext Utf8 Strconv Values Buffer Builtins Eval Spec SpecNumber SpecLines SpecManual
  Proofs_Base Proofs_Loops Proofs_Exec Proofs_Float Proofs_Numeral Proofs_Utf8  Proofs_Unique Proofs_Safe Proofs_Chars
  Prop_Edit Prop_Lines Prop_Strings Prop_Regexp Prop_Numbers Prop_Words Prop_Calls Proofs_Manual Proofs_Manual2 Proofs_Manual3 Proofs_Manual4 Proofs_Manual5.
Import ListNotations.
Open Scope Z_scope.

Definition sound (b : buffer) (o : outcome value) : Prop :=
  match o with
  | Done v b' => machine b' /\ held [v]
  | Fail _ b' => b' = b
  | _ => True
  end.
Lemma held_text s : fits s -> held [VStr s].
Proof. intros F t [Q|[]]. now injection Q as <-. Qed.
Lemma held_sym n : held [VSym n].
Proof. intros t [Q|[]]. discriminate. Qed.
Lemma held_number z v : number z v -> held [v].
Proof. intros (f & -> & _) t [Q|[]]. discriminate. Qed.
Lemma machine_at b p : machine b -> int_ok p -> machine (at_point b p).
Proof. intros (F & P & K & A & Z) Q. repeat (split; [assumption|]). assumption. Qed.
Lemma machine_mark b p : machine b -> int_ok p -> machine (with_mark b p).
Proof. intros (F & P & K & A & Z) Q. repeat (split; [assumption|]). assumption. Qed.
Lemma machine_match b p m s e : machine b -> int_ok p -> int_ok s -> int_ok e -> machine (with_match b p m s e).
Proof. intros (F & P & K & A & Z) Q Q1 Q2. repeat (split; [assumption|]). assumption. Qed.
Lemma machine_text b t p : machine b -> fits t -> int_ok p -> machine (with_text b t p).
Proof. intros (F & P & K & A & Z) Q Q1. repeat (split; [assumption|]). assumption. Qed.
Lemma fine_sound b b' : machine b' -> sound b (fine b').
Proof. intros M. split; auto. apply held_text. unfold fits. cbn. facts. lia. Qed.
Lemma text_part b x y : machine b -> content b = x ++ y -> zlen x + zlen y <= max_alloc.
Proof. intros (F & _) C. rewrite C in F. unfold fits in F. revert F. autorewrite with zlen. lia. Qed.
Lemma small_ok z : -1 <= z <= max_alloc + 1 -> int_ok z.
Proof. facts. lia. Qed.
Lemma yes_sound P b o : machine b -> yes_if P b o -> sound b o.
Proof. intros M [[_ ->]|[_ ->]]; split; auto using held_sym. Qed.
Lemma gives_sound b t o : machine b -> gives b t o -> sound b o.
Proof. intros M [[F ->]|[_ ->]]; [split; auto using held_text|exact I]. Qed.
Lemma becomes_sound b t p o : machine b -> becomes b t p o -> (fits t -> int_ok p) -> sound b o.
Proof. intros M [[F ->]|[_ ->]] Q; [apply fine_sound, machine_text; auto|exact I]. Qed.
Lemma clamp_ok b p : machine b -> int_ok (clamp 1 (zlen (content b) + 1) p).
Proof. intros (F & _). pose proof (zlen_nonneg (content b)). unfold clamp. facts. lia. Qed.
Lemma piece_fits s a z t : fits s -> piece s a z t -> fits t.
Proof. intros F (u & v & -> & _). unfold fits in *. zl. Qed.
Lemma words_parts n s m r : passes_words n s m r -> s = m ++ r.
Proof. induction 1; auto. subst. now rewrite <- !app_assoc. Qed.
Lemma words_back_parts n s r m : passes_words_back n s r m -> s = r ++ m.
Proof. intros H. apply words_parts in H. rewrite <- rev_app_distr in H. apply (f_equal (@rev byte)) in H. now rewrite !rev_involutive in H. Qed.
Lemma lines_parts n s m r : passes_lines n s m r -> s = m ++ r.
Proof. induction 1; auto; subst; [now rewrite app_nil_r|]. now rewrite <- app_assoc. Qed.

(** lengths known from where point is *)
Ltac places := repeat match goal with
  | H : around ?b _ _ |- _ => apply around_content in H
  | H : up_to ?b _ _ |- _ => apply up_to_content in H
  | H : between ?b _ _ |- _ => destruct H as [H ?]
  | H : selected ?b _ _ _ |- _ => apply (region_machine b _ _ _ ltac:(assumption)) in H
  | H : passes_words _ _ _ _ |- _ => apply words_parts in H
  | H : passes_words_back _ _ _ _ |- _ => apply words_back_parts in H
  | H : passes_lines _ _ _ _ |- _ => apply lines_parts in H
  end; subst;
  try match goal with M : machine ?b, H : content ?b = _ ++ _ |- _ => pose proof (text_part _ _ _ M H) end.
Ltac bounds := first [assumption | apply small_ok | idtac]; unfold fits in *; places; zl.

Lemma number_sound b z v : machine b -> number z v -> sound b (Done v b).
Proof. intros M N. split; eauto using held_number. Qed.
Lemma text_sound b s : machine b -> fits s -> sound b (Done (VStr s) b).
Proof. intros M N. split; auto using held_text. Qed.
Lemma at_sound b p : machine b -> int_ok p -> sound b (fine (at_point b p)).
Proof. intros M N. apply fine_sound. now apply machine_at. Qed.
Lemma text_at_sound b t p : machine b -> fits t -> int_ok p -> sound b (fine (with_text b t p)).
Proof. intros M N Q. apply fine_sound. now apply machine_text. Qed.
Lemma match_sound b p m s e : machine b -> int_ok p -> int_ok s -> int_ok e -> sound b (fine (with_match b p m s e)).
Proof. intros M N Q R. apply fine_sound. now apply machine_match. Qed.
Ltac pt := apply at_sound; [assumption|]; bounds.
Ltac tx := apply text_at_sound; [assumption| |]; bounds.
Ltac mt := apply match_sound; [assumption| | |]; bounds.
Lemma manual_keeps E name args b o : manual E name args b o -> ext_ok E -> machine b -> held args -> sound b o.
Proof.
  intros H. destruct H; intros EO MA HE;
  try match goal with |- context [VStr ?s] => assert (fits s) by (apply HE; cbn [In]; auto) end.
  - reflexivity.
  - (* m_point *) eapply number_sound; eassumption.
  - (* m_mark *) eapply number_sound; eassumption.
  - (* m_point_min *) eapply number_sound; eassumption.
  - (* m_point_max *) eapply number_sound; eassumption.
  - (* m_buffer_size *) eapply number_sound; eassumption.
  - (* m_region_beginning *) eapply number_sound; eassumption.
  - (* m_region_end *) eapply number_sound; eassumption.
  - (* m_line_number *) eapply number_sound; eassumption.
  - (* m_column *) eapply number_sound; eassumption.
  - (* m_column_newline *) eapply number_sound; eassumption.
  - (* m_column_end *) eapply number_sound; eassumption.
  - (* m_column_early *) eapply number_sound; eassumption.
  - (* m_goto_char *) apply at_sound; auto using clamp_ok.
  - (* m_goto_line *) pt.
  - (* m_beginning_of_buffer *) apply at_sound; auto. easy.
  - (* m_end_of_buffer *) apply at_sound; auto. destruct MA as (F & _). facts. zl.
  - (* m_beginning_of_line *) pt.
  - (* m_beginning_of_last_line *) pt.
  - (* m_beginning_of_no_line *) apply at_sound; auto. easy.
  - (* m_beginning_of_line_early *) apply at_sound; auto. easy.
  - (* m_end_of_line *) pt.
  - (* m_forward_char *) apply at_sound; auto using clamp_ok.
  - (* m_backward_char *) apply at_sound; auto. destruct H0 as [I _]. facts. lia.
  - (* m_forward_word *) pt.
  - (* m_forward_word_stays *) now apply fine_sound.
  - (* m_forward_word_crash *) exact I.
  - (* m_backward_word *) pt.
  - (* m_backward_word_stays *) now apply fine_sound.
  - (* m_backward_word_crash *) exact I.
  - (* m_set_mark *) apply fine_sound. apply machine_mark; auto. apply MA.
  - (* m_set_mark_command *) apply fine_sound. apply machine_mark; auto. apply MA.
  - (* m_set_mark_command_at *) apply fine_sound. apply machine_mark; auto. now apply int_arg_ok in H.
  - (* m_exchange *) apply fine_sound. apply machine_mark; [apply machine_at; auto|]; apply MA.
  - (* m_mark_whole_buffer *) apply fine_sound. apply machine_mark; [apply machine_at; auto|easy]. destruct MA as (F & _). facts. zl.
  - (* m_mark_word *) apply fine_sound. apply machine_mark; [apply machine_at; auto|]; bounds.
  - (* m_mark_no_word *) now apply fine_sound.
  - (* m_mark_line *) apply fine_sound. apply machine_mark; [apply machine_at; auto|]; bounds.
  - (* m_mark_line_early *) apply fine_sound. apply machine_mark; auto. apply MA.
  - (* m_mark_line_crash *) exact I.
  - (* m_search_forward *) mt.
  - (* m_search_forward_fails *) reflexivity.
  - (* m_search_backward *) mt.
  - (* m_search_backward_fails *) reflexivity.
  - (* m_search_backward_early *) reflexivity.
  - (* m_re_search_forward *) mt.
  - (* m_re_search_forward_fails *) reflexivity.
  - (* m_re_search_forward_invalid *) reflexivity.
  - (* m_re_search_backward *) mt.
  - (* m_re_search_backward_fails *) reflexivity.
  - (* m_re_search_backward_invalid *) reflexivity.
  - (* m_re_search_backward_early *) reflexivity.
  - (* m_looking_at *) eapply yes_sound; eassumption.
  - (* m_looking_at_literal *) eapply yes_sound; eassumption.
  - (* m_looking_at_nothing *) split; auto using held_sym.
  - (* m_looking_back *) eapply yes_sound; eassumption.
  - (* m_looking_back_literal *) eapply yes_sound; eassumption.
  - (* m_looking_back_nothing *) split; auto using held_sym.
  - (* m_looking_back_late *) split; auto using held_sym.
  - (* m_looking_back_crash *) exact I.
  - (* m_insert *) eapply becomes_sound; [eassumption|eassumption|intros ?; bounds].
  - (* m_insert_front *) eapply becomes_sound; [eassumption|eassumption|]. intros _. apply H0.
  - (* m_insert_back *) eapply becomes_sound; [eassumption|eassumption|]. intros _. apply H0.
  - (* m_replace_match *) eapply becomes_sound; [eassumption|eassumption|intros ?; bounds].
  - (* m_replace_no_match *) reflexivity.
  - (* m_replace_lost_match *) reflexivity.
  - (* m_delete_region *) tx.
  - (* m_delete_nothing *) now apply fine_sound.
  - (* m_replace_region *) eapply becomes_sound; [eassumption|eassumption|intros ?; bounds].
  - (* m_replace_nothing *) now apply fine_sound.
  - (* m_delete_char *) tx.
  - (* m_delete_char_doubles *) eapply becomes_sound; [eassumption|eassumption|intros ?; bounds].
  - (* m_delete_char_crash *) exact I.
  - (* m_delete_no_char *) now apply fine_sound.
  - (* m_delete_backward_char *) tx.
  - (* m_delete_backward_all *) tx.
  - (* m_delete_backward_stays *) now apply fine_sound.
  - (* m_delete_backward_early *) now apply fine_sound.
  - (* m_delete_backward_late *) now apply fine_sound.
  - (* m_delete_backward_crash *) exact I.
  - (* m_kill_word *) tx.
  - (* m_kill_word_crash *) exact I.
  - (* m_backward_kill_word *) apply text_at_sound; [assumption| |bounds]. unfold fits. places. assert (zlen (tl after) <= zlen after) by (destruct after; cbn [tl]; zl). zl.
  - (* m_backward_kill_word_crash *) exact I.
  - (* m_delete_line *) tx.
  - (* m_delete_line_crash *) exact I.
  - (* m_kill_line *) tx.
  - (* m_kill_lines *) tx.
  - (* m_kill_no_line *) now apply fine_sound.
  - (* m_length *) eapply number_sound; eassumption.
  - (* m_concat *) eapply gives_sound; eassumption.
  - (* m_concat_kind *) reflexivity.
  - (* m_concat_kind_memory *) exact I.
  - (* m_substring *) apply text_sound; [assumption|]; eapply piece_fits; [|eassumption]; first [apply MA|apply HE; cbn [In]; auto].
  - (* m_substring_rest *) apply text_sound; [assumption|]; eapply piece_fits; [|eassumption]; first [apply MA|apply HE; cbn [In]; auto].
  - (* m_buffer_substring *) apply text_sound; [assumption|]; eapply piece_fits; [|eassumption]; first [apply MA|apply HE; cbn [In]; auto].
  - (* m_upcase *) eapply gives_sound; eassumption.
  - (* m_downcase *) eapply gives_sound; eassumption.
  - (* m_capitalize *) eapply gives_sound; eassumption.
  - (* m_capitalize_nothing *) now apply text_sound.
  - (* m_string_match *) eapply number_sound; eassumption.
  - (* m_string_match_none *) split; auto using held_sym.
  - (* m_string_match_literal *) eapply number_sound; eassumption.
  - (* m_string_match_literal_none *) split; auto using held_sym.
  - (* m_replace_regexp *) eapply gives_sound; eassumption.
  - (* m_replace_regexp_invalid *) reflexivity.
Qed.
