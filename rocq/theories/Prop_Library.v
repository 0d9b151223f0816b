(** C91: what a script needs of the Go library. *)
From Coq Require Import ZArith NArith List Bool Lia Strings.Byte ZifyBool.
From Verif Require Import Base Float Ext Utf8 Strconv Values Parser Buffer Builtins Eval Files Spec SpecText SpecNumber SpecJson SpecLines SpecFiles SpecManual SpecMeaning SpecGrowth SpecLibrary
  Proofs_Base Proofs_Growth Proofs_Library Prop_Calls Prop_Safe Prop_Manual Prop_Meaning Prop_Words Prop_Growth RefExt Proofs_Ref.
Import ListNotations.
Open Scope Z_scope.

(** ** C91 *)

(** libraries that agree on what a program needs run it alike: regular expressions matter only
    to the six commands that take them, the case tables to three, the conversion of numbers to
    those that take numbers, and printable characters to names of no command *)
Theorem library_matters E E' p b : ext_ok E -> ext_ok E' -> Forall holds_texts p -> enough E E' (VList p) -> machine b ->
  eval E (default_env E) p b = eval E' (default_env E') p b.
Proof.
  intros X X' T N M. unfold eval, eval_with_trace. rewrite (from_agrees E E' X X' p p 0 (VStr []) b); auto. intros e I. now apply (enough_in E E' e p).
Qed.
(** so do scripts, as far as texts made and crashes go *)
Theorem library_matters_script E E' input s p : ext_ok E -> ext_ok E' -> SpecLines.script s p -> enough E E' (VList p) -> fits input ->
  (forall out, execute_script E input s = Ok out <-> execute_script E' input s = Ok out) /\
  (forall c, execute_script E input s = Crash c <-> execute_script E' input s = Crash c).
Proof.
  intros X X' S N F. unfold execute_script. rewrite (proj2 (script_grammar s p) S). cbn [run_program].
  rewrite (library_matters E E' p (new_buffer input) X X' (script_texts s p S) N (machine_begins input F)).
  destruct (eval E' (default_env E') p (new_buffer input)); split; intros; split; intros H; congruence || discriminate H.
Qed.
(** a script with none of these gives the same with every library *)
Theorem library_free E E' input s p : ext_ok E -> ext_ok E' -> SpecLines.script s p -> fits input ->
  ~ needs (patterned ++ cased ++ counted) (VList p) -> (forall n, mentions n (VList p) -> known n) ->
  forall out, execute_script E input s = Ok out <-> execute_script E' input s = Ok out.
Proof.
  intros X X' S F N K. apply (library_matters_script E E' input s p X X' S); auto.
  assert (L : forall names, (forall n, In n names -> In n (patterned ++ cased ++ counted)) -> ~ needs names (VList p)).
  { intros names I (n & J & M). apply N. exists n. auto. }
  split; [|split; [|split]]; intros H.
  - exfalso. revert H. apply L. intros n I. apply in_or_app. now left.
  - exfalso. revert H. apply L. intros n I. apply in_or_app. right. apply in_or_app. now left.
  - exfalso. revert H. apply L. intros n I. apply in_or_app. right. apply in_or_app. now right.
  - exfalso. destruct H as (n & M & Q). auto.
Qed.

(** each of the four does matter *)
Definition with_regexps (f : str -> option str) : Ext :=
  Build_Ext f (re_find ref_ext) (re_find_all ref_ext) (re_replace_all ref_ext) (uc_upper ref_ext) (uc_lower ref_ext) (uc_print ref_ext) (f2i_oob ref_ext).
Definition with_case (f : N -> N) : Ext :=
  Build_Ext (re_error ref_ext) (re_find ref_ext) (re_find_all ref_ext) (re_replace_all ref_ext) f (uc_lower ref_ext) (uc_print ref_ext) (f2i_oob ref_ext).
Definition with_print (f : N -> bool) : Ext :=
  Build_Ext (re_error ref_ext) (re_find ref_ext) (re_find_all ref_ext) (re_replace_all ref_ext) (uc_upper ref_ext) (uc_lower ref_ext) f (f2i_oob ref_ext).
Definition with_numbers (f : spec_float -> Z) : Ext :=
  Build_Ext (re_error ref_ext) (re_find ref_ext) (re_find_all ref_ext) (re_replace_all ref_ext) (uc_upper ref_ext) (uc_lower ref_ext) (uc_print ref_ext) f.
Theorem regexps_do_not_matter_refuted : exists E E' p b, ext_ok E /\ ext_ok E' /\ same_case E E' /\ same_numbers E E' /\ same_print E E' /\
  eval E (default_env E) p b <> eval E' (default_env E') p b.
Proof.
  exists (with_regexps (fun _ => None)), (with_regexps (fun _ => Some [])), [VList [VSym (bs "re-search-forward"); VStr (bs "a")]], (new_buffer (bs "x")).
  split; [destruct ref_ext_ok; now constructor|]. split; [destruct ref_ext_ok; now constructor|].
  split; [split; reflexivity|]. split; [intros f; reflexivity|]. split; [intros r; reflexivity|]. intros H. vm_compute in H. discriminate H.
Qed.
Theorem case_does_not_matter_refuted : exists E E' p b, ext_ok E /\ ext_ok E' /\ same_regexps E E' /\ same_numbers E E' /\ same_print E E' /\
  eval E (default_env E) p b <> eval E' (default_env E') p b.
Proof.
  exists (with_case (fun r => r)), (with_case (fun _ => 201%N)), [VList [VSym (bs "upcase"); VStr (bs "é")]], (new_buffer []).
  split; [destruct ref_ext_ok; now constructor|]. split; [destruct ref_ext_ok; now constructor|].
  split; [repeat split; reflexivity|]. split; [intros f; reflexivity|]. split; [intros r; reflexivity|]. intros H. vm_compute in H. discriminate H.
Qed.
Theorem numbers_do_not_matter_refuted : exists E E' p b, ext_ok E /\ ext_ok E' /\ same_regexps E E' /\ same_case E E' /\ same_print E E' /\
  eval E (default_env E) p b <> eval E' (default_env E') p b.
Proof.
  exists (with_numbers (fun _ => 1)), (with_numbers (fun _ => 2)), [VList [VSym (bs "goto-char"); VNum S754_nan]], (new_buffer (bs "abc")).
  split; [destruct ref_ext_ok; now constructor|]. split; [destruct ref_ext_ok; now constructor|].
  split; [repeat split; reflexivity|]. split; [split; reflexivity|]. split; [intros r; reflexivity|]. intros H. vm_compute in H. discriminate H.
Qed.
Theorem printing_does_not_matter_refuted : exists E E' p b, ext_ok E /\ ext_ok E' /\ same_regexps E E' /\ same_case E E' /\ same_numbers E E' /\
  eval E (default_env E) p b <> eval E' (default_env E') p b.
Proof.
  exists (with_print (fun _ => true)), (with_print (fun _ => false)), [VList [VSym (bs "é")]], (new_buffer []).
  split; [destruct ref_ext_ok; now constructor|]. split; [destruct ref_ext_ok; now constructor|].
  split; [repeat split; reflexivity|]. split; [split; reflexivity|]. split; [intros f; reflexivity|]. intros H. vm_compute in H. discriminate H.
Qed.

(** ** Witness *)
Definition free_text : str := bs "search-forward ""b""; replace-match (concat ""x"" ""y""); beginning-of-buffer; insert ""z""".
Definition free_program : list value :=
  [VList [VSym (bs "search-forward"); VStr (bs "b")]; VList [VSym (bs "replace-match"); VList [VSym (bs "concat"); VStr (bs "x"); VStr (bs "y")]];
   VList [VSym (bs "beginning-of-buffer")]; VList [VSym (bs "insert"); VStr (bs "z")]].
Example library_free_witness : SpecLines.script free_text free_program /\ ~ needs (patterned ++ cased ++ counted) (VList free_program) /\
  (forall n, mentions n (VList free_program) -> known n) /\ execute_script ref_ext (bs "abc") free_text = Ok (bs "zaxyc").
Proof.
  assert (D : forall n, mentions n (VList free_program) -> In n [bs "search-forward"; bs "replace-match"; bs "concat"; bs "beginning-of-buffer"; bs "insert"]).
  { intros n. unfold free_program. rewrite !mentions_cons. cbn [mentions In]. tauto. }
  split; [apply script_grammar; vm_compute; reflexivity|]. split; [|split].
  - intros (n & I & M). apply D in M. revert I M. generalize n. intros m. cbn [patterned cased counted app In].
    intros I M. repeat (destruct I as [<-|I]; [repeat (destruct M as [M|M]; [discriminate M|]); destruct M|]). destruct I.
  - intros n M. apply D in M.
    destruct M as [<-|[<-|[<-|[<-|[<-|[]]]]]];
      [exists "search-forward"%string|exists "replace-match"%string|exists "concat"%string|exists "beginning-of-buffer"%string|exists "insert"%string];
      eexists; (split; [|reflexivity]); cbn; repeat (first [left; reflexivity|right]).
  - vm_compute. reflexivity.
Qed.

(** ** Assumptions of every theorem above *)
Print Assumptions library_matters.
Print Assumptions library_matters_script.
Print Assumptions library_free.
Print Assumptions regexps_do_not_matter_refuted.
Print Assumptions case_does_not_matter_refuted.
Print Assumptions numbers_do_not_matter_refuted.
Print Assumptions printing_does_not_matter_refuted.
