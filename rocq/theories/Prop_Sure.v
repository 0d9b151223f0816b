(** C88: scripts that succeed on every text they have room for. *)
From Coq Require Import ZArith NArith QArith List Bool Lia Strings.Byte ZifyBool.
From Verif Require Import Base Float Ext Utf8 Strconv Values Parser Buffer Builtins Eval Files Tools Spec SpecText SpecNumber SpecJson SpecLines SpecFiles SpecRefuse SpecManual SpecMeaning SpecGrowth SpecKinds SpecSure
  Proofs_Base Proofs_Files Proofs_Json Proofs_Effects Proofs_Meaning Proofs_Growth Proofs_Kinds Prop_Calls Prop_Safe Prop_Manual Prop_Meaning Prop_Files Prop_Tools Prop_Words Prop_Growth Prop_Kinds RefExt Proofs_Ref.
Import ListNotations.
Open Scope Z_scope.

(** ** C88 *)

(** a reliable program finishes, or there is too little memory for what it writes *)
Theorem reliable_program E p b : ext_ok E -> Forall holds_texts p -> machine b -> valid_pos (content b) (point b) -> reliable E p ->
  (exists v b', eval E (default_env E) p b = EvDone v b' /\ good b' /\ zlen (content b') <= limit p (zlen (content b))) \/
  eval E (default_env E) p b = EvOutOfMemory /\ max_alloc < limit p (zlen (content b)).
Proof.
  intros X T M V (O & C & H & B). assert (G : good b) by (destruct M as (F & _ & K & _); repeat split; auto; apply V || apply K).
  pose proof (harmless_programs_are_safe E p b X H G) as S. pose proof (program_growth E p b X M T B) as L.
  destruct (eval E (default_env E) p b) as [v b'|x b'| | |] eqn:Q; try contradiction.
  - left. exists v, b'. split; auto. split; [exact S|]. destruct v; cbn [bytes_of] in L; try lia. pose proof (zlen_nonneg s). lia.
  - now apply (certain_never_fails E p b x b') in Q.
  - right. auto.
Qed.
Theorem reliable_script E input s p : ext_ok E -> fits input -> SpecLines.script s p -> reliable E p ->
  (exists out, execute_script E input s = Ok out /\ zlen out <= limit p (zlen input)) \/
  execute_script E input s = Crash CrashMemory /\ max_alloc < limit p (zlen input).
Proof.
  intros X F S R. pose proof (reliable_program E p (new_buffer input) X (script_texts s p S) (machine_begins input F)) as H.
  change (content (new_buffer input)) with input in H. unfold execute_script. rewrite (proj2 (script_grammar s p) S). cbn [run_program].
  destruct H as [(v & b & -> & _ & L)|[-> L]]; auto.
  - unfold valid_pos. change (point (new_buffer input)) with 1. pose proof (zlen_nonneg input). lia.
  - left. eauto.
Qed.
(** with enough memory it succeeds on every text; no faults of the text are left to find by
    running it *)
Theorem reliable_succeeds E input s p : ext_ok E -> SpecLines.script s p -> reliable E p -> fits input -> limit p (zlen input) <= max_alloc ->
  exists out, execute_script E input s = Ok out /\ zlen out <= limit p (zlen input).
Proof. intros X S R F L. destruct (reliable_script E input s p X F S R) as [H|[_ H]]; [exact H|lia]. Qed.
(** without copying it is enough that text and script together are not too long *)
Theorem reliable_frugal_succeeds E input s p : ext_ok E -> SpecLines.script s p -> reliable E p -> frugal p -> zlen input + 3 * zlen s <= max_alloc ->
  exists out, execute_script E input s = Ok out /\ zlen out <= zlen input + 3 * zlen s.
Proof.
  intros X S R Fr L. pose proof (zlen_nonneg s) as Z. assert (F : fits input) by (unfold fits; lia).
  destruct (reliable_script E input s p X F S R) as [(out & Q & _)|[Q _]].
  - exists out. split; auto. now apply (script_growth E input s p out X F S Fr).
  - now apply (script_has_room E input s p X S Fr L) in Q.
Qed.

(** and so does editing any number of different files, on a disk without faults *)
Theorem reliable_files E os files s p w : ext_ok E -> SpecLines.script s p -> reliable E p -> no_faults os -> NoDup (map (canon os) files) ->
  (forall f, In f files -> exists c, w_fs w (canon os f) = Some c /\ fits c /\ limit p (zlen c) <= max_alloc) ->
  exists w', edit_files E os files s w = (Ok (map (fun f => mkResult f None) files), w') /\
    (forall f, In f files -> exists c out, w_fs w (canon os f) = Some c /\ execute_script E c s = Ok out /\ w_fs w' (canon os f) = Some out) /\
    (forall k, ~ In k (map (canon os) files) -> w_fs w' k = w_fs w k).
Proof.
  intros X S R NF. revert w. induction files as [|f fs IH]; intros w ND F.
  - exists w. repeat split; auto. intros f [].
  - cbn [map] in ND. inversion ND as [|? ? N ND']; subst. destruct (F f (or_introl eq_refl)) as (c & Fc & L & M).
    destruct (reliable_succeeds E c s p X S R L M) as (out & Q & _). destruct (edit_file_succeeds E os f s w c out NF Fc L Q) as (w1 & Ed & Sm).
    assert (K : forall k, k <> canon os f -> w_fs w1 k = w_fs w k) by (intros k Hk; rewrite Sm; now apply upd_else).
    destruct (IH w1 ND') as (w2 & Q2 & D2 & K2).
    { intros g I. destruct (F g (or_intror I)) as (d & Fd & Hd). exists d. split; auto. rewrite K; auto. intros H. apply N. rewrite <- H. now apply in_map. }
    exists w2. split; [|split].
    + unfold edit_files in *. cbn [edit_loop map]. unfold io_try. rewrite Ed. unfold io_bind, io_ret. now rewrite Q2.
    + intros g [<-|I].
      * exists c, out. split; auto. split; auto. rewrite K2 by exact N. rewrite Sm. apply upd_here.
      * destruct (D2 g I) as (d & o & Fd & Hd). exists d, o. split; auto. rewrite <- K; auto. intros H. apply N. rewrite <- H. now apply in_map.
    + intros k I. cbn [map In] in I. rewrite K2 by tauto. apply K. intros ->. tauto.
Qed.
(** the tool then reports that all files were edited *)
Theorem reliable_tool E os fuel files s p w : ext_ok E -> SpecLines.script s p -> reliable E p -> no_faults os -> files <> [] -> NoDup (map (canon os) files) ->
  (forall f, In f files -> exists c, w_fs w (canon os f) = Some c /\ fits c /\ limit p (zlen c) <= max_alloc) ->
  exists w', edit_file_handler E os fuel (mkEditRequest (Some s) (Some files) false) w =
    Some (Ok (ToolText (bs "All files edited successfully after 1 iterations:" ++ [nl] ++ flat_map (fun f => bs "✓ Successfully edited " ++ f ++ [nl]) files)), w').
Proof.
  intros X S R NF NE ND F. destruct (reliable_files E os files s p w X S R NF ND F) as (w' & Q & _). exists w'.
  unfold edit_file_handler. cbn [q_script q_files q_loop]. destruct files as [|f fs]; [congruence|]. rewrite Q. do 4 f_equal.
  unfold edit_report. assert (E0 : existsb failed (map (fun f => mkResult f None) (f :: fs)) = false).
  { apply not_true_iff_false. intros H. apply existsb_exists in H as (x & I & H). apply in_map_iff in I as (g & <- & _). discriminate. }
  rewrite E0. rewrite (flat_map_concat_map ok_line), map_map, <- flat_map_concat_map. reflexivity.
Qed.

(** memory is a real condition: a reliable program of 49 instructions for which there is
    never enough *)
Theorem reliable_always_succeeds_refuted E : ext_ok E -> exists p, reliable E p /\ zlen p = 49 /\
  forall s, s <> [] -> fits s -> eval E (default_env E) p (new_buffer s) = EvOutOfMemory.
Proof.
  intros X. exists (repeat double 49). split; [|split; [reflexivity|]].
  - assert (A : forall P : value -> Prop, P double -> forall k, Forall P (repeat double k)) by (intros P H k; apply Forall_forall; intros x I; apply repeat_spec in I; now subst).
    assert (K : forall n m args, called n (VList (VSym m :: args)) -> n = m \/ exists a, In a args /\ called n a).
    { intros n m args C. inversion C as [|h l a I C']; subst; [now left|right; eauto]. }
    split; [apply A; exists (Some KString); apply kind_of_iff; reflexivity|]. split; [apply A|split; [apply A|]].
    + intros name I C. apply K in C as [C|(a & [<-|[]] & C)]; [|apply K in C as [C|(a & [<-|[<-|[]]] & C)]; [|inversion C|inversion C]];
        cbn in I; repeat (destruct I as [<-|I]; [discriminate C|]); exact I.
    + unfold double. repeat (apply Forall_cons || apply Forall_nil || apply harmless_number || apply harmless_list); left; intros s I; cbn in I; repeat (destruct I as [<-|I]; [discriminate|]); destruct I.
    + unfold bounded. assert (H : forall k, ~ mentions (bs "replace-regexp-in-string") (VList (repeat double k))).
      { induction k as [|k IH]; [intros []|]. cbn [repeat]. rewrite mentions_cons. intros [H|H]; [|now apply IH].
        revert H. clear. unfold double. rewrite !mentions_cons. cbn [mentions].
        assert (Q1 : bs "insert" <> bs "replace-regexp-in-string") by discriminate.
        assert (Q2 : bs "buffer-substring" <> bs "replace-regexp-in-string") by discriminate. tauto. }
      apply H.
  - intros s N F. apply (doubling E s 49 X F). destruct s as [|c s]; [congruence|]. rewrite zlen_cons. pose proof (zlen_nonneg s).
    change (2 ^ Z.of_nat 49) with 562949953421312. change max_alloc with 281474976710656. lia.
Qed.

(** ** Witness *)
Definition sure_text : str := bs "goto-char (point-max); insert ""x""".
Definition sure_program : list value := [VList [VSym (bs "goto-char"); VList [VSym (bs "point-max")]]; VList [VSym (bs "insert"); VStr (bs "x")]].
Example reliable_witness : SpecLines.script sure_text sure_program /\ reliable ref_ext sure_program /\ limit sure_program 3 = 4 /\
  execute_script ref_ext (bs "abc") sure_text = Ok (bs "abcx").
Proof.
  split; [apply script_grammar; vm_compute; reflexivity|]. split; [|split; vm_compute; reflexivity].
  destruct certain_witness as (_ & O & C & _). split; [exact O|]. split; [exact C|]. split.
  - unfold sure_program. repeat (apply Forall_cons || apply Forall_nil || apply harmless_string || apply harmless_list); left; intros s I; cbn in I; repeat (destruct I as [<-|I]; [discriminate|]); destruct I.
  - unfold bounded, sure_program. rewrite !mentions_cons. cbn [mentions]. intros H.
    repeat match goal with H : _ \/ _ |- _ => destruct H as [H|H] end; discriminate || contradiction.
Qed.

(** ** Assumptions of every theorem above *)
Print Assumptions reliable_program.
Print Assumptions reliable_script.
Print Assumptions reliable_succeeds.
Print Assumptions reliable_frugal_succeeds.
Print Assumptions reliable_files.
Print Assumptions reliable_tool.
Print Assumptions reliable_always_succeeds_refuted.
