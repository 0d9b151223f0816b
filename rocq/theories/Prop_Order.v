(** C92: the order in which files are edited, and editing them in several calls. *)
From Coq Require Import ZArith NArith List Bool Lia Strings.Byte Permutation.
From Verif Require Import Base Float Ext Utf8 Strconv Values Buffer Builtins Eval Parser Json Writer Files Cli SpecFiles RefExt
  Proofs_Base Proofs_Files Proofs_Order Prop_Files.
Import ListNotations.
Open Scope Z_scope.

(** ** C92 *)
(** On a disk that does not fail, different files may be given in any order: every file gets
    the same verdict with the same message, and the disk ends up the same. *)
Theorem files_in_any_order E os files files' script w rs w1 : no_faults os -> NoDup (map (canon os) files) -> Permutation files files' ->
  edit_files E os files script w = (Ok rs, w1) ->
  exists rs' w2, edit_files E os files' script w = (Ok rs', w2) /\ Permutation rs rs' /\ same (w_fs w1) (w_fs w2).
Proof. exact (loop_order os (fun c => execute_script E c script) files files' w rs w1). Qed.
Theorem files_in_any_order_fmt E os files files' script format w rs w1 : no_faults os -> NoDup (map (canon os) files) -> Permutation files files' ->
  edit_files_fmt E os files script format w = (Ok rs, w1) ->
  exists rs' w2, edit_files_fmt E os files' script format w = (Ok rs', w2) /\ Permutation rs rs' /\ same (w_fs w1) (w_fs w2).
Proof. exact (loop_order os (fun c => execute_script_fmt E c script format) files files' w rs w1). Qed.

(** Whatever the disk does and however often a file is named, editing the files of two lists
    in one call is editing those of the first and then those of the second, to the whole
    state of the world. *)
Theorem files_in_two_calls E os files files' script w rs w2 :
  edit_files E os (files ++ files') script w = (Ok rs, w2) <->
  exists rs1 w1 rs2, edit_files E os files script w = (Ok rs1, w1) /\ edit_files E os files' script w1 = (Ok rs2, w2) /\ rs = rs1 ++ rs2.
Proof. apply loop_app. Qed.
Theorem files_in_two_calls_fmt E os files files' script format w rs w2 :
  edit_files_fmt E os (files ++ files') script format w = (Ok rs, w2) <->
  exists rs1 w1 rs2, edit_files_fmt E os files script format w = (Ok rs1, w1) /\ edit_files_fmt E os files' script format w1 = (Ok rs2, w2) /\ rs = rs1 ++ rs2.
Proof. apply loop_app. Qed.

(** on a disk that fails, the order decides which file is hit *)
Theorem any_order_with_faults_refuted : exists os files files' script w rs w1 rs' w2, NoDup (map (canon os) files) /\ Permutation files files' /\
  edit_files ref_ext os files script w = (Ok rs, w1) /\ edit_files ref_ext os files' script w = (Ok rs', w2) /\
  ~ Permutation rs rs' /\ ~ same (w_fs w1) (w_fs w2).
Proof.
  pose (w := demo [(bs "f", bs "x"); (bs "g", bs "x")]). pose (s := bs "insert ""!""").
  exists (demo_fault 1), [bs "f"; bs "g"], [bs "g"; bs "f"], s, w.
  exists [mkResult (bs "f") (Some (bs "failed to write file f: disk full")); mkResult (bs "g") None], (snd (edit_files ref_ext (demo_fault 1) [bs "f"; bs "g"] s w)).
  exists [mkResult (bs "g") (Some (bs "failed to write file g: disk full")); mkResult (bs "f") None], (snd (edit_files ref_ext (demo_fault 1) [bs "g"; bs "f"] s w)).
  split; [repeat constructor; cbn; intuition discriminate|]. split; [apply perm_swap|].
  split; [apply pair_snd; vm_compute; reflexivity|]. split; [apply pair_snd; vm_compute; reflexivity|]. split.
  - intros P. apply Permutation_in with (x := mkResult (bs "g") None) in P; [|right; now left]. cbn in P. intuition discriminate.
  - intros H. specialize (H (bs "f")). vm_compute in H. discriminate H.
Qed.

(** two names of one file: the name that comes first has the success *)
Definition one_file : OS := {| canon := fun _ => bs "f"; os_read_err := fun _ => None; os_missing := fun _ => bs "no such file";
  os_open_err := fun _ => None; os_write_err := fun _ => None; os_stdin_err := fun _ => None; os_stdout_err := fun _ => None |}.
Theorem any_order_with_aliases_refuted : exists os files files' script w rs w1 rs' w2, no_faults os /\ Permutation files files' /\
  edit_files ref_ext os files script w = (Ok rs, w1) /\ edit_files ref_ext os files' script w = (Ok rs', w2) /\ ~ Permutation rs rs'.
Proof.
  pose (w := demo [(bs "f", bs "x")]). pose (s := bs "search-forward ""x""" ++ [nl] ++ bs "replace-match ""y""").
  pose (msg := bs "script execution failed: search failed (at instruction 0: (search-forward ""x""), point=1, mark=1)").
  exists one_file, [bs "f"; bs "./f"], [bs "./f"; bs "f"], s, w.
  exists [mkResult (bs "f") None; mkResult (bs "./f") (Some msg)], (snd (edit_files ref_ext one_file [bs "f"; bs "./f"] s w)).
  exists [mkResult (bs "./f") None; mkResult (bs "f") (Some msg)], (snd (edit_files ref_ext one_file [bs "./f"; bs "f"] s w)).
  split; [intros n; repeat split|]. split; [apply perm_swap|].
  split; [apply pair_snd; vm_compute; reflexivity|]. split; [apply pair_snd; vm_compute; reflexivity|].
  intros P. apply Permutation_in with (x := mkResult (bs "f") None) in P; [|now left]. cbn in P. intuition discriminate.
Qed.

(** three files, one of them missing, in two orders *)
Definition order_world : world := demo [(bs "f", bs "x"); (bs "g", bs "zz")].
Example order_witness : let s := bs "insert ""!""" in
  NoDup (map (canon demo_os) [bs "f"; bs "h"; bs "g"]) /\ no_faults demo_os /\
  fst (edit_files ref_ext demo_os [bs "f"; bs "h"; bs "g"] s order_world) =
    Ok [mkResult (bs "f") None; mkResult (bs "h") (Some (bs "failed to read file h: no such file")); mkResult (bs "g") None] /\
  fst (edit_files ref_ext demo_os [bs "h"; bs "g"; bs "f"] s order_world) =
    Ok [mkResult (bs "h") (Some (bs "failed to read file h: no such file")); mkResult (bs "g") None; mkResult (bs "f") None] /\
  w_fs (snd (edit_files ref_ext demo_os [bs "h"; bs "g"; bs "f"] s order_world)) (bs "g") = Some (bs "!zz").
Proof.
  split; [repeat constructor; cbn; intuition discriminate|]. split; [intros n; repeat split|].
  split; [vm_compute; reflexivity|]. split; vm_compute; reflexivity.
Qed.

(** ** Assumptions of every theorem above *)
Print Assumptions files_in_any_order.
Print Assumptions files_in_any_order_fmt.
Print Assumptions files_in_two_calls.
Print Assumptions files_in_two_calls_fmt.
Print Assumptions any_order_with_faults_refuted.
Print Assumptions any_order_with_aliases_refuted.
