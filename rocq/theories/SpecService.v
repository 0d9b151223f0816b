(** The functions of the package texted and the MCP server, from a request to its answer.
    Used to state C84; nothing of the model is used here except the data types and the
    operating system. *)
From Coq Require Import ZArith NArith List Bool Strings.Byte.
From Verif Require Import Base Float Ext Utf8 Values Buffer Eval Parser Json Files Cli Tools Testing Docs DocsData Serve
  Spec SpecText SpecNumber SpecJson SpecLines SpecRefuse SpecData SpecFiles SpecMeaning SpecEdit SpecDocs SpecPage SpecServe SpecProgram.
Import ListNotations.
Open Scope Z_scope.

(** ** Scripts in a format *)
(** [edited_in E format s t r]: the text [t] edited with the script [s] *)
Inductive edited_in (E : Ext) (format s t : str) : res str -> Prop :=
| ei_unknown : ~ In format SpecEdit.formats ->
    edited_in E format s t (Err (bs "invalid script format: " ++ format ++ bs " (must be shell, sexp, or json)"))
| ei_known r : In format SpecEdit.formats -> edited E (read_as format s) (misread format s) t r -> edited_in E format s t r.

(** ** Files, where [result t r] says what editing the text [t] comes to *)
Section Files.
Variables (os : OS) (result : str -> res str -> Prop).
Inductive file_edited (f : str) (w : world) : res unit -> world -> Prop :=
| fe_unread e w1 : os_read_file os f w = (Err e, w1) -> file_edited f w (Err (bs "failed to read file " ++ f ++ bs ": " ++ e)) w1
| fe_read_dies c w1 : os_read_file os f w = (Crash c, w1) -> file_edited f w (Crash c) w1
| fe_unedited t w1 e : os_read_file os f w = (Ok t, w1) -> result t (Err e) -> file_edited f w (Err e) w1
| fe_dies t w1 c : os_read_file os f w = (Ok t, w1) -> result t (Crash c) -> file_edited f w (Crash c) w1
| fe_unsaved t w1 t' e w2 : os_read_file os f w = (Ok t, w1) -> result t (Ok t') -> os_write_file os f t' w1 = (Err e, w2) ->
    file_edited f w (Err (bs "failed to write file " ++ f ++ bs ": " ++ e)) w2
| fe_save_dies t w1 t' c w2 : os_read_file os f w = (Ok t, w1) -> result t (Ok t') -> os_write_file os f t' w1 = (Crash c, w2) ->
    file_edited f w (Crash c) w2
| fe_saved t w1 t' w2 : os_read_file os f w = (Ok t, w1) -> result t (Ok t') -> os_write_file os f t' w1 = (Ok tt, w2) ->
    file_edited f w (Ok tt) w2.
(** all files, one after the other, whether or not one fails *)
Inductive files_edited : list str -> world -> res (list edit_result) -> world -> Prop :=
| fs_none w : files_edited [] w (Ok []) w
| fs_good f l w w1 rs w2 : file_edited f w (Ok tt) w1 -> files_edited l w1 (Ok rs) w2 -> files_edited (f :: l) w (Ok (mkResult f None :: rs)) w2
| fs_bad f l w e w1 rs w2 : file_edited f w (Err e) w1 -> files_edited l w1 (Ok rs) w2 -> files_edited (f :: l) w (Ok (mkResult f (Some e) :: rs)) w2
| fs_dies f l w c w1 : file_edited f w (Crash c) w1 -> files_edited (f :: l) w (Crash c) w1
| fs_dies_later f l w r w1 c w2 : file_edited f w r w1 -> (forall c', r <> Crash c') -> files_edited l w1 (Crash c) w2 -> files_edited (f :: l) w (Crash c) w2.
Definition all_well (rs : list edit_result) : Prop := forall r, In r rs -> r_err r = None.
(** [k] rounds in which no file fails *)
Inductive rounds_well (l : list str) : nat -> world -> world -> Prop :=
| rw_none w : rounds_well l 0 w w
| rw_more k w w1 rs w2 : rounds_well l k w w1 -> files_edited l w1 (Ok rs) w2 -> all_well rs -> rounds_well l (S k) w w2.
(** all rounds up to the first in which a file fails, the [n]-th; [loops = false]: one round *)
Inductive edited_all (l : list str) (w : world) : bool -> res (list edit_result * Z) -> world -> Prop :=
| ea_once rs w1 : files_edited l w (Ok rs) w1 -> edited_all l w false (Ok (rs, 1)) w1
| ea_dies c w1 : files_edited l w (Crash c) w1 -> edited_all l w false (Crash c) w1
| ea_loop k w1 rs w2 : rounds_well l k w w1 -> files_edited l w1 (Ok rs) w2 -> ~ all_well rs -> edited_all l w true (Ok (rs, Z.of_nat k + 1)) w2
| ea_loop_dies k w1 c w2 : rounds_well l k w w1 -> files_edited l w1 (Crash c) w2 -> edited_all l w true (Crash c) w2.
(** no round in which a file fails *)
Definition endless (l : list str) (w : world) : Prop := forall k, exists w1, rounds_well l k w w1.
End Files.

(** ** The report: first the files edited, then the files not edited *)
Inductive sorted_out : list edit_result -> str -> str -> Prop :=
| so_none : sorted_out [] [] []
| so_good f rs g b : sorted_out rs g b -> sorted_out (mkResult f None :: rs) ((bs "✓ Successfully edited " ++ f ++ [nl]) ++ g) b
| so_bad f e rs g b : sorted_out rs g b -> sorted_out (mkResult f (Some e) :: rs) g ((bs "✗ Failed to edit " ++ f ++ bs ": " ++ e ++ [nl]) ++ b).
Inductive edit_reported (rs : list edit_result) (n : Z) : str -> Prop :=
| er_well tn g b : all_well rs -> int_text tn n -> sorted_out rs g b ->
    edit_reported rs n (bs "All files edited successfully after " ++ tn ++ bs " iterations:" ++ [nl] ++ g)
| er_errors tn g b : ~ all_well rs -> int_text tn n -> sorted_out rs g b ->
    edit_reported rs n (bs "Completed with errors after " ++ tn ++ bs " iterations:" ++ [nl] ++ g ++ b).

(** ** Requests *)
(** an argument that is a string; otherwise the default is taken *)
Inductive string_arg (a : arguments) (key default : str) : str -> Prop :=
| sa_given s : a key = Some (JStr s) -> string_arg a key default s
| sa_not : (forall s, a key <> Some (JStr s)) -> string_arg a key default default.
Definition flag_arg (a : arguments) (key : str) (b : bool) : Prop := b = true <-> exists j, a key = Some j /\ says_yes j.
Inductive evaluated (E : Ext) (input s : str) : str -> res tool_result -> Prop :=
| ev_text t : edited E (script s) (bad_script s) input (Ok t) -> evaluated E input s (bs "buffer") (Ok (ToolText t))
| ev_no_text e : edited E (script s) (bad_script s) input (Err e) -> evaluated E input s (bs "buffer") (Ok (ToolError (bs "script execution failed: " ++ e)))
| ev_dies c : edited E (script s) (bad_script s) input (Crash c) -> evaluated E input s (bs "buffer") (Crash c)
| ev_value r : valued E (script s) (bad_script s) input r -> evaluated E input s (bs "expression") r.
Inductive answered_by : res tool_result -> res response -> Prop :=
| ab_answer t : answered_by (Ok t) (Ok (Answer t))
| ab_crash c : answered_by (Crash c) (Crash c).
(** [call_does E os p q w r w']: the request [q] to the server with the prefix [p] *)
Inductive call_does (E : Ext) (os : OS) (p : str) (q : request) (w : world) : res response -> world -> Prop :=
| cd_unknown : ~ In (r_tool q) (map (app p) tool_bases) ->
    call_does E os p q w (Ok (Protocol (bs "tool '" ++ r_tool q ++ bs "' not found: tool not found"))) w
| cd_wrong quotes m : (forall s, quoted E s (quotes s)) -> wrong_request quotes p q m -> call_does E os p q w (Ok (Answer (ToolError m))) w
| cd_edit s f l loops rs n w1 t : r_tool q = p ++ bs "edit_file" -> r_args q (bs "script") = Some (JStr s) ->
    gives_strings (r_args q) (bs "files") (f :: l) -> flag_arg (r_args q) (bs "loopUntilError") loops ->
    edited_all os (edited E (script s) (bad_script s)) (f :: l) w loops (Ok (rs, n)) w1 -> edit_reported rs n t ->
    call_does E os p q w (Ok (Answer (ToolText t))) w1
| cd_edit_dies s f l loops c w1 : r_tool q = p ++ bs "edit_file" -> r_args q (bs "script") = Some (JStr s) ->
    gives_strings (r_args q) (bs "files") (f :: l) -> flag_arg (r_args q) (bs "loopUntilError") loops ->
    edited_all os (edited E (script s) (bad_script s)) (f :: l) w loops (Crash c) w1 -> call_does E os p q w (Crash c) w1
| cd_eval input s mode r x : r_tool q = p ++ bs "texted_eval" -> r_args q (bs "input") = Some (JStr input) ->
    r_args q (bs "script") = Some (JStr s) -> string_arg (r_args q) (bs "output") (bs "buffer") mode -> evaluated E input s mode r -> answered_by r x ->
    call_does E os p q w x w
| cd_doc name cat v t : r_tool q = p ++ bs "texted_doc" -> string_arg (r_args q) (bs "function_name") [] name ->
    string_arg (r_args q) (bs "category") [] cat -> flag_arg (r_args q) (bs "verbose") v -> tool_answers registered name cat v t ->
    call_does E os p q w (Ok (Answer t)) w.
(** the request is never answered *)
Definition call_hangs (E : Ext) (os : OS) (p : str) (q : request) (w : world) : Prop :=
  exists s f l, r_tool q = p ++ bs "edit_file" /\ r_args q (bs "script") = Some (JStr s) /\ gives_strings (r_args q) (bs "files") (f :: l) /\
    flag_arg (r_args q) (bs "loopUntilError") true /\ endless os (edited E (script s) (bad_script s)) (f :: l) w.

(** ** Sessions: the requests one after the other, to the end or to a crash *)
Inductive session_does (E : Ext) (os : OS) (p : str) : list request -> world -> list response -> option crash -> world -> Prop :=
| sd_end w : session_does E os p [] w [] None w
| sd_crash q l w c w1 : call_does E os p q w (Crash c) w1 -> session_does E os p (q :: l) w [] (Some c) w1
| sd_next q l w r w1 rs c w2 : call_does E os p q w (Ok r) w1 -> session_does E os p l w1 rs c w2 -> session_does E os p (q :: l) w (r :: rs) c w2.
(** the same request, answered while Go uses some map orders *)
Definition same_request (q q' : request) : Prop := exists o, possible o /\ q' = mkRequest (r_tool q) (r_args q) o.
(** the text of every request fits into memory *)
Definition sized (q : request) : Prop := forall s, r_args q (bs "input") = Some (JStr s) -> fits s.
