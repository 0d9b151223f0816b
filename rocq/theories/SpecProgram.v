(** The program texted, from its arguments to its exit status.  SpecEdit says which steps
    texted edit takes and takes the result of a script as given; here it is given by the
    meaning of scripts (SpecMeaning) and the form of results (SpecWrite).  Used to state C83;
    nothing of the model is used here except the data types, the operating system, and what
    texted takes from outside ([outer]). *)
From Coq Require Import ZArith NArith List Bool Strings.Byte.
From Verif Require Import Base Float Ext Utf8 Values Buffer Eval Parser Files Cli Tools Testing Docs DocsData Flags TestCmd CmdLine
  Spec SpecText SpecNumber SpecJson SpecLines SpecRefuse SpecData SpecFiles SpecMeaning SpecWrite SpecEdit SpecTrial SpecPage SpecFlags SpecCmd SpecUsage.
Import ListNotations.
Open Scope Z_scope.

(** ** Scripts and expressions *)
(** [read_as format s p]: [s] in the format stands for the program [p]; [misread]: for none *)
Inductive read_as (format s : str) (p : list value) : Prop :=
| ra_json : format = bs "json" -> json_script s p -> read_as format s p
| ra_other : format <> bs "json" -> script s p -> read_as format s p.
Inductive misread (format s m : str) : Prop :=
| mr_json : format = bs "json" -> script_flaw s m -> misread format s m
| mr_other : format <> bs "json" -> bad_script s m -> misread format s m.

Section Edit.
Variables (E : Ext) (os : OS) (a : edit_args).

(** ** Steps *)
(** [handled format s x t w r w']: the step [x] with the script [s] and the text [t] *)
Inductive handled (format s : str) : step -> str -> world -> res str -> world -> Prop :=
| hd_read f t w r w1 : os_read_file os f w = (r, w1) -> handled format s (ReadFile f) t w r w1
| hd_input t w r w1 : os_read_stdin os w = (r, w1) -> handled format s ReadInput t w r w1
| hd_script t w r : edited E (read_as format s) (misread format s) t r -> handled format s Script t w r w
| hd_saved f t w w1 : os_write_file os f t w = (Ok tt, w1) -> handled format s (SaveAs f) t w (Ok t) w1
| hd_unsaved f t w e w1 : os_write_file os f t w = (Err e, w1) -> handled format s (SaveAs f) t w (Err e) w1
| hd_save_dies f t w c w1 : os_write_file os f t w = (Crash c, w1) -> handled format s (SaveAs f) t w (Crash c) w1
| hd_printed t w w1 : os_write_stdout os t w = (Ok tt, w1) -> handled format s PrintText t w (Ok t) w1
| hd_unprinted t w e w1 : os_write_stdout os t w = (Err e, w1) -> handled format s PrintText t w (Err e) w1
| hd_print_dies t w c w1 : os_write_stdout os t w = (Crash c, w1) -> handled format s PrintText t w (Crash c) w1
| hd_remark x t w : handled format s (Remark x) t w (Ok t) (told (remark a x) w).
(** the steps one after the other, up to the first that fails *)
Inductive followed (format s : str) : list (str * step) -> str -> world -> res str -> world -> Prop :=
| fw_all t w : followed format s [] t w (Ok t) w
| fw_next p x l t w t1 w1 r w2 : handled format s x t w (Ok t1) w1 -> followed format s l t1 w1 r w2 ->
    followed format s ((p, x) :: l) t w r w2
| fw_fails p x l t w e w1 : handled format s x t w (Err e) w1 -> followed format s ((p, x) :: l) t w (Err (p ++ e)) w1
| fw_dies p x l t w c w1 : handled format s x t w (Crash c) w1 -> followed format s ((p, x) :: l) t w (Crash c) w1.

(** ** In place *)
Inductive replaced (format s : str) : list str -> world -> list (str * bool) -> world -> Prop :=
| rl_nil w : replaced format s [] w [] w
| rl_edited f l w t w1 vs w2 : followed format s (in_place_plan a f) [] w (Ok t) w1 ->
    replaced format s l (told (notice a (bs "✓ Successfully edited " ++ f)) w1) vs w2 ->
    replaced format s (f :: l) w ((bs "✓ Successfully edited " ++ f, true) :: vs) w2
| rl_failed f l w m w1 vs w2 : followed format s (in_place_plan a f) [] w (Err m) w1 ->
    replaced format s l (told (notice a (bs "✗ " ++ m)) w1) vs w2 ->
    replaced format s (f :: l) w ((bs "✗ " ++ m, false) :: vs) w2.
Inductive replacing_dies (format s : str) : list str -> world -> crash -> world -> Prop :=
| rd_here f l w c w1 : followed format s (in_place_plan a f) [] w (Crash c) w1 -> replacing_dies format s (f :: l) w c w1
| rd_later l l' w vs w1 c w2 : replaced format s l w vs w1 -> replacing_dies format s l' w1 c w2 -> replacing_dies format s (l ++ l') w c w2.

(** ** Expressions *)
(** the value of an expression is written in the output format; as a line of the shell form
    it is taken for a list of one *)
Definition value_line (v : value) (r : presult str) : Prop :=
  a_output_format a = bs "shell" /\ writes E (bs "shell") (VList [v]) r \/
  a_output_format a <> bs "shell" /\ writes E (a_output_format a) v r.
Definition begun (source : str) (i : nat) (e : str) (out : str) : Prop := exists n, int_text n (Z.of_nat i) /\
  out = remark a (bs "Evaluating expression " ++ n ++ bs " on " ++ source ++ bs ": " ++ e).
(** [answered format source i l b out r]: the expressions [l], the first of them number [i],
    on one buffer *)
Inductive answered (format source : str) : nat -> list str -> buffer -> str -> res unit -> Prop :=
| aw_none i b : answered format source i [] b [] (Ok tt)
| aw_unreadable i n e l b m h : begun source i e h -> int_text n (Z.of_nat i) -> misread format e m ->
    answered format source i (e :: l) b (h ++ notice a (bs "Error parsing expression " ++ n ++ bs ": " ++ m)) (Err (bs "parsing expression: " ++ m))
| aw_failing i n e l b h before x rest v b1 msg b2 m : begun source i e h -> int_text n (Z.of_nat i) ->
    read_as format e (before ++ x :: rest) -> sequence E before b v b1 -> means E x b1 (Fail msg b2) -> complaint E msg (zlen before) x b2 m ->
    answered format source i (e :: l) b (h ++ notice a (bs "Error in expression " ++ n ++ bs ": " ++ m)) (Err m)
| aw_quiet i e l b h p v b1 out r : begun source i e h -> read_as format e p -> sequence E p b v b1 -> a_quiet a = true ->
    answered format source (S i) l b1 out r -> answered format source i (e :: l) b (h ++ out) r
| aw_value i e l b h p v b1 t out r : begun source i e h -> read_as format e p -> sequence E p b v b1 -> a_quiet a = false ->
    In (a_output_format a) SpecEdit.formats -> value_line v (POk t) -> answered format source (S i) l b1 out r ->
    answered format source i (e :: l) b (h ++ (t ++ [nl]) ++ out) r
| aw_bad_format i e l b h p v b1 : begun source i e h -> read_as format e p -> sequence E p b v b1 -> a_quiet a = false ->
    ~ In (a_output_format a) SpecEdit.formats ->
    answered format source i (e :: l) b h (Err (bs "invalid output format: " ++ a_output_format a ++ must_be))
| aw_unwritable i e l b h p v b1 m : begun source i e h -> read_as format e p -> sequence E p b v b1 -> a_quiet a = false ->
    In (a_output_format a) SpecEdit.formats -> value_line v (PErr m) ->
    answered format source i (e :: l) b h (Err (bs "writing result: " ++ m))
| aw_crash i e l b h before x rest v b1 : begun source i e h -> read_as format e (before ++ x :: rest) -> sequence E before b v b1 ->
    means E x b1 Panic -> answered format source i (e :: l) b h (Crash CrashPanic)
| aw_memory i e l b h before x rest v b1 : begun source i e h -> read_as format e (before ++ x :: rest) -> sequence E before b v b1 ->
    means E x b1 OutOfMemory -> answered format source i (e :: l) b h (Crash CrashMemory).
Definition heading (f : str) : str := match a_files a with _ :: _ :: _ => notice a (bs "=== " ++ f ++ bs " ===") | _ => [] end.
Inductive answered_on (format : str) : list str -> world -> res unit -> world -> Prop :=
| ao_none w : answered_on format [] w (Ok tt) w
| ao_unreadable f l w e w1 : os_read_file os f w = (Err e, w1) ->
    answered_on format (f :: l) w (Err (bs "reading " ++ f ++ bs ": " ++ e)) (told (notice a (bs "Error reading " ++ f ++ bs ": " ++ e)) w1)
| ao_dies f l w c w1 : os_read_file os f w = (Crash c, w1) -> answered_on format (f :: l) w (Crash c) w1
| ao_stops f l w t w1 out r : os_read_file os f w = (Ok t, w1) -> answered format f 1 (a_expressions a) (new_buffer t) out r -> r <> Ok tt ->
    answered_on format (f :: l) w r (told (heading f ++ out) w1)
| ao_next f l w t w1 out r w2 : os_read_file os f w = (Ok t, w1) -> answered format f 1 (a_expressions a) (new_buffer t) out (Ok tt) ->
    answered_on format l (told (heading f ++ out) w1) r w2 -> answered_on format (f :: l) w r w2.

(** ** A run of texted edit *)
(** without input *)
Definition unread (r : res str) (x : res unit) : Prop :=
  (exists e, r = Err e /\ x = Err (bs "reading stdin: " ++ e)) \/ (exists c, r = Crash c /\ x = Crash c).
Inductive edit_does (w : world) : res unit -> world -> Prop :=
| ed_flags format m : format_of a format -> first_true (complaints a format) m -> edit_does w (Err m) w
| ed_no_input format r x w1 : format_of a format -> acceptable a format -> a_expressions a <> [] -> a_files a = [] ->
    os_read_stdin os w = (r, w1) -> unread r x -> edit_does w x w1
| ed_expressions_input format t out r w1 : format_of a format -> acceptable a format -> a_expressions a <> [] -> a_files a = [] ->
    os_read_stdin os w = (Ok t, w1) -> answered format (bs "stdin") 1 (a_expressions a) (new_buffer t) out r ->
    edit_does w r (told out w1)
| ed_expressions format r w1 : format_of a format -> acceptable a format -> a_expressions a <> [] -> a_files a <> [] ->
    answered_on format (a_files a) w r w1 -> edit_does w r w1
| ed_no_script format r w1 : format_of a format -> acceptable a format -> a_expressions a = [] ->
    script_read os a w r w1 -> (forall s, r <> Ok s) -> edit_does w (ending r) w1
| ed_several format s w1 : format_of a format -> acceptable a format -> a_expressions a = [] -> script_read os a w (Ok s) w1 ->
    a_in_place a = false -> (2 <= length (a_files a))%nat ->
    edit_does w (Err (bs "multiple files require --in-place or --output flag")) w1
| ed_dry_no_input format s w1 r x w2 : format_of a format -> acceptable a format -> a_expressions a = [] -> script_read os a w (Ok s) w1 ->
    a_dry_run a = true -> a_files a = [] -> os_read_stdin os w1 = (r, w2) -> unread r x -> edit_does w x w2
| ed_dry_input format s w1 t n w2 : format_of a format -> acceptable a format -> a_expressions a = [] -> script_read os a w (Ok s) w1 ->
    a_dry_run a = true -> a_files a = [] -> os_read_stdin os w1 = (Ok t, w2) -> int_text n (zlen t) ->
    edit_does w (Ok tt) (told (remark a (bs "Processing stdin with script in " ++ format ++ bs " format") ++
                              notice a (bs "Would process " ++ n ++ bs " bytes from stdin")) w2)
| ed_dry format s w1 : format_of a format -> acceptable a format -> a_expressions a = [] -> script_read os a w (Ok s) w1 ->
    a_dry_run a = true -> a_files a <> [] -> (a_in_place a = false -> (length (a_files a) < 2)%nat) ->
    edit_does w (Ok tt) (told (flat_map (would a) (a_files a)) w1)
| ed_input format s w1 r w2 : format_of a format -> acceptable a format -> a_expressions a = [] -> script_read os a w (Ok s) w1 ->
    a_dry_run a = false -> a_files a = [] -> followed format s (filter_plan a format) [] w1 r w2 ->
    edit_does w (ending r) w2
| ed_file format s w1 f r w2 : format_of a format -> acceptable a format -> a_expressions a = [] -> script_read os a w (Ok s) w1 ->
    a_dry_run a = false -> a_in_place a = false -> a_files a = [f] -> followed format s (file_plan a f) [] w1 r w2 ->
    edit_does w (ending r) w2
| ed_in_place format s w1 vs w2 : format_of a format -> acceptable a format -> a_expressions a = [] -> script_read os a w (Ok s) w1 ->
    a_dry_run a = false -> a_in_place a = true -> a_files a <> [] -> replaced format s (a_files a) w1 vs w2 ->
    edit_does w (if forallb snd vs then Ok tt else Err (bs "some files could not be edited")) w2
| ed_in_place_dies format s w1 c w2 : format_of a format -> acceptable a format -> a_expressions a = [] -> script_read os a w (Ok s) w1 ->
    a_dry_run a = false -> a_in_place a = true -> a_files a <> [] -> replacing_dies format s (a_files a) w1 c w2 ->
    edit_does w (Crash c) w2.
(** a script in JSON grows while it is read; this says that there is room for it *)
Definition roomy (w : world) : Prop := format_of a (bs "json") ->
  Forall (fun e => 3 * zlen e <= max_alloc) (a_expressions a) /\ forall s w1, script_read os a w (Ok s) w1 -> 3 * zlen s <= max_alloc.
End Edit.

(** ** texted parse *)
Inductive parse_does (E : Ext) (os : OS) (from to : str) (w : world) : res unit -> world -> Prop :=
| pd_flags m :
    first_true [(~ In from SpecEdit.formats, bs "invalid input format: " ++ from ++ must_be);
                (~ In to SpecEdit.formats, bs "invalid output format: " ++ to ++ must_be)] m ->
    parse_does E os from to w (Err m) w
| pd_unread e w1 : In from SpecEdit.formats -> In to SpecEdit.formats -> os_read_stdin os w = (Err e, w1) ->
    parse_does E os from to w (Err (bs "parsing input: " ++ e)) w1
| pd_dies c w1 : In from SpecEdit.formats -> In to SpecEdit.formats -> os_read_stdin os w = (Crash c, w1) ->
    parse_does E os from to w (Crash c) w1
| pd_flaw t w1 m : In from SpecEdit.formats -> In to SpecEdit.formats -> os_read_stdin os w = (Ok t, w1) -> not_standing from t m ->
    parse_does E os from to w (Err (bs "parsing input: " ++ m)) w1
| pd_written t w1 p out : In from SpecEdit.formats -> In to SpecEdit.formats -> os_read_stdin os w = (Ok t, w1) -> stands from t p ->
    prints E to p out None -> parse_does E os from to w (Ok tt) (told out w1)
| pd_unwritten t w1 p out m : In from SpecEdit.formats -> In to SpecEdit.formats -> os_read_stdin os w = (Ok t, w1) -> stands from t p ->
    prints E to p out (Some m) -> parse_does E os from to w (Err m) (told out w1).

(** ** Options *)
(** a yes/no flag is on if the last word about it says so *)
Definition switched (s : list setting) (name : str) (b : bool) : Prop :=
  b = true <-> exists v, set_to s name (bs "false") v /\ In v yes.
(** a list flag collects what all its values list *)
Inductive lists (v : str) : list str -> Prop :=
| ls_empty : v = [] -> lists v []
| ls_record u k rest fs : v <> [] -> unix_text v u -> u = repeat x0a k ++ rest -> (exists c r, rest = c :: r /\ c <> x0a) -> csv_record rest fs ->
    lists v fs.
Definition collected (s : list setting) (name : str) (l : list str) : Prop :=
  exists vs ls, all_set name s vs /\ Forall2 lists vs ls /\ l = concat ls.
Definition edit_options (s : list setting) (files : list str) (a : edit_args) : Prop :=
  set_to s (bs "format") (bs "shell") (a_format a) /\ set_to s (bs "script") [] (a_script a) /\ set_to s (bs "file") [] (a_script_file a) /\
  collected s (bs "expression") (a_expressions a) /\ switched s (bs "in-place") (a_in_place a) /\ set_to s (bs "output") [] (a_output a) /\
  set_to s (bs "backup") [] (a_backup a) /\ switched s (bs "verbose") (a_verbose a) /\ switched s (bs "quiet") (a_quiet a) /\
  switched s (bs "dry-run") (a_dry_run a) /\ switched s (bs "shell") (a_shell a) /\ switched s (bs "sexp") (a_sexp a) /\
  switched s (bs "json") (a_json a) /\ set_to s (bs "output-format") (bs "shell") (a_output_format a) /\ files = a_files a.
Definition test_options (s : list setting) (files : list str) (a : test_args) : Prop :=
  files = ta_files a /\ collected s (bs "include") (ta_include a) /\ switched s (bs "verbose") (ta_verbose a) /\
  switched s (bs "quiet") (ta_quiet a) /\ switched s (bs "fail-only") (ta_fail_only a) /\ switched s (bs "trace") (ta_trace a).

(** ** The program *)
Definition commands : list (str * list flag) :=
  [(bs "edit", edit_flags); (bs "parse", parse_flags); (bs "test", test_flags); (bs "doc", doc_flags); (bs "mcp", mcp_flags)].
(** what is not left to the command line library *)
Definition for_texted (args : list str) : Prop := forall name rest, args = name :: rest ->
  name <> [] /\ (forall t, name <> dash :: t) /\ ~ In name [bs "help"; bs "completion"; bs "__complete"; bs "__completeNoDesc"].
Inductive ended : res unit -> res exit -> Prop :=
| en_fine : ended (Ok tt) (Ok (mkExit 0 None))
| en_error e : ended (Err e) (Ok (mkExit 1 (Some e)))
| en_crash c : ended (Crash c) (Crash c).
(** [ready flags args s files]: the arguments say [s], and do not ask for help *)
Definition ready (flags : list flag) (args : list str) (s : list setting) (files : list str) : Prop :=
  says flags args s files /\ switched s (bs "help") false.
(** [texted_does E os o args w x w']: the program run with the arguments [args] *)
Inductive texted_does (E : Ext) (os : OS) (o : outer) : list str -> world -> res exit -> world -> Prop :=
| te_nothing w : texted_does E os o [] w (Ok (mkExit 0 None)) (told (o_help o []) w)
| te_unknown name args q w : ~ In name (map fst commands) -> quoted E name q ->
    texted_does E os o (name :: args) w (Ok (mkExit 1 (Some (bs "unknown command " ++ q ++ bs " for ""texted""")))) w
| te_mistyped name flags args m w : In (name, flags) commands -> args_flaw E flags args m ->
    texted_does E os o (name :: args) w (Ok (mkExit 1 (Some m))) w
| te_help name flags args s files w : In (name, flags) commands -> says flags args s files -> switched s (bs "help") true ->
    texted_does E os o (name :: args) w (Ok (mkExit 0 None)) (told (o_help o name) w)
| te_edit args s files a w r w1 x : ready edit_flags args s files -> edit_options s files a -> edit_does E os a w r w1 -> ended r x ->
    texted_does E os o (bs "edit" :: args) w x w1
| te_parse args s files from to w r w1 x : ready parse_flags args s files -> set_to s (bs "input-format") (bs "shell") from ->
    set_to s (bs "output-format") (bs "sexp") to -> parse_does E os from to w r w1 -> ended r x ->
    texted_does E os o (bs "parse" :: args) w x w1
| te_test args s files a w z w1 : ready test_flags args s files -> test_options s files a ->
    tests_run (o_decode o) E os a (o_glob o) w (Ok z) w1 -> texted_does E os o (bs "test" :: args) w (Ok (mkExit z None)) w1
| te_test_dies args s files a w c w1 : ready test_flags args s files -> test_options s files a ->
    tests_run (o_decode o) E os a (o_glob o) w (Crash c) w1 -> texted_does E os o (bs "test" :: args) w (Crash c) w1
| te_doc args s names cat v w t : ready doc_flags args s names -> set_to s (bs "category") [] cat -> switched s (bs "verbose") v ->
    command_answers (o_title o) registered cat v names (Ok t) -> texted_does E os o (bs "doc" :: args) w (Ok (mkExit 0 None)) (told t w)
| te_doc_not args s names cat v w r x : ready doc_flags args s names -> set_to s (bs "category") [] cat -> switched s (bs "verbose") v ->
    command_answers (o_title o) registered cat v names r -> (forall t, r <> Ok t) -> ended (ending r) x ->
    texted_does E os o (bs "doc" :: args) w x w
| te_mcp args s files prefix w r w1 x : ready mcp_flags args s files -> set_to s (bs "prefix") [] prefix -> o_serve o prefix w = (r, w1) ->
    ended r x -> texted_does E os o (bs "mcp" :: args) w x w1.
(** there is room for the script of texted edit *)
Definition room_for (os : OS) (args : list str) (w : world) : Prop := forall rest s files a, args = bs "edit" :: rest -> says edit_flags rest s files ->
  edit_options s files a -> roomy os a w.
