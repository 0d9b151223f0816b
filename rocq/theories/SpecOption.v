(** What the options of each command do, as documented by --help: a command line is read from
    left to right, each option changing what has been asked for so far. *)
From Coq Require Import ZArith NArith List Bool Strings.Byte.
From Verif Require Import Base Float Ext Utf8 Strconv Values Buffer Builtins Eval Parser Json Writer Files Cli Tools
  Testing Docs DocsData Flags TestCmd Serve CmdLine SpecCmd.
Import ListNotations.

Section Options.
Variable A : Type.
(** name, letter, effect *)
Variable switches : list (str * option byte * (bool -> A -> A)).      (* on or off *)
Variable values : list (str * option byte * (str -> A -> A)).         (* with a value *)
Variable collectors : list (str * option byte * (list str -> A -> A)). (* with values separated by commas *)

(** [an_option l u]: the arguments [l] are an option that changes what is asked for by [u] *)
Inductive an_option : list str -> (A -> A) -> Prop :=
| op_switch n c u : In (n, c, u) switches -> an_option [dash :: dash :: n] (u true)
| op_switch_letter n c u : In (n, Some c, u) switches -> an_option [[dash; c]] (u true)
| op_switch_value n c u v (b : bool) : In (n, c, u) switches -> In v (if b then yes else no) ->
    an_option [dash :: dash :: n ++ equals :: v] (u b)
| op_value n c u v : In (n, c, u) values -> an_option [dash :: dash :: n; v] (u v)
| op_value_equals n c u v : In (n, c, u) values -> an_option [dash :: dash :: n ++ equals :: v] (u v)
| op_value_letter n c u v : In (n, Some c, u) values -> an_option [[dash; c]; v] (u v)
| op_value_glued n c u v : In (n, Some c, u) values -> v <> [] -> (forall t, v <> equals :: t) -> an_option [dash :: c :: v] (u v)
| op_collector n c u v l : In (n, c, u) collectors -> string_slice [v] = CsvRecord l -> an_option [dash :: dash :: n; v] (u l)
| op_collector_letter n c u v l : In (n, Some c, u) collectors -> string_slice [v] = CsvRecord l -> an_option [[dash; c]; v] (u l).

(** [asks args a b files]: having been asked for [a], after [args] for [b], and for [files] *)
Inductive asks : list str -> A -> A -> list str -> Prop :=
| ak_nil a : asks [] a a []
| ak_end a files : asks ([dash; dash] :: files) a a files
| ak_file f l a b files : (forall t, f = dash :: t -> t = []) -> asks l a b files -> asks (f :: l) a b (f :: files)
| ak_option o u l a b files : an_option o u -> asks l (u a) b files -> asks (o ++ l) a b files.
End Options.

(** ** texted edit *)
Definition default_edit : edit_args := mkEditArgs (bs "shell") [] [] [] false [] [] false false false false false false (bs "shell") [].
Definition with_format v a := mkEditArgs v (a_script a) (a_script_file a) (a_expressions a) (a_in_place a) (a_output a) (a_backup a) (a_verbose a) (a_quiet a) (a_dry_run a) (a_shell a) (a_sexp a) (a_json a) (a_output_format a) (a_files a).
Definition with_script v a := mkEditArgs (a_format a) v (a_script_file a) (a_expressions a) (a_in_place a) (a_output a) (a_backup a) (a_verbose a) (a_quiet a) (a_dry_run a) (a_shell a) (a_sexp a) (a_json a) (a_output_format a) (a_files a).
Definition with_script_file v a := mkEditArgs (a_format a) (a_script a) v (a_expressions a) (a_in_place a) (a_output a) (a_backup a) (a_verbose a) (a_quiet a) (a_dry_run a) (a_shell a) (a_sexp a) (a_json a) (a_output_format a) (a_files a).
Definition with_more_expressions l a := mkEditArgs (a_format a) (a_script a) (a_script_file a) (a_expressions a ++ l) (a_in_place a) (a_output a) (a_backup a) (a_verbose a) (a_quiet a) (a_dry_run a) (a_shell a) (a_sexp a) (a_json a) (a_output_format a) (a_files a).
Definition with_in_place b a := mkEditArgs (a_format a) (a_script a) (a_script_file a) (a_expressions a) b (a_output a) (a_backup a) (a_verbose a) (a_quiet a) (a_dry_run a) (a_shell a) (a_sexp a) (a_json a) (a_output_format a) (a_files a).
Definition with_output v a := mkEditArgs (a_format a) (a_script a) (a_script_file a) (a_expressions a) (a_in_place a) v (a_backup a) (a_verbose a) (a_quiet a) (a_dry_run a) (a_shell a) (a_sexp a) (a_json a) (a_output_format a) (a_files a).
Definition with_backup v a := mkEditArgs (a_format a) (a_script a) (a_script_file a) (a_expressions a) (a_in_place a) (a_output a) v (a_verbose a) (a_quiet a) (a_dry_run a) (a_shell a) (a_sexp a) (a_json a) (a_output_format a) (a_files a).
Definition with_verbose b a := mkEditArgs (a_format a) (a_script a) (a_script_file a) (a_expressions a) (a_in_place a) (a_output a) (a_backup a) b (a_quiet a) (a_dry_run a) (a_shell a) (a_sexp a) (a_json a) (a_output_format a) (a_files a).
Definition with_quiet b a := mkEditArgs (a_format a) (a_script a) (a_script_file a) (a_expressions a) (a_in_place a) (a_output a) (a_backup a) (a_verbose a) b (a_dry_run a) (a_shell a) (a_sexp a) (a_json a) (a_output_format a) (a_files a).
Definition with_dry_run b a := mkEditArgs (a_format a) (a_script a) (a_script_file a) (a_expressions a) (a_in_place a) (a_output a) (a_backup a) (a_verbose a) (a_quiet a) b (a_shell a) (a_sexp a) (a_json a) (a_output_format a) (a_files a).
Definition with_shell b a := mkEditArgs (a_format a) (a_script a) (a_script_file a) (a_expressions a) (a_in_place a) (a_output a) (a_backup a) (a_verbose a) (a_quiet a) (a_dry_run a) b (a_sexp a) (a_json a) (a_output_format a) (a_files a).
Definition with_sexp b a := mkEditArgs (a_format a) (a_script a) (a_script_file a) (a_expressions a) (a_in_place a) (a_output a) (a_backup a) (a_verbose a) (a_quiet a) (a_dry_run a) (a_shell a) b (a_json a) (a_output_format a) (a_files a).
Definition with_json b a := mkEditArgs (a_format a) (a_script a) (a_script_file a) (a_expressions a) (a_in_place a) (a_output a) (a_backup a) (a_verbose a) (a_quiet a) (a_dry_run a) (a_shell a) (a_sexp a) b (a_output_format a) (a_files a).
Definition with_output_format v a := mkEditArgs (a_format a) (a_script a) (a_script_file a) (a_expressions a) (a_in_place a) (a_output a) (a_backup a) (a_verbose a) (a_quiet a) (a_dry_run a) (a_shell a) (a_sexp a) (a_json a) v (a_files a).
Definition on_files files a := mkEditArgs (a_format a) (a_script a) (a_script_file a) (a_expressions a) (a_in_place a) (a_output a) (a_backup a) (a_verbose a) (a_quiet a) (a_dry_run a) (a_shell a) (a_sexp a) (a_json a) (a_output_format a) files.
Definition edit_switches : list (str * option byte * (bool -> edit_args -> edit_args)) :=
  [(bs "in-place", Some "i"%byte, with_in_place); (bs "verbose", Some "v"%byte, with_verbose); (bs "quiet", Some "q"%byte, with_quiet);
   (bs "dry-run", Some "n"%byte, with_dry_run); (bs "shell", None, with_shell); (bs "sexp", None, with_sexp); (bs "json", None, with_json)].
Definition edit_values : list (str * option byte * (str -> edit_args -> edit_args)) :=
  [(bs "script", Some "s"%byte, with_script); (bs "file", Some "f"%byte, with_script_file); (bs "output", Some "o"%byte, with_output);
   (bs "backup", None, with_backup); (bs "format", None, with_format); (bs "output-format", None, with_output_format)].
Definition edit_collectors : list (str * option byte * (list str -> edit_args -> edit_args)) :=
  [(bs "expression", Some "e"%byte, with_more_expressions)].

(** ** texted test *)
Definition default_test : test_args := mkTestArgs [] [] false false false false.
Definition test_switches : list (str * option byte * (bool -> test_args -> test_args)) :=
  [(bs "verbose", Some "v"%byte, fun b a => mkTestArgs (ta_files a) (ta_include a) b (ta_quiet a) (ta_fail_only a) (ta_trace a));
   (bs "quiet", Some "q"%byte, fun b a => mkTestArgs (ta_files a) (ta_include a) (ta_verbose a) b (ta_fail_only a) (ta_trace a));
   (bs "fail-only", None, fun b a => mkTestArgs (ta_files a) (ta_include a) (ta_verbose a) (ta_quiet a) b (ta_trace a));
   (bs "trace", None, fun b a => mkTestArgs (ta_files a) (ta_include a) (ta_verbose a) (ta_quiet a) (ta_fail_only a) b)].
Definition test_collectors : list (str * option byte * (list str -> test_args -> test_args)) :=
  [(bs "include", Some "i"%byte, fun l a => mkTestArgs (ta_files a) (ta_include a ++ l) (ta_verbose a) (ta_quiet a) (ta_fail_only a) (ta_trace a))].
Definition test_on files a := mkTestArgs files (ta_include a) (ta_verbose a) (ta_quiet a) (ta_fail_only a) (ta_trace a).

(** ** texted parse: input format, output format *)
Definition parse_values : list (str * option byte * (str -> str * str -> str * str)) :=
  [(bs "input-format", None, fun v a => (v, snd a)); (bs "output-format", None, fun v a => (fst a, v))].
(** ** texted doc: category, summaries *)
Definition doc_values : list (str * option byte * (str -> str * bool -> str * bool)) := [(bs "category", None, fun v a => (v, snd a))].
Definition doc_switches : list (str * option byte * (bool -> str * bool -> str * bool)) := [(bs "verbose", Some "v"%byte, fun b a => (fst a, b))].
(** ** texted mcp: prefix *)
Definition mcp_values : list (str * option byte * (str -> str -> str)) := [(bs "prefix", None, fun v _ => v)].
