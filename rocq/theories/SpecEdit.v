(** What `texted edit` prints and reports, in every mode.  The operations of the operating
    system (reading, writing, printing) and the result of a script are taken as given; this
    file says which of them happen in which order, what is said about them, and what a
    failure is called. *)
From Coq Require Import ZArith NArith List Bool Strings.Byte.
From Verif Require Import Base Float Ext Utf8 Strconv Values Buffer Builtins Eval Parser Json Writer Files Cli SpecFiles.
Import ListNotations.
Open Scope Z_scope.

(** [s] has been printed *)
Definition told (s : str) (w : world) : world :=
  mkWorld (w_fs w) (w_seen w) (w_ops w) (w_stdin w) (w_stdin_read w) (w_stdout w ++ s).
(** the message of the first condition that holds *)
Inductive first_true : list (Prop * str) -> str -> Prop :=
| ft_here (P : Prop) m l : P -> first_true ((P, m) :: l) m
| ft_next (P : Prop) m l m' : ~ P -> first_true l m' -> first_true ((P, m) :: l) m'.
(** the formats there are *)
Definition formats : list str := [bs "shell"; bs "sexp"; bs "json"].
Definition must_be : str := bs " (must be shell, sexp, or json)".

Section Edit.
Variables (E : Ext) (os : OS) (a : edit_args).

(** remarks on progress are for --verbose, notices for everybody; --quiet silences both *)
Definition remark (s : str) : str := if a_quiet a then [] else if a_verbose a then s ++ [nl] else [].
Definition notice (s : str) : str := if a_quiet a then [] else s ++ [nl].

(** flags that make no sense, in the order in which they are complained about *)
Definition complaints (format : str) : list (Prop * str) :=
  [ (~ In format formats, bs "invalid script format: " ++ format ++ must_be);
    (a_output a <> [] /\ (2 <= length (a_files a))%nat, bs "--output can only be used with a single file");
    (a_backup a <> [] /\ a_in_place a = false, bs "--backup can only be used with --in-place");
    (a_output a <> [] /\ a_in_place a = true, bs "--output and --in-place cannot be used together") ].
Definition acceptable (format : str) : Prop := Forall (fun c => ~ fst c) (complaints format).

(** ** Steps *)
(** A text is handed from step to step. *)
Inductive step :=
| ReadFile (f : str)    (* replace the text by the contents of a file *)
| ReadInput             (* ... by standard input *)
| Script                (* ... by what the script makes of it *)
| SaveAs (f : str)      (* write the text to a file *)
| PrintText             (* ... to standard output *)
| Remark (s : str).     (* say what is going on *)
Definition with_text (t : str) (r : res unit * world) : res str * world :=
  (match fst r with Ok _ => Ok t | Err e => Err e | Crash c => Crash c end, snd r).
Definition step_done (format script : str) (s : step) (t : str) (w : world) : res str * world :=
  match s with
  | ReadFile f => os_read_file os f w
  | ReadInput => os_read_stdin os w
  | Script => (execute_script_fmt E t script format, w)
  | SaveAs f => with_text t (os_write_file os f t w)
  | PrintText => with_text t (os_write_stdout os t w)
  | Remark s => (Ok t, told (remark s) w)
  end.
(** [carried_out … l t w r w']: the steps one after the other, up to the first that fails;
    each comes with the words put in front of its error *)
Inductive carried_out (format script : str) : list (str * step) -> str -> world -> res str -> world -> Prop :=
| co_all t w : carried_out format script [] t w (Ok t) w
| co_next p s l t w t1 w1 r w2 : step_done format script s t w = (Ok t1, w1) -> carried_out format script l t1 w1 r w2 ->
    carried_out format script ((p, s) :: l) t w r w2
| co_fails p s l t w e w1 : step_done format script s t w = (Err e, w1) ->
    carried_out format script ((p, s) :: l) t w (Err (p ++ e)) w1
| co_dies p s l t w c w1 : step_done format script s t w = (Crash c, w1) ->
    carried_out format script ((p, s) :: l) t w (Crash c) w1.

(** ** Not in place *)
Definition destination : step := match a_output a with [] => PrintText | o => SaveAs o end.
Definition destination_name : str := match a_output a with [] => bs "stdout" | o => o end.
Definition filter_plan (format : str) : list (str * step) :=
  [(bs "reading stdin: ", ReadInput); ([], Remark (bs "Processing stdin with script in " ++ format ++ bs " format")); ([], Script)] ++
  match a_output a with [] => [] | o => [([], Remark (bs "Writing output to " ++ o))] end ++
  [([], destination)].
Definition file_plan (f : str) : list (str * step) :=
  [([], Remark (bs "Processing " ++ f ++ bs " -> " ++ destination_name));
   (bs "reading " ++ f ++ bs ": ", ReadFile f);
   (bs "processing " ++ f ++ bs ": ", Script);
   ([], destination)].

(** ** In place *)
Definition backup_plan (f : str) : list (str * step) :=
  match a_backup a with
  | [] => []
  | suffix =>
    [([], Remark (bs "Creating backup " ++ f ++ suffix));
     (bs "Failed to read " ++ f ++ bs " for backup: ", ReadFile f);
     (bs "Failed to create backup " ++ f ++ suffix ++ bs ": ", SaveAs (f ++ suffix))]
  end.
Definition in_place_plan (f : str) : list (str * step) :=
  [([], Remark (bs "Processing " ++ f ++ bs " in place"))] ++ backup_plan f ++
  [(bs "Failed to read " ++ f ++ bs ": ", ReadFile f);
   (bs "Failed to process " ++ f ++ bs ": ", Script);
   (bs "Failed to write " ++ f ++ bs ": ", SaveAs f)].
(** one verdict for each file, with its text; a file that fails does not stop the others *)
Inductive in_place (format script : str) : list str -> world -> list (str * bool) -> world -> Prop :=
| ip_nil w : in_place format script [] w [] w
| ip_edited f l w t w1 vs w2 : carried_out format script (in_place_plan f) [] w (Ok t) w1 ->
    in_place format script l (told (notice (bs "✓ Successfully edited " ++ f)) w1) vs w2 ->
    in_place format script (f :: l) w ((bs "✓ Successfully edited " ++ f, true) :: vs) w2
| ip_failed f l w m w1 vs w2 : carried_out format script (in_place_plan f) [] w (Err m) w1 ->
    in_place format script l (told (notice (bs "✗ " ++ m)) w1) vs w2 ->
    in_place format script (f :: l) w ((bs "✗ " ++ m, false) :: vs) w2.
(** ... unless the process is gone *)
Inductive in_place_dies (format script : str) : list str -> world -> crash -> world -> Prop :=
| id_here f l w c w1 : carried_out format script (in_place_plan f) [] w (Crash c) w1 -> in_place_dies format script (f :: l) w c w1
| id_later l l' w vs w1 c w2 : in_place format script l w vs w1 -> in_place_dies format script l' w1 c w2 -> in_place_dies format script (l ++ l') w c w2.

(** ** Expressions *)
(** [evaluated … source i l b out r]: the expressions [l], counted from [i] (the first is
    number 1), on one buffer; [out] is what is printed *)
Definition parsed_as (format e : str) : presult (list value) :=
  if list_eq_dec byte_eq_dec format (bs "json") then parse_json_string e else parse_string e.
Inductive evaluated (format source : str) : nat -> list str -> buffer -> str -> res unit -> Prop :=
| ex_none i b : evaluated format source i [] b [] (Ok tt)
| ex_unparsable i e l b m : parsed_as format e = PErr m ->
    evaluated format source i (e :: l) b
      (remark (bs "Evaluating expression " ++ itoa (Z.of_nat i) ++ bs " on " ++ source ++ bs ": " ++ e) ++
       notice (bs "Error parsing expression " ++ itoa (Z.of_nat i) ++ bs ": " ++ m))
      (Err (bs "parsing expression: " ++ m))
| ex_failing i e l b p x b1 : parsed_as format e = POk p -> eval E (default_env E) p b = EvError x b1 ->
    evaluated format source i (e :: l) b
      (remark (bs "Evaluating expression " ++ itoa (Z.of_nat i) ++ bs " on " ++ source ++ bs ": " ++ e) ++
       notice (bs "Error in expression " ++ itoa (Z.of_nat i) ++ bs ": " ++ exec_error_text E x))
      (Err (exec_error_text E x))
| ex_value i e l b p v b1 t out r : parsed_as format e = POk p -> eval E (default_env E) p b = EvDone v b1 ->
    (* with --quiet nothing is written, and the output format is not looked at *)
    a_quiet a = true \/ In (a_output_format a) formats /\
      (a_output_format a = bs "shell" /\ write_value E (bs "shell") (VList [v]) = POk t \/
       a_output_format a <> bs "shell" /\ write_value E (a_output_format a) v = POk t) ->
    evaluated format source (S i) l b1 out r ->
    evaluated format source i (e :: l) b
      (remark (bs "Evaluating expression " ++ itoa (Z.of_nat i) ++ bs " on " ++ source ++ bs ": " ++ e) ++ notice t ++ out) r
| ex_bad_format i e l b p v b1 : parsed_as format e = POk p -> eval E (default_env E) p b = EvDone v b1 ->
    a_quiet a = false -> ~ In (a_output_format a) formats ->
    evaluated format source i (e :: l) b
      (remark (bs "Evaluating expression " ++ itoa (Z.of_nat i) ++ bs " on " ++ source ++ bs ": " ++ e))
      (Err (bs "invalid output format: " ++ a_output_format a ++ must_be))
| ex_unwritable i e l b p v b1 m : parsed_as format e = POk p -> eval E (default_env E) p b = EvDone v b1 ->
    a_quiet a = false -> In (a_output_format a) formats ->
    (a_output_format a = bs "shell" /\ write_value E (bs "shell") (VList [v]) = PErr m \/
     a_output_format a <> bs "shell" /\ write_value E (a_output_format a) v = PErr m) ->
    evaluated format source i (e :: l) b
      (remark (bs "Evaluating expression " ++ itoa (Z.of_nat i) ++ bs " on " ++ source ++ bs ": " ++ e))
      (Err (bs "writing result: " ++ m))
| ex_dies i e l b p c : parsed_as format e = POk p ->
    (eval E (default_env E) p b = EvPanic /\ c = CrashPanic \/ eval E (default_env E) p b = EvOutOfMemory /\ c = CrashMemory) ->
    evaluated format source i (e :: l) b
      (remark (bs "Evaluating expression " ++ itoa (Z.of_nat i) ++ bs " on " ++ source ++ bs ": " ++ e)) (Crash c).
(** on each file, a fresh buffer; with several files, under its name *)
Inductive evaluated_on (format : str) : list str -> world -> res unit -> world -> Prop :=
| eo_none w : evaluated_on format [] w (Ok tt) w
| eo_unreadable f l w e w1 : os_read_file os f w = (Err e, w1) ->
    evaluated_on format (f :: l) w (Err (bs "reading " ++ f ++ bs ": " ++ e)) (told (notice (bs "Error reading " ++ f ++ bs ": " ++ e)) w1)
| eo_dies f l w c w1 : os_read_file os f w = (Crash c, w1) -> evaluated_on format (f :: l) w (Crash c) w1
| eo_stops f l w t w1 heading out r : os_read_file os f w = (Ok t, w1) ->
    heading = match a_files a with _ :: _ :: _ => notice (bs "=== " ++ f ++ bs " ===") | _ => [] end ->
    evaluated format f 1 (a_expressions a) (new_buffer t) out r -> r <> Ok tt ->
    evaluated_on format (f :: l) w r (told (heading ++ out) w1)
| eo_next f l w t w1 heading out r w2 : os_read_file os f w = (Ok t, w1) ->
    heading = match a_files a with _ :: _ :: _ => notice (bs "=== " ++ f ++ bs " ===") | _ => [] end ->
    evaluated format f 1 (a_expressions a) (new_buffer t) out (Ok tt) ->
    evaluated_on format l (told (heading ++ out) w1) r w2 ->
    evaluated_on format (f :: l) w r w2.

(** ** Dry runs *)
Definition would (f : str) : str :=
  remark (bs "Processing " ++ f ++ (if a_in_place a then bs " in place" else bs " -> " ++ destination_name)) ++
  notice (if a_in_place a then bs "Would edit " ++ f ++ bs " in place" ++ match a_backup a with [] => [] | s => bs " (backup to " ++ f ++ s ++ bs ")" end
          else bs "Would process " ++ f ++ bs " and write to " ++ destination_name).

(** ** The script *)
Inductive script_read (w : world) : res str -> world -> Prop :=
| sr_flag s : a_script_file a = [] -> a_script a = s -> s <> [] -> script_read w (Ok s) w
| sr_none : a_script_file a = [] -> a_script a = [] ->
    script_read w (Err (bs "either --script, --file, or --expression must be specified")) w
| sr_file f r w1 : a_script_file a = f -> f <> [] -> os_read_file os f w = (r, w1) -> (forall e, r <> Err e) -> script_read w r w1
| sr_unreadable f e w1 : a_script_file a = f -> f <> [] -> os_read_file os f w = (Err e, w1) ->
    script_read w (Err (bs "reading script file: " ++ e)) w1.

(** forget the text *)
Definition ending (r : res str) : res unit := match r with Ok _ => Ok tt | Err e => Err e | Crash c => Crash c end.

(** ** A run of texted edit *)
Inductive edit_run (w : world) : res unit -> world -> Prop :=
| er_refused format m : format_of a format -> first_true (complaints format) m -> edit_run w (Err m) w
| er_input_expressions format r w1 : format_of a format -> acceptable format -> a_expressions a <> [] -> a_files a = [] ->
    os_read_stdin os w = (r, w1) -> (forall t, r <> Ok t) ->
    edit_run w (match r with Err e => Err (bs "reading stdin: " ++ e) | r => ending r end) w1
| er_expressions_input format t out r w1 : format_of a format -> acceptable format -> a_expressions a <> [] -> a_files a = [] ->
    os_read_stdin os w = (Ok t, w1) -> evaluated format (bs "stdin") 1 (a_expressions a) (new_buffer t) out r ->
    edit_run w r (told out w1)
| er_expressions format r w1 : format_of a format -> acceptable format -> a_expressions a <> [] -> a_files a <> [] ->
    evaluated_on format (a_files a) w r w1 -> edit_run w r w1
| er_no_script format r w1 : format_of a format -> acceptable format -> a_expressions a = [] ->
    script_read w r w1 -> (forall s, r <> Ok s) -> edit_run w (ending r) w1
| er_several format s w1 : format_of a format -> acceptable format -> a_expressions a = [] -> script_read w (Ok s) w1 ->
    a_in_place a = false -> (2 <= length (a_files a))%nat ->
    edit_run w (Err (bs "multiple files require --in-place or --output flag")) w1
| er_dry_input format s w1 r w2 : format_of a format -> acceptable format -> a_expressions a = [] -> script_read w (Ok s) w1 ->
    a_dry_run a = true -> a_files a = [] -> os_read_stdin os w1 = (r, w2) ->
    edit_run w (match r with Err e => Err (bs "reading stdin: " ++ e) | r => ending r end)
      (match r with
       | Ok t => told (remark (bs "Processing stdin with script in " ++ format ++ bs " format") ++
                       notice (bs "Would process " ++ itoa (zlen t) ++ bs " bytes from stdin")) w2
       | _ => w2
       end)
| er_dry format s w1 : format_of a format -> acceptable format -> a_expressions a = [] -> script_read w (Ok s) w1 ->
    a_dry_run a = true -> a_files a <> [] -> (a_in_place a = false -> (length (a_files a) < 2)%nat) ->
    edit_run w (Ok tt) (told (flat_map would (a_files a)) w1)
| er_input format s w1 r w2 : format_of a format -> acceptable format -> a_expressions a = [] -> script_read w (Ok s) w1 ->
    a_dry_run a = false -> a_files a = [] -> carried_out format s (filter_plan format) [] w1 r w2 ->
    edit_run w (ending r) w2
| er_file format s w1 f r w2 : format_of a format -> acceptable format -> a_expressions a = [] -> script_read w (Ok s) w1 ->
    a_dry_run a = false -> a_in_place a = false -> a_files a = [f] -> carried_out format s (file_plan f) [] w1 r w2 ->
    edit_run w (ending r) w2
| er_in_place format s w1 vs w2 : format_of a format -> acceptable format -> a_expressions a = [] -> script_read w (Ok s) w1 ->
    a_dry_run a = false -> a_in_place a = true -> a_files a <> [] -> in_place format s (a_files a) w1 vs w2 ->
    edit_run w (if forallb snd vs then Ok tt else Err (bs "some files could not be edited")) w2
| er_in_place_dies format s w1 c w2 : format_of a format -> acceptable format -> a_expressions a = [] -> script_read w (Ok s) w1 ->
    a_dry_run a = false -> a_in_place a = true -> a_files a <> [] -> in_place_dies format s (a_files a) w1 c w2 ->
    edit_run w (Crash c) w2.
End Edit.

(** ** texted parse *)
Inductive parse_run (E : Ext) (os : OS) (from to : str) (w : world) : res unit -> world -> Prop :=
| pr_refused m :
    first_true [(~ In from formats, bs "invalid input format: " ++ from ++ must_be);
                (~ In to formats, bs "invalid output format: " ++ to ++ must_be)] m ->
    parse_run E os from to w (Err m) w
| pr_unread r w1 : In from formats -> In to formats -> os_read_stdin os w = (r, w1) -> (forall t, r <> Ok t) ->
    parse_run E os from to w (match r with Err e => Err (bs "parsing input: " ++ e) | r => ending r end) w1
| pr_unparsed t w1 m : In from formats -> In to formats -> os_read_stdin os w = (Ok t, w1) ->
    (from = bs "json" /\ parse_json_reader t = PErr m \/ from <> bs "json" /\ parse_string t = PErr m) ->
    parse_run E os from to w (Err (bs "parsing input: " ++ m)) w1
| pr_written t w1 p out err : In from formats -> In to formats -> os_read_stdin os w = (Ok t, w1) ->
    (from = bs "json" /\ parse_json_reader t = POk p \/ from <> bs "json" /\ parse_string t = POk p) ->
    write_program E to p = (out, err) ->
    parse_run E os from to w (match err with None => Ok tt | Some e => Err e end) (told out w1).
