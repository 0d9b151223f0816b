(** What the documentation tool and the documentation command answer, line by line.
    Used to state C77; nothing here is used by the model. *)
From Coq Require Import ZArith NArith List Bool Permutation Sorted Strings.Byte.
From Verif Require Import Base Float Ext Utf8 Strconv Values Files Tools Docs Spec SpecLines SpecDocs.
Import ListNotations.
Open Scope Z_scope.

(** ** Lines *)
(** [in_lines ls t]: the text [t] consists of the lines [ls] (a line may itself be a paragraph) *)
Inductive in_lines : list str -> str -> Prop :=
| il_end : in_lines [] []
| il_line l ls t : in_lines ls t -> in_lines (l :: ls) (l ++ nl :: t).
Definition empty_line : str := [].

(** [cut_off full t]: the white space at the end of [full] is gone from [t] *)
Definition cut_off (full t : str) : Prop :=
  (exists ws, Forall (fun r => In r white_space) ws /\ full = t ++ flat_map encode_rune ws) /\
  forall u r, In r white_space -> t <> u ++ encode_rune r.

(** lines that are only there if [x] is not empty *)
Inductive if_any {A} (x : list A) (ls : list str) : list str -> Prop :=
| ia_none : x = [] -> if_any x ls []
| ia_some : x <> [] -> if_any x ls ls.
(** lines about each of several things, in order *)
Inductive about_each {A} (R : A -> list str -> Prop) : list A -> list str -> Prop :=
| ae_end : about_each R [] []
| ae_more x l a b : R x a -> about_each R l b -> about_each R (x :: l) (a ++ b).

(** ** Pages *)
Definition param_head (p : param_doc) : str := bs "- **" ++ p_name p ++ bs "** (" ++ p_type p ++ bs ")".
Inductive tool_param (p : param_doc) : list str -> Prop :=
| tp_bare : p_desc p = [] -> tool_param p [param_head p]
| tp_described : p_desc p <> [] -> tool_param p [param_head p ++ bs ": " ++ p_desc p].
Definition fence : str := bs "```".
Inductive tool_example (e : example_doc) : list str -> Prop :=
| te_intro l : if_any (e_desc e) [e_desc e; empty_line] l -> tool_example e (l ++ [fence; e_input e; fence; empty_line]).
(** the page of the tool, before the white space at its end is cut off *)
Inductive tool_page (d : function_doc) : list str -> Prop :=
| tool_page_lines summary desc ps params es examples category see :
    if_any (d_summary d) [bs "**" ++ d_summary d ++ bs "**"; empty_line] summary ->
    if_any (d_desc d) [d_desc d; empty_line] desc ->
    about_each tool_param (d_params d) ps ->
    if_any (d_params d) ([bs "## Parameters"; empty_line] ++ ps ++ [empty_line]) params ->
    about_each tool_example (d_examples d) es ->
    if_any (d_examples d) ([bs "## Examples"; empty_line] ++ es) examples ->
    if_any (d_category d) [bs "**Category:** " ++ d_category d; empty_line] category ->
    if_any (d_see d) [bs "**See also:** " ++ join (bs ", ") (d_see d)] see ->
    tool_page d ([bs "# " ++ d_name d; empty_line] ++ summary ++ desc ++ params ++ examples ++ category ++ see).

Inductive command_param (p : param_doc) : list str -> Prop :=
| cp_needed : p_optional p = false -> command_param p [param_head p ++ bs ": " ++ p_desc p]
| cp_optional : p_optional p = true -> command_param p [param_head p ++ bs " (optional): " ++ p_desc p].
Inductive command_example (e : example_doc) : list str -> Prop :=
| ce_intro l : if_any (e_buffer e) [bs "**Initial buffer:**"; fence; e_buffer e; fence; empty_line] l ->
    command_example e ([bs "### " ++ e_desc e; empty_line] ++ l ++
      [bs "**Command:**"; fence; e_input e; fence; empty_line; bs "**Result:**"; e_output e]).
(** several examples have an empty line between them *)
Inductive command_examples : list example_doc -> list str -> Prop :=
| ces_none : command_examples [] []
| ces_one e l : command_example e l -> command_examples [e] l
| ces_more e es l l' : command_example e l -> es <> [] -> command_examples es l' -> command_examples (e :: es) (l ++ [empty_line] ++ l').
Inductive command_page (d : function_doc) : list str -> Prop :=
| command_page_lines desc ps params es examples category see :
    if_any (d_desc d) [bs "## Description"; empty_line; d_desc d; empty_line] desc ->
    about_each command_param (d_params d) ps ->
    if_any (d_params d) ([bs "## Parameters"; empty_line] ++ ps ++ [empty_line]) params ->
    command_examples (d_examples d) es ->
    if_any (d_examples d) ([bs "## Examples"; empty_line] ++ es ++ [empty_line]) examples ->
    if_any (d_category d) [bs "## Category"; empty_line; d_category d; empty_line] category ->
    if_any (d_see d) ([bs "## See Also"; empty_line] ++ map (fun n => bs "- " ++ n) (d_see d) ++ [empty_line]) see ->
    command_page d ([bs "# " ++ d_name d; empty_line; bs "**" ++ d_summary d ++ bs "**"; empty_line] ++
      desc ++ params ++ examples ++ category ++ see).

(** ** Listings *)
(** exactly the documents that satisfy [P], in order of name *)
Definition selects (r : registry) (P : function_doc -> Prop) (docs : list function_doc) : Prop :=
  by_name docs /\ forall d, In d docs <-> In d r /\ P d.

Inductive tool_entry (d : function_doc) : list str -> Prop :=
| ten_bare : d_summary d = [] -> tool_entry d [bs "- **" ++ d_name d ++ bs "**"]
| ten_summary : d_summary d <> [] -> tool_entry d [bs "- **" ++ d_name d ++ bs "**: " ++ d_summary d].
Inductive tool_group (c : str * list function_doc) : list str -> Prop :=
| tg_intro l : about_each tool_entry (snd c) l -> tool_group c ([bs "## " ++ fst c; empty_line] ++ l ++ [empty_line]).
(** a short listing names the functions; a verbose one has them by category, the categories in
    any order *)
Inductive tool_listing (heading : str) (docs : list function_doc) : bool -> list str -> Prop :=
| tl_short : tool_listing heading docs false
    ([bs "# " ++ heading; empty_line; bs "Found " ++ itoa (zlen docs) ++ bs " function(s):"; empty_line] ++
     map (fun d => bs "- " ++ d_name d) docs)
| tl_verbose g l : grouped (bs "Uncategorized") docs g -> about_each tool_group g l ->
    tool_listing heading docs true
      ([bs "# " ++ heading; empty_line; bs "Found " ++ itoa (zlen docs) ++ bs " function(s):"; empty_line] ++ l).

Inductive command_group (title : str -> str) (c : str * list function_doc) : list str -> Prop :=
| cg_intro : command_group title c ([bs "## " ++ title (fst c); empty_line] ++
    map (fun d => bs "- **" ++ d_name d ++ bs "**: " ++ d_summary d) (snd c) ++ [empty_line]).
Inductive command_listing (title : str -> str) (heading : str) (docs : list function_doc) : bool -> list str -> Prop :=
| cl_short : command_listing title heading docs false
    ([heading; empty_line] ++ map (fun d => bs "  " ++ d_name d) docs ++
     [empty_line; bs "Use 'texted doc <function-name>' for detailed documentation.";
      bs "Use 'texted doc --verbose' to see function summaries."])
| cl_verbose g l : grouped (bs "other") docs g -> about_each (command_group title) g l ->
    command_listing title heading docs true ([heading; empty_line] ++ l).

(** ** Answers *)
(** the text after the complaint, if there is anything to propose *)
Inductive proposing (intro : str) : list str -> str -> Prop :=
| pr_none : proposing intro [] []
| pr_some l : l <> [] -> proposing intro l (intro ++ join (bs ", ") l).
(** the first three of them, or all if there are fewer *)
Definition first_three {A} (l s : list A) : Prop :=
  exists rest, l = s ++ rest /\ (length s = 3%nat \/ rest = [] /\ (length s <= 3)%nat).
Definition similar (name : str) (d : function_doc) : Prop := within name (d_name d) \/ within (d_name d) name.
(** the categories that are not empty, in order *)
Definition categories (r : registry) (l : list str) : Prop :=
  StronglySorted before l /\ forall c, In c l <-> c <> [] /\ exists d, In d r /\ d_category d = c.

Inductive tool_answers (r : registry) (name cat : str) (verbose : bool) : tool_result -> Prop :=
| ta_both : name <> [] -> cat <> [] ->
    tool_answers r name cat verbose (ToolError (bs "function_name and category parameters are mutually exclusive"))
| ta_page d ls full t : name <> [] -> cat = [] -> In d r -> d_name d = name ->
    tool_page d ls -> in_lines ls full -> cut_off full t -> tool_answers r name cat verbose (ToolText t)
| ta_unknown docs s hint : name <> [] -> cat = [] -> (forall d, In d r -> d_name d <> name) ->
    selects r (similar name) docs -> first_three (map d_name docs) s -> proposing (bs ". Did you mean: ") s hint ->
    tool_answers r name cat verbose (ToolError (bs "Function '" ++ name ++ bs "' not found" ++ hint))
| ta_no_category l hint : name = [] -> cat <> [] -> (forall d, In d r -> d_category d <> cat) ->
    categories r l -> proposing (bs ". Available categories: ") l hint ->
    tool_answers r name cat verbose (ToolError (bs "No functions found in category '" ++ cat ++ bs "'" ++ hint))
| ta_category docs ls full t : name = [] -> cat <> [] -> docs <> [] -> selects r (fun d => d_category d = cat) docs ->
    tool_listing (bs "Functions in category '" ++ cat ++ bs "'") docs verbose ls -> in_lines ls full -> cut_off full t ->
    tool_answers r name cat verbose (ToolText t)
| ta_nothing : name = [] -> cat = [] -> r = [] -> tool_answers r name cat verbose (ToolError (bs "No functions documented"))
| ta_all docs ls full t : name = [] -> cat = [] -> r <> [] -> selects r (fun _ => True) docs ->
    tool_listing (bs "All functions") docs verbose ls -> in_lines ls full -> cut_off full t ->
    tool_answers r name cat verbose (ToolText t).

(** the text printed on success, or the error *)
Inductive command_answers (title : str -> str) (r : registry) (cat : str) (verbose : bool) : list str -> res str -> Prop :=
| ca_many a b l : command_answers title r cat verbose (a :: b :: l)
    (Err (bs "doc command accepts at most one argument (function name)"))
| ca_page d ls t : In d r -> command_page d ls -> in_lines ls t -> command_answers title r cat verbose [d_name d] (Ok t)
| ca_unknown name : (forall d, In d r -> d_name d <> name) ->
    command_answers title r cat verbose [name] (Err (bs "no documentation found for function: " ++ name))
| ca_no_category : cat <> [] -> (forall d, In d r -> d_category d <> cat) ->
    command_answers title r cat verbose [] (Err (bs "no functions found in category: " ++ cat))
| ca_category docs ls t : cat <> [] -> docs <> [] -> selects r (fun d => d_category d = cat) docs ->
    command_listing title (bs "Functions in category '" ++ cat ++ bs "':") docs verbose ls -> in_lines ls t ->
    command_answers title r cat verbose [] (Ok t)
| ca_nothing t : cat = [] -> r = [] -> in_lines [bs "No documented functions found."] t ->
    command_answers title r cat verbose [] (Ok t)
| ca_all docs ls t : cat = [] -> r <> [] -> selects r (fun _ => True) docs ->
    command_listing title (bs "Available functions (" ++ itoa (zlen docs) ++ bs " total):") docs verbose ls -> in_lines ls t ->
    command_answers title r cat verbose [] (Ok t).
