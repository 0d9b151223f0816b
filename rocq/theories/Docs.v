(** The documentation registry and its listings: edlisp/documentation.go,
    edlisp/documentation_registry.go, tools/texted_doc.go, commands/doc.go.

    A Go map is a list of entries with distinct keys; the order of the list is the
    (arbitrary) order in which the map is iterated. *)
From Coq Require Import ZArith NArith List Bool Strings.Byte.
From Verif Require Import Base Float Ext Utf8 Strconv Values Buffer Builtins Eval Parser Json Writer Files Tools.
Import ListNotations.
Open Scope Z_scope.

(** documentation.go:33-45 ParameterDoc, 48-60 ExampleDoc, 8-30 FunctionDoc *)
Record param_doc := mkParam { p_name : str; p_type : str; p_desc : str; p_optional : bool }.
Record example_doc := mkExample { e_desc : str; e_input : str; e_buffer : str; e_output : str }.
Record function_doc := mkDoc {
  d_name : str;
  d_summary : str;
  d_desc : str;
  d_params : list param_doc;
  d_examples : list example_doc;
  d_see : list str;
  d_category : str
}.

(** Go's < on strings *)
Fixpoint str_ltb (a b : str) : bool :=
  match a, b with
  | [], _ :: _ => true
  | _, [] => false
  | x :: a', y :: b' =>
    if (byteN x <? byteN y)%N then true
    else if (byteN y <? byteN x)%N then false
    else str_ltb a' b'
  end.

(** sort.Slice / sort.Strings; the keys are distinct, so every correct sorting algorithm
    gives the same result as this one *)
Section Sort.
Context {A : Type} (key : A -> str).
Fixpoint insert_sorted (x : A) (l : list A) : list A :=
  match l with
  | [] => [x]
  | y :: l' => if str_ltb (key y) (key x) then y :: insert_sorted x l' else x :: l
  end.
Fixpoint sort_by (l : list A) : list A :=
  match l with
  | [] => []
  | x :: l' => insert_sorted x (sort_by l')
  end.
End Sort.

(** documentation_registry.go:18-22 RegisterDocumentation: a later registration under the
    same name replaces the earlier one *)
Definition registry := list function_doc.
Definition register (r : registry) (d : function_doc) : registry :=
  d :: filter (fun x => negb (str_eqb (d_name x) (d_name d))) r.

(** documentation_registry.go:26-31 GetDocumentation *)
Definition get_doc (r : registry) (name : str) : option function_doc :=
  find (fun d => str_eqb (d_name d) name) r.

(** documentation_registry.go:35-50 GetAllDocumentation *)
Definition all_docs (order : registry) : list function_doc := sort_by d_name order.

(** documentation_registry.go:54-71 GetDocumentationByCategory *)
Definition docs_in_category (order : registry) (cat : str) : list function_doc :=
  sort_by d_name (filter (fun d => str_eqb (d_category d) cat) order).

(** the set of non-empty categories, lines 79-84 (first occurrences) *)
Fixpoint category_set (order : registry) (seen : list str) : list str :=
  match order with
  | [] => seen
  | d :: rest =>
    if match d_category d with [] => true | c => existsb (str_eqb c) seen end
    then category_set rest seen
    else category_set rest (d_category d :: seen)
  end.

(** documentation_registry.go:75-93 GetCategories; [shuffle] is the order in which the
    set (also a map) is iterated *)
Definition get_categories (shuffle : list str -> list str) (order : registry) : list str :=
  sort_by (fun s => s) (shuffle (category_set order [])).

(** documentation_registry.go:96-100 GetRegisteredFunctionCount *)
Definition doc_count (r : registry) : Z := zlen r.

(** tools/texted_doc.go:176-183: docs grouped by category, groups in order of first
    appearance, before the map order is applied *)
Definition group_name (d : function_doc) : str :=
  match d_category d with [] => bs "Uncategorized" | c => c end.
Fixpoint add_group (d : function_doc) (g : list (str * list function_doc)) : list (str * list function_doc) :=
  match g with
  | [] => [(group_name d, [d])]
  | (c, ds) :: g' => if str_eqb c (group_name d) then (c, ds ++ [d]) :: g' else (c, ds) :: add_group d g'
  end.
Definition group_docs (docs : list function_doc) : list (str * list function_doc) :=
  fold_left (fun g d => add_group d g) docs [].

Definition verbose_line (d : function_doc) : str :=
  bs "- **" ++ d_name d ++ bs "**" ++
  (match d_summary d with [] => [] | s => bs ": " ++ s end) ++ [nl].

(** tools/texted_doc.go:167-210 formatFunctionList; [shuffle] is the order in which the
    category map is iterated (lines 187-191: the slice is never sorted) *)
Definition format_list (shuffle : list (str * list function_doc) -> list (str * list function_doc))
    (docs : list function_doc) (title : str) (verbose : bool) : str :=
  trim_space (
    bs "# " ++ title ++ [nl; nl] ++ bs "Found " ++ itoa (zlen docs) ++ bs " function(s):" ++ [nl; nl] ++
    (if verbose then
       flat_map (fun g => bs "## " ++ fst g ++ [nl; nl] ++ flat_map verbose_line (snd g) ++ [nl])
         (shuffle (group_docs docs))
     else flat_map (fun d => bs "- " ++ d_name d ++ [nl]) docs)).

(** tools/texted_doc.go:66-73: up to three similar names *)
Definition suggestions (order : registry) (name : str) : list str :=
  firstn 3 (map d_name (filter (fun d => str_contains (d_name d) name || str_contains name (d_name d))
                               (all_docs order))).

(** tools/texted_doc.go:110-164 formatFunctionDoc *)
Definition when (b : bool) (s : str) : str := if b then s else [].
Definition nonnil {A} (l : list A) : bool := match l with [] => false | _ => true end.
Definition param_line (p : param_doc) : str :=
  bs "- **" ++ p_name p ++ bs "** (" ++ p_type p ++ bs ")" ++ when (nonnil (p_desc p)) (bs ": " ++ p_desc p) ++ [nl].
Definition example_block (e : example_doc) : str :=
  when (nonnil (e_desc e)) (e_desc e ++ [nl; nl]) ++ bs "```" ++ nl :: e_input e ++ nl :: bs "```" ++ [nl; nl].
Definition format_doc (d : function_doc) : str :=
  trim_space (
    bs "# " ++ d_name d ++ [nl; nl] ++
    when (nonnil (d_summary d)) (bs "**" ++ d_summary d ++ bs "**" ++ [nl; nl]) ++
    when (nonnil (d_desc d)) (d_desc d ++ [nl; nl]) ++
    when (nonnil (d_params d)) (bs "## Parameters" ++ [nl; nl] ++ flat_map param_line (d_params d) ++ [nl]) ++
    when (nonnil (d_examples d)) (bs "## Examples" ++ [nl; nl] ++ flat_map example_block (d_examples d)) ++
    when (nonnil (d_category d)) (bs "**Category:** " ++ d_category d ++ [nl; nl]) ++
    when (nonnil (d_see d)) (bs "**See also:** " ++ join (bs ", ") (d_see d) ++ [nl])).

(** The orders in which Go happens to iterate the maps involved: the registry itself, the
    set of categories, and the groups of a verbose listing. *)
Record map_orders := mkOrders {
  o_registry : registry -> registry;
  o_categories : list str -> list str;
  o_groups : list (str * list function_doc) -> list (str * list function_doc)
}.

(** tools/texted_doc.go:37-108 TextedDocHandler, handleFunctionDoc, handleCategoryListing,
    handleAllFunctions; a missing argument is the empty string or false *)
Definition doc_handler (o : map_orders) (r : registry) (name cat : str) (verbose : bool) : tool_result :=
  let order := o_registry o r in
  if nonnil name && nonnil cat then
    ToolError (bs "function_name and category parameters are mutually exclusive")
  else if nonnil name then
    match get_doc r name with
    | Some d => ToolText (format_doc d)
    | None =>
      let s := suggestions order name in
      ToolError (bs "Function '" ++ name ++ bs "' not found" ++
                 when (nonnil s) (bs ". Did you mean: " ++ join (bs ", ") s))
    end
  else if nonnil cat then
    match docs_in_category order cat with
    | [] =>
      let cs := get_categories (o_categories o) order in
      ToolError (bs "No functions found in category '" ++ cat ++ bs "'" ++
                 when (nonnil cs) (bs ". Available categories: " ++ join (bs ", ") cs))
    | docs => ToolText (format_list (o_groups o) docs (bs "Functions in category '" ++ cat ++ bs "'") verbose)
    end
  else
    match all_docs order with
    | [] => ToolError (bs "No functions documented")
    | docs => ToolText (format_list (o_groups o) docs (bs "All functions") verbose)
    end.

(** commands/doc.go:60-122 showFunctionDoc, what it prints *)
Definition cli_param_line (p : param_doc) : str :=
  bs "- **" ++ p_name p ++ bs "** (" ++ p_type p ++ bs ")" ++ when (p_optional p) (bs " (optional)") ++ bs ": " ++ p_desc p ++ [nl].
Definition cli_example (e : example_doc) : str :=
  bs "### " ++ e_desc e ++ [nl; nl] ++
  when (nonnil (e_buffer e)) (bs "**Initial buffer:**" ++ nl :: bs "```" ++ nl :: e_buffer e ++ nl :: bs "```" ++ [nl; nl]) ++
  bs "**Command:**" ++ nl :: bs "```" ++ nl :: e_input e ++ nl :: bs "```" ++ [nl; nl] ++
  bs "**Result:**" ++ nl :: e_output e ++ [nl].
Definition cli_doc (d : function_doc) : str :=
  bs "# " ++ d_name d ++ [nl; nl] ++ bs "**" ++ d_summary d ++ bs "**" ++ [nl; nl] ++
  when (nonnil (d_desc d)) (bs "## Description" ++ [nl; nl] ++ d_desc d ++ [nl; nl]) ++
  when (nonnil (d_params d)) (bs "## Parameters" ++ [nl; nl] ++ flat_map cli_param_line (d_params d) ++ [nl]) ++
  when (nonnil (d_examples d)) (bs "## Examples" ++ [nl; nl] ++ join [nl] (map cli_example (d_examples d)) ++ [nl]) ++
  when (nonnil (d_category d)) (bs "## Category" ++ [nl; nl] ++ d_category d ++ [nl; nl]) ++
  when (nonnil (d_see d)) (bs "## See Also" ++ [nl; nl] ++ flat_map (fun n => bs "- " ++ n ++ [nl]) (d_see d) ++ [nl]).

(** commands/doc.go:153-170: as [group_docs], with another name for the missing category *)
Definition cli_group_name (d : function_doc) : str :=
  match d_category d with [] => bs "other" | c => c end.
Fixpoint cli_add_group (d : function_doc) (g : list (str * list function_doc)) : list (str * list function_doc) :=
  match g with
  | [] => [(cli_group_name d, [d])]
  | (c, ds) :: g' => if str_eqb c (cli_group_name d) then (c, ds ++ [d]) :: g' else (c, ds) :: cli_add_group d g'
  end.

(** commands/doc.go:40-57, 125-181 runDoc, listFunctions; [title] is strings.Title *)
Definition run_doc (title : str -> str) (o : map_orders) (r : registry) (args : list str) (cat : str) (verbose : bool) : res str :=
  let order := o_registry o r in
  match args with
  | [name] =>
    match get_doc r name with
    | Some d => Ok (cli_doc d)
    | None => Err (bs "no documentation found for function: " ++ name)
    end
  | _ :: _ => Err (bs "doc command accepts at most one argument (function name)")
  | [] =>
    let docs := if nonnil cat then docs_in_category order cat else all_docs order in
    if nonnil cat && negb (nonnil docs) then Err (bs "no functions found in category: " ++ cat)
    else if negb (nonnil docs) then Ok (bs "No documented functions found." ++ [nl])
    else Ok (
      (if nonnil cat then bs "Functions in category '" ++ cat ++ bs "':" ++ [nl; nl]
       else bs "Available functions (" ++ itoa (zlen docs) ++ bs " total):" ++ [nl; nl]) ++
      (if verbose then
         flat_map (fun g => bs "## " ++ title (fst g) ++ [nl; nl] ++
                     flat_map (fun d => bs "- **" ++ d_name d ++ bs "**: " ++ d_summary d ++ [nl]) (snd g) ++ [nl])
           (o_groups o (fold_left (fun g d => cli_add_group d g) docs []))
       else
         flat_map (fun d => bs "  " ++ d_name d ++ [nl]) docs ++
         nl :: bs "Use 'texted doc <function-name>' for detailed documentation." ++
         nl :: bs "Use 'texted doc --verbose' to see function summaries." ++ [nl]))
  end.
