(** Vocabulary for the documentation listings. *)
From Coq Require Import ZArith NArith List Bool Permutation Sorted Strings.Byte.
From Verif Require Import Base Float Values Docs.
Import ListNotations.

(** byte-wise lexicographic order *)
Inductive before : str -> str -> Prop :=
| bf_end c t : before [] (c :: t)
| bf_less c d s t : (byteN c < byteN d)%N -> before (c :: s) (d :: t)
| bf_same c s t : before s t -> before (c :: s) (c :: t).

(** in increasing order of name *)
Definition by_name (l : list function_doc) : Prop :=
  StronglySorted (fun x y => before (d_name x) (d_name y)) l.

(** what a Go map can be: distinct names *)
Definition a_map (r : registry) : Prop := NoDup (map d_name r).

(** iterating a map visits every entry once, in some order *)
Definition some_order {A} (f : list A -> list A) : Prop := forall l, Permutation l (f l).
Definition possible (o : map_orders) : Prop :=
  some_order (o_registry o) /\ some_order (o_categories o) /\ some_order (o_groups o).

(** [matches ps args]: the arguments fit the documented parameters *)
Definition type_is (t : str) (v : value) : Prop :=
  (t = bs "string" /\ exists s, v = VStr s) \/ (t = bs "number" /\ exists f, v = VNum f).
Inductive matches : list param_doc -> list value -> Prop :=
| mt_nil : matches [] []
| mt_skip p ps : p_optional p = true -> matches ps [] -> matches (p :: ps) []
| mt_take p ps v vs : type_is (p_type p) v -> matches ps vs -> matches (p :: ps) (v :: vs).

(** one name is contained in the other *)
Definition within (p s : str) : Prop := exists a b, s = a ++ p ++ b.

(** ends in a visible ASCII character *)
Definition visible_end (s : str) : Prop := exists a c, s = a ++ [c] /\ (33 <= byteN c <= 126)%N.

(** what a page of documentation has to show: everything that is not empty, labelled *)
Inductive tool_shows (d : function_doc) : str -> Prop :=
| ts_name : tool_shows d (bs "# " ++ d_name d)
| ts_summary : d_summary d <> [] -> tool_shows d (bs "**" ++ d_summary d ++ bs "**")
| ts_desc : tool_shows d (d_desc d)
| ts_param p : In p (d_params d) -> tool_shows d (bs "- **" ++ p_name p ++ bs "** (" ++ p_type p ++ bs ")")
| ts_param_desc p : In p (d_params d) -> p_desc p <> [] ->
    tool_shows d (bs "- **" ++ p_name p ++ bs "** (" ++ p_type p ++ bs "): " ++ p_desc p)
| ts_example_desc e : In e (d_examples d) -> tool_shows d (e_desc e)
| ts_example e : In e (d_examples d) -> tool_shows d (bs "```" ++ [nl] ++ e_input e ++ [nl] ++ bs "```")
| ts_category : d_category d <> [] -> tool_shows d (bs "**Category:** " ++ d_category d)
| ts_see : d_see d <> [] -> tool_shows d (bs "**See also:** " ++ join (bs ", ") (d_see d)).
Inductive command_shows (d : function_doc) : str -> Prop :=
| cs_name : command_shows d (bs "# " ++ d_name d)
| cs_summary : command_shows d (bs "**" ++ d_summary d ++ bs "**")
| cs_desc : command_shows d (d_desc d)
| cs_param p : In p (d_params d) -> command_shows d (bs "- **" ++ p_name p ++ bs "** (" ++ p_type p ++ bs ")" ++
    (if p_optional p then bs " (optional): " else bs ": ") ++ p_desc p)
| cs_example e x : In e (d_examples d) -> In x [e_desc e; e_buffer e; e_input e; e_output e] -> command_shows d x
| cs_category : d_category d <> [] -> command_shows d (bs "## Category" ++ [nl; nl] ++ d_category d)
| cs_see n : In n (d_see d) -> command_shows d (bs "- " ++ n).

(** documents grouped by category: every document once, under its category, in order of name *)
Definition grouped (none : str) (docs : list function_doc) (g : list (str * list function_doc)) : Prop :=
  Permutation docs (concat (map snd g)) /\ NoDup (map fst g) /\
  Forall (fun c => snd c <> [] /\ by_name (snd c) /\
    Forall (fun d => fst c = if d_category d then none else d_category d) (snd c)) g.
(** white space at the end is left out *)
Definition trimmed_to (full t : str) : Prop :=
  exists w, full = t ++ w /\ (forall x, visible_end x -> within x full -> within x t).
