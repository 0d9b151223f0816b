(** Vocabulary for requests to the MCP server. *)
From Coq Require Import ZArith NArith List Bool Strings.Byte.
From Verif Require Import Base Float Strconv Json Files Serve.
Import ListNotations.
Open Scope Z_scope.

(** the three tools of the help text, commands/mcp.go:22-27 *)
Definition tool_bases : list str := [bs "edit_file"; bs "texted_doc"; bs "texted_eval"].

(** an argument that says yes: true, a string meaning true, or a number other than zero *)
Inductive says_yes : json -> Prop :=
| yes_bool : says_yes (JBool true)
| yes_text s : In s [bs "1"; bs "t"; bs "T"; bs "TRUE"; bs "true"; bs "True"] -> says_yes (JStr s)
| yes_number f : (forall sign, f <> S754_zero sign) -> says_yes (JNum f).

(** the request gives an array of strings *)
Definition gives_strings (a : arguments) (key : str) (l : list str) : Prop :=
  a key = Some (JArr (map JStr l)).

(** the request asks for the file [k] to be edited *)
Definition asks_for (os : OS) (prefix : str) (q : request) (k : str) : Prop :=
  r_tool q = prefix ++ bs "edit_file" /\
  exists l f, gives_strings (r_args q) (bs "files") l /\ In f l /\ canon os f = k.

(** ** What is wrong with the arguments of a request, and what is said about it *)
Section Wrong.
Variable quoted : str -> str.
Definition missing (key : str) : str := bs "required argument " ++ quoted key ++ bs " not found".
Inductive no_string (a : arguments) (key : str) : str -> Prop :=
| ns_missing : a key = None -> no_string a key (missing key)
| ns_other j : a key = Some j -> (forall s, j <> JStr s) -> no_string a key (bs "argument " ++ quoted key ++ bs " is not a string").
Inductive no_strings (a : arguments) (key : str) : str -> Prop :=
| nl_missing : a key = None -> no_strings a key (missing key)
| nl_other j : a key = Some j -> (forall l, j <> JArr l) -> no_strings a key (bs "argument " ++ quoted key ++ bs " is not a string slice")
| nl_item l j r i : a key = Some (JArr (map JStr l ++ j :: r)) -> (forall s, j <> JStr s) -> i = zlen l ->
    no_strings a key (bs "item " ++ itoa i ++ bs " in argument " ++ quoted key ++ bs " is not a string").
(** the first thing wrong with a request *)
Inductive wrong_request (p : str) (q : request) : str -> Prop :=
| wr_edit_script e : r_tool q = p ++ bs "edit_file" -> no_string (r_args q) (bs "script") e -> wrong_request p q (bs "script parameter required: " ++ e)
| wr_edit_files s e : r_tool q = p ++ bs "edit_file" -> r_args q (bs "script") = Some (JStr s) -> no_strings (r_args q) (bs "files") e ->
    wrong_request p q (bs "files parameter required: " ++ e)
| wr_edit_none s : r_tool q = p ++ bs "edit_file" -> r_args q (bs "script") = Some (JStr s) -> gives_strings (r_args q) (bs "files") [] ->
    wrong_request p q (bs "at least one file must be specified")
| wr_eval_input e : r_tool q = p ++ bs "texted_eval" -> no_string (r_args q) (bs "input") e -> wrong_request p q (bs "input parameter required: " ++ e)
| wr_eval_script i e : r_tool q = p ++ bs "texted_eval" -> r_args q (bs "input") = Some (JStr i) -> no_string (r_args q) (bs "script") e ->
    wrong_request p q (bs "script parameter required: " ++ e)
| wr_eval_output i s m : r_tool q = p ++ bs "texted_eval" -> r_args q (bs "input") = Some (JStr i) -> r_args q (bs "script") = Some (JStr s) ->
    r_args q (bs "output") = Some (JStr m) -> m <> bs "buffer" -> m <> bs "expression" ->
    wrong_request p q (bs "output parameter must be 'buffer' or 'expression'").
End Wrong.
