(** The grammar of all JSON data (RFC 8259), and what is wrong with data that is no script.  Used
    to state C76; of the model only the type of JSON data is used. *)
From Coq Require Import ZArith NArith List Bool Strings.Byte.
From Verif Require Import Base Float Ext Utf8 Strconv Values Parser Json SpecJson.
Import ListNotations.
Open Scope Z_scope.

(** ** Data *)
(** [json_data d t j]: the text [t], with at most [d] arrays and objects inside each other, stands
    for [j]; the members of objects do not matter *)
Inductive json_data : Z -> str -> json -> Prop :=
| jd_null d : json_data d (bs "null") JNull
| jd_true d : json_data d (bs "true") (JBool true)
| jd_false d : json_data d (bs "false") (JBool false)
| jd_number d t f : number_text t -> parse_float t = Some f -> json_data d t (JNum f)
| jd_string d t s : body t s -> json_data d (dquote :: t ++ [dquote]) (JStr s)
| jd_no_items d w : 1 <= d -> white w -> json_data d ("["%byte :: w ++ ["]"%byte]) (JArr [])
| jd_array d t l : 1 <= d -> json_items (d - 1) t l -> json_data d ("["%byte :: t ++ ["]"%byte]) (JArr l)
| jd_no_members d w : 1 <= d -> white w -> json_data d ("{"%byte :: w ++ ["}"%byte]) JObj
| jd_object d t : 1 <= d -> json_pairs (d - 1) t -> json_data d ("{"%byte :: t ++ ["}"%byte]) JObj
(** one or more, separated by commas *)
with json_items : Z -> str -> list json -> Prop :=
| ji_one d w1 t w2 j : white w1 -> json_data d t j -> white w2 -> json_items d (w1 ++ t ++ w2) [j]
| ji_more d w1 t w2 rest j l : white w1 -> json_data d t j -> white w2 -> json_items d rest l ->
    json_items d (w1 ++ t ++ w2 ++ ","%byte :: rest) (j :: l)
with json_pairs : Z -> str -> Prop :=
| jp_one d w1 k n w2 w3 t w4 j : white w1 -> body k n -> white w2 -> white w3 -> json_data d t j -> white w4 ->
    json_pairs d (w1 ++ dquote :: k ++ dquote :: w2 ++ ":"%byte :: w3 ++ t ++ w4)
| jp_more d w1 k n w2 w3 t w4 j rest : white w1 -> body k n -> white w2 -> white w3 -> json_data d t j -> white w4 -> json_pairs d rest ->
    json_pairs d (w1 ++ dquote :: k ++ dquote :: w2 ++ ":"%byte :: w3 ++ t ++ w4 ++ ","%byte :: rest).

(** the text [s] is JSON, for [j] *)
Definition is_json (s : str) (j : json) : Prop :=
  exists w1 t w2, white w1 /\ white w2 /\ s = w1 ++ t ++ w2 /\ json_data 10000 t j.
(** [t], followed by [rest], is JSON for [j]; numbers are as long as can be *)
Definition json_first (t rest : str) (j : json) : Prop :=
  json_data 10000 t j /\ (number_text t -> number_ends t rest).

(** ** Scripts *)
(** arguments: strings, numbers, calls *)
Inductive fit : json -> Prop :=
| fit_string s : fit (JStr s)
| fit_number f : fit (JNum f)
| fit_empty : fit (JArr [])
| fit_call n l : Forall fit l -> fit (JArr (JStr n :: l)).
Definition fit_line (j : json) : Prop := fit j /\ exists l, j = JArr l.
(** Go's name for the type of anything but a string *)
Inductive type_name : json -> str -> Prop :=
| tn_null : type_name JNull (bs "<nil>")
| tn_bool b : type_name (JBool b) (bs "bool")
| tn_number f : type_name (JNum f) (bs "float64")
| tn_array l : type_name (JArr l) (bs "[]interface {}")
| tn_object : type_name JObj (bs "map[string]interface {}").

(** [flaw top j m]: what is wrong with [j], as an instruction ([top]) or an argument *)
Inductive flaw : bool -> json -> str -> Prop :=
| fl_string s : flaw true (JStr s) (bs "top-level strings are not allowed in texted JSON")
| fl_number f : flaw true (JNum f) (bs "top-level numbers are not allowed in texted JSON")
| fl_null top : flaw top JNull (bs "boolean and null values are not supported in texted JSON")
| fl_bool top b : flaw top (JBool b) (bs "boolean and null values are not supported in texted JSON")
| fl_object top : flaw top JObj (bs "objects are not supported in texted JSON")
| fl_name top j0 l k : type_name j0 k -> flaw top (JArr (j0 :: l)) (bs "first element of array must be string, got " ++ k)
| fl_inside top n l1 j l2 m : Forall fit l1 -> flaw false j m ->
    flaw top (JArr (JStr n :: l1 ++ j :: l2)) (bs "invalid element at index " ++ itoa (Z.of_nat (length l1) + 1) ++ bs ": " ++ m).
(** what is wrong with a text as a script for texted edit (the decoder's own words are not
    modelled) *)
Inductive script_flaw (s : str) : str -> Prop :=
| sf_text : (forall j, ~ is_json s j) -> script_flaw s (bs "JSON unmarshal error: JSON syntax error")
| sf_kind j k : is_json s j ->
    ((exists b, j = JBool b) /\ k = bs "bool" \/ (exists f, j = JNum f) /\ k = bs "number" \/ (exists t, j = JStr t) /\ k = bs "string" \/ j = JObj /\ k = bs "object") ->
    script_flaw s (bs "JSON unmarshal error: json: cannot unmarshal " ++ k ++ bs " into Go value of type []interface {}")
| sf_line l1 j l2 m : is_json s (JArr (l1 ++ j :: l2)) -> Forall fit_line l1 -> flaw true j m ->
    script_flaw s (bs "invalid format at index " ++ itoa (Z.of_nat (length l1)) ++ bs ": " ++ m).

(** ** Streams, read by texted parse, complain in other words *)
Inductive misfit : json -> str -> Prop :=
| mf_null : misfit JNull (bs "null values are not supported in texted JSON")
| mf_bool b : misfit (JBool b) (bs "boolean values are not supported in texted JSON")
| mf_object : misfit JObj (bs "unsupported JSON type: map[string]interface {}")
| mf_name j0 l k : type_name j0 k -> misfit (JArr (j0 :: l)) (bs "first element of JSON array must be a string (symbol), got " ++ k)
| mf_inside n l1 j l2 m : Forall fit l1 -> misfit j m ->
    misfit (JArr (JStr n :: l1 ++ j :: l2)) (bs "error converting array element " ++ itoa (Z.of_nat (length l1) + 1) ++ bs ": " ++ m).
Inductive top_misfit : json -> str -> Prop :=
| tm_null : top_misfit JNull (bs "unsupported JSON type: <nil>")
| tm_bool b : top_misfit (JBool b) (bs "unsupported JSON type: bool")
| tm_object : top_misfit JObj (bs "unexpected JSON type: map[string]interface {}")
| tm_array l m : misfit (JArr l) m -> top_misfit (JArr l) m.
(** what is wrong first *)
Inductive stream_flaw : str -> str -> Prop :=
| st_text w s : white w -> s <> [] -> (forall c t, s = c :: t -> ~ white [c]) -> (forall t rest j, s = t ++ rest -> ~ json_first t rest j) ->
    stream_flaw (w ++ s) (bs "JSON decode error: JSON syntax error")
| st_here w t rest j m : white w -> json_first t rest j -> top_misfit j m -> stream_flaw (w ++ t ++ rest) m
| st_later w t rest v m : white w -> json_top t rest v -> stream_flaw rest m -> stream_flaw (w ++ t ++ rest) m.
