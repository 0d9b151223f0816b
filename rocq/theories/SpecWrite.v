(** What the three writers write, for C80.  Nothing here is used by the model, and nothing of
    the model is used here except the data types. *)
From Coq Require Import ZArith NArith QArith List Bool Strings.Byte.
From Verif Require Import Base Float Ext Utf8 Values Parser Files Spec SpecText SpecNumber SpecNumText SpecJson SpecLines SpecRefuse SpecData SpecMeaning.
Import ListNotations.
Open Scope Z_scope.

(** ** JSON *)
(** [json_escaped s t]: the text [s] the way encoding/json writes it between the quotes; the
    characters that mean something in HTML or end a line in JavaScript are escaped too, and
    bytes that are not UTF-8 become U+FFFD *)
Definition json_letters : list (byte * byte) :=
  [(dquote, dquote); (backslash, backslash); ("b"%byte, x08); ("f"%byte, x0c); ("n"%byte, x0a); ("r"%byte, x0d); ("t"%byte, x09)].
Definition markup : list rune := [60; 62; 38; 8232; 8233]%N.
Inductive json_escaped : str -> str -> Prop :=
| je_end : json_escaped [] []
| je_letter e c s t : In (e, c) json_letters -> json_escaped s t -> json_escaped (c :: s) (backslash :: e :: t)
| je_code r h s t : (r < 32 /\ ~ In r (map byteN (map snd json_letters)) \/ In r markup)%N -> small_hex 4 h r -> json_escaped s t ->
    json_escaped (encode_rune r ++ s) (backslash :: "u"%byte :: h ++ t)
| je_plain r s t : valid_rune r = true -> (32 <= r)%N -> ~ In r [34; 92]%N -> ~ In r markup -> json_escaped s t ->
    json_escaped (encode_rune r ++ s) (encode_rune r ++ t)
| je_bad c s t : (forall r u, valid_rune r = true -> c :: s <> encode_rune r ++ u) -> json_escaped s t -> json_escaped (c :: s) (bs "\ufffd" ++ t).
Definition json_quoted (s q : str) : Prop := exists t, json_escaped s t /\ q = dquote :: t ++ [dquote].

(** [json_shown f t]: the finite number [f] the way encoding/json writes it *)
Inductive json_shown : spec_float -> str -> Prop :=
| jn_zero : json_shown (S754_zero false) (bs "0")
| jn_minus_zero : json_shown (S754_zero true) (bs "-0")
| jn_other s m e t : shortest_in json_layout (S754_finite s m e) t -> json_shown (S754_finite s m e) t.

(** [json_written v t]: [t] is the value [v] in JSON *)
Inductive comma_row : list str -> str -> Prop :=
| cr_none : comma_row [] []
| cr_one s : comma_row [s] s
| cr_more s s' l t : comma_row (s' :: l) t -> comma_row (s :: s' :: l) (s ++ bs "," ++ t).
Inductive json_written : value -> str -> Prop :=
| jw_symbol n q : json_quoted n q -> json_written (VSym n) q
| jw_text s q : json_quoted s q -> json_written (VStr s) q
| jw_number f t : json_shown f t -> json_written (VNum f) t
| jw_list l ts t : Forall2 json_written l ts -> comma_row ts t -> json_written (VList l) (bs "[" ++ t ++ bs "]").
(** [no_json v m]: [m] is the first number in [v] that JSON cannot express *)
Inductive no_json : value -> str -> Prop :=
| nj_nan : no_json (VNum S754_nan) (bs "NaN")
| nj_infinity : no_json (VNum (S754_infinity false)) (bs "+Inf")
| nj_minus_infinity : no_json (VNum (S754_infinity true)) (bs "-Inf")
| nj_inside front v rest m : Forall (fun x => exists t, json_written x t) front -> no_json v m -> no_json (VList (front ++ v :: rest)) m.

(** ** The shell form *)
(** [shell_word E v t]: [t] is the word for [v]; there is none for a list *)
Inductive shell_word (E : Ext) : value -> str -> Prop :=
| sw_symbol n : shell_word E (VSym n) n
| sw_text s q : quoted E s q -> shell_word E (VStr s) q
| sw_number f t : number_shown E f t -> shell_word E (VNum f) t.
Definition is_list (v : value) : Prop := exists l, v = VList l.
(** the Go types of the values that are not lists *)
Inductive go_type : value -> str -> Prop :=
| gt_symbol n : go_type (VSym n) (bs "*edlisp.Symbol")
| gt_text s : go_type (VStr s) (bs "*edlisp.String")
| gt_number f : go_type (VNum f) (bs "*edlisp.Number").

(** ** One value *)
(** [writes E format v r]: writing [v] in the format comes to [r] *)
Inductive writes (E : Ext) : str -> value -> presult str -> Prop :=
| wv_sexp v t : written E v t -> writes E (bs "sexp") v (POk t)
| wv_shell l ts t : Forall2 (shell_word E) l ts -> in_row ts t -> writes E (bs "shell") (VList l) (POk t)
| wv_shell_nested l v : In v l -> is_list v -> writes E (bs "shell") (VList l) (PErr (bs "nested lists are not supported in shell format"))
| wv_shell_other v t : go_type v t -> writes E (bs "shell") v (PErr (bs "can only convert lists to shell format, got " ++ t))
| wv_json v t : json_written v t -> writes E (bs "json") v (POk (t ++ [nl]))
| wv_json_not v m : no_json v m -> writes E (bs "json") v (PErr (bs "json: unsupported value: " ++ m))
| wv_unknown format v : ~ In format [bs "sexp"; bs "shell"; bs "json"] -> writes E format v (PErr (bs "unsupported format: " ++ format)).

(** ** Programs *)
(** [prints E format p out err]: writing the expressions of [p] one by one writes [out] and
    ends with the error [err], if any *)
Inductive prints (E : Ext) (format : str) : list value -> str -> option str -> Prop :=
| pr_end : prints E format [] [] None
| pr_line v p t out err : format <> bs "json" -> writes E format v (POk t) -> prints E format p out err ->
    prints E format (v :: p) (t ++ [nl] ++ out) err
| pr_json v p t out err : format = bs "json" -> writes E format v (POk t) -> prints E format p out err ->
    prints E format (v :: p) (t ++ out) err
| pr_stop v p e : writes E format v (PErr e) -> prints E format (v :: p) [] (Some e).

(** ** The command texted parse *)
(** [stands format s p]: the text [s] in the format stands for the program [p] *)
Definition formats : list str := [bs "shell"; bs "sexp"; bs "json"].
Inductive stands : str -> str -> list value -> Prop :=
| st_json s p : json_values s p -> stands (bs "json") s p
| st_other format s p : In format [bs "shell"; bs "sexp"] -> script s p -> stands format s p.
(** [not_standing format s m]: it stands for none, for the reason [m] *)
Inductive not_standing : str -> str -> str -> Prop :=
| rf_json s m : stream_flaw s m -> not_standing (bs "json") s m
| rf_other format s m : In format [bs "shell"; bs "sexp"] -> bad_script s m -> not_standing format s m.
(** [converts E i o s r out]: converting [s] from the format [i] to the format [o] ends with
    [r] and prints [out] *)
Inductive converts (E : Ext) (i o s : str) : res unit -> str -> Prop :=
| cv_input : ~ In i formats -> converts E i o s (Err (bs "invalid input format: " ++ i ++ bs " (must be shell, sexp, or json)")) []
| cv_output : In i formats -> ~ In o formats -> converts E i o s (Err (bs "invalid output format: " ++ o ++ bs " (must be shell, sexp, or json)")) []
| cv_refused m : In i formats -> In o formats -> not_standing i s m -> converts E i o s (Err (bs "parsing input: " ++ m)) []
| cv_done p out : In i formats -> In o formats -> stands i s p -> prints E o p out None -> converts E i o s (Ok tt) out
| cv_error p out m : In i formats -> In o formats -> stands i s p -> prints E o p out (Some m) -> converts E i o s (Err m) out.
