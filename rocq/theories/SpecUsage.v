(** Vocabulary for mistyped command lines: every way to go wrong, and the words of the
    complaint. *)
From Coq Require Import ZArith NArith List Bool Strings.Byte.
From Verif Require Import Base Float Ext Utf8 Strconv Values Buffer Builtins Eval Parser Json Writer Files Cli Tools
  Testing Docs DocsData Flags TestCmd Serve Spec SpecText SpecNumber SpecJson SpecMeaning CmdLine SpecFlags SpecCmd.
Import ListNotations.
Open Scope Z_scope.

Definition apostrophe : byte := "'"%byte.
(** [letter_shown E c q]: a byte the way Go's %q shows it, which takes the byte for the
    character of that number *)
Inductive letter_shown (E : Ext) (c : byte) : str -> Prop :=
| ls_apostrophe : c = apostrophe -> letter_shown E c [apostrophe; backslash; c; apostrophe]
| ls_quote : c = dquote -> letter_shown E c [apostrophe; c; apostrophe]
| ls_other t : c <> apostrophe -> c <> dquote -> escaped E (encode_rune (byteN c)) t ->
    letter_shown E c (apostrophe :: t ++ [apostrophe]).

(** ** Values of list flags *)
(** [spot pre line col]: the byte after [pre] is on that line and in that column *)
Definition spot (pre : str) (line col : Z) : Prop :=
  exists a b, pre = a ++ b /\ (a = [] \/ exists a', a = a' ++ [x0a]) /\ ~ In x0a b /\
    line = 1 + Z.of_nat (count_occ Byte.byte_eq_dec a x0a) /\ col = 1 + Z.of_nat (length b).
(** fields with their commas, before the one in question *)
Inductive csv_before : str -> Prop :=
| cb_none : csv_before []
| cb_field t f s : csv_field t f -> csv_before s -> csv_before (t ++ ","%byte :: s).
(** [csv_flaw s pre why]: a record at the start of [s] is wrong after [pre] *)
Inductive csv_flaw : str -> str -> str -> Prop :=
| fl_bare b p more : csv_before b -> p <> [] -> plain_field p ->
    csv_flaw (b ++ p ++ x22 :: more) (b ++ p) (bs "bare "" in non-quoted field")
| fl_closed b f t c more : csv_before b -> doubled f t -> ~ In c [x22; ","%byte; x0a] ->
    csv_flaw (b ++ x22 :: t ++ x22 :: c :: more) (b ++ x22 :: t) (bs "extraneous or missing "" in quoted-field").
Inductive csv_unclosed : str -> Prop :=
| uc_open b f t : csv_before b -> doubled f t -> csv_unclosed (b ++ x22 :: t).
(** [place_told first line col m]: the words for a place *)
Definition place_told (first line col : Z) (m : str) : Prop :=
  exists f l c, int_text f first /\ int_text l line /\ int_text c col /\
    m = (if first =? line then [] else bs "record on line " ++ f ++ bs "; ") ++
        bs "parse error on line " ++ l ++ bs ", column " ++ c ++ bs ": ".
(** [unreadable v m]: the value [v] is not a list, for the reason [m] *)
Inductive unreadable (v : str) : str -> Prop :=
| ur_blank k : v <> [] -> unix_text v (repeat x0a k) -> unreadable v (bs "EOF")
| ur_flaw k s pre why line col at_ : unix_text v (repeat x0a k ++ s) -> (forall r, s <> x0a :: r) -> csv_flaw s pre why ->
    spot (repeat x0a k ++ pre) line col -> place_told (1 + Z.of_nat k) line col at_ -> unreadable v (at_ ++ why)
| ur_unclosed k s pre c line col at_ : unix_text v (repeat x0a k ++ s) -> (forall r, s <> x0a :: r) -> csv_unclosed s ->
    repeat x0a k ++ s = pre ++ [c] -> spot pre line col -> place_told (1 + Z.of_nat k) line (col + 1) at_ ->
    unreadable v (at_ ++ bs "extraneous or missing "" in quoted-field").

(** ** Flags *)
(** [called f n]: the flag in a complaint *)
Definition called (f : flag) (n : str) : Prop :=
  match g_short f with
  | Some c => n = bs "-" ++ [c] ++ bs ", --" ++ g_name f
  | None => n = bs "--" ++ g_name f
  end.
(** [unsuited E f v m]: the flag cannot be set to [v] *)
Inductive unsuited (E : Ext) (f : flag) (v : str) : str -> Prop :=
| us_bool q n k : g_kind f = KBool -> ~ In v (yes ++ no) -> quoted E v q -> called f n -> quoted E n k ->
    unsuited E f v (bs "invalid argument " ++ q ++ bs " for " ++ k ++ bs " flag: strconv.ParseBool: parsing " ++ q ++ bs ": invalid syntax")
| us_list q n k why : g_kind f = KSlice -> unreadable v why -> quoted E v q -> called f n -> quoted E n k ->
    unsuited E f v (bs "invalid argument " ++ q ++ bs " for " ++ k ++ bs " flag: " ++ why).

Section Grammar.
Variable E : Ext.
Variable flags : list flag.
Definition no_letter (c : byte) : Prop := forall f, In f flags -> g_short f <> Some c.
Definition no_name (n : str) : Prop := forall f, In f flags -> g_name f <> n.

(** [letters_flaw t m]: the letters after a dash *)
Inductive letters_flaw : str -> str -> Prop :=
| lf_unknown c t q : no_letter c -> (forall u, c :: t <> bs "test." ++ u) -> letter_shown E c q ->
    letters_flaw (c :: t) (bs "unknown shorthand flag: " ++ q ++ bs " in -" ++ c :: t)
| lf_bools f c d t m : In f flags -> g_short f = Some c -> g_kind f = KBool -> (d = equals -> t = []) ->
    letters_flaw (d :: t) m -> letters_flaw (c :: d :: t) m
| lf_equals f c v m : In f flags -> g_short f = Some c -> v <> [] -> unsuited E f v m ->
    letters_flaw (c :: equals :: v) m
| lf_rest f c v m : In f flags -> g_short f = Some c -> g_kind f <> KBool -> v <> [] ->
    (forall u, v = equals :: u -> u = []) -> unsuited E f v m -> letters_flaw (c :: v) m.

(** [args_flaw args m]: the first thing wrong with the arguments *)
Inductive args_flaw : list str -> str -> Prop :=
| af_syntax c t l : In c [dash; equals] ->
    args_flaw ((dash :: dash :: c :: t) :: l) (bs "bad flag syntax: --" ++ c :: t)
| af_unknown n l : n <> [] -> (forall t, n <> dash :: t) -> ~ In equals n -> no_name n ->
    args_flaw ((dash :: dash :: n) :: l) (bs "unknown flag: --" ++ n)
| af_unknown_equals n v l : n <> [] -> (forall t, n <> dash :: t) -> ~ In equals n -> no_name n ->
    args_flaw ((dash :: dash :: n ++ equals :: v) :: l) (bs "unknown flag: --" ++ n)
| af_value f v l m : In f flags -> unsuited E f v m ->
    args_flaw ((dash :: dash :: g_name f ++ equals :: v) :: l) m
| af_next f v l m : In f flags -> g_kind f <> KBool -> unsuited E f v m ->
    args_flaw ((dash :: dash :: g_name f) :: v :: l) m
| af_missing f : In f flags -> g_kind f <> KBool ->
    args_flaw [dash :: dash :: g_name f] (bs "flag needs an argument: --" ++ g_name f)
| af_letters t l m : (forall u, t <> dash :: u) -> letters_flaw t m -> args_flaw ((dash :: t) :: l) m
| af_open t s f v l m : open_letters flags t s f -> unsuited E f v m -> args_flaw ((dash :: t) :: v :: l) m
| af_open_missing t s f c q : open_letters flags t s f -> g_short f = Some c -> letter_shown E c q ->
    args_flaw [dash :: t] (bs "flag needs an argument: " ++ q ++ bs " in -" ++ [c])
(** or what comes first is right, and the rest is wrong *)
| af_then_file a l m : (forall t, a = dash :: t -> t = []) -> args_flaw l m -> args_flaw (a :: l) m
| af_then_equals f v l m : In f flags -> suits f v -> args_flaw l m ->
    args_flaw ((dash :: dash :: g_name f ++ equals :: v) :: l) m
| af_then_bool f l m : In f flags -> g_kind f = KBool -> args_flaw l m ->
    args_flaw ((dash :: dash :: g_name f) :: l) m
| af_then_next f v l m : In f flags -> g_kind f <> KBool -> suits f v -> args_flaw l m ->
    args_flaw ((dash :: dash :: g_name f) :: v :: l) m
| af_then_letters t s l m : letters flags t s -> args_flaw l m -> args_flaw ((dash :: t) :: l) m
| af_then_open t s f v l m : open_letters flags t s f -> suits f v -> args_flaw l m ->
    args_flaw ((dash :: t) :: v :: l) m.
End Grammar.
