(** Vocabulary for command lines: which arguments say what, written down as a grammar. *)
From Coq Require Import ZArith NArith List Bool Strings.Byte.
From Verif Require Import Base Float Ext Utf8 Strconv Values Buffer Builtins Eval Parser Json Writer Files Cli Tools
  Testing Docs DocsData Flags TestCmd Serve CmdLine.
Import ListNotations.

Definition dash : byte := "-"%byte.
Definition equals : byte := "="%byte.

(** a table of flags: no two of the same name or letter, and names and letters that can be told
    from the punctuation *)
Definition flag_table (flags : list flag) : Prop :=
  NoDup (map g_name flags) /\
  (forall f, In f flags -> ~ In equals (g_name f) /\ exists c n, g_name f = c :: n /\ c <> dash) /\
  (forall f g c, In f flags -> In g flags -> g_short f = Some c -> g_short g = Some c -> f = g) /\
  (forall f c, In f flags -> g_short f = Some c -> c <> dash /\ c <> equals /\ c <> "t"%byte).

(** the words for yes and no *)
Definition yes : list str := [bs "1"; bs "t"; bs "T"; bs "TRUE"; bs "true"; bs "True"].
Definition no : list str := [bs "0"; bs "f"; bs "F"; bs "FALSE"; bs "false"; bs "False"].
(** a text the flag can be set to *)
Definition suits (f : flag) (v : str) : Prop :=
  match g_kind f with
  | KString => True
  | KBool => In v (yes ++ no)
  | KSlice => exists l, string_slice [v] = CsvRecord l
  end.

Section Grammar.
Variable flags : list flag.

(** [letters t s]: the letters [t] after a dash say [s] *)
Inductive letters : str -> list setting -> Prop :=
| lt_bool f c : In f flags -> g_short f = Some c -> g_kind f = KBool ->
    letters [c] [(g_name f, bs "true")]
| lt_bools f c d t s : In f flags -> g_short f = Some c -> g_kind f = KBool -> d <> equals ->
    letters (d :: t) s -> letters (c :: d :: t) ((g_name f, bs "true") :: s)
| lt_equals f c v : In f flags -> g_short f = Some c -> v <> [] -> suits f v ->
    letters (c :: equals :: v) [(g_name f, v)]
| lt_rest f c v : In f flags -> g_short f = Some c -> g_kind f <> KBool -> v <> [] ->
    (forall u, v = equals :: u -> u = []) -> suits f v -> letters (c :: v) [(g_name f, v)]
| lt_gotest t : letters (bs "test." ++ t) [].   (* left over from Go's own test flags *)
(** [open_letters t s f]: they say [s], and [f] wants the next argument *)
Inductive open_letters : str -> list setting -> flag -> Prop :=
| ol_here f c : In f flags -> g_short f = Some c -> g_kind f <> KBool -> open_letters [c] [] f
| ol_bools f c d t s g : In f flags -> g_short f = Some c -> g_kind f = KBool -> d <> equals ->
    open_letters (d :: t) s g -> open_letters (c :: d :: t) ((g_name f, bs "true") :: s) g.

(** [says args s p]: the arguments say [s] and name the files [p] *)
Inductive says : list str -> list setting -> list str -> Prop :=
| sy_nil : says [] [] []
| sy_end p : says ([dash; dash] :: p) [] p
| sy_file a l s p : (forall t, a = dash :: t -> t = []) -> says l s p -> says (a :: l) s (a :: p)
| sy_equals f v l s p : In f flags -> suits f v -> says l s p ->
    says ((dash :: dash :: g_name f ++ equals :: v) :: l) ((g_name f, v) :: s) p
| sy_bool f l s p : In f flags -> g_kind f = KBool -> says l s p ->
    says ((dash :: dash :: g_name f) :: l) ((g_name f, bs "true") :: s) p
| sy_next f v l s p : In f flags -> g_kind f <> KBool -> suits f v -> says l s p ->
    says ((dash :: dash :: g_name f) :: v :: l) ((g_name f, v) :: s) p
| sy_letters t s1 l s p : letters t s1 -> says l s p -> says ((dash :: t) :: l) (s1 ++ s) p
| sy_open t s1 f v l s p : open_letters t s1 f -> suits f v -> says l s p ->
    says ((dash :: t) :: v :: l) (s1 ++ (g_name f, v) :: s) p.
End Grammar.

(** [set_to s name d v]: the last setting of [name] in [s] is [v], or there is none and [v] is
    the default *)
Definition set_to (s : list setting) (name d v : str) : Prop :=
  (exists s1 s2, s = s1 ++ (name, v) :: s2 /\ forall u, ~ In (name, u) s2) \/
  ((forall u, ~ In (name, u) s) /\ v = d).
(** [all_set s name vs]: the settings of [name], in order *)
Inductive all_set (name : str) : list setting -> list str -> Prop :=
| as_nil : all_set name [] []
| as_this v s vs : all_set name s vs -> all_set name ((name, v) :: s) (v :: vs)
| as_other n v s vs : n <> name -> all_set name s vs -> all_set name ((n, v) :: s) vs.
