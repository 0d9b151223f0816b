(** What expressions, programs and scripts mean, in terms of the manual of the commands
    (SpecManual).  Used to state C79; nothing here is used by the model, and nothing of the
    model is used here except the data types. *)
From Coq Require Import ZArith NArith QArith List Bool Strings.Byte.
From Verif Require Import Base Float Ext Utf8 Values Buffer Eval Files Tools Spec SpecText SpecNumber SpecNumText SpecJson SpecLines SpecManual.
Import ListNotations.
Open Scope Z_scope.

(** ** Names in messages *)
(** [escaped E s t]: the text [s] the way Go's %q shows it between the quotes; what can be
    printed stands for itself, the rest is escaped *)
Definition printable (E : Ext) (r : rune) : Prop := (32 <= r <= 126 \/ 128 <= r /\ uc_print E r = true)%N.
Definition control_letters : list (byte * byte) :=
  [("a"%byte, x07); ("b"%byte, x08); ("f"%byte, x0c); ("n"%byte, x0a); ("r"%byte, x0d); ("t"%byte, x09); ("v"%byte, x0b)].
Definition small_hex (k : nat) (h : str) (n : N) : Prop :=
  hexs h n /\ length h = k /\ Forall (fun c => In c (bs "0123456789abcdef")) h.
Inductive escaped (E : Ext) : str -> str -> Prop :=
| es_end : escaped E [] []
| es_quote c s t : In c [dquote; backslash] -> escaped E s t -> escaped E (c :: s) (backslash :: c :: t)
| es_printable r s t : valid_rune r = true -> printable E r -> ~ In r [34; 92]%N -> escaped E s t ->
    escaped E (encode_rune r ++ s) (encode_rune r ++ t)
| es_letter e c s t : In (e, c) control_letters -> escaped E s t -> escaped E (c :: s) (backslash :: e :: t)
| es_control c h s t : (byteN c < 32 \/ byteN c = 127)%N -> ~ In c (map snd control_letters) -> small_hex 2 h (byteN c) ->
    escaped E s t -> escaped E (c :: s) (backslash :: "x"%byte :: h ++ t)
| es_u r h s t : valid_rune r = true -> ~ printable E r -> (128 <= r < 65536)%N -> small_hex 4 h r ->
    escaped E s t -> escaped E (encode_rune r ++ s) (backslash :: "u"%byte :: h ++ t)
| es_U r h s t : valid_rune r = true -> ~ printable E r -> (65536 <= r)%N -> small_hex 8 h r ->
    escaped E s t -> escaped E (encode_rune r ++ s) (backslash :: "U"%byte :: h ++ t)
| es_bad c h s t : (forall r u, valid_rune r = true -> c :: s <> encode_rune r ++ u) -> small_hex 2 h (byteN c) ->
    escaped E s t -> escaped E (c :: s) (backslash :: "x"%byte :: h ++ t).
Definition quoted (E : Ext) (s q : str) : Prop := exists t, escaped E s t /\ q = dquote :: t ++ [dquote].

(** ** Expressions *)
(** the name of a command *)
Definition known (n : str) : Prop := exists name s, In (name, s) signatures /\ n = bs name.
Definition finished (o : outcome value) : Prop := exists v b, o = Done v b.
(** [means E e b o]: evaluating [e] in the state [b] comes to [o]; [each]: the arguments
    from left to right *)
Inductive means (E : Ext) : value -> buffer -> outcome value -> Prop :=
| mn_text s b : means E (VStr s) b (Done (VStr s) b)
| mn_number f b : means E (VNum f) b (Done (VNum f) b)
| mn_symbol n b : means E (VSym n) b (Fail (bs "unknown expression type") b)
| mn_empty b : means E (VList []) b (Fail (bs "empty list") b)
| mn_head v l b : (forall n, v <> VSym n) -> means E (VList (v :: l)) b (Fail (bs "first element of list must be a symbol") b)
| mn_unknown n q args b : ~ known n -> quoted E n q -> means E (VList (VSym n :: args)) b (Fail (bs "undefined-function " ++ q) b)
| mn_call name args vs b b' o : each E args b vs b' -> manual E name vs b' o -> means E (VList (VSym (bs name) :: args)) b o
| mn_argument n front arg rest vs b b' o : known n -> each E front b vs b' -> means E arg b' o -> ~ finished o ->
    means E (VList (VSym n :: front ++ arg :: rest)) b o
with each (E : Ext) : list value -> buffer -> list value -> buffer -> Prop :=
| each_none b : each E [] b [] b
| each_more e es b v b1 vs b2 : means E e b (Done v b1) -> each E es b1 vs b2 -> each E (e :: es) b (v :: vs) b2.

(** ** Programs *)
(** [sequence E p b v b']: the instructions of [p] are all carried out, the last one with the
    value [v] *)
Inductive sequence (E : Ext) : list value -> buffer -> value -> buffer -> Prop :=
| sq_nothing b : sequence E [] b (VStr []) b
| sq_more p i b v b1 w b2 : sequence E p b v b1 -> means E i b1 (Done w b2) -> sequence E (p ++ [i]) b w b2.
(** [plays E p b r]: the program [p] begun in [b] ends with [r] *)
Inductive plays (E : Ext) (p : list value) (b : buffer) : eval_result -> Prop :=
| pl_done v b' : sequence E p b v b' -> plays E p b (EvDone v b')
| pl_error before i rest v b1 msg b2 : p = before ++ i :: rest -> sequence E before b v b1 -> means E i b1 (Fail msg b2) ->
    plays E p b (EvError (mkExecError msg p i (zlen before) (content b2) (point b2) (mark b2) (last_match b2) (last_start b2) (last_end b2)) b2)
| pl_crash before i rest v b1 : p = before ++ i :: rest -> sequence E before b v b1 -> means E i b1 Panic -> plays E p b EvPanic
| pl_memory before i rest v b1 : p = before ++ i :: rest -> sequence E before b v b1 -> means E i b1 OutOfMemory -> plays E p b EvOutOfMemory.

(** the texts written in a program are below the allocation limit *)
Definition holds_texts (e : value) : Prop := all_atoms (fun v => forall s, v = VStr s -> fits s) e.

(** ** Results *)
(** [written E v t]: [t] is the value [v] in the notation of expressions *)
Inductive in_row : list str -> str -> Prop :=
| row_none : in_row [] []
| row_one s : in_row [s] s
| row_more s s' l t : in_row (s' :: l) t -> in_row (s :: s' :: l) (s ++ bs " " ++ t).
Inductive written (E : Ext) : value -> str -> Prop :=
| wr_symbol n : written E (VSym n) n
| wr_text s q : quoted E s q -> written E (VStr s) q
| wr_number f t : number_shown E f t -> written E (VNum f) t
| wr_list l ts t : Forall2 (written E) l ts -> in_row ts t -> written E (VList l) (bs "(" ++ t ++ bs ")").
(** [complaint E msg n i b t]: [t] reports the error [msg] of the instruction [i], which has
    number [n] and left the state [b] *)
Definition complaint (E : Ext) (msg : str) (n : Z) (i : value) (b : buffer) (t : str) : Prop :=
  exists ti tn tp tm, written E i ti /\ int_text tn n /\ int_text tp (point b) /\ int_text tm (mark b) /\
    t = msg ++ bs " (at instruction " ++ tn ++ bs ": " ++ ti ++ bs ", point=" ++ tp ++ bs ", mark=" ++ tm ++ bs ")".

(** [edited E reads refused input r]: editing [input] with a script comes to [r], where
    [reads p] says that the script stands for the program [p] and [refused m] that it
    stands for none, for the reason [m] *)
Inductive edited (E : Ext) (reads : list value -> Prop) (refused : str -> Prop) (input : str) : res str -> Prop :=
| ed_done p v b : reads p -> sequence E p (new_buffer input) v b -> edited E reads refused input (Ok (content b))
| ed_error before i rest v b1 msg b2 t : reads (before ++ i :: rest) -> sequence E before (new_buffer input) v b1 ->
    means E i b1 (Fail msg b2) -> complaint E msg (zlen before) i b2 t ->
    edited E reads refused input (Err (bs "script execution failed: " ++ t))
| ed_refused m : refused m -> edited E reads refused input (Err (bs "parsing script: " ++ m))
| ed_crash before i rest v b1 : reads (before ++ i :: rest) -> sequence E before (new_buffer input) v b1 -> means E i b1 Panic ->
    edited E reads refused input (Crash CrashPanic)
| ed_memory before i rest v b1 : reads (before ++ i :: rest) -> sequence E before (new_buffer input) v b1 -> means E i b1 OutOfMemory ->
    edited E reads refused input (Crash CrashMemory).

(** [valued E reads refused input r]: the answer of the tool texted_eval if it is asked for the value *)
Inductive valued (E : Ext) (reads : list value -> Prop) (refused : str -> Prop) (input : str) : res tool_result -> Prop :=
| va_done p v b t : reads p -> sequence E p (new_buffer input) v b -> written E v t -> valued E reads refused input (Ok (ToolText t))
| va_error before i rest v b1 msg b2 t : reads (before ++ i :: rest) -> sequence E before (new_buffer input) v b1 ->
    means E i b1 (Fail msg b2) -> complaint E msg (zlen before) i b2 t ->
    valued E reads refused input (Ok (ToolError (bs "script execution failed: " ++ t)))
| va_refused m : refused m -> valued E reads refused input (Ok (ToolError (bs "parsing script: " ++ m)))
| va_crash before i rest v b1 : reads (before ++ i :: rest) -> sequence E before (new_buffer input) v b1 -> means E i b1 Panic ->
    valued E reads refused input (Crash CrashPanic)
| va_memory before i rest v b1 : reads (before ++ i :: rest) -> sequence E before (new_buffer input) v b1 -> means E i b1 OutOfMemory ->
    valued E reads refused input (Crash CrashMemory).
