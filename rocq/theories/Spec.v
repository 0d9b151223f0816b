(** The vocabulary in which the properties are stated.  Nothing here uses a helper of the
    model except the data types (values, buffers, outcomes) and the entry points.

    Positions are 1-based byte positions: position [p] lies between [before] and [after]
    when the text is [before ++ after] and [p = length before + 1]. *)
From Coq Require Import ZArith NArith List Bool Strings.Byte.
From Verif Require Import Base Float Ext Values Buffer Builtins Eval.
Import ListNotations.
Open Scope Z_scope.

(** ** Calling a command *)

(** Call the built-in [name] of the default environment with evaluated arguments. *)
Definition call (E : Ext) (name : String.string) (args : list value) (b : buffer) : outcome value :=
  match default_env E (bs name) with
  | Some f => f args b
  | None => Fail (bs "undefined") b
  end.
Arguments call E name%string_scope args b.

(** ** Buffers *)

(** a text that fits into the address space *)
Definition fits (s : str) : Prop := zlen s <= max_alloc.
Definition valid_pos (s : str) (p : Z) : Prop := 1 <= p <= zlen s + 1.

(** point (or any position) [p] splits the text of [b] into [before] and [after] *)
Definition splits (b : buffer) (p : Z) (before after : str) : Prop :=
  content b = before ++ after /\ p = zlen before + 1.

(** the buffer [b] with another point; with another text and point; with another mark;
    with another point and another last match *)
Definition at_point (b : buffer) (p : Z) : buffer :=
  mkBuffer (content b) p (mark b) (last_match b) (last_start b) (last_end b).
Definition with_text (b : buffer) (t : str) (p : Z) : buffer :=
  mkBuffer t p (mark b) (last_match b) (last_start b) (last_end b).
Definition with_mark (b : buffer) (m : Z) : buffer :=
  mkBuffer (content b) (point b) m (last_match b) (last_start b) (last_end b).
Definition with_match (b : buffer) (p : Z) (m : str) (s e : Z) : buffer :=
  mkBuffer (content b) p (mark b) m s e.

(** a state in which a fresh script starts, and which most commands preserve *)
Definition good (b : buffer) : Prop :=
  fits (content b) /\ valid_pos (content b) (point b) /\ int_ok (mark b).

(** [p] clamped into [lo, hi] *)
Definition clamp (lo hi p : Z) : Z := Z.max lo (Z.min hi p).

(** ** Numbers *)

(** [denotes f n]: dropping the fractional part of the float [f] leaves the integer [n] *)
Definition denotes (f : spec_float) (n : Z) : Prop :=
  match f with
  | S754_zero _ => n = 0
  | S754_finite s m e =>
    exists a : Z, 0 <= a /\ n = (if s then - a else a) /\
      if 0 <=? e then a = Zpos m * 2 ^ e
      else a * 2 ^ (- e) <= Zpos m < (a + 1) * 2 ^ (- e)
  | _ => False
  end.
(** a numeric argument meaning the 64-bit integer [n]; a number outside the 64-bit range
    (also NaN and the infinities) means whatever the platform's conversion yields *)
Definition int_arg (E : Ext) (f : spec_float) (n : Z) : Prop :=
  (denotes f n /\ int_ok n) \/
  ((forall z, denotes f z -> ~ int_ok z) /\ n = wrap (f2i_oob E f)).

(** [exactly f n]: the float [f] is the integer [n], without rounding *)
Definition exactly (f : spec_float) (n : Z) : Prop :=
  match f with
  | S754_zero _ => n = 0
  | S754_finite s m e =>
    if 0 <=? e then n = (if s then Zneg m else Zpos m) * 2 ^ e
    else n * 2 ^ (- e) = (if s then Zneg m else Zpos m)
  | _ => False
  end.

(** the optional count argument: absent means 1 *)
Definition count_arg (E : Ext) (args : list value) (n : Z) : Prop :=
  (args = [] /\ n = 1) \/ (exists f, args = [VNum f] /\ int_arg E f n).

(** ** Occurrences *)

(** [p] occurs in [s] at 0-based offset [i] *)
Definition occurs_at (s p : str) (i : Z) : Prop :=
  exists u v, s = u ++ p ++ v /\ i = zlen u.

(** ** Lines and words *)

Definition no_newline (s : str) : Prop := ~ In nl s.
(** [s] is empty or begins / ends with a newline *)
Definition starts_with_newline (s : str) : Prop := exists t, s = nl :: t.
Definition ends_with_newline (s : str) : Prop := exists t, s = t ++ [nl].

(** word bytes are ASCII letters and digits *)
Definition word_byte (c : byte) : Prop :=
  In c (bs "abcdefghijklmnopqrstuvwxyzABCDEFGHIJKLMNOPQRSTUVWXYZ0123456789").
Definition all_word (s : str) : Prop := Forall word_byte s.
Definition no_word (s : str) : Prop := Forall (fun c => ~ word_byte c) s.

(** [passes_words n s moved rest]: starting at the beginning of [s], going [n] times over
    a maximal run of non-word bytes followed by a maximal run of word bytes (or stopping
    at the end) passes over [moved] and stops before [rest] *)
Inductive passes_words : nat -> str -> str -> str -> Prop :=
| pw_zero s : passes_words 0 s [] s
| pw_end n : passes_words (S n) [] [] []
| pw_word n gap word rest moved rest' :
    no_word gap -> all_word word ->
    (word <> [] \/ (rest = [] /\ gap <> [])) ->
    (forall c t, rest = c :: t -> ~ word_byte c) ->
    passes_words n rest moved rest' ->
    passes_words (S n) (gap ++ word ++ rest) (gap ++ word ++ moved) rest'.

(** the mirror image: going backward from the end of [s] *)
Definition passes_words_back (n : nat) (s rest moved : str) : Prop :=
  passes_words n (rev s) (rev moved) (rev rest).

(** [passes_lines n s moved rest]: [moved] is the text of [s] through its [n]-th newline,
    or all of it if there are fewer *)
Inductive passes_lines : nat -> str -> str -> str -> Prop :=
| pl_zero s : passes_lines 0 s [] s
| pl_last n s : no_newline s -> passes_lines (S n) s s []
| pl_line n line rest moved rest' :
    no_newline line -> passes_lines n rest moved rest' ->
    passes_lines (S n) (line ++ nl :: rest) (line ++ nl :: moved) rest'.

(** number of newlines *)
Definition newlines (s : str) : Z := Z.of_nat (count_occ Byte.byte_eq_dec s nl).
(** [u] is a (possibly empty) sequence of complete lines *)
Definition whole_lines (u : str) : Prop := u = [] \/ ends_with_newline u.

(** ** Strings *)

(** [t] is what lies in [s] at the 1-based positions from [a] up to but not including [z],
    both clamped into the text; empty when [z] is before [a] *)
Definition piece (s : str) (a z : Z) (t : str) : Prop :=
  exists u v, s = u ++ t ++ v /\
    zlen u + 1 = clamp 1 (zlen s + 1) a /\
    zlen u + zlen t + 1 = Z.max (clamp 1 (zlen s + 1) a) (clamp 1 (zlen s + 1) z).

(** ASCII text, and the case mapping of ASCII bytes as a table *)
Definition ascii (s : str) : Prop := Forall (fun c => (byteN c < 128)%N) s.
Definition case_pairs : list (byte * byte) :=
  combine (bs "abcdefghijklmnopqrstuvwxyz") (bs "ABCDEFGHIJKLMNOPQRSTUVWXYZ").
Definition upper_of (c d : byte) : Prop :=
  In (c, d) case_pairs \/ (d = c /\ ~ In c (map fst case_pairs)).
Definition lower_of (c d : byte) : Prop :=
  In (d, c) case_pairs \/ (d = c /\ ~ In c (map snd case_pairs)).

(** ** Signatures of the commands *)

Inductive kind := KString | KNumber.
Definition has_kind (k : kind) (v : value) : Prop :=
  match k, v with
  | KString, VStr _ => True
  | KNumber, VNum _ => True
  | _, _ => False
  end.
(** the argument lists a command accepts: one of the listed shapes, or any number of
    arguments of one kind *)
Inductive signature :=
| OneOf (shapes : list (list kind))
| AnyNumberOf (k : kind).
Definition accepts (s : signature) (args : list value) : Prop :=
  match s with
  | OneOf shapes => exists ks, In ks shapes /\ Forall2 has_kind ks args
  | AnyNumberOf k => Forall (has_kind k) args
  end.

Definition NoArgs := OneOf [[]].
Definition AString := OneOf [[KString]].
Definition ANumber := OneOf [[KNumber]].
Definition OptNumber := OneOf [[]; [KNumber]].

Delimit Scope string_scope with string.
Local Open Scope string_scope.
(** the documented signatures *)
Definition signatures : list (String.string * signature) := [
  ("insert", AString); ("goto-char", ANumber); ("goto-line", ANumber);
  ("search-forward", AString); ("search-backward", AString);
  ("re-search-forward", AString); ("re-search-backward", AString);
  ("beginning-of-buffer", NoArgs); ("end-of-buffer", NoArgs);
  ("beginning-of-line", NoArgs); ("end-of-line", NoArgs);
  ("set-mark", NoArgs); ("set-mark-command", OptNumber); ("mark", NoArgs);
  ("point", NoArgs); ("point-min", NoArgs); ("point-max", NoArgs);
  ("buffer-size", NoArgs); ("line-number-at-pos", NoArgs); ("current-column", NoArgs);
  ("replace-match", AString); ("delete-region", NoArgs); ("replace-region", AString);
  ("region-beginning", NoArgs); ("region-end", NoArgs);
  ("buffer-substring", OneOf [[KNumber; KNumber]]);
  ("mark-word", NoArgs); ("mark-whole-buffer", NoArgs); ("exchange-point-and-mark", NoArgs);
  ("forward-char", OptNumber); ("backward-char", OptNumber);
  ("forward-word", OptNumber); ("backward-word", OptNumber);
  ("delete-char", OptNumber); ("delete-backward-char", OptNumber);
  ("kill-word", OptNumber); ("backward-kill-word", OptNumber);
  ("mark-line", OptNumber); ("delete-line", OptNumber); ("kill-line", OptNumber);
  ("length", AString); ("upcase", AString); ("downcase", AString); ("capitalize", AString);
  ("substring", OneOf [[KString; KNumber]; [KString; KNumber; KNumber]]);
  ("concat", AnyNumberOf KString);
  ("string-match", OneOf [[KString; KString]]);
  ("replace-regexp-in-string", OneOf [[KString; KString; KString]]);
  ("looking-at", AString); ("looking-back", AString) ].

(** the commands grouped by what they may change *)
Definition queries : list String.string := [
  "point"; "mark"; "point-min"; "point-max"; "buffer-size"; "line-number-at-pos"; "current-column";
  "region-beginning"; "region-end"; "buffer-substring"; "looking-at"; "looking-back"; "length";
  "substring"; "concat"; "upcase"; "downcase"; "capitalize"; "string-match";
  "replace-regexp-in-string" ].
Definition motions : list String.string := [
  "goto-char"; "goto-line"; "forward-char"; "backward-char"; "forward-word"; "backward-word";
  "beginning-of-line"; "end-of-line"; "beginning-of-buffer"; "end-of-buffer" ].
Definition searches : list String.string := [
  "search-forward"; "search-backward"; "re-search-forward"; "re-search-backward" ].
Definition mark_setters : list String.string := [
  "set-mark"; "set-mark-command"; "exchange-point-and-mark"; "mark-word"; "mark-line";
  "mark-whole-buffer" ].
Definition editors : list String.string := [
  "insert"; "replace-match"; "delete-region"; "replace-region"; "delete-char";
  "delete-backward-char"; "kill-word"; "backward-kill-word"; "delete-line"; "kill-line" ].
Local Close Scope string_scope.

(** the error messages a command may report on arguments of its signature *)
Definition expected_error (E : Ext) (name : String.string) (args : list value) (e : str) : Prop :=
  (In name searches /\ e = bs "search failed") \/
  (In name ["re-search-forward"; "re-search-backward"; "replace-regexp-in-string"]%string /\
     exists p rest msg, args = VStr p :: rest /\ re_error E p = Some msg /\ e = bs "invalid regexp: " ++ msg) \/
  (name = "replace-match"%string /\
     (e = bs "no previous search" \/ e = bs "invalid search match positions")).

Arguments expected_error E name%string_scope args e.

(** all the text among the arguments *)
Definition texts (args : list value) : str :=
  flat_map (fun v => match v with VStr s => s | _ => [] end) args.

(** ** Evaluation *)

(** [evaluates env e b v b']: in the environment [env], starting from the buffer [b], the
    expression [e] has the value [v] and leaves the buffer [b'];
    [evaluates_all] does a list of arguments from left to right *)
Inductive evaluates (env : Eval.env) : value -> buffer -> value -> buffer -> Prop :=
| ev_string s b : evaluates env (VStr s) b (VStr s) b
| ev_number f b : evaluates env (VNum f) b (VNum f) b
| ev_call name fn args vs b b1 v b2 :
    env name = Some fn -> evaluates_all env args b vs b1 -> fn vs b1 = Done v b2 ->
    evaluates env (VList (VSym name :: args)) b v b2
with evaluates_all (env : Eval.env) : list value -> buffer -> list value -> buffer -> Prop :=
| ev_none b : evaluates_all env [] b [] b
| ev_more e es b v b1 vs b2 :
    evaluates env e b v b1 -> evaluates_all env es b1 vs b2 ->
    evaluates_all env (e :: es) b (v :: vs) b2.

(** [errs E env e b msg b']: evaluating [e] reports the error [msg] and leaves [b'] *)
Inductive errs (E : Ext) (env : Eval.env) : value -> buffer -> str -> buffer -> Prop :=
| er_symbol n b : errs E env (VSym n) b (bs "unknown expression type") b
| er_empty b : errs E env (VList []) b (bs "empty list") b
| er_head v l b : (forall n, v <> VSym n) ->
    errs E env (VList (v :: l)) b (bs "first element of list must be a symbol") b
| er_unknown n args b : env n = None ->
    errs E env (VList (VSym n :: args)) b (bs "undefined-function " ++ Strconv.quote E n) b
| er_argument n fn done arg rest vs b b1 msg b2 :
    env n = Some fn -> evaluates_all env done b vs b1 -> errs E env arg b1 msg b2 ->
    errs E env (VList (VSym n :: done ++ arg :: rest)) b msg b2
| er_call n fn args vs b b1 msg b2 :
    env n = Some fn -> evaluates_all env args b vs b1 -> fn vs b1 = Fail msg b2 ->
    errs E env (VList (VSym n :: args)) b msg b2.

(** [runs env p b v b']: the instructions of [p] run one after the other from [b] to [b'],
    the last one having the value [v] (the empty string when there is none) *)
Inductive runs (env : Eval.env) : list value -> buffer -> value -> buffer -> Prop :=
| run_nil b : runs env [] b (VStr []) b
| run_snoc p i b v b1 w b2 :
    runs env p b v b1 -> evaluates env i b1 w b2 -> runs env (p ++ [i]) b w b2.

(** the name [n] is called somewhere in the expression *)
Inductive called (n : str) : value -> Prop :=
| called_here args : called n (VList (VSym n :: args))
| called_inside h args a : In a args -> called n a -> called n (VList (h :: args)).

(** ** Safety *)

(** calls that may leave the buffer or crash *)
Definition risky (E : Ext) (name : String.string) (args : list value) (b : buffer) : Prop :=
  (name = "beginning-of-line"%string /\ args = [] /\ content b = []) \/
  (name = "exchange-point-and-mark"%string /\ args = [] /\ ~ valid_pos (content b) (mark b)) \/
  (name = "backward-char"%string /\
     exists n, count_arg E args n /\ zlen (content b) + 1 < point b - n <= max_int) \/
  (name = "delete-char"%string /\ point b <= zlen (content b) /\
     exists n, count_arg E args n /\ ~ 0 <= point b - 1 + n <= max_int).
Arguments risky E name%string_scope args b.

(** a program text in which none of these can happen: the first two commands do not occur,
    the other two only with a literal count that is not negative (and, for delete-char,
    below 2^62) *)
Definition harmless_call (E : Ext) (n : str) (args : list value) : Prop :=
  (forall s, In s ["beginning-of-line"; "exchange-point-and-mark"; "backward-char"; "delete-char"]%string -> n <> bs s) \/
  (n = bs "backward-char" /\ exists k, count_arg E args k /\ 0 <= k) \/
  (n = bs "delete-char" /\ exists k, count_arg E args k /\ 0 <= k < 2 ^ 62).
Inductive harmless (E : Ext) : value -> Prop :=
| harmless_string s : harmless E (VStr s)
| harmless_number f : harmless E (VNum f)
| harmless_symbol n : harmless E (VSym n)
| harmless_list n args : harmless_call E n args -> Forall (harmless E) args -> harmless E (VList (VSym n :: args))
| harmless_no_call l : (forall n args, l <> VSym n :: args) -> harmless E (VList l).

(** an environment that behaves like the default one, except that it may report an error
    instead of doing something, and does so instead of every risky call *)
Definition guards (E : Ext) (env : Eval.env) : Prop :=
  forall n f, env n = Some f ->
  exists name, n = bs name /\
    forall args b, (f args b = call E name args b /\ ~ risky E name args b) \/ (exists e, f args b = Fail e b).

(** ** Values *)

(** the number a finite float stands for, times 2^1074 (always an integer for a float64) *)
Definition scaled (f : spec_float) : Z :=
  match f with
  | S754_finite s m e => (if s then Zneg m else Zpos m) * 2 ^ (e + 1074)
  | _ => 0
  end.
(** two floats are the same number: NaN is no number, both zeros are the number 0 *)
Definition same_number (x y : spec_float) : Prop :=
  match x, y with
  | S754_nan, _ | _, S754_nan => False
  | S754_infinity s, S754_infinity t => s = t
  | S754_infinity _, _ | _, S754_infinity _ => False
  | _, _ => scaled x = scaled y
  end.
(** same shape, same names and strings, same numbers *)
Inductive same_value : value -> value -> Prop :=
| same_sym n : same_value (VSym n) (VSym n)
| same_str s : same_value (VStr s) (VStr s)
| same_num x y : same_number x y -> same_value (VNum x) (VNum y)
| same_list l m : same_all l m -> same_value (VList l) (VList m)
with same_all : list value -> list value -> Prop :=
| same_nil : same_all [] []
| same_cons a b l m : same_value a b -> same_all l m -> same_all (a :: l) (b :: m).

(** every number in a value satisfies [P] *)
Fixpoint numbers (P : spec_float -> Prop) (v : value) : Prop :=
  match v with
  | VNum f => P f
  | VList l => (fix go l := match l with [] => True | x :: l' => numbers P x /\ go l' end) l
  | _ => True
  end.
(** the numbers are float64 values (a float of the model's representation need not be) *)
Definition float64s (v : value) : Prop := numbers (fun f => f64_valid f = true) v.
Definition no_nan (v : value) : Prop := numbers (fun f => f <> S754_nan) v.
