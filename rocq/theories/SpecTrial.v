(** What `texted test` does, from the command line arguments to the exit status, in terms of
    the meaning of scripts (SpecMeaning).  Reading a file and decoding its XML are taken as
    given.  Used to state C82; nothing here is used by the model, and nothing of the model
    is used here except the data types and the reading of files. *)
From Coq Require Import ZArith NArith QArith List Bool Strings.Byte.
From Verif Require Import Base Float Ext Utf8 Values Buffer Eval Files Testing TestCmd
  Spec SpecText SpecNumber SpecNumText SpecJson SpecLines SpecRefuse SpecData SpecFiles SpecManual SpecMeaning.
Import ListNotations.
Open Scope Z_scope.

(** ** Texts *)
(** [well_formed s]: [s] is well-formed UTF-8, as every text in an XML document is *)
Definition all_valid (l : list rune) : Prop := Forall (fun r => valid_rune r = true) l.
Definition well_formed (s : str) : Prop := exists l, all_valid l /\ s = text l.
(** [stripped s t]: [t] is [s] without the white space around it *)
Definition blank (l : list rune) : Prop := Forall (fun r => In r white_space) l.
Definition stripped (s t : str) : Prop := exists a m b, all_valid m /\ blank a /\ blank b /\
  s = text (a ++ m ++ b) /\ t = text m /\ forall c u, m = c :: u \/ m = u ++ [c] -> ~ In c white_space.

(** ** Values in reports *)
(** [report_number E f t]: a number that converting to int and back does not change is shown
    as that integer *)
Inductive report_number (E : Ext) (f : spec_float) : str -> Prop :=
| rn_int n t : int_arg E f n -> nearest (inject_Z n) f -> int_text t n -> report_number E f t
| rn_other n t : int_arg E f n -> ~ nearest (inject_Z n) f -> number_shown E f t -> report_number E f t.
(** [reported E v t]: the value [v] in reports; a string is put between quotes as it is *)
Inductive reported (E : Ext) : value -> str -> Prop :=
| rp_symbol n : reported E (VSym n) n
| rp_text s : reported E (VStr s) (bs """" ++ s ++ bs """")
| rp_number f t : report_number E f t -> reported E (VNum f) t
| rp_list l ts t : Forall2 (reported E) l ts -> in_row ts t -> reported E (VList l) (bs "(" ++ t ++ bs ")").

(** ** Expected results *)
(** the format of an expected result is that of its attribute lang; whatever is not one of
    the two known names means an s-expression *)
Inductive result_read : str -> str -> list value -> Prop :=
| rr_shell s p : script s p -> result_read (bs "shell") s p
| rr_json s p : json_script s p -> result_read (bs "json") s p
| rr_sexp lang l p : ~ In lang [bs "shell"; bs "json"] -> all_valid l -> sexp l p -> result_read lang (text l) p.
Inductive result_flaw : str -> str -> str -> Prop :=
| rw_shell s m : bad_script s m -> result_flaw (bs "shell") s m
| rw_json s m : script_flaw s m -> result_flaw (bs "json") s m
| rw_sexp lang l m : ~ In lang [bs "shell"; bs "json"] -> all_valid l -> bad_sexp l m -> result_flaw lang (text l) m.
Definition language (t : test_case) (lang : str) : Prop :=
  t_result_lang t = [] /\ lang = bs "sexp" \/ t_result_lang t <> [] /\ lang = t_result_lang t.
Definition two_texts (E : Ext) (want got t : str) : Prop := exists q q', quoted E want q /\ quoted E got q' /\
  t = bs ":" ++ [nl] ++ bs "expected: " ++ q ++ [nl] ++ bs "actual: " ++ q'.

(** ** One test *)
(** [judged E t v b c]: the program of the test ended with the value [v] and the state [b];
    [c] is the complaint about it, if any *)
Inductive judged (E : Ext) (t : test_case) (v : value) (b : buffer) : option str -> Prop :=
| jd_no_error want q : stripped (t_error t) want -> want <> [] -> quoted E want q ->
    judged E t v b (Some (bs "expected error " ++ q ++ bs " but got none"))
| jd_nothing : stripped (t_error t) [] -> t_output t = [] -> stripped (t_result t) [] ->
    judged E t v b (Some (bs "test case must specify at least one of <output> or <result> elements"))
| jd_output m : stripped (t_error t) [] -> t_output t <> [] -> t_output t <> content b -> two_texts E (t_output t) (content b) m ->
    judged E t v b (Some (bs "output mismatch" ++ m))
| jd_fine_output : stripped (t_error t) [] -> t_output t <> [] -> t_output t = content b -> stripped (t_result t) [] ->
    judged E t v b None
| jd_result_flaw want lang m : stripped (t_error t) [] -> In (t_output t) [[]; content b] -> stripped (t_result t) want -> want <> [] ->
    language t lang -> result_flaw lang want m ->
    judged E t v b (Some (bs "parsing expected result with format " ++ lang ++ bs ": " ++ m))
| jd_several want lang e e' l n : stripped (t_error t) [] -> In (t_output t) [[]; content b] -> stripped (t_result t) want -> want <> [] ->
    language t lang -> result_read lang want (e :: e' :: l) -> int_text n (2 + zlen l) ->
    judged E t v b (Some (bs "expected result should contain exactly one expression, got " ++ n))
| jd_fine_result want lang e : stripped (t_error t) [] -> In (t_output t) [[]; content b] -> stripped (t_result t) want -> want <> [] ->
    language t lang -> result_read lang want [e] -> same_value e v ->
    judged E t v b None
| jd_result want lang e x y m : stripped (t_error t) [] -> In (t_output t) [[]; content b] -> stripped (t_result t) want -> want <> [] ->
    language t lang -> result_read lang want [e] -> ~ same_value e v -> reported E e x -> reported E v y -> two_texts E x y m ->
    judged E t v b (Some (bs "result mismatch" ++ m))
| jd_no_result want lang y m : stripped (t_error t) [] -> In (t_output t) [[]; content b] -> stripped (t_result t) want -> want <> [] ->
    language t lang -> result_read lang want [] -> reported E v y -> two_texts E (bs "nil") y m ->
    judged E t v b (Some (bs "result mismatch" ++ m)).
(** [excused E t m c]: the program ended with the error [m] *)
Inductive excused (E : Ext) (t : test_case) (m : str) : option str -> Prop :=
| xc_unexpected : stripped (t_error t) [] -> excused E t m (Some (bs "unexpected error: " ++ m))
| xc_expected want core u v : stripped (t_error t) want -> want <> [] -> without_parens want core -> m = u ++ core ++ v ->
    excused E t m None
| xc_other want core q q' : stripped (t_error t) want -> want <> [] -> without_parens want core -> (forall u v, m <> u ++ core ++ v) ->
    quoted E want q -> quoted E m q' ->
    excused E t m (Some (bs "expected error containing " ++ q ++ bs " but got " ++ q')).
(** [trial E t r]: running the test comes to [r], a complaint or none *)
Inductive trial (E : Ext) (t : test_case) : res (option str) -> Prop :=
| tl_flaw s m : stripped (t_input t) s -> bad_script s m -> trial E t (Ok (Some (bs "parsing input: " ++ m)))
| tl_done s p v b c : stripped (t_input t) s -> script s p -> sequence E p (new_buffer (t_buffer t)) v b -> judged E t v b c ->
    trial E t (Ok c)
| tl_error s before i rest v b1 msg b2 m c : stripped (t_input t) s -> script s (before ++ i :: rest) ->
    sequence E before (new_buffer (t_buffer t)) v b1 -> means E i b1 (Fail msg b2) -> complaint E msg (zlen before) i b2 m ->
    excused E t m c -> trial E t (Ok c)
| tl_crash s before i rest v b1 : stripped (t_input t) s -> script s (before ++ i :: rest) ->
    sequence E before (new_buffer (t_buffer t)) v b1 -> means E i b1 Panic -> trial E t (Crash CrashPanic)
| tl_memory s before i rest v b1 : stripped (t_input t) s -> script s (before ++ i :: rest) ->
    sequence E before (new_buffer (t_buffer t)) v b1 -> means E i b1 OutOfMemory -> trial E t (Crash CrashMemory).

(** ** The trace *)
Definition trace_entry (E : Ext) (i : value) (b : buffer) (t : str) : Prop :=
  exists ti q tp tm, reported E i ti /\ quoted E (content b) q /\ int_text tp (point b) /\ int_text tm (mark b) /\
    t = bs "TRACE: Executed instruction: " ++ ti ++ [nl] ++ bs "  Buffer content: " ++ q ++ [nl] ++
        bs "  Point: " ++ tp ++ bs ", Mark: " ++ tm ++ [nl; nl].
(** an entry for each instruction that was carried out, with the state after it *)
Inductive traced (E : Ext) : list value -> buffer -> str -> Prop :=
| td_end b : traced E [] b []
| td_stop i p b o : means E i b o -> ~ finished o -> traced E (i :: p) b []
| td_step i p b v b1 t out : means E i b (Done v b1) -> trace_entry E i b1 t -> traced E p b1 out -> traced E (i :: p) b (t ++ out).
Inductive trace_of (E : Ext) (t : test_case) : bool -> str -> Prop :=
| to_off : trace_of E t false []
| to_flaw s m : stripped (t_input t) s -> bad_script s m -> trace_of E t true []
| to_on s p out : stripped (t_input t) s -> script s p -> traced E p (new_buffer (t_buffer t)) out -> trace_of E t true out.

(** ** The command *)
Definition printed (s : str) (w : world) : world :=
  mkWorld (w_fs w) (w_seen w) (w_ops w) (w_stdin w) (w_stdin_read w) (w_stdout w ++ s).

Section Command.
Variables (decode : str -> test_case + str) (E : Ext) (os : OS).

(** [file_trial trace f w r w']: the test in the file [f] *)
Inductive file_trial (trace : bool) (f : str) (w : world) : res (option str) -> world -> Prop :=
| ft_unread e w1 : os_read_file os f w = (Err e, w1) -> file_trial trace f w (Ok (Some (bs "opening test file " ++ f ++ bs ": " ++ e))) w1
| ft_gone c w1 : os_read_file os f w = (Crash c, w1) -> file_trial trace f w (Crash c) w1
| ft_no_test x e w1 : os_read_file os f w = (Ok x, w1) -> decode x = inr e -> file_trial trace f w (Ok (Some (bs "parsing test case: " ++ e))) w1
| ft_test x t out r w1 : os_read_file os f w = (Ok x, w1) -> decode x = inl t -> trial E t r -> trace_of E t trace out ->
    file_trial trace f w r (printed out w1).
(** the tests one after the other, each with its name *)
Inductive trials (trace : bool) : list str -> world -> res (list (str * option str)) -> world -> Prop :=
| ts_end w : trials trace [] w (Ok []) w
| ts_more f l w c w1 name cs w2 : file_trial trace f w (Ok c) w1 -> last_component f name -> trials trace l w1 (Ok cs) w2 ->
    trials trace (f :: l) w (Ok ((name, c) :: cs)) w2
| ts_dies f l w x w1 : file_trial trace f w (Crash x) w1 -> trials trace (f :: l) w (Crash x) w1
| ts_dies_later f l w c w1 x w2 : file_trial trace f w (Ok c) w1 -> trials trace l w1 (Crash x) w2 -> trials trace (f :: l) w (Crash x) w2.

(** [asked ps f r]: the patterns [ps] are tried on the name of [f] one after the other, up to
    the first that matches ([r] is [inl true]) or is none ([r] is the pattern and what is
    wrong with it) *)
Definition unmatched (name p : str) : Prop := re_error E p = None /\ re_find E p name = None.
Inductive asked (ps : list str) (f : str) : bool + str * str -> Prop :=
| as_no name : last_component f name -> Forall (unmatched name) ps -> asked ps f (inl false)
| as_yes name before p rest : last_component f name -> ps = before ++ p :: rest -> Forall (unmatched name) before ->
    re_error E p = None -> re_find E p name <> None -> asked ps f (inl true)
| as_invalid name before p rest e : last_component f name -> ps = before ++ p :: rest -> Forall (unmatched name) before ->
    re_error E p = Some e -> asked ps f (inr (p, e)).
(** [sifted ps files sel]: [sel] are the files with a name that matches *)
Inductive sifted (ps : list str) : list str -> list str -> Prop :=
| sf_end : sifted ps [] []
| sf_take f l m : asked ps f (inl true) -> sifted ps l m -> sifted ps (f :: l) (f :: m)
| sf_leave f l m : asked ps f (inl false) -> sifted ps l m -> sifted ps (f :: l) m.
Definition chosen_files (a : test_args) (globbed sel : list str) : Prop := exists files,
  (ta_files a = [] /\ files = globbed \/ ta_files a <> [] /\ files = ta_files a) /\
  (ta_include a = [] /\ sel = files \/ ta_include a <> [] /\ sifted (ta_include a) files sel).
(** the first pattern that turns out to be none *)
Definition no_choice (a : test_args) (globbed : list str) (p e : str) : Prop := exists before sel f rest,
  (ta_files a = [] /\ before ++ f :: rest = globbed \/ ta_files a <> [] /\ before ++ f :: rest = ta_files a) /\
  ta_include a <> [] /\ sifted (ta_include a) before sel /\ asked (ta_include a) f (inr (p, e)).

(** what is printed about a test *)
Definition told_of (a : test_args) (x : str * option str) : str :=
  match snd x with
  | None => if ta_quiet a || ta_fail_only a then [] else bs "[PASS] " ++ fst x ++ [nl]
  | Some m => if ta_quiet a then [] else bs "[FAIL] " ++ fst x ++ [nl] ++ bs "  Error: " ++ m ++ [nl]
  end.
(** [tally cs p f]: [p] tests passed and [f] failed *)
Inductive tally : list (str * option str) -> Z -> Z -> Prop :=
| ty_end : tally [] 0 0
| ty_passed name cs p f : tally cs p f -> tally ((name, None) :: cs) (p + 1) f
| ty_failed name m cs p f : tally cs p f -> tally ((name, Some m) :: cs) p (f + 1).

(** [tests_run a globbed w r w']: a run of texted test ends with [r]; the exit status is 1 if
    a pattern is none or a test failed *)
Inductive tests_run (a : test_args) (globbed : list str) (w : world) : res Z -> world -> Prop :=
| tn_invalid p e : no_choice a globbed p e -> tests_run a globbed w (Ok 1) (printed (bs "Error: invalid pattern " ++ p ++ bs ": " ++ e ++ [nl]) w)
| tn_none : chosen_files a globbed [] -> tests_run a globbed w (Ok 0) (printed (bs "No test files found" ++ [nl]) w)
| tn_dies sel c w1 : chosen_files a globbed sel -> trials (ta_trace a) sel w (Crash c) w1 -> tests_run a globbed w (Crash c) w1
| tn_done sel cs w1 p f tp tf tn : chosen_files a globbed sel -> sel <> [] -> trials (ta_trace a) sel w (Ok cs) w1 -> tally cs p f ->
    int_text tp p -> int_text tf f -> int_text tn (p + f) ->
    tests_run a globbed w (Ok (if f =? 0 then 0 else 1))
      (printed (flat_map (told_of a) cs ++ [nl] ++ bs "Tests: " ++ tp ++ bs " passed, " ++ tf ++ bs " failed, " ++ tn ++ bs " total" ++ [nl]) w1).
End Command.

(** what is known of the decoder: from a file that fits it makes texts that fit, in UTF-8 *)
Definition decodes_texts (decode : str -> test_case + str) : Prop := forall x t, fits x -> decode x = inl t ->
  fits (t_buffer t) /\ well_formed (t_input t) /\ well_formed (t_result t) /\ well_formed (t_error t).
