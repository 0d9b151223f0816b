(** C63: which texts are scripts in shell or s-expression form. *)
From Coq Require Import ZArith NArith List Bool Lia Strings.Byte.
From Verif Require Import Base Float Ext Utf8 Strconv Values Parser Spec SpecJson SpecLines Proofs_Base Proofs_Utf8 Proofs_Token Proofs_Lines Proofs_Words.
Import ListNotations.
Open Scope Z_scope.

(** ** C63 *)

(** ParseString accepts exactly the grammar of SpecLines and yields exactly the program it denotes *)
Theorem script_grammar s p : parse_string s = POk p <-> script s p.
Proof. now apply (script_iff (length s)). Qed.
(** every other text is rejected with an error: the parser always answers *)
Theorem script_rejected s : (forall p, ~ script s p) <-> exists e, parse_string s = PErr e.
Proof.
  split.
  - intros N. pose proof (parse_string_fuel s). destruct (parse_string s) as [p|e|] eqn:P; [|eauto|congruence]. apply script_grammar in P. now apply N in P.
  - intros [e E] p G. apply script_grammar in G. congruence.
Qed.
(** the grammar is unambiguous *)
Theorem script_one_meaning s p q : script s p -> script s q -> p = q.
Proof. intros A B. apply script_grammar in A, B. congruence. Qed.
Theorem word_one_meaning t v w : atom t v -> atom t w -> v = w.
Proof. intros A B. apply atom_iff in A, B. congruence. Qed.
Theorem literal_one_meaning t a b : literal t a -> literal t b -> a = b.
Proof. intros A B. pose proof (literal_complete _ _ A (S (length t)) ltac:(lia)) as X. rewrite (literal_complete _ _ B (S (length t)) ltac:(lia)) in X. congruence. Qed.
(** every text has exactly one reading as characters *)
Theorem chars_exist s : exists l, chars s l.
Proof. exists (rune_list s). now apply chars_iff. Qed.
Theorem chars_one s l m : chars s l -> chars s m -> l = m.
Proof. intros A B. apply chars_iff in A, B. congruence. Qed.
(** a script is a list of lists: every command is one *)
Theorem script_lists s p : script s p -> Forall (fun v => exists l, v = VList l) p.
Proof.
  assert (Cmd : forall l v, command l v -> exists k, v = VList k).
  { intros l v [u ts rest x T X|u ts vs _ _ _ _]; [|eauto]. destruct X as [w x A|ts vs X]; [|eauto]. exfalso.
    apply tokens_iff_open in T as [K _]. discriminate. }
  assert (Part : forall l q, part l q -> Forall (fun v => exists k, v = VList k) q) by (intros l q [a _|a m b v _ _ _ _ C]; constructor; eauto).
  assert (Line : forall l q, line l q -> Forall (fun v => exists k, v = VList k) q) by (intros l q H; induction H; [eauto|apply Forall_app; eauto]).
  intros H. induction H; [eauto|apply Forall_app; eauto].
Qed.
(** ParseSexp, used by texted_eval_lisp, accepts exactly the grammar of single expressions *)
Theorem sexp_grammar l p : Forall (fun r => valid_rune r = true) l -> (parse_sexp (text l) = POk p <-> sexp l p).
Proof. apply sexp_iff. Qed.
Theorem sexp_one_meaning l p q : Forall (fun r => valid_rune r = true) l -> sexp l p -> sexp l q -> p = q.
Proof. intros V A B. apply sexp_iff in A, B; auto. congruence. Qed.

(** a line with a shell command and a list, read in the grammar itself: [f<tab>"a;b" (g 1) ;] *)
Example script_derived : script (bs "f" ++ [x09] ++ bs """a;b"" (g 1) ;") [VList [VSym (bs "f"); VStr (bs "a;b"); VList [VSym (bs "g"); VNum (f_of_Z 1)]]].
Proof.
  pose (w := [102; 9; 34; 97; 59; 98; 34; 32; 40; 103; 32; 49; 41; 32]%N).
  apply (script_one _ (w ++ [59%N])).
  - intros I. cbn in I. repeat (destruct I as [I|I]; [discriminate I|]). destruct I.
  - reflexivity.
  - apply chars_iff. reflexivity.
  - assert (Bq : between_quotes [97; 59; 98]%N) by (repeat (apply bq_char; [discriminate|discriminate|]); constructor).
    assert (Ws : forall c, In c separators -> In c white_space) by (cbn; intuition).
    assert (Nb : forall c, In c [102; 103; 49]%N -> c <> c_quote /\ ~ In c breaks) by (intros c I; cbn in I; intuition; subst; cbn in *; intuition discriminate).
    assert (Wd : forall c, In c [102; 103; 49]%N -> word [c]) by (intros c I; split; [discriminate|]; apply pc_char; try apply Nb; auto; constructor).
    apply (line_more w [_] [] []); [| |apply line_one; [constructor|apply part_empty; constructor]].
    + unfold w. apply pc_char; [discriminate|cbn; intuition discriminate|]. apply pc_char; [discriminate|cbn; intuition discriminate|].
      apply (pc_quoted _ [97; 59; 98]%N); [exact Bq|]. repeat (apply pc_char; [discriminate|cbn; intuition discriminate|]). constructor.
    + apply (part_command [] [102; 9; 34; 97; 59; 98; 34; 32; 40; 103; 32; 49; 41]%N [32]%N).
      * constructor.
      * constructor; [cbn; tauto|constructor].
      * intros c u E. injection E as <- _. cbn. intuition discriminate.
      * intros c u E. change [102; 9; 34; 97; 59; 98; 34; 32; 40; 103; 32; 49; 41]%N with ([102; 9; 34; 97; 59; 98; 34; 32; 40; 103; 32; 49]%N ++ [41]%N) in E.
        apply app_inj_tail in E as [_ <-]. cbn. intuition discriminate.
      * apply (cmd_words _ ([Word [102]%N] ++ [Word [34; 97; 59; 98; 34]%N] ++ [Open; Word [103]%N; Word [49]%N; Close] ++ [])); [discriminate|discriminate|..].
        -- cbn [app]. apply (tk_word [102]%N); [apply Wd; cbn; tauto|right; eexists _, _; split; [reflexivity|cbn; tauto]|].
           apply tk_separator; [cbn; tauto|].
           apply (tk_word [34; 97; 59; 98; 34]%N); [split; [discriminate|]; apply (pc_quoted _ [97; 59; 98]%N); [exact Bq|constructor]|right; eexists _, _; split; [reflexivity|cbn; tauto]|].
           apply tk_separator; [cbn; tauto|]. apply tk_open.
           apply (tk_word [103]%N); [apply Wd; cbn; tauto|right; eexists _, _; split; [reflexivity|cbn; tauto]|].
           apply tk_separator; [cbn; tauto|].
           apply (tk_word [49]%N); [apply Wd; cbn; tauto|right; eexists _, _; split; [reflexivity|cbn; tauto]|]. apply tk_close. constructor.
        -- apply exs_more; [|apply exs_more; [|apply exs_more; [|constructor]]].
           ++ apply ex_word. apply at_symbol; [discriminate|intros [|? [|? ?]]; discriminate|reflexivity].
           ++ apply ex_word. apply (at_string (bs "a;b") (bs "a;b")).
              apply (lt_char 97%N (bs ";b") (bs ";b")); [reflexivity|cbn; intuition discriminate|].
              apply (lt_char 59%N (bs "b") (bs "b")); [reflexivity|cbn; intuition discriminate|].
              apply (lt_char 98%N [] []); [reflexivity|cbn; intuition discriminate|constructor].
           ++ apply (ex_list ([Word [103]%N] ++ [Word [49]%N] ++ [])). apply exs_more; [|apply exs_more; [|constructor]].
              ** apply ex_word. apply at_symbol; [discriminate|intros [|? [|? ?]]; discriminate|reflexivity].
              ** apply ex_word. apply at_number; [discriminate|intros [|? [|? ?]]; discriminate|vm_compute; reflexivity].
Qed.
(** escapes of every kind in one string, the rest of a parenthesised line dropped, blank lines and CRs *)
Example script_escapes : script (bs "  (insert ""\x41\u00e9\U0001F600\101\n\"""") what follows" ++ [x0d; x0a; x0a] ++ bs ";; set-mark;" ++ [x0a])
  [VList [VSym (bs "insert"); VStr (bs "A" ++ encode_rune 233%N ++ encode_rune 128512%N ++ bs "A" ++ [x0a; dquote])]; VList [VSym (bs "set-mark")]].
Proof. apply script_grammar. vm_compute. reflexivity. Qed.
(** what is not in the grammar: an open quote, unbalanced parentheses, a bad escape, an escape out of range,
    text glued to the end of a string is a symbol and not an error *)
Example script_rejects :
  Forall (fun s => forall p, ~ script s p)
    [bs "insert ""x"; bs "(insert ""x"""; bs "insert ""x"")"; bs "insert ""\q"""; bs "insert ""\400"""; bs "insert ""\ud800"""; bs "(f) ""; (g)"].
Proof. repeat constructor; apply script_rejected; eexists; vm_compute; reflexivity. Qed.
Example script_glued : script (bs "insert ""x""y") [VList [VSym (bs "insert"); VSym (bs """x""y")]].
Proof. apply script_grammar. vm_compute. reflexivity. Qed.
Example sexp_examples : sexp [32; 40; 102; 41; 41; 10]%N [VList [VSym (bs "f")]] /\ sexp [97; 32; 98]%N [VSym (bs "a b")].
Proof.
  split; apply sexp_grammar; try (repeat constructor); vm_compute; reflexivity.
Qed.

(** ** Assumptions of every theorem above *)
Print Assumptions script_grammar.
Print Assumptions script_rejected.
Print Assumptions script_one_meaning.
Print Assumptions word_one_meaning.
Print Assumptions literal_one_meaning.
Print Assumptions chars_exist.
Print Assumptions chars_one.
Print Assumptions script_lists.
Print Assumptions sexp_grammar.
Print Assumptions sexp_one_meaning.
