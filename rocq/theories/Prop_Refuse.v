(** C74: why a text is refused as a script. *)
From Coq Require Import ZArith NArith List Bool Lia Strings.Byte.
From Verif Require Import Base Float Ext Utf8 Strconv Values Parser Spec SpecJson SpecLines SpecRefuse Proofs_Base Proofs_Utf8 Proofs_Token Proofs_Lines Proofs_Words Proofs_Refuse.
Import ListNotations.
Open Scope Z_scope.

(** ** C74 *)

(** ParseString reports exactly the first thing that is wrong *)
Theorem script_refused s e : parse_string s = PErr e <-> bad_script s e.
Proof. now apply (script_bad (length s)). Qed.
(** every text is a script or has a first thing wrong with it, and only one *)
Theorem script_or_refused s : (exists p, script s p) \/ (exists e, bad_script s e).
Proof.
  destruct (parse_string s) as [p|e|] eqn:P; [left; exists p; now apply (script_iff (length s))|right; exists e; now apply script_refused|].
  now apply parse_string_fuel in P.
Qed.
Theorem script_not_refused s p e : script s p -> ~ bad_script s e.
Proof. intros A B. apply (script_iff (length s)) in A; auto. apply script_refused in B. congruence. Qed.
Theorem refusal_one s e f : bad_script s e -> bad_script s f -> e = f.
Proof. intros A B. apply script_refused in A, B. congruence. Qed.

(** the things that can be wrong: a line that is too long, an open quote, a parenthesis too
    many or too few, or a word in quotes that stands for no string *)
Theorem refusals s e : parse_string s = PErr e ->
  In e [bs "reading input: bufio.Scanner: token too long"; bs "unterminated string literal"; bs "unterminated list"; bs "unexpected closing parenthesis in shell-like syntax"] \/
  exists b, (forall x, ~ literal b x) /\ e = bs "invalid string literal " ++ (dquote :: b ++ [dquote]) ++ bs ": invalid syntax".
Proof.
  set (P := fun e => In e [bs "reading input: bufio.Scanner: token too long"; bs "unterminated string literal"; bs "unterminated list"; bs "unexpected closing parenthesis in shell-like syntax"] \/
    exists b, (forall x, ~ literal b x) /\ e = bs "invalid string literal " ++ (dquote :: b ++ [dquote]) ++ bs ": invalid syntax"). change (parse_string s = PErr e -> P e).
  assert (W : forall w e, word w -> bad_word (text w) e -> P e).
  { intros w x [N Q] B. inversion B as [X|b Lb X]; [|right; eauto]. exfalso. assert (w = [c_quote]) as ->.
    { destruct w as [|r [|r' w]]; [congruence|..].
      - f_equal. symmetry in X. change (text [r]) with (encode_rune r ++ []) in X. apply encode_first_any in X; [exact X|cbn; lia].
      - exfalso. apply (f_equal (@length byte)) in X. cbn [text flat_map] in X. rewrite !app_length in X. cbn [length] in X.
        assert (Le : forall z, (1 <= length (encode_rune z))%nat) by (intros z; pose proof (text_ne [z] ltac:(discriminate)) as Z; cbn [text flat_map] in Z; rewrite app_nil_r in Z; destruct (encode_rune z); [congruence|cbn; lia]).
        pose proof (Le r). pose proof (Le r'). lia. }
    inversion Q as [|c l A _ _|b l A _ E]; subst; [now apply A|]. destruct b; discriminate. }
  assert (L : forall ts x, bad_list ts x -> Forall tok_fine ts -> P x).
  { induction 1 as [ts vs A|ts vs w us x A B|ts vs us x A B IH]; intros F; [left; cbn; tauto| |].
    - apply Forall_app in F as [_ F]. inversion F; subst. now apply (W w).
    - apply IH. apply Forall_app in F as [_ F]. now inversion F. }
  assert (O : forall ts x, bad_words ts x -> Forall tok_fine ts -> P x).
  { intros ts x [us vs ws A|us vs w ws y A B|us vs ws y A B] F; [left; cbn; tauto|..]; apply Forall_app in F as [_ F]; inversion F; subst; [now apply (W w)|now apply (L ws)]. }
  assert (C : forall l x, bad_command l x -> P x).
  { intros l x [l' ts y T B|l' ts y _ T B]; apply tokens_fine in T; [inversion T; subst; now apply (L ts)|now apply (O ts)]. }
  assert (D : forall l x, bad_part l x -> P x) by (intros l x [a m b y _ _ _ _ B]; eauto).
  assert (B : forall l x, bad_line l x -> P x) by (induction 1; eauto; left; cbn; tauto).
  assert (G : forall l x, bad_first l x -> P x) by (intros l x [l' _|l' cs y _ _ Y]; eauto; left; cbn; tauto).
  intros H. apply script_refused in H. induction H; eauto.
Qed.
(** ParseSexp, used by texted_eval_lisp, likewise *)
Theorem sexp_refused l e : Forall (fun r => valid_rune r = true) l -> (parse_sexp (text l) = PErr e <-> bad_sexp l e).
Proof. apply sexp_bad. Qed.

(** a refusal read in SpecRefuse itself: the first command is fine, the second has a parenthesis too many *)
Example refused_derived : bad_script (bs "f;g)") (bs "unexpected closing parenthesis in shell-like syntax").
Proof.
  assert (Wd : forall c, In c [102; 103]%N -> word [c]).
  { intros c I. cbn in I. split; [discriminate|]. apply pc_char; [|cbn|constructor]; destruct I as [<-|[<-|[]]]; cbn; intuition discriminate. }
  assert (Pc : forall l, Forall (fun c => In c [102; 103; 41]%N) l -> pieces [c_semicolon] l).
  { intros l F. induction F as [|c l I _ IH]; constructor; auto; cbn in I; destruct I as [<-|[<-|[<-|[]]]]; cbn; intuition discriminate. }
  assert (Sy : forall c, In c [102; 103]%N -> expr [Word [c]] (VSym (text [c]))).
  { intros c I. apply ex_word. cbn in I. destruct I as [<-|[<-|[]]]; (apply at_symbol; [discriminate|intros [|? [|? ?]]; discriminate|reflexivity]). }
  apply br_last; [cbn; intuition discriminate|]. apply (bf_line _ [102; 59; 103; 41]%N); [reflexivity|apply chars_iff; reflexivity|].
  apply (bn_later [102]%N [VList [VSym (bs "f")]] [103; 41]%N); [apply Pc; repeat constructor; cbn; tauto|..].
  - apply (part_command [] [102]%N []); [constructor..|intros c u E; injection E as <- _; cbn; intuition discriminate| |].
    + intros c u E. destruct u as [|? [|? ?]]; [injection E as <-; cbn; intuition discriminate|discriminate..].
    + apply (cmd_words _ [Word [102]%N]); [discriminate|discriminate|apply (tk_word [102]%N []); [apply Wd; cbn; tauto|now left|constructor]|].
      apply (exs_more [Word [102]%N] _ [] []); [apply (Sy 102%N); cbn; tauto|constructor].
  - apply bn_last; [apply Pc; repeat constructor; cbn; tauto|]. apply (bp_command [] [103; 41]%N []); [constructor..|intros c u E; injection E as <- _; cbn; intuition discriminate| |].
    + intros c u E. change [103; 41]%N with ([103]%N ++ [41]%N) in E. apply app_inj_tail in E as [_ <-]. cbn. intuition discriminate.
    + apply (bc_words _ [Word [103]%N; Close]); [discriminate|apply (tk_word [103]%N [41]%N); [apply Wd; cbn; tauto|right; eexists _, _; split; [reflexivity|cbn; tauto]|apply tk_close; constructor]|].
      apply (bo_close [Word [103]%N] [VSym (bs "g")] []). apply (exs_more [Word [103]%N] _ [] []); [apply (Sy 103%N); cbn; tauto|constructor].
Qed.
(** one script for every other kind, each with two things wrong *)
Example refused_each :
  bad_script (bs "(f (g) ; h)") (bs "unterminated list") /\
  bad_script (bs "f (g ""\q"")) ""x") (bs "unterminated string literal") /\
  bad_script (bs "f (g ""\q""))") (bs "invalid string literal ""\q"": invalid syntax") /\
  bad_script (bs "insert ""a\") (bs "unterminated string literal") /\
  bad_script (bs "f" ++ [x0a] ++ bs "(g" ++ [x0d; x0a] ++ bs "h)") (bs "unterminated list") /\
  bad_sexp [40; 102; 59; 34]%N (bs "unterminated string literal") /\ bad_sexp [32; 34; 32]%N (bs "invalid string literal: """).
Proof.
  repeat split; try (apply script_refused; vm_compute; reflexivity); (apply sexp_refused; [repeat constructor|vm_compute; reflexivity]).
Qed.

(** ** Assumptions of every theorem above *)
Print Assumptions script_refused.
Print Assumptions script_or_refused.
Print Assumptions script_not_refused.
Print Assumptions refusal_one.
Print Assumptions refusals.
Print Assumptions sexp_refused.
