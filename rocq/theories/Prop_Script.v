(** C28, C29, C30, C33, C34, C47: scripts as text. *)
From Coq Require Import ZArith NArith List Bool Lia ZifyBool ZifyN ZifyNat Strings.Byte.
From Verif Require Import Base Float Ext Utf8 Strconv Values Buffer Spec Parser Json Writer SpecText RefExt
  Proofs_Base Proofs_Utf8 Proofs_Float Proofs_Number Proofs_Token Proofs_Script Proofs_Lines.
Import ListNotations.
Open Scope Z_scope.

Lemma nil_or_last {A} (l : list A) : l = [] \/ exists m x, l = m ++ [x].
Proof. destruct l as [|a l]; [now left|right]. destruct (@exists_last _ (a :: l) ltac:(discriminate)) as (m & x & E). eauto. Qed.
(** any script of one short line *)
Lemma parse_fits l : fits_line l -> parse_string l = parse_physical_line l.
Proof. intros [N L]. rewrite parse_one by auto. unfold line_result, max_line. now replace (65536 <=? zlen l) with false by lia. Qed.
Lemma parse_text s : wf8 s -> semi_pass false s -> edge_ok s -> fits_line s ->
  parse_string s = pbind (parse_line s) (fun v => POk [v]).
Proof. intros W S Ed F. rewrite parse_fits, <- line_drop_cr by auto. now apply parse_single. Qed.

(** ** C28 *)
(** a quoted string read as a token *)
Theorem literal_reads_back E s : parse_token (quote E s) = POk (VStr s).
Proof. apply parse_token_quote. Qed.
(** different strings are written differently *)
Theorem literal_injective E s t : quote E s = quote E t -> s = t.
Proof. intros H. pose proof (parse_token_quote E s) as A. rewrite H, parse_token_quote in A. congruence. Qed.
Lemma command_values E l : l <> [] -> Forall writable l -> Forall is_atom l ->
  parse_shell_line (join sp (map (show E) l)) = POk (VList l).
Proof.
  intros N W A. assert (F : Forall (value_text E) l) by (eapply Forall_impl; [|exact W]; intros; now apply value_shown).
  destruct (joined E l F) as (_ & _ & _ & _ & T). unfold parse_shell_line, tokenize.
  rewrite <- (app_nil_r (rune_list _)), T by exact I. cbn [tokenize_from flush pprepend pbind]. rewrite app_nil_r.
  assert (X : forall l0, Forall writable l0 -> Forall is_atom l0 -> forall fuel acc, (length (flat_map (toks E) l0) < fuel)%nat ->
     shell_loop fuel acc (flat_map (toks E) l0) = POk (VList (rev acc ++ l0))).
  { clear. induction l0 as [|v l0 IH]; intros W A fuel acc L.
    - destruct fuel; [lia|]. cbn. now rewrite app_nil_r.
    - inversion W; inversion A; subst. destruct (atom_shown E v) as [T P]; auto.
      assert (K : toks E v = [show E v]) by (destruct v; auto; contradiction).
      cbn [flat_map] in *. rewrite K in *. cbn [app length] in *. destruct fuel as [|fuel]; [lia|]. cbn [shell_loop].
      rewrite (proj2 (str_eqb_neq _ _) (at_open _ T)), (proj2 (str_eqb_neq _ _) (at_close _ T)), P.
      rewrite IH by (auto; lia). cbn [rev]. now rewrite <- app_assoc. }
  rewrite X; auto.
Qed.
(** the first character of a flat command is not an opening parenthesis *)
Lemma command_shell E l : l <> [] -> Forall writable l -> Forall is_atom l ->
  parse_line (join sp (map (show E) l)) = POk (VList l).
Proof.
  intros N W A. unfold parse_line. replace (has_prefix (join sp (map (show E) l)) tok_open) with false; [now apply command_values|].
  symmetry. destruct l as [|v l]; [congruence|]. inversion W; inversion A; subst. destruct (atom_shown E v) as [T _]; auto.
  pose proof (at_head _ T) as Hh. pose proof (at_ne _ T) as Hn. destruct (show E v) as [|c t] eqn:Ev; [congruence|].
  assert (X : exists u, join sp (map (show E) (v :: l)) = c :: u).
  { cbn [map]. rewrite Ev. destruct l; [now exists t|]. cbn [map]. rewrite join_cons by discriminate. now eexists. }
  destruct X as [u ->]. unfold tok_open. change (bs "(") with ["("%byte]. rewrite has_prefix_one. apply byte_eqb_neq. intros <-. now apply (Hh t).
Qed.
Lemma flat_line E l : l <> [] -> Forall writable l -> Forall is_atom l -> zlen (join sp (map (show E) l)) < 65536 ->
  parse_string (join sp (map (show E) l)) = POk [VList l].
Proof.
  intros N W A L. assert (F : Forall (value_text E) l) by (eapply Forall_impl; [|exact W]; intros; now apply value_shown).
  destruct (joined E l F) as (Wf & S & Nl & Ed & _). rewrite parse_text; auto; [|split; auto]. now rewrite command_shell.
Qed.
(** inside a script: a command with one string argument *)
Theorem literal_argument E name s : token_symbol name -> fits_line (name ++ bs " " ++ quote E s) ->
  parse_string (name ++ bs " " ++ quote E s) = POk [VList [VSym name; VStr s]].
Proof.
  intros T F. apply (flat_line E [VSym name; VStr s]); [discriminate|..].
  - repeat constructor. exact T. - repeat constructor. - apply F.
Qed.
Example literal_argument_witness : parse_string (bs "insert " ++ quote ref_ext (bs "a""b;(" ++ [nl; x00; xff; x5c]))
  = POk [VList [VSym (bs "insert"); VStr (bs "a""b;(" ++ [nl; x00; xff; x5c])]].
Proof. vm_compute. reflexivity. Qed.

(** ** C29 *)
(** the names that stand for themselves: any name beginning with an ASCII letter other than
    i, I, n, N (which could start inf or nan) is read as a symbol *)
Theorem letter_names c rs : (65 <= byteN c <= 90 \/ 97 <= byteN c <= 122)%N -> ~ In c (bs "iInN") ->
  Forall symbol_rune rs -> token_symbol (c :: flat_map encode_rune rs).
Proof.
  intros R N F. exists (byteN c :: rs). split; [discriminate|]. split.
  - constructor; auto. split; [apply valid_ascii; lia|]. split; [cbn; lia|]. unfold is_space. lia.
  - cbn [flat_map]. rewrite encode_byte by lia. split; [reflexivity|]. cbn [app].
    set (t := flat_map encode_rune rs). clearbody t. destruct c; cbn in R; try lia; clear R;
      try (exfalso; apply N; cbn; tauto); unfold parse_float; destruct t as [|? [|? ?]]; reflexivity.
Qed.
(** one value on its own *)
Theorem value_reads_back E v : writable v -> parse_sexp (show E v) = POk [v].
Proof.
  intros W. pose proof (value_shown E v W) as V. unfold parse_sexp. rewrite trim_space_edge by apply V.
  pose proof (edge_ne _ (vt_edge _ _ V)) as N. destruct (show E v) as [|c t] eqn:S; [congruence|]. rewrite <- S in *.
  replace (match show E v with [] => POk [] | _ :: _ => if has_prefix (show E v) tok_open then _ else _ end)
    with (if has_prefix (show E v) tok_open then pbind (parse_sexp_line (show E v)) (fun v0 => POk [v0]) else pbind (parse_token (show E v)) (fun v0 => POk [v0]))
    by (rewrite S; reflexivity). 
  destruct v as [n|s|f|l].
  4:{ pose proof (parse_line_list E l W) as P. unfold parse_line in P. destruct (has_prefix (show E (VList l)) tok_open) eqn:H; [now rewrite P|].
      rewrite show_list in H. unfold tok_open in H. change (bs "(") with ["("%byte] in H. rewrite has_prefix_one in H. discriminate. }
  all: destruct (atom_shown E _ W I) as [A P]; destruct (has_prefix (show E _) tok_open) eqn:H; [|now rewrite P];
    apply has_prefix_iff in H as [u H]; exfalso; eapply (at_head _ A); exact H.
Qed.
(** a program: each instruction a list (of any depth) on its own line *)
Theorem sexp_round_trip E p :
  Forall (fun v => exists l, v = VList l) p -> Forall writable p -> Forall (fun v => zlen (show E v) < 65536) p ->
  exists t, write_program E (bs "sexp") p = (t, None) /\ parse_string t = POk p.
Proof.
  intros Hl W L. exists (unlines (map (show E) p)). split.
  - cbn. clear. induction p as [|v p IH]; [reflexivity|]. cbn [write_loop sexp_line]. rewrite IH. reflexivity.
  - unfold parse_string. rewrite raw_lines_unlines.
    2:{ apply Forall_map. eapply Forall_impl; [|exact W]. intros v Wv. apply (vt_nl _ _ (value_shown E v Wv)). }
    apply parse_lines_ok. induction p as [|v p IH]; [constructor|]. inversion Hl as [|? ? [l ->]]; inversion W; inversion L; subst.
    cbn [map]. constructor; auto. split; [unfold max_line; auto|]. pose proof (value_shown E (VList l) ltac:(auto)) as V.
    rewrite parse_single by apply V. now rewrite parse_line_list.
Qed.
Example sexp_round_trip_witness : let p := [VList [VSym (bs "while"); VList [VSym (bs "search-forward"); VStr [nl; xff]]; VNum (f_of_Z (-7))]; VList []] in
  write_program ref_ext (bs "sexp") p = (bs "(while (search-forward ""\n\xff"") -7)" ++ nl :: bs "()" ++ [nl], None)
  /\ parse_string (fst (write_program ref_ext (bs "sexp") p)) = POk p.
Proof. vm_compute. split; reflexivity. Qed.
(** an instruction whose text is longer than that cannot be read back from a script *)
Theorem sexp_long_instruction_fails E v : writable v -> 65536 <= zlen (show E v) ->
  exists t m, write_program E (bs "sexp") [v] = (t, None) /\ parse_string t = PErr m.
Proof.
  intros W L. pose proof (vt_nl _ _ (value_shown E v W)) as N.
  exists (show E v ++ [nl]), (bs "reading input: bufio.Scanner: token too long"). split; [cbn; now rewrite app_nil_r|].
  rewrite parse_newline, parse_one by auto. unfold line_result, max_line. now replace (65536 <=? zlen (show E v)) with true by lia.
Qed.
Example sexp_long_instruction_witness : let v := VList [VStr (repeat x61 (Z.to_nat 65536))] in
  writable v /\ 65536 <= zlen (show ref_ext v).
Proof. split; [cbn; auto|]. apply Z.leb_le. vm_compute. reflexivity. Qed.
(** symbols that look like numbers are read back as numbers, so not every program survives *)
Theorem every_symbol_round_trips_refuted : exists n t q, write_program ref_ext (bs "sexp") [VList [VSym (bs "insert"); VSym n]] = (t, None) /\
  parse_string t = POk [VList [VSym (bs "insert"); VNum q]].
Proof. exists (bs "inf"), (bs "(insert inf)" ++ [nl]), (S754_infinity false). split; vm_compute; reflexivity. Qed.

(** ** C30 *)
Theorem shell_round_trip E p :
  Forall (fun v => exists l, v = VList l /\ l <> [] /\ Forall (fun x => match x with VList _ => False | _ => True end) l) p ->
  Forall writable p ->
  Forall (fun v => exists t, shell_value E v = POk t /\ zlen t < 65536) p ->
  exists t, write_program E (bs "shell") p = (t, None) /\ parse_string t = POk p.
Proof.
  intros Hl W L.
  assert (ST : forall l, Forall is_atom l -> shell_tokens E l = POk (map (show E) l)).
  { clear. intros l H. induction H as [|v l Hv _ IH]; [reflexivity|]. cbn [shell_tokens map]. rewrite IH. destruct v; try contradiction; reflexivity. }
  assert (SV : forall l, l <> [] -> Forall is_atom l -> shell_value E (VList l) = POk (join sp (map (show E) l))).
  { intros l N A. destruct l as [|v l]; [congruence|]. cbn [shell_value]. rewrite ST by auto. reflexivity. }
  induction p as [|v p IH]; [exists []; split; reflexivity|].
  inversion Hl as [|? ? (l & -> & N & A)]; inversion W; inversion L as [|? ? (t0 & T & Lt)]; subst.
  destruct IH as (t & Ht & P); auto. rewrite SV in T by auto. injection T as <-.
  exists (join sp (map (show E) l) ++ nl :: t). split.
  - change (write_program E (bs "shell") (VList l :: p)) with (write_loop (shell_line E) (VList l :: p)).
    change (write_program E (bs "shell") p) with (write_loop (shell_line E) p) in Ht.
    cbn [write_loop]. rewrite Ht. unfold shell_line. rewrite SV by auto. cbn [pbind]. now rewrite <- app_assoc.
  - rewrite parse_newline, P. rewrite flat_line; auto. now apply writable_list.
Qed.
Example shell_round_trip_witness : let p := [VList [VSym (bs "replace-match"); VStr (bs "a;b"); VNum (f_of_Z 3)]; VList [VSym (bs "undo!")]] in
  write_program ref_ext (bs "shell") p = (bs "replace-match ""a;b"" 3" ++ nl :: bs "undo!" ++ [nl], None)
  /\ parse_string (fst (write_program ref_ext (bs "shell") p)) = POk p.
Proof. vm_compute. split; reflexivity. Qed.
(** a nested list stops the writer with an error; the instructions before it are written *)
Theorem shell_nested_rejected E before l m after out :
  write_program E (bs "shell") before = (out, None) -> In (VList m) l ->
  exists e, write_program E (bs "shell") (before ++ VList l :: after) = (out, Some e).
Proof.
  intros B I. assert (X : exists e, shell_line E (VList l) = PErr e).
  { assert (T : exists e, shell_tokens E l = PErr e).
    { clear B. induction l as [|v l IH]; [destruct I|]. cbn [shell_tokens]. destruct I as [->|I].
      - cbn. eauto. - destruct (IH I) as [e ->]. destruct v; cbn; eauto. }
    destruct T as [e T]. exists e. unfold shell_line. destruct l; [destruct I|]. cbn [shell_value]. now rewrite T. }
  destruct X as [e X]. exists e.
  change (write_loop (shell_line E) before = (out, None)) in B.
  change (write_loop (shell_line E) (before ++ VList l :: after) = (out, Some e)). revert out B.
  induction before as [|v before IH]; intros out B; cbn [app write_loop] in *.
  - rewrite X. injection B as <-. reflexivity.
  - destruct (shell_line E v) as [t|e'|]; try discriminate. destruct (write_loop (shell_line E) before) as [o r].
    injection B as <- ->. now rewrite (IH o eq_refl).
Qed.
Example shell_nested_witness : write_program ref_ext (bs "shell") [VList [VSym (bs "a")]; VList [VSym (bs "b"); VList []]]
  = (bs "a" ++ [nl], Some (bs "nested lists are not supported in shell format")).
Proof. vm_compute. reflexivity. Qed.
(** the empty list is written as an empty line, which is read as no instruction at all *)
Theorem shell_empty_list_refuted : exists p t, Forall (fun v => exists l, v = VList l) p /\ Forall writable p /\
  write_program ref_ext (bs "shell") p = (t, None) /\ parse_string t <> POk p.
Proof.
  exists [VList []], [nl]. split; [repeat constructor; eauto|]. split; [repeat constructor|]. split; [reflexivity|]. vm_compute. discriminate.
Qed.

(** ** C33 *)
(** lines are parsed one after the other; the first error is the error of the script *)
Theorem newline_separates a b : parse_string (a ++ nl :: b) = pseq (parse_string a) (parse_string b).
Proof. apply parse_newline. Qed.
(** a semicolon outside string literals separates commands like a newline *)
Theorem semicolon_separates a b : closed a -> fits_line (a ++ bs ";" ++ b) ->
  parse_string (a ++ bs ";" ++ b) = parse_string (a ++ nl :: b).
Proof.
  intros C F. pose proof F as [N L]. assert (Fa : fits_line a /\ fits_line b).
  { unfold no_newline in N. rewrite !in_app_iff in N. revert L. lens. intros L. pose proof (zlen_nonneg a). pose proof (zlen_nonneg b).
    unfold fits_line, no_newline. change (zlen (bs ";")) with 1 in L. repeat split; try tauto; lia. }
  rewrite parse_newline, !parse_fits by tauto. now apply line_semicolon.
Qed.
(** blank lines, and blanks before and after a line, have no effect *)
Theorem blanks_ignored ws l ws' : blanks ws -> blanks ws' -> fits_line (ws ++ l ++ ws') ->
  parse_string (ws ++ l ++ ws') = parse_string l.
Proof.
  intros A B F. pose proof F as [N L]. assert (Fl : fits_line l).
  { unfold no_newline in N. rewrite !in_app_iff in N. revert L. lens. intros L. pose proof (zlen_nonneg ws). pose proof (zlen_nonneg ws').
    unfold fits_line, no_newline. split; [tauto|lia]. }
  rewrite !parse_fits by auto. now apply line_blanks.
Qed.
Theorem blank_line_ignored ws a b : blanks ws -> zlen ws < 65536 -> parse_string (a ++ nl :: ws ++ nl :: b) = parse_string (a ++ nl :: b).
Proof.
  intros B L. assert (W : parse_string ws = POk []).
  { rewrite parse_fits. - exact (line_blanks [] [] ws ltac:(constructor) B).
    - split; auto. intros I. unfold blanks in B. rewrite Forall_forall in B. destruct (B _ I); discriminate. }
  rewrite !parse_newline, W. now rewrite pseq_nil_l.
Qed.
(** carriage returns before newlines do not matter either *)
Theorem crlf_ignored l b : fits_line (l ++ [x0d]) -> parse_string (l ++ x0d :: nl :: b) = parse_string (l ++ nl :: b).
Proof.
  intros [N L]. change (l ++ x0d :: nl :: b) with (l ++ [x0d] ++ nl :: b). rewrite app_assoc, !parse_newline. f_equal.
  unfold no_newline in N. rewrite in_app_iff in N. rewrite (parse_fits (l ++ [x0d])) by (split; auto; unfold no_newline; now rewrite in_app_iff).
  rewrite parse_fits. 2:{ split; [intros I; tauto|]. revert L. lens. change (zlen [x0d]) with 1. lia. }
  apply line_after; [repeat constructor|]. apply rune_list_app_tail. repeat constructor.
Qed.
(** one bad line rejects the whole script *)
Theorem bad_line_rejects a b : (exists m, parse_string a = PErr m) \/ (exists m, parse_string b = PErr m) ->
  exists m, parse_string (a ++ nl :: b) = PErr m.
Proof. intros H. rewrite parse_newline. apply pseq_error; auto using parse_string_fuel. Qed.
(** every script is either accepted or rejected with an error: parsing terminates *)
Theorem parsing_total s : (exists p, parse_string s = POk p) \/ (exists m, parse_string s = PErr m).
Proof. pose proof (parse_string_fuel s). destruct (parse_string s); eauto. congruence. Qed.
(** a string literal left open is an error *)
Theorem open_literal_rejected l : fits_line l -> ~ closed l -> exists m, parse_string l = PErr m.
Proof. intros F C. rewrite parse_fits by auto. now apply line_open. Qed.
(** parentheses outside literals must be well nested: in a command (first visible character not
    a parenthesis) altogether, in an S-expression line up to the end of the first list *)
Theorem parentheses_balanced c t ps p : (33 <= byteN c < 127)%N -> command_text (c :: t) ps -> fits_line (c :: t) ->
  parse_string (c :: t) = POk p ->
  (c <> "("%byte -> nested ps) /\ (c = "("%byte -> exists a b, ps = a ++ b /\ a <> [] /\ nested a).
Proof.
  intros V C F P. rewrite parse_fits in P by auto. pose proof (line_parens _ _ _ C P) as X.
  assert (R : rune_list (c :: t) = byteN c :: rune_list t) by (apply (rune_list_app_ascii [] c t); lia).
  assert (S : is_space (byteN c) = false) by (unfold is_space; lia).
  assert (T : exists u, trim_space (utf8 (rune_list (c :: t))) = c :: u).
  { rewrite trim_space_utf8 by apply rune_list_valid. destruct (trim_runes_split (rune_list (c :: t))) as (w & w' & A & B & E).
    rewrite R in E. destruct w as [|x w]; [|injection E as <- _; inversion A; congruence]. cbn [app] in E. rewrite <- R in E.
    destruct (trim_runes (rune_list (c :: t))) as [|x u] eqn:Tr.
    - cbn [app] in E. rewrite R in E. destruct w' as [|y w']; [discriminate|]. injection E as <- _. inversion B; congruence.
    - rewrite R in E. injection E as <- _. exists (utf8 u). unfold utf8. cbn [flat_map]. now rewrite encode_byte by lia. }
  destruct T as [u T]. rewrite T in X. unfold tok_open in X. change (bs "(") with ["("%byte] in X. rewrite has_prefix_one in X.
  destruct (Byte.eqb "(" c) eqn:Q; split; intros H; auto.
  - apply byte_eqb_eq in Q. congruence. - subst c. discriminate.
Qed.
Example script_structure_witness :
  closed (bs "insert ""a;b""") /\ ~ closed (bs "insert ""a") /\ command_text (bs "f (g 1) "")""") [true; false] /\
  parse_string (bs "insert ""a;b""; (f (g 1))") = POk [VList [VSym (bs "insert"); VStr (bs "a;b")]; VList [VSym (bs "f"); VList [VSym (bs "g"); VNum (f_of_Z 1)]]].
Proof.
  split; [apply closed_iff; reflexivity|]. split; [rewrite closed_iff; discriminate|]. split; [|vm_compute; reflexivity].
  unfold command_text. change (bs "f (g 1) "")""") with (bs "f (g 1) " ++ """"%byte :: bs ")" ++ """"%byte :: []).
  cbn [bs app]. do 2 (apply out_plain; [discriminate..|]). apply out_open. do 3 (apply out_plain; [discriminate..|]). apply out_close.
  apply out_plain; [discriminate..|]. apply (out_literal _ [")"%byte]); [repeat (constructor; try discriminate)|constructor].
Qed.

(** ** C34 *)
Theorem text_after_list_dropped E l junk ps : writable (VList l) -> command_text junk ps -> fits_line (show E (VList l) ++ junk) ->
  parse_string (show E (VList l) ++ junk) = POk [VList l].
Proof.
  intros W C F. rewrite parse_fits by auto. pose proof (value_shown E _ W) as V. pose proof (vt_wf _ _ V) as (rs & Vr & Ers).
  assert (R : rune_list (show E (VList l) ++ junk) = rs ++ rune_list junk) by (rewrite Ers; now apply rune_list_app_valid).
  destruct (command_scan _ _ C) as (A & _ & Q).
  rewrite line_commands, R. replace rs with (rune_list (show E (VList l))) by (rewrite Ers; now apply rune_list_utf8).
  assert (Sp : split_semi_from [] false false (rune_list (show E (VList l)) ++ rune_list junk)
     = split_semi_from (show E (VList l)) false false (rune_list junk)) by apply (vt_semi _ _ V).
  rewrite <- split_parts, Sp, split_parts, parts_single by auto. cbn [parse_commands].
  rewrite Ers at 1. rewrite <- utf8_app, trim_space_utf8 by (apply Forall_app; auto using rune_list_valid).
  assert (X : exists j, trim_runes (rs ++ rune_list junk) = rs ++ j /\ fst (qrun (false, false) j) = false).
  { destruct (vt_edge _ _ V) as [(r1 & l1 & E1 & S1) (r2 & l2 & E2 & S2)]. rewrite Ers, rune_list_utf8 in E1, E2 by auto.
    destruct (trim_runes_split (rs ++ rune_list junk)) as (w & w' & Aw & Aw' & Et). set (T := trim_runes (rs ++ rune_list junk)) in *. clearbody T.
    destruct w as [|x w]. 2:{ rewrite E1 in Et. injection Et as <- _. inversion Aw; congruence. }
    cbn [app] in Et. apply app_eq_app in Et as (m & [[Ea Eb]|[Ea Eb]]).
    - destruct (@nil_or_last _ m) as [->|(m' & y & ->)].
      + rewrite app_nil_r in Ea. exists []. rewrite app_nil_r. auto.
      + exfalso. rewrite E2, app_assoc in Ea. apply app_inj_tail in Ea as [_ <-]. subst w'. unfold all_space in Aw'. rewrite !Forall_app in Aw'.
        destruct Aw' as [[_ Aw'] _]. inversion Aw'; congruence.
    - exists m. split; auto. rewrite Eb, qrun_app in Q. pose proof (qrun_spaces w' Aw' (qrun (false, false) m)) as Y. rewrite Q in Y. auto. }
  destruct X as (j & Xj & Qj). rewrite Xj.
  rewrite utf8_app, <- Ers.
  assert (Vj : Forall valid j).
  { eapply Forall_app. rewrite <- Xj. apply trim_valid. apply Forall_app; auto using rune_list_valid. }
  pose proof (tokenize_state j [] false false) as T. rewrite Qj in T. destruct T as [ts T].
  assert (P : parse_line (show E (VList l) ++ utf8 j) = POk (VList l)).
  { unfold parse_line. replace (has_prefix (show E (VList l) ++ utf8 j) tok_open) with true.
    2:{ rewrite show_list. symmetry. apply has_prefix_one. }
    unfold parse_sexp_line, tokenize. rewrite rune_list_app by apply V. rewrite (rune_list_utf8 j) by auto.
    rewrite tokenize_list, T by auto. cbn [pprepend pbind]. rewrite parse_toks; auto. unfold tok_fuel. rewrite app_length. lia. }
  pose proof (edge_ne _ (vt_edge _ _ V)) as Ne. destruct (show E (VList l) ++ utf8 j) as [|x y] eqn:Z.
  { apply app_eq_nil in Z as [Z _]. congruence. }
  rewrite P. reflexivity.
Qed.
Example text_after_list_witness : parse_string (bs "(insert ""a"") (delete-char 1) x "")"" y") = POk [VList [VSym (bs "insert"); VStr (bs "a")]].
Proof. vm_compute. reflexivity. Qed.
(** so not every command of an accepted script is executed *)
Theorem every_command_kept_refuted : exists a b, closed a /\ (exists p, parse_string a = POk p) /\ (exists q, parse_string b = POk q /\ q <> []) /\
  parse_string (a ++ bs " " ++ b) = parse_string a.
Proof.
  exists (bs "(insert ""a"")"), (bs "(delete-char 1)"). split; [apply closed_iff; reflexivity|].
  split; [eexists; vm_compute; reflexivity|]. split; [eexists; split; [vm_compute; reflexivity|discriminate]|]. vm_compute. reflexivity.
Qed.
(** in a command line, on the other hand, nothing is dropped: one more argument is one more element *)
Theorem command_keeps_all E l : l <> [] -> Forall writable l -> Forall (fun x => match x with VList _ => False | _ => True end) l ->
  fits_line (join [" "%byte] (map (show E) l)) -> parse_string (join [" "%byte] (map (show E) l)) = POk [VList l].
Proof. intros N W A [_ L]. now apply flat_line. Qed.

(** ** C47 *)
(** a line of 65536 bytes or more anywhere rejects the whole script *)
Theorem long_line_rejected before line after : no_newline line -> 65536 <= zlen line ->
  (exists m, parse_string line = PErr m) /\ (exists m, parse_string (before ++ nl :: line) = PErr m) /\
  (exists m, parse_string (line ++ nl :: after) = PErr m) /\ (exists m, parse_string (before ++ nl :: line ++ nl :: after) = PErr m).
Proof.
  intros N L. assert (P : exists m, parse_string line = PErr m).
  { rewrite parse_one by auto. unfold line_result, max_line. replace (65536 <=? zlen line) with true by lia. eauto. }
  split; auto. assert (Q : exists m, parse_string (line ++ nl :: after) = PErr m) by (apply bad_line_rejects; auto).
  split; [apply bad_line_rejects; auto|]. split; auto. apply bad_line_rejects. auto.
Qed.
(** shorter lines are only judged by their contents: a command with a string argument that fills
    the line up to 65535 bytes is accepted, and one byte more is not *)
Lemma quote_plain n : quote ref_ext (repeat x61 n) = """"%byte :: repeat x61 n ++ [""""%byte].
Proof.
  rewrite quote_eq. cbn [dq app]. f_equal. f_equal. induction n as [|k IH]; [reflexivity|]. cbn [repeat].
  rewrite runes_ascii by (cbn; lia). cbn [flat_map]. rewrite IH. reflexivity.
Qed.
Theorem line_limit_exact name n : token_symbol name -> 0 <= n ->
  let text := name ++ bs " " ++ quote ref_ext (repeat x61 (Z.to_nat n)) in
  zlen text = zlen name + 3 + n /\
  (zlen text < 65536 -> parse_string text = POk [VList [VSym name; VStr (repeat x61 (Z.to_nat n))]]) /\
  (65536 <= zlen text -> exists m, parse_string text = PErr m).
Proof.
  intros T N text. assert (Nl : no_newline text).
  { unfold no_newline, text. rewrite !in_app_iff. intros [I|[I|I]].
    + destruct (symbol_atom _ T) as [A _]. now apply (at_nl _ A).
    + destruct I as [I|[]]. discriminate.
    + now apply quote_no_nl in I. }
  split; [|split].
  - unfold text. rewrite quote_plain. change (bs " ") with [" "%byte]. unfold zlen. rewrite !app_length. cbn [length]. rewrite app_length, repeat_length. cbn [length]. lia.
  - intros L. apply literal_argument; auto. split; auto.
  - intros L. now apply (long_line_rejected [] text []).
Qed.
Lemma insert_symbol : token_symbol (bs "insert").
Proof.
  exists (rune_list (bs "insert")). split; [discriminate|]. split; [|split; reflexivity].
  repeat constructor; cbn; lia || reflexivity || (intros X; decompose [or] X; discriminate || assumption).
Qed.
Example line_limit_witness : let text n := bs "insert" ++ bs " " ++ quote ref_ext (repeat x61 (Z.to_nat n)) in
  parse_string (text 65526) = POk [VList [VSym (bs "insert"); VStr (repeat x61 (Z.to_nat 65526))]]
  /\ exists m, parse_string (text 65527) = PErr m.
Proof.
  cbv zeta. split.
  - destruct (line_limit_exact (bs "insert") 65526 insert_symbol ltac:(lia)) as (L & P & _). apply P. rewrite L. reflexivity.
  - destruct (line_limit_exact (bs "insert") 65527 insert_symbol ltac:(lia)) as (L & _ & P). apply P. rewrite L. discriminate.
Qed.

(** ** Assumptions of every theorem above *)
Print Assumptions literal_reads_back.
Print Assumptions literal_injective.
Print Assumptions literal_argument.
Print Assumptions letter_names.
Print Assumptions value_reads_back.
Print Assumptions sexp_round_trip.
Print Assumptions sexp_long_instruction_fails.
Print Assumptions every_symbol_round_trips_refuted.
Print Assumptions shell_round_trip.
Print Assumptions shell_nested_rejected.
Print Assumptions shell_empty_list_refuted.
Print Assumptions newline_separates.
Print Assumptions semicolon_separates.
Print Assumptions blanks_ignored.
Print Assumptions blank_line_ignored.
Print Assumptions crlf_ignored.
Print Assumptions bad_line_rejects.
Print Assumptions parsing_total.
Print Assumptions open_literal_rejected.
Print Assumptions parentheses_balanced.
Print Assumptions text_after_list_dropped.
Print Assumptions every_command_kept_refuted.
Print Assumptions command_keeps_all.
Print Assumptions long_line_rejected.
Print Assumptions line_limit_exact.
