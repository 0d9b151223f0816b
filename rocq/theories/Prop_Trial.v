(** C82: the command texted test, exactly (commands/test.go:63-207,
    edlisp/testing/testing.go:86-262). *)
From Coq Require Import ZArith NArith QArith List Bool Lia Strings.Byte ZifyBool ZifyN ZifyNat.
From Verif Require Import Base Float Ext Utf8 Strconv Values Buffer Builtins Eval Parser Json Writer Files Cli Testing TestCmd RefExt
  Spec SpecText SpecNumber SpecNumText SpecJson SpecLines SpecRefuse SpecData SpecFiles SpecManual SpecMeaning SpecTrial
  Proofs_Base Proofs_Numeral Proofs_Files Proofs_Cli Proofs_Reread Proofs_Manual Proofs_Meaning Proofs_Meaning2 Proofs_Ref
  Prop_Values Prop_Words Prop_Refuse Prop_Manual Prop_Tools Prop_Test Prop_Report Prop_Meaning Proofs_Trial.
Import ListNotations.
Open Scope Z_scope.

(** ** C82 *)
(** values in reports and traces *)
Theorem reported_exact E v t : float64s v -> (fmt_value E v = t <-> reported E v t).
Proof. apply reported_iff. Qed.
Example reported_witness : reported ref_ext (VList [VSym (bs "f"); VStr (bs "a""b"); VNum (S754_zero true); VList []; VNum (f_of_Z 12)]) (bs "(f ""a""b"" 0 () 12)").
Proof. apply reported_exact; [vm_compute; repeat split|vm_compute; reflexivity]. Qed.

(** the complaint in a report, [None] if the test passed *)
Definition said_of (r : res test_result) : res (option str) :=
  match r with Ok r => Ok (tr_error r) | Err e => Err e | Crash c => Crash c end.

Lemma said_ok r c : said_of (Ok r) = Ok c -> tr_error r = c.
Proof. intros H. cbn [said_of] in H. congruence. Qed.
Ltac say H := apply said_ok in H; subst; unfold failure, success; cbn [tr_error].

Section Case.
Variables (E : Ext) (X : ext_ok E) (t : test_case).
Hypotheses (FB : fits (t_buffer t)) (WI : well_formed (t_input t)) (WR : well_formed (t_result t)) (WE : well_formed (t_error t)).

Definition after (name : str) (v : value) (b : buffer) : res test_result :=
  match trim_space (t_error t) with
  | [] => judge E name t v b
  | expected => Ok (failure name (bs "expected error " ++ quote E expected ++ bs " but got none"))
  end.
Definition blamed (name m : str) : res test_result :=
  match trim_space (t_error t) with
  | [] => Ok (failure name (bs "unexpected error: " ++ m))
  | expected =>
    if str_contains m (trim_parens expected) then Ok (success name)
    else Ok (failure name (bs "expected error containing " ++ quote E expected ++ bs " but got " ++ quote E m))
  end.
Lemma input_parsed : match trim_space (t_input t) with [] => POk [] | s => parse_string s end = parse_string (trim_space (t_input t)).
Proof. now destruct (trim_space (t_input t)). Qed.
Lemma full_result trace name : fst (run_test_full E (default_env E) trace name t) =
  match parse_string (trim_space (t_input t)) with
  | PErr e => Ok (failure name (bs "parsing input: " ++ e))
  | PFuel => Crash CrashHang
  | POk p => match eval E (default_env E) p (new_buffer (t_buffer t)) with
             | EvPanic => Crash CrashPanic
             | EvOutOfMemory => Crash CrashMemory
             | EvDiverge => Crash CrashHang
             | EvError x _ => blamed name (exec_error_text E x)
             | EvDone v b => after name v b
             end
  end.
Proof.
  unfold run_test_full. rewrite input_parsed. destruct (parse_string _) as [p|e|]; try reflexivity.
  pose proof (trace_same E (default_env E) p trace (new_buffer (t_buffer t))) as S. destruct (eval_with_trace _ _ _ _ _ _) as [q out]. cbn [fst] in *. now subst q.
Qed.

Lemma excused_iff name m c : said_of (blamed name m) = Ok c <-> excused E t m c.
Proof.
  unfold blamed. split.
  - intros H. destruct (trim_space (t_error t)) as [|x l] eqn:Q.
    + apply stripped_iff in Q; [|exact WE]. say H. now apply xc_unexpected.
    + apply stripped_iff in Q; [|exact WE]. destruct (str_contains m (trim_parens (x :: l))) eqn:C; say H.
      * apply contains_occurs in C as (u & v & C). eapply xc_expected; eauto; [discriminate|apply trim_parens_spec].
      * eapply xc_other; eauto; [discriminate|apply trim_parens_spec| |apply quoted_exact; reflexivity|apply quoted_exact; reflexivity].
        intros u v ->. assert (Y : str_contains (u ++ trim_parens (x :: l) ++ v) (trim_parens (x :: l)) = true) by (apply contains_occurs; eauto). congruence.
  - intros [S|want core u v S N W ->|want core q q' S N W D Q Q'].
    + apply stripped_trim in S. now rewrite S.
    + apply stripped_trim in S. rewrite S. destruct want as [|x l]; [congruence|]. apply without_parens_trim in W. subst core.
      assert (Y : str_contains (u ++ trim_parens (x :: l) ++ v) (trim_parens (x :: l)) = true) by (apply contains_occurs; eauto). now rewrite Y.
    + apply stripped_trim in S. rewrite S. destruct want as [|x l]; [congruence|]. apply without_parens_trim in W. subst core.
      destruct (str_contains m (trim_parens (x :: l))) eqn:C; [apply contains_occurs in C as (u & v & C); now destruct (D u v)|].
      apply quoted_exact in Q, Q'. now subst.
Qed.

(** [judge] with the cases taken apart *)
Lemma judge_result name v b : t_output t = [] \/ t_output t = content b -> trim_space (t_result t) <> [] ->
  judge E name t v b = match parse_format (t_result_lang t) (trim_space (t_result t)) with
    | PFuel => Crash CrashHang
    | PErr e => Ok (failure name (bs "parsing expected result with format " ++ match t_result_lang t with [] => bs "sexp" | l => l end ++ bs ": " ++ e))
    | POk ((_ :: _ :: _) as l) => Ok (failure name (bs "expected result should contain exactly one expression, got " ++ itoa (zlen l)))
    | POk l => let e := match l with x :: _ => Some x | [] => None end in
      if equal e (Some v) then Ok (success name)
      else Ok (mkTestResult name false
             (Some (bs "result mismatch:" ++ [nl] ++ bs "expected: " ++ quote E (fmt_option E e) ++ [nl] ++
                    bs "actual: " ++ quote E (fmt_value E v)))
             (fmt_option E e) (fmt_value E v))
    end.
Proof.
  intros O W. unfold judge. rewrite <- (lang_spec t (trim_space (t_result t))).
  assert (M : match t_output t with [] => true | _ => str_eqb (t_output t) (content b) end = true).
  { destruct O as [->| ->]; [reflexivity|]. destruct (content b) as [|o l]; [reflexivity|]. apply str_eqb_refl. }
  cbv zeta. destruct (trim_space (t_result t)) as [|w ws]; [congruence|]. destruct (t_output t) as [|o l]; [reflexivity|]. rewrite M. reflexivity.
Qed.
Lemma judge_output name v b : t_output t <> [] -> t_output t <> content b -> judge E name t v b =
  Ok (mkTestResult name false (Some (bs "output mismatch:" ++ [nl] ++ bs "expected: " ++ quote E (t_output t) ++ [nl] ++
    bs "actual: " ++ quote E (content b))) (t_output t) (content b)).
Proof.
  intros N D. unfold judge. cbv zeta. destruct (t_output t) as [|o l]; [congruence|]. apply str_eqb_neq in D. rewrite D. now destruct (trim_space (t_result t)).
Qed.
Lemma judge_none name v b : t_output t = [] \/ t_output t = content b -> trim_space (t_result t) = [] -> judge E name t v b =
  Ok (match t_output t with [] => failure name (bs "test case must specify at least one of <output> or <result> elements") | _ => success name end).
Proof.
  intros O R. unfold judge. cbv zeta. rewrite R. destruct (t_output t) as [|o l]; [reflexivity|]. destruct O as [O|O]; [discriminate|]. rewrite O, str_eqb_refl. reflexivity.
Qed.
Lemma language_spec lang : language t lang -> lang = match t_result_lang t with [] => bs "sexp" | l => l end.
Proof. intros [[-> ->]|[N ->]]; [reflexivity|]. now destruct (t_result_lang t). Qed.
Lemma language_of : language t (match t_result_lang t with [] => bs "sexp" | l => l end).
Proof. unfold language. destruct (t_result_lang t); [left; auto|right; split; [discriminate|auto]]. Qed.
Lemma judged_iff name v b c : float64s v -> (said_of (after name v b) = Ok c <-> judged E t v b c).
Proof.
  intros N. unfold after. split.
  - intros H. destruct (trim_space (t_error t)) as [|x l] eqn:Q.
    2:{ apply stripped_iff in Q; [|exact WE]. say H. eapply jd_no_error; eauto; [discriminate|now apply quoted_exact]. }
    apply stripped_iff in Q; [|exact WE].
    assert (Two : forall x y, two_texts E x y (bs ":" ++ [nl] ++ bs "expected: " ++ quote E x ++ [nl] ++ bs "actual: " ++ quote E y)).
    { intros x y. exists (quote E x), (quote E y). split; [now apply quoted_exact|]. split; [now apply quoted_exact|reflexivity]. }
    assert (D : t_output t <> [] /\ t_output t <> content b \/ t_output t = [] \/ t_output t = content b).
    { destruct (list_eq_dec byte_eq_dec (t_output t) []); auto. destruct (list_eq_dec byte_eq_dec (t_output t) (content b)); auto. }
    destruct D as [[O1 O2]|O].
    { rewrite judge_output in H by auto. say H. apply (jd_output E t v b (bs ":" ++ [nl] ++ bs "expected: " ++ quote E (t_output t) ++ [nl] ++ bs "actual: " ++ quote E (content b))); auto. }
    destruct (list_eq_dec byte_eq_dec (trim_space (t_result t)) []) as [R|R].
    { rewrite judge_none in H by auto. apply stripped_iff in R; [|exact WR]. destruct (t_output t) as [|o os] eqn:Ot; say H.
      - now apply jd_nothing.
      - apply jd_fine_output; auto; rewrite Ot; [discriminate|]. destruct O as [O|O]; [discriminate|auto]. }
    rewrite judge_result in H; auto. revert H. pose proof (lang_spec t (trim_space (t_result t))) as L. rewrite <- L. clear L.
    pose proof language_of as Lo. pose proof (trim_stripped _ WR) as S. pose proof (stripped_formed _ _ S) as W.
    assert (I : In (t_output t) [[]; content b]) by (destruct O as [->| ->]; cbn; auto).
    set (lang := match t_result_lang t with [] => bs "sexp" | l => l end) in *. clearbody lang.
    destruct (parse_format lang (trim_space (t_result t))) as [[|e [|e2 es]]|m|] eqn:P.
    + intros H. say H. apply result_read_iff in P; auto.
      apply (jd_no_result E t v b (trim_space (t_result t)) lang (fmt_value E v) (bs ":" ++ [nl] ++ bs "expected: " ++ quote E (bs "nil") ++ [nl] ++ bs "actual: " ++ quote E (fmt_value E v))); auto. now apply reported_iff.
    + pose proof (Forall_inv (format_numbers _ _ _ P)) as Ne. apply result_read_iff in P; auto. cbv zeta. cbn [equal].
      pose proof (equal_is_same e v Ne N) as Eq. destruct (equal_v e v); intros H; say H.
      * eapply jd_fine_result; eauto. now apply Eq.
      * apply (jd_result E t v b (trim_space (t_result t)) lang e (fmt_value E e) (fmt_value E v) (bs ":" ++ [nl] ++ bs "expected: " ++ quote E (fmt_value E e) ++ [nl] ++ bs "actual: " ++ quote E (fmt_value E v))); auto; [intros Z; apply Eq in Z; discriminate|now apply reported_iff|now apply reported_iff].
    + intros H. say H. apply result_read_iff in P; auto. eapply jd_several; eauto. replace (2 + zlen es) with (zlen (e :: e2 :: es)) by (rewrite !zlen_cons; lia). apply itoa_text.
    + intros H. say H. apply result_flaw_iff in P; auto.
      eapply (eq_ind _ (judged E t v b)); [apply (jd_result_flaw E t v b (trim_space (t_result t)) lang m); auto|]. rewrite (language_spec lang Lo). reflexivity.
    + now apply format_fuel in P.
  - assert (Ts : forall x y m, two_texts E x y m -> m = bs ":" ++ [nl] ++ bs "expected: " ++ quote E x ++ [nl] ++ bs "actual: " ++ quote E y).
    { intros x y m (q & q' & A & B & ->). apply quoted_exact in A, B. now subst. }
    assert (Out : In (t_output t) [[]; content b] -> t_output t = [] \/ t_output t = content b) by (intros [H|[H|[]]]; auto).
    assert (Fm : forall want lang, stripped (t_result t) want -> language t lang -> want <> [] -> trim_space (t_result t) = want /\ trim_space (t_result t) <> [] /\ well_formed want /\
      lang = match t_result_lang t with [] => bs "sexp" | l => l end /\ parse_format (t_result_lang t) want = parse_format lang want).
    { intros want lang S L Nw. pose proof (stripped_trim _ _ S) as Q. split; [auto|]. split; [congruence|]. split; [eapply stripped_formed; eauto|]. apply language_spec in L. split; [auto|]. rewrite L. symmetry. apply lang_spec. }
    intros H. destruct H as [want q S Nw Q|S O R|m S O1 O2 T2|S O1 O2 R|want lang m S O R Nw L P|want lang e e2 es n S O R Nw L P T2|want lang e S O R Nw L P Eq|want lang e x y m S O R Nw L P Eq Rx Ry T2|want lang y m S O R Nw L P Ry T2];
      apply stripped_trim in S; rewrite S.
    + destruct want as [|x l]; [congruence|]. apply quoted_exact in Q. now subst q.
    + apply stripped_trim in R. rewrite judge_none by auto. now rewrite O.
    + rewrite judge_output by auto. rewrite (Ts _ _ _ T2). reflexivity.
    + apply stripped_trim in R. rewrite judge_none by auto. destruct (t_output t); [congruence|reflexivity].
    + destruct (Fm want lang R L Nw) as (Q & Qn & W & Lq & Pq). rewrite judge_result, Q, Pq by auto. apply result_flaw_iff in P; auto. rewrite P, Lq. reflexivity.
    + destruct (Fm want lang R L Nw) as (Q & Qn & W & Lq & Pq). rewrite judge_result, Q, Pq by auto. apply result_read_iff in P; auto. rewrite P. apply int_text_itoa in T2. subst n. cbn [said_of tr_error failure].
      now replace (zlen (e :: e2 :: es)) with (2 + zlen es) by (rewrite !zlen_cons; lia).
    + destruct (Fm want lang R L Nw) as (Q & Qn & W & Lq & Pq). rewrite judge_result, Q, Pq by auto. apply result_read_iff in P; auto. pose proof (Forall_inv (format_numbers _ _ _ P)) as Ne.
      rewrite P. cbv zeta. cbn [equal]. now rewrite (proj2 (equal_is_same e v Ne N) Eq).
    + destruct (Fm want lang R L Nw) as (Q & Qn & W & Lq & Pq). rewrite judge_result, Q, Pq by auto. apply result_read_iff in P; auto. pose proof (Forall_inv (format_numbers _ _ _ P)) as Ne.
      rewrite P. cbv zeta. cbn [equal]. destruct (equal_v e v) eqn:Z; [apply (equal_is_same e v Ne N) in Z; now destruct Eq|].
      apply reported_iff in Rx, Ry; auto. subst x y. rewrite (Ts _ _ _ T2). reflexivity.
    + destruct (Fm want lang R L Nw) as (Q & Qn & W & Lq & Pq). rewrite judge_result, Q, Pq by auto. apply result_read_iff in P; auto. rewrite P.
      apply reported_iff in Ry; auto. subst y. rewrite (Ts _ _ _ T2). reflexivity.
Qed.

Lemma trial_iff trace name r : said_of (fst (run_test_full E (default_env E) trace name t)) = r <-> trial E t r.
Proof.
  pose proof (machine_begins _ FB) as M. rewrite full_result. split.
  - intros <-. pose proof (trim_stripped _ WI) as S. destruct (parse_string (trim_space (t_input t))) as [p|m|] eqn:P.
    + apply script_grammar in P. pose proof (script_float64s _ _ P) as N.
      pose proof (proj1 (plays_iff E X p (new_buffer (t_buffer t)) _ (script_holds _ p P) M) eq_refl) as Q. revert Q.
      generalize (eval E (default_env E) p (new_buffer (t_buffer t))). intros res Q. inversion Q as [v b S1|before i rest v b1 msg b2 Ep S1 I|before i rest v b1 Ep S1 I|before i rest v b1 Ep S1 I]; subst; clear Q.
      * pose proof (sequence_numbers E p _ v b S1 N) as Nv. destruct (said_of (after name v b)) as [c|c|c] eqn:A.
        -- apply judged_iff in A; auto. eapply tl_done; eauto.
        -- exfalso. unfold after in A. destruct (trim_space (t_error t)); [|discriminate]. revert A. unfold judge. cbv zeta.
           repeat match goal with |- context [match ?x with _ => _ end] => destruct x end; discriminate.
        -- exfalso. unfold after in A. destruct (trim_space (t_error t)); [|discriminate]. revert A. unfold judge. cbv zeta. rewrite lang_spec.
           pose proof (format_fuel (t_result_lang t) (trim_space (t_result t))) as F. destruct (t_output t); destruct (trim_space (t_result t)); try discriminate.
           all: try (destruct (str_eqb _ _); try discriminate). all: destruct (parse_format _ _) as [[|? [|? ?]]| |]; try discriminate; try congruence; destruct (equal _ _); discriminate.
      * match goal with |- trial E t (said_of (blamed name (exec_error_text E ?x))) => assert (C : complaint E msg (zlen before) i b2 (exec_error_text E x)) end.
        { match goal with |- complaint E msg ?n ?i ?b (exec_error_text E ?x) => apply (text_complaint E x i b); auto; eapply in_program; eauto end. }
        match goal with |- trial E t (said_of (blamed name ?m)) => destruct (said_of (blamed name m)) as [c|c|c] eqn:A end.
        -- apply excused_iff in A. eapply tl_error; eauto.
        -- exfalso. unfold blamed in A. destruct (trim_space (t_error t)); [discriminate|]. destruct (str_contains _ _); discriminate.
        -- exfalso. unfold blamed in A. destruct (trim_space (t_error t)); [discriminate|]. destruct (str_contains _ _); discriminate.
      * eapply tl_crash; eauto.
      * eapply tl_memory; eauto.
    + apply script_refused in P. cbn [said_of]. unfold failure. cbn [tr_error]. eapply tl_flaw; eauto.
    + now apply Prop_Meaning.parse_string_fuel in P.
  - assert (K : forall s p res, stripped (t_input t) s -> script s p -> plays E p (new_buffer (t_buffer t)) res ->
      parse_string (trim_space (t_input t)) = POk p /\ eval E (default_env E) p (new_buffer (t_buffer t)) = res).
    { intros s p res S R P. apply stripped_trim in S as ->. split; [now apply script_grammar|]. now apply (plays_iff E X p _ res (script_holds s p R) M). }
    intros H. destruct H as [s m S B|s p v b c S R S1 J|s before i rest v b1 msg b2 m c S R S1 I Cm J|s before i rest v b1 S R S1 I|s before i rest v b1 S R S1 I].
    + apply stripped_trim in S. rewrite S. apply script_refused in B. rewrite B. reflexivity.
    + destruct (K _ _ _ S R (pl_done E p _ v b S1)) as [-> ->]. apply judged_iff; auto. eapply sequence_numbers; eauto using script_float64s.
    + destruct (K _ _ _ S R (pl_error E _ _ before i rest v b1 msg b2 eq_refl S1 I)) as [-> ->]. apply excused_iff.
      match goal with |- excused E t ?x c => replace x with m; auto end. symmetry.
      match goal with |- exec_error_text E ?x = m => apply (complaint_text E x i b2); auto; apply script_float64s in R; eapply in_program; eauto end.
    + destruct (K _ _ _ S R (pl_crash E _ _ before i rest v b1 eq_refl S1 I)) as [-> ->]. reflexivity.
    + destruct (K _ _ _ S R (pl_memory E _ _ before i rest v b1 eq_refl S1 I)) as [-> ->]. reflexivity.
Qed.

(** *** The trace *)
Lemma entry_iff i b u : float64s i -> (trace_text E i b = u <-> trace_entry E i b u).
Proof.
  intros N. unfold trace_text. split.
  - intros <-. exists (fmt_value E i), (quote E (content b)), (itoa (point b)), (itoa (mark b)).
    split; [now apply reported_iff|]. split; [now apply quoted_exact|]. split; [apply itoa_text|]. split; [apply itoa_text|]. reflexivity.
  - intros (ti & q & tp & tm & A & B & C & D & ->). apply reported_iff in A; auto. apply quoted_exact in B. apply int_text_itoa in C, D. now subst.
Qed.
Lemma traced_run p : Forall holds_texts p -> Forall float64s p -> forall b, machine b ->
  exists out, traced E p b out /\ (forall out', traced E p b out' -> out' = out) /\
    forall whole i r acc, snd (eval_from E (default_env E) (Some (trace_callback E)) whole i p r acc b) = acc ++ out.
Proof.
  intros T N. induction p as [|i p IH]; intros b M.
  - exists []. split; [constructor|]. split; [intros out' H; now inversion H|]. intros. cbn. now rewrite app_nil_r.
  - inversion T as [|? ? Ti Tp]; inversion N as [|? ? Ni Np]; subst. pose proof (eval_lands E X i Ti b M) as L.
    pose proof (fun o => means_iff E X i b o Ti M) as Me. destruct (eval_expr E (default_env E) i b) as [v b1|m b1| | |] eqn:Q.
    + destruct L as [M1 _]. destruct (IH Tp Np b1 M1) as (out & A & B & C). exists (trace_text E i b1 ++ out).
      split; [eapply td_step; [now apply Me|now apply entry_iff|exact A]|]. split.
      * intros out' H. inversion H as [|? ? ? o Mo Fo|? ? ? v' b1' u o Mo Eo To]; subst.
        -- exfalso. apply Me in Mo. subst o. apply Fo. eexists. eauto.
        -- apply Me in Mo. injection Mo as <- <-. apply entry_iff in Eo; auto. subst u. now rewrite (B o To).
      * intros. cbn [eval_from]. rewrite Q. cbn [trace_callback]. rewrite C, app_assoc. reflexivity.
    + exists []. split; [eapply td_stop; [now apply Me|intros (? & ? & ?); discriminate]|]. split.
      * intros out' H. inversion H as [|? ? ? o Mo Fo|? ? ? v' b1' u o Mo Eo To]; subst; auto. apply Me in Mo. discriminate.
      * intros. cbn [eval_from]. rewrite Q. cbn. now rewrite app_nil_r.
    + exists []. split; [eapply td_stop; [now apply Me|intros (? & ? & ?); discriminate]|]. split.
      * intros out' H. inversion H as [|? ? ? o Mo Fo|? ? ? v' b1' u o Mo Eo To]; subst; auto. apply Me in Mo. discriminate.
      * intros. cbn [eval_from]. rewrite Q. cbn. now rewrite app_nil_r.
    + exists []. split; [eapply td_stop; [now apply Me|intros (? & ? & ?); discriminate]|]. split.
      * intros out' H. inversion H as [|? ? ? o Mo Fo|? ? ? v' b1' u o Mo Eo To]; subst; auto. apply Me in Mo. discriminate.
      * intros. cbn [eval_from]. rewrite Q. cbn. now rewrite app_nil_r.
    + destruct L.
Qed.
Lemma untraced whole p : forall i r acc b, snd (eval_from E (default_env E) (@None (@callback str)) whole i p r acc b) = acc.
Proof. induction p as [|e p IH]; intros; cbn [eval_from]; [reflexivity|]. destruct (eval_expr _ _ e b); try reflexivity. apply IH. Qed.
Lemma trace_iff trace name out : snd (run_test_full E (default_env E) trace name t) = out <-> trace_of E t trace out.
Proof.
  pose proof (machine_begins _ FB) as M. unfold run_test_full. rewrite input_parsed. pose proof (trim_stripped _ WI) as S.
  destruct (parse_string (trim_space (t_input t))) as [p|m|] eqn:P.
  - apply script_grammar in P. unfold eval_with_trace. destruct trace.
    + destruct (traced_run p (script_holds _ _ P) (script_float64s _ _ P) _ M) as (out0 & A & B & C).
      specialize (C p 0 (VStr []) []). destruct (eval_from _ _ _ _ _ _ _ _ _) as [q o]. cbn [snd app] in *. subst o. split.
      * intros <-. eapply to_on; eauto.
      * intros H. inversion H as [|s m S2 B2|s p2 o S2 P2 T2]; subst.
        -- exfalso. apply stripped_trim in S2. rewrite S2 in P. eapply script_not_refused; eauto.
        -- symmetry. apply B. apply stripped_trim in S2. rewrite S2 in P. now rewrite (script_one_meaning _ _ _ P P2).
    + pose proof (untraced p p 0 (VStr []) [] (new_buffer (t_buffer t))) as U. destruct (eval_from _ _ _ _ _ _ _ _ _) as [q o]. cbn [snd] in *. subst o.
      split; [intros <-; constructor|]. intros H. now inversion H.
  - apply script_refused in P. cbn [snd]. split.
    + intros <-. destruct trace; [eapply to_flaw; eauto|constructor].
    + intros H. inversion H as [|s m2 S2 B2|s p2 o S2 P2 T2]; subst; auto. exfalso. apply stripped_trim in S2. rewrite S2 in P. eapply script_not_refused; eauto.
  - now apply Prop_Meaning.parse_string_fuel in P.
Qed.
End Case.

(** one test, exactly: what its report complains of, and what its trace prints *)
Definition sound_case (t : test_case) : Prop := fits (t_buffer t) /\ well_formed (t_input t) /\ well_formed (t_result t) /\ well_formed (t_error t).
Theorem test_exact E trace name t r : ext_ok E -> sound_case t ->
  (said_of (fst (run_test_full E (default_env E) trace name t)) = r <-> trial E t r).
Proof. intros X (F & A & B & C). now apply trial_iff. Qed.
Theorem trace_exact E trace name t out : ext_ok E -> sound_case t ->
  (snd (run_test_full E (default_env E) trace name t) = out <-> trace_of E t trace out).
Proof. intros X (F & A & B & C). now apply trace_iff. Qed.

Section Runs.
Variables (decode : str -> test_case + str) (E : Ext) (os : OS).
Hypotheses (X : ext_ok E) (D : decodes_texts decode).

Lemma read_fits f w c w1 : os_read_file os f w = (Ok c, w1) -> fits c.
Proof.
  unfold os_read_file, fits. destruct (w_fs w (canon os f)) as [c'|]; [|discriminate]. destruct (os_read_err os (w_ops w)); [discriminate|].
  destruct (max_alloc <? zlen c') eqn:L; [discriminate|]. intros [= <- _]. lia.
Qed.
Lemma printed_nothing w : printed [] w = w.
Proof. unfold printed. rewrite app_nil_r. now destruct w. Qed.
Lemma full_shape trace name t r : fst (run_test_full E (default_env E) trace name t) = Ok r ->
  tr_name r = name /\ tr_passed r = match tr_error r with None => true | Some _ => false end /\ (tr_passed r = true -> tr_expected r = [] /\ tr_actual r = []).
Proof.
  intros H. pose proof (every_test_report E (default_env E) trace name t) as R. rewrite H in R. destruct R as [[-> _]|(m & x & y & -> & _)]; repeat split; auto; discriminate.
Qed.
Definition shaped (name : str) (r : test_result) : Prop :=
  tr_name r = name /\ tr_passed r = match tr_error r with None => true | Some _ => false end /\ (tr_passed r = true -> tr_expected r = [] /\ tr_actual r = []).
Lemma file_iff trace f w : exists q w', run_test_file decode E os trace f w = (q, w') /\ file_trial decode E os trace f w (said_of q) w' /\
  (forall r w2, file_trial decode E os trace f w r w2 -> r = said_of q /\ w2 = w') /\ (forall e, q <> Err e) /\
  forall r, q = Ok r -> shaped (base_name f) r.
Proof.
  unfold run_test_file, io_try. destruct (os_read_file os f w) as [[c|e|c] w1] eqn:R.
  - destruct (decode c) as [t|e] eqn:Dc.
    + destruct (D c t (read_fits _ _ _ _ R) Dc) as (F & A & B & C).
      pose proof (trial_iff E X t F A B C trace (base_name f)) as T. pose proof (trace_iff E X t F A trace (base_name f)) as U.
      pose proof (full_shape trace (base_name f) t) as Sh. pose proof (every_test_report E (default_env E) trace (base_name f) t) as Rp.
      destruct (run_test_full E (default_env E) trace (base_name f) t) as [q out]. cbn [fst snd] in *.
      exists q, (printed out w1). unfold io_seq, io_bind, io_res. rewrite print_runs. split; [reflexivity|].
      split; [eapply ft_test; eauto; [now apply T|now apply U]|]. split; [|split; [intros e ->; exact Rp|intros r ->; now apply Sh]].
      intros r w2 H. inversion H; subst; try congruence. repeat match goal with Y : os_read_file os f w = _ |- _ => rewrite R in Y; injection Y as <- <- end.
      match goal with Y : decode c = _ |- _ => rewrite Dc in Y; injection Y as <- end.
      match goal with Y : trial E t r |- _ => apply T in Y end. match goal with Y : trace_of E t trace _ |- _ => apply U in Y end. now subst.
    + eexists _, w1. split; [reflexivity|]. cbn [said_of]. unfold failure. cbn [tr_error]. split; [eapply ft_no_test; eauto|]. split.
      * intros r w2 H. inversion H; subst; try congruence; repeat match goal with Y : os_read_file os f w = _ |- _ => rewrite R in Y; injection Y as <- <- end; try congruence.
        match goal with Y : decode c = _ |- _ => rewrite Dc in Y; injection Y as <- end. auto.
      * split; [discriminate|]. intros r [= <-]. repeat split; discriminate.
  - eexists _, w1. split; [reflexivity|]. cbn [said_of]. unfold failure. cbn [tr_error]. split; [eapply ft_unread; eauto|]. split.
    + intros r w2 H. inversion H; subst; try congruence. match goal with Y : os_read_file os f w = _ |- _ => rewrite R in Y; injection Y as <- <- end. auto.
    + split; [discriminate|]. intros r [= <-]. repeat split; discriminate.
  - exists (Crash c), w1. split; [reflexivity|]. split; [now apply ft_gone|]. split.
    + intros r w2 H. inversion H; subst; try congruence. match goal with Y : os_read_file os f w = _ |- _ => rewrite R in Y; injection Y as <- <- end. auto.
    + split; discriminate.
Qed.
Definition outline (x : test_result) : str * option str := (tr_name x, tr_error x).
Definition outlines (r : res (list test_result)) : res (list (str * option str)) :=
  match r with Ok l => Ok (map outline l) | Err e => Err e | Crash c => Crash c end.
Lemma files_iff trace l : forall w, exists q w', run_test_files decode E os trace l w = (q, w') /\ trials decode E os trace l w (outlines q) w' /\
  (forall r w2, trials decode E os trace l w r w2 -> r = outlines q /\ w2 = w') /\ (forall e, q <> Err e) /\
  forall rs, q = Ok rs -> Forall (fun r => exists name, shaped name r) rs.
Proof.
  induction l as [|f l IH]; intros w.
  - exists (Ok []), w. split; [reflexivity|]. split; [constructor|]. split; [intros r w2 H; inversion H; subst; auto|]. split; [discriminate|]. intros rs [= <-]. constructor.
  - destruct (file_iff trace f w) as (q & w1 & Q & T & U & Ne & Sh). cbn [run_test_files]. unfold io_bind at 1. rewrite Q.
    assert (Nm : last_component f (base_name f)) by (now apply test_name). destruct q as [r|e|c]; [|now destruct (Ne e)|].
    + destruct (IH w1) as (q2 & w2 & Q2 & T2 & U2 & Ne2 & Sh2). unfold io_bind. rewrite Q2. destruct q2 as [rs|e|c]; [|now destruct (Ne2 e)|].
      * exists (Ok (r :: rs)), w2. split; [reflexivity|]. destruct (Sh r eq_refl) as (Nr & Sh'). split.
        { cbn [outlines map]. unfold outline at 1. rewrite Nr. eapply ts_more; eauto. }
        split; [|split; [discriminate|intros x [= <-]; constructor; [exists (base_name f); now split|auto]]].
        intros y w3 H. inversion H as [|? ? ? c' w1' name cs w2' F1 L1 R1|? ? ? x' w1' F1|? ? ? c' w1' x' w2' F1 R1]; subst; destruct (U _ _ F1) as [Y ->]; try discriminate Y.
        -- destruct (U2 _ _ R1) as [Z ->]. injection Y as ->. cbn [outlines] in Z. injection Z as ->. apply test_name in L1 as ->. split; [|reflexivity].
           cbn [outlines map]. unfold outline at 2. now rewrite Nr.
        -- destruct (U2 _ _ R1) as [Z _]. discriminate Z.
      * exists (Crash c), w2. split; [reflexivity|]. split; [eapply ts_dies_later; eauto|]. split; [|split; discriminate].
        intros y w3 H. inversion H as [|? ? ? c' w1' name cs w2' F1 L1 R1|? ? ? x' w1' F1|? ? ? c' w1' x' w2' F1 R1]; subst; destruct (U _ _ F1) as [Y ->]; try discriminate Y.
        -- destruct (U2 _ _ R1) as [Z _]. discriminate Z.
        -- destruct (U2 _ _ R1) as [Z ->]. auto.
    + exists (Crash c), w1. split; [reflexivity|]. split; [now apply ts_dies|]. split; [|split; discriminate].
      intros y w3 H. inversion H as [|? ? ? c' w1' name cs w2' F1 L1 R1|? ? ? x' w1' F1|? ? ? c' w1' x' w2' F1 R1]; subst; destruct (U _ _ F1) as [Y ->]; try discriminate Y. cbn [said_of] in Y. injection Y as ->. auto.
Qed.

(** *** Selection *)
Lemma includes_split ps name r : includes E ps name = r <->
  match r with
  | inl false => Forall (unmatched E name) ps
  | inl true => exists before p rest, ps = before ++ p :: rest /\ Forall (unmatched E name) before /\ re_error E p = None /\ re_find E p name <> None
  | inr (p, e) => exists before rest, ps = before ++ p :: rest /\ Forall (unmatched E name) before /\ re_error E p = Some e
  end.
Proof.
  revert r. induction ps as [|p ps IH]; intros r; cbn [includes].
  - split; [intros <-; constructor|]. destruct r as [[]|[p e]]; auto; [intros (before & p & rest & H & _)|intros (before & rest & H & _)]; destruct before; discriminate.
  - assert (Skip : unmatched E name p -> (includes E ps name = r <-> match r with
      | inl false => Forall (unmatched E name) (p :: ps)
      | inl true => exists before p0 rest, p :: ps = before ++ p0 :: rest /\ Forall (unmatched E name) before /\ re_error E p0 = None /\ re_find E p0 name <> None
      | inr (p0, e) => exists before rest, p :: ps = before ++ p0 :: rest /\ Forall (unmatched E name) before /\ re_error E p0 = Some e end)).
    { intros [U1 U2]. rewrite IH. destruct r as [[]|[p0 e]].
      - split; [intros (before & q & rest & -> & F & H); exists (p :: before), q, rest; split; [reflexivity|]; split; [constructor; auto; now split|exact H]|].
        intros (before & q & rest & Q & F & H). destruct before as [|x before]; injection Q as -> ->; [destruct H; congruence|]. inversion F; subst. eauto 6.
      - split; [intros H; constructor; auto; now split|intros H; now inversion H].
      - split; [intros (before & rest & -> & F & H); exists (p :: before), rest; split; [reflexivity|]; split; [constructor; auto; now split|exact H]|].
        intros (before & rest & Q & F & H). destruct before as [|x before]; injection Q as -> ->; [congruence|]. inversion F; subst. eauto 6. }
    destruct (re_error E p) as [e|] eqn:Er; [|destruct (re_find E p name) as [m|] eqn:Fd; [|now apply Skip]]; clear Skip IH.
    + split; [intros <-; exists [], ps; auto|]. destruct r as [[]|[p0 e0]].
      * intros (before & q & rest & Q & F & H). destruct before as [|x before]; injection Q as -> ->; [destruct H; congruence|]. inversion F as [|? ? [A _] _]; subst. congruence.
      * intros H. inversion H as [|? ? [A _] _]; subst. congruence.
      * intros (before & rest & Q & F & H). destruct before as [|x before]; injection Q as -> ->; [congruence|]. inversion F as [|? ? [A _] _]; subst. congruence.
    + split; [intros <-; exists [], p, ps; repeat split; auto; congruence|]. destruct r as [[]|[p0 e0]]; auto.
      * intros H. inversion H as [|? ? [_ A] _]; subst. congruence.
      * intros (before & rest & Q & F & H). destruct before as [|x before]; injection Q as -> ->; [congruence|]. inversion F as [|? ? [_ A] _]; subst. congruence.
Qed.
Lemma asked_iff ps f r : includes E ps (base_name f) = r <-> asked E ps f r.
Proof.
  assert (Nm : last_component f (base_name f)) by (now apply test_name). rewrite includes_split. split.
  - destruct r as [[]|[p e]].
    + intros (before & p & rest & A & B & C & G). eapply as_yes; eauto.
    + intros A. eapply as_no; eauto.
    + intros (before & rest & A & B & C). eapply as_invalid; eauto.
  - intros [name L A|name before p rest L A B C G|name before p rest e L A B C]; apply test_name in L as ->; [exact A|exists before, p, rest; auto|exists before, rest; auto].
Qed.
Lemma select_ok ps l sel : select E ps l = inl sel <-> sifted E ps l sel.
Proof.
  revert sel. induction l as [|f l IH]; intros sel; cbn [select].
  - split; [intros [= <-]; constructor|intros H; now inversion H].
  - split.
    + destruct (includes E ps (base_name f)) as [k|] eqn:I; [|discriminate]. apply asked_iff in I. destruct (select E ps l) as [m|]; [|discriminate].
      intros [= <-]. destruct k; constructor; auto; now apply IH.
    + intros H. inversion H as [|? ? m A B|? ? m A B]; subst; apply asked_iff in A; rewrite A; apply IH in B; now rewrite B.
Qed.
Lemma select_bad ps l p e : select E ps l = inr (p, e) <-> exists before sel f rest, l = before ++ f :: rest /\ sifted E ps before sel /\ asked E ps f (inr (p, e)).
Proof.
  induction l as [|f l IH]; cbn [select].
  - split; [discriminate|]. intros (before & sel & f & rest & H & _). destruct before; discriminate.
  - split.
    + destruct (includes E ps (base_name f)) as [k|q] eqn:I; apply asked_iff in I.
      * destruct (select E ps l) as [m|q] eqn:S; [discriminate|]. intros [= ->]. destruct (proj1 IH eq_refl) as (before & sel & g & rest & -> & A & B).
        exists (f :: before), (if k then f :: sel else sel), g, rest. split; [reflexivity|]. split; auto. destruct k; now constructor.
      * intros [= ->]. exists [], [], f, l. repeat split; auto. constructor.
    + intros (before & sel & g & rest & Q & A & B). destruct before as [|x before]; injection Q as -> ->.
      * apply asked_iff in B. now rewrite B.
      * inversion A as [|? ? m A1 A2|? ? m A1 A2]; subst; apply asked_iff in A1; rewrite A1; rewrite (proj2 IH) by eauto 7; reflexivity.
Qed.

(** *** The report *)
Lemma tally_fun cs : forall p f p' f', tally cs p f -> tally cs p' f' -> p = p' /\ f = f'.
Proof.
  induction cs as [|[name c] cs IH]; intros p f p' f' A B; inversion A; inversion B; subst; try discriminate; auto.
  - match goal with P : tally cs ?a ?b, Q : tally cs ?x ?y |- _ => destruct (IH _ _ _ _ P Q) end. lia.
  - match goal with P : tally cs ?a ?b, Q : tally cs ?x ?y |- _ => destruct (IH _ _ _ _ P Q) end. lia.
Qed.
Lemma tally_of rs : Forall (fun r => exists name, shaped name r) rs ->
  tally (map outline rs) (zlen (filter tr_passed rs)) (zlen rs - zlen (filter tr_passed rs)).
Proof.
  induction 1 as [|r rs (name & _ & P & _) _ IH]; [constructor|]. cbn [map filter]. unfold outline at 1. rewrite zlen_cons. destruct (tr_error r) as [m|]; rewrite P.
  - replace (1 + zlen rs - zlen (filter tr_passed rs)) with (zlen rs - zlen (filter tr_passed rs) + 1) by lia. now constructor.
  - rewrite zlen_cons. replace (1 + zlen rs - (1 + zlen (filter tr_passed rs))) with (zlen rs - zlen (filter tr_passed rs)) by lia.
    replace (1 + zlen (filter tr_passed rs)) with (zlen (filter tr_passed rs) + 1) by lia. now constructor.
Qed.
Lemma filter_zlen {A} (f : A -> bool) l : zlen (filter f l) <= zlen l.
Proof. induction l as [|x l IH]; [reflexivity|]. cbn [filter]. destruct (f x); rewrite ?zlen_cons; lia. Qed.
Lemma told_all a rs : Forall (fun r => exists name, shaped name r) rs ->
  flat_map (told_of a) (map outline rs) =
  if ta_quiet a then [] else flat_map (result_text E (ta_verbose a)) (if ta_fail_only a then filter (fun r => negb (tr_passed r)) rs else rs).
Proof.
  induction 1 as [|r rs (name & Nm & P & Z) _ IH]; [destruct (ta_quiet a), (ta_fail_only a); reflexivity|]. cbn [map flat_map]. rewrite IH. clear IH.
  unfold told_of at 1, outline at 1 2 3. cbn [fst snd]. destruct (ta_quiet a); [now destruct (tr_error r)|]. cbn [orb].
  assert (T : result_text E (ta_verbose a) r = match tr_error r with None => bs "[PASS] " ++ tr_name r ++ [nl] | Some m => bs "[FAIL] " ++ tr_name r ++ [nl] ++ bs "  Error: " ++ m ++ [nl] end).
  { unfold result_text. destruct (tr_error r) as [m|]; rewrite P.
    - reflexivity.
    - destruct (Z P) as [-> ->]. cbn [negb orb nonempty andb]. rewrite andb_false_r. destruct (ta_verbose a); reflexivity. }
  destruct (ta_fail_only a).
  - cbn [filter]. rewrite P. destruct (tr_error r) as [m|] eqn:Er; cbn [negb]; [|reflexivity]. cbn [flat_map]. rewrite T. reflexivity.
  - cbn [flat_map]. rewrite T. destruct (tr_error r); reflexivity.
Qed.
Lemma tests_total a globbed w : exists r w', run_tests decode E os globbed a w = (r, w') /\ tests_run decode E os a globbed w r w'.
Proof.
  unfold run_tests. set (files := match ta_files a with [] => globbed | l => l end).
  assert (C : ta_files a = [] /\ files = globbed \/ ta_files a <> [] /\ files = ta_files a).
  { unfold files. destruct (ta_files a); [left; auto|right; split; [discriminate|auto]]. }
  clearbody files.
  assert (S : match ta_include a with [] => inl files | ps => select E ps files end = match ta_include a with [] => inl files | _ => select E (ta_include a) files end) by (now destruct (ta_include a)).
  rewrite S. clear S.
  destruct (match ta_include a with [] => inl files | _ => select E (ta_include a) files end) as [sel|[p e]] eqn:S.
  - assert (Ch : chosen_files E a globbed sel).
    { exists files. split; [exact C|]. destruct (ta_include a) as [|x l] eqn:I; [left; split; congruence|]. right. split; [discriminate|]. now apply select_ok. }
    destruct sel as [|f l].
    + eexists _, _. split; [reflexivity|]. now apply tn_none.
    + destruct (files_iff (ta_trace a) (f :: l) w) as (q & w1 & Q & T & U & Ne & Sh). unfold io_bind at 1. rewrite Q. destruct q as [rs|e|c]; [|now destruct (Ne e)|].
      * specialize (Sh rs eq_refl). pose proof (tally_of rs Sh) as Ty. pose proof (told_all a rs Sh) as To.
        set (p := zlen (filter tr_passed rs)) in *. set (n := zlen rs) in *. cbv zeta.
        exists (Ok (if n - p =? 0 then 0 else 1)), (printed (flat_map (told_of a) (map outline rs) ++ [nl] ++ bs "Tests: " ++ itoa p ++ bs " passed, " ++ itoa (n - p) ++ bs " failed, " ++ itoa n ++ bs " total" ++ [nl]) w1).
        split.
        -- replace (if n - p =? 0 then 0 else 1) with (if p <? n then 1 else 0) by (pose proof (filter_zlen tr_passed rs : p <= n) as Le; destruct (Z.ltb_spec p n), (Z.eqb_spec (n - p) 0); lia).
           rewrite To. unfold io_seq, print_if, io_bind, io_ret. destruct (ta_quiet a); cbn [negb]; rewrite ?print_runs; f_equal.
           unfold printed; cbn [w_fs w_seen w_ops w_stdin w_stdin_read w_stdout]. f_equal. now rewrite <- ?app_assoc.
        -- apply (tn_done decode E os a globbed w (f :: l) (map outline rs) w1 p (n - p) (itoa p) (itoa (n - p)) (itoa n)); auto using itoa_text; [discriminate|]. replace (p + (n - p)) with n by lia. apply itoa_text.
      * exists (Crash c), w1. split; [reflexivity|]. eapply tn_dies; eauto.
  - eexists _, _. split; [reflexivity|]. apply tn_invalid. destruct (ta_include a) as [|x l] eqn:I; [discriminate|]. rewrite <- I in S.
    apply select_bad in S as (before & sel & f & rest & -> & A & B). exists before, sel, f, rest. rewrite I in *. repeat split; auto. discriminate.
Qed.
Lemma tests_fun a globbed w r w' r2 w2 : tests_run decode E os a globbed w r w' -> tests_run decode E os a globbed w r2 w2 -> r = r2 /\ w' = w2.
Proof.
  assert (Pick : forall sel, chosen_files E a globbed sel -> match ta_include a with [] => inl (match ta_files a with [] => globbed | l => l end) | _ => select E (ta_include a) (match ta_files a with [] => globbed | l => l end) end = inl sel).
  { intros sel (files & C & S). assert (F : match ta_files a with [] => globbed | l => l end = files) by (destruct C as [[-> ->]|[N ->]]; [reflexivity|now destruct (ta_files a)]). rewrite F.
    destruct S as [[-> ->]|[N S]]; [reflexivity|]. apply select_ok in S. rewrite S. now destruct (ta_include a). }
  assert (Bad : forall p e, no_choice E a globbed p e -> match ta_include a with [] => inl (match ta_files a with [] => globbed | l => l end) | _ => select E (ta_include a) (match ta_files a with [] => globbed | l => l end) end = inr (p, e)).
  { intros p e (before & sel & f & rest & C & N & A & B). assert (F : match ta_files a with [] => globbed | l => l end = before ++ f :: rest) by (destruct C as [[-> ->]|[M ->]]; [reflexivity|now destruct (ta_files a)]). rewrite F.
    assert (S : select E (ta_include a) (before ++ f :: rest) = inr (p, e)) by (apply select_bad; eauto 8). rewrite S. now destruct (ta_include a). }
  assert (One : forall s s', chosen_files E a globbed s -> chosen_files E a globbed s' -> s = s') by (intros s s' A B; apply Pick in A, B; congruence).
  assert (Not : forall s p e, chosen_files E a globbed s -> no_choice E a globbed p e -> False) by (intros s p e A B; apply Pick in A; apply Bad in B; congruence).
  assert (Tr : forall l r1 v1 r3 v3, trials decode E os (ta_trace a) l w r1 v1 -> trials decode E os (ta_trace a) l w r3 v3 -> r1 = r3 /\ v1 = v3).
  { intros l r1 v1 r3 v3 A B. destruct (files_iff (ta_trace a) l w) as (q & w1 & _ & _ & U & _). destruct (U _ _ A), (U _ _ B). split; congruence. }
  assert (Em : forall c v, trials decode E os (ta_trace a) [] w (Crash c) v -> False) by (intros c v H; inversion H).
  intros H K. destruct H as [p e N|N|sel c v N T|sel cs v p f tp tf tn N M T Y A B C]; destruct K as [p' e' N'|N'|sel' c' v' N' T'|sel' cs' v' p' f' tp' tf' tn' N' M' T' Y' A' B' C'];
    try (exfalso; eauto; fail); try (pose proof (One _ _ N N') as Q; subst; try (exfalso; eauto; fail)).
  - apply Bad in N, N'. rewrite N in N'. injection N' as -> ->. auto.
  - auto.
  - destruct (Tr _ _ _ _ _ T T') as [Q1 Q2]. injection Q1 as ->. auto.
  - destruct (Tr _ _ _ _ _ T T') as [Q1 Q2]. discriminate.
  - destruct (Tr _ _ _ _ _ T T') as [Q1 Q2]. discriminate.
  - destruct (Tr _ _ _ _ _ T T') as [Q1 ->]. injection Q1 as <-. destruct (tally_fun _ _ _ _ _ Y Y') as [<- <-]. apply int_text_itoa in A, B, C, A', B', C'. now subst.
Qed.
End Runs.

(** A run of texted test, exactly: what it prints, how it ends, and that it does nothing else.
    The world after it is the world before it with the output appended (and the reads counted),
    so that nothing is written. *)
Theorem tests_exact decode E os globbed a w r w' : ext_ok E -> decodes_texts decode ->
  (run_tests decode E os globbed a w = (r, w') <-> tests_run decode E os a globbed w r w').
Proof.
  intros X D. destruct (tests_total decode E os X D a globbed w) as (r0 & w0 & A & B). split.
  - intros H. rewrite A in H. injection H as <- <-. exact B.
  - intros H. destruct (tests_fun decode E os X D a globbed w r w' r0 w0 H B) as [-> ->]. exact A.
Qed.

(** *** Cases that meet the hypotheses *)
Lemma ascii_formed s : forallb (fun b => N.ltb (byteN b) 128) s = true -> well_formed s.
Proof.
  intros H. exists (map byteN s). induction s as [|b s IH]; [split; [constructor|reflexivity]|]. cbn [forallb] in H. apply andb_true_iff in H as [A B].
  destruct (IH B) as [C D]. split.
  - constructor; [|exact C]. clear -A. destruct b; try discriminate A; reflexivity.
  - cbn [map]. rewrite D at 1. clear -A. destruct b; try discriminate A; reflexivity.
Qed.
Lemma demo_sound : decodes_texts demo_decode.
Proof.
  intros x t _. unfold demo_decode. destruct (str_eqb x (bs "good")); [|destruct (str_eqb x (bs "bad")); [|discriminate]]; intros [= <-];
    (split; [vm_compute; discriminate|]; repeat split; apply ascii_formed; reflexivity).
Qed.
Example tests_exact_witness : ext_ok ref_ext /\ decodes_texts demo_decode /\
  exists w', tests_run demo_decode ref_ext demo_os (mkTestArgs [] [] false false false false) [bs "t/a.xml"; bs "t/b.xml"; bs "t/c.xml"] (init_world demo_fs []) (Ok 1) w' /\
    w_stdout w' = lines [bs "[PASS] a.xml"; bs "[FAIL] b.xml"; bs "  Error: output mismatch:"; bs "expected: ""x"""; bs "actual: """"";
      bs "[FAIL] c.xml"; bs "  Error: opening test file t/c.xml: open t/c.xml"; []; bs "Tests: 1 passed, 2 failed, 3 total"].
Proof.
  split; [apply ref_ext_ok|]. split; [apply demo_sound|].
  pose (run := run_tests demo_decode ref_ext demo_os [bs "t/a.xml"; bs "t/b.xml"; bs "t/c.xml"] (mkTestArgs [] [] false false false false) (init_world demo_fs [])).
  exists (snd run). split; [|vm_compute; reflexivity].
  apply tests_exact; [apply ref_ext_ok|apply demo_sound|]. fold run. rewrite (surjective_pairing run) at 1. f_equal.
Qed.
Definition failing_case : test_case := mkTest (bs "ab") (bs " forward-char; no-such ") [] [] [] (bs "(Such)").
Definition excused_case : test_case := mkTest (bs "ab") (bs " forward-char; no-such ") [] [] [] (bs "(no-such)").
Example test_exact_witness : sound_case failing_case /\ sound_case excused_case /\
  trial ref_ext excused_case (Ok None) /\ (exists m, trial ref_ext failing_case (Ok (Some m))) /\
  trace_of ref_ext excused_case true (lines [bs "TRACE: Executed instruction: (forward-char)"; bs "  Buffer content: ""ab"""; bs "  Point: 2, Mark: 1"; []]).
Proof.
  assert (F : sound_case failing_case) by (split; [vm_compute; discriminate|]; repeat split; apply ascii_formed; reflexivity).
  assert (G : sound_case excused_case) by (split; [vm_compute; discriminate|]; repeat split; apply ascii_formed; reflexivity).
  split; [exact F|]. split; [exact G|]. split; [|split].
  - apply (test_exact ref_ext false [] excused_case); [apply ref_ext_ok|exact G|]. vm_compute. reflexivity.
  - destruct (said_of (fst (run_test_full ref_ext (default_env ref_ext) false [] failing_case))) as [[m|]|e|c] eqn:R.
    + exists m. apply (test_exact ref_ext false [] failing_case); [apply ref_ext_ok|exact F|exact R].
    + exfalso. revert R. vm_compute. discriminate.
    + exfalso. revert R. vm_compute. discriminate.
    + exfalso. revert R. vm_compute. discriminate.
  - apply (trace_exact ref_ext true [] excused_case); [apply ref_ext_ok|exact G|]. vm_compute. reflexivity.
Qed.

(** ** Assumptions of every theorem above *)
Print Assumptions reported_exact.
Print Assumptions test_exact.
Print Assumptions trace_exact.
Print Assumptions tests_exact.
