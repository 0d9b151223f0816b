(** Proofs for C82: trimming, values in reports, expected results. *)
From Coq Require Import ZArith NArith QArith List Bool Lia Strings.Byte ZifyBool ZifyN ZifyNat.
From Verif Require Import Base Float Ext Utf8 Strconv Values Buffer Builtins Eval Parser Json Writer Files Testing TestCmd
  Spec SpecText SpecNumber SpecNumText SpecJson SpecLines SpecRefuse SpecData SpecFiles SpecManual SpecMeaning SpecTrial
  Proofs_Base Proofs_Float Proofs_Number Proofs_Unique Proofs_Round Proofs_Numeral Proofs_Utf8 Proofs_Lines Proofs_Words Proofs_Reread
  Prop_Numbers Prop_NumText Prop_Values Prop_Words Prop_Refuse Prop_Grammar Prop_Data Prop_Parse Prop_Meaning.
Import ListNotations.
Open Scope Z_scope.

(** ** Trimming *)
Lemma white_valid r : In r white_space -> valid_rune r = true.
Proof. intros H. unfold white_space in H. repeat (destruct H as [<-|H]; [reflexivity|]). destruct H. Qed.
Lemma blank_valid l : blank l -> all_valid l.
Proof. intros H. eapply Forall_impl; [|exact H]. intros r. apply white_valid. Qed.
Lemma stripped_trim s t : stripped s t -> trim_space s = t.
Proof.
  intros (a & m & b & V & A & B & -> & -> & N). change (text (a ++ m ++ b)) with (utf8 (a ++ m ++ b)).
  rewrite trim_space_utf8 by (apply Forall_app; split; [now apply blank_valid|]; apply Forall_app; split; [exact V|now apply blank_valid]).
  apply white_all in A, B. rewrite trim_core; auto; intros c u E; apply not_true_is_false; rewrite <- white_in; apply (N c u); auto.
Qed.
Lemma trim_stripped s : well_formed s -> stripped s (trim_space s).
Proof.
  intros (l & V & ->). change (text l) with (utf8 l). rewrite trim_space_utf8 by exact V.
  destruct (trimmed l) as [[Sp ->]|(a & m & b & -> & A & B & -> & Ne & F & L)].
  - exists l, [], []. rewrite app_nil_r. apply white_all in Sp. repeat split; auto; try (constructor; fail).
    intros c u [H|H]; [discriminate|]. destruct u; discriminate.
  - apply Forall_app in V as [_ V]. apply Forall_app in V as [V _]. apply white_all in A, B. exists a, m, b. repeat split; auto.
    intros c u [H|H]; rewrite white_in; [rewrite (F c u H)|rewrite (L c u H)]; discriminate.
Qed.
Lemma stripped_iff s t : well_formed s -> (trim_space s = t <-> stripped s t).
Proof. intros W. split; [intros <-; now apply trim_stripped|apply stripped_trim]. Qed.
Lemma stripped_formed s t : stripped s t -> well_formed t.
Proof. intros (a & m & b & V & _ & _ & _ & -> & _). now exists m. Qed.

(** ** Numbers and values in reports *)
Lemma converts_back f n : f64_valid f = true -> int_ok n -> (f_eqb f (f_of_Z n) = true <-> nearest (inject_Z n) f).
Proof.
  intros V N. assert (B : Z.abs n < 2 ^ 1000) by (apply (Z.le_lt_trans _ (2 ^ 63)); [ints; unfold int_ok in *; ints; lia|reflexivity]).
  pose proof (integer_nearest n B) as R. pose proof (f_of_Z_valid n) as Vn.
  assert (Sn : (signed (n <? 0) (inject_Z (Z.abs n)) == inject_Z n)%Q) by (destruct n; reflexivity).
  destruct R as (_ & R & _). apply (nearest_comp _ _ _ Sn) in R. set (g := f_of_Z n) in *. clearbody g. clear Sn B N.
  assert (Sc : forall x, units x = scaled x) by (intros [| | |[] m e]; cbn [units scaled]; unfold mag; lia).
  rewrite (f_eqb_same f g V Vn). split.
  - intros Q. assert (Eq : f = g \/ (exists s s', f = S754_zero s /\ g = S754_zero s')).
    { apply (f_eqb_same f g V Vn) in Q. destruct f as [s|s| |s m e], g as [s'|s'| |s' m' e']; try (destruct R as [[] _]; fail); try discriminate; eauto 6.
      all: try (destruct s, s'; discriminate). all: try (destruct s; discriminate).
      left. apply f_eqb_finite in Q as (-> & -> & ->). reflexivity. }
    destruct Eq as [->|(s & s' & -> & ->)]; [exact R|]. destruct R as (A & C & D). repeat split; auto; apply D; auto.
  - intros R'. pose proof (nearest_units _ f g V Vn R' R) as U. rewrite !Sc in U. destruct R' as [F' _], R as [F _].
    destruct f, g; try (destruct F; fail); try (destruct F'; fail); exact U.
Qed.
Lemma to_int_ok E f : int_ok (f_to_int E f).
Proof.
  unfold f_to_int. destruct (f_trunc f) as [z|]; [|apply wrap_ok].
  destruct ((min_int <=? z) && (z <=? max_int)) eqn:R; [unfold int_ok; lia|apply wrap_ok].
Qed.
Lemma report_number_iff E f t : f64_valid f = true -> (fmt_number E f = t <-> report_number E f t).
Proof.
  intros V. pose proof (converts_back f (f_to_int E f) V (to_int_ok E f)) as C. unfold fmt_number. split.
  - intros <-. destruct (f_eqb f (f_of_Z (f_to_int E f))).
    + apply rn_int with (f_to_int E f); [apply int_arg_exists|now apply C|apply itoa_text].
    + apply rn_other with (f_to_int E f); [apply int_arg_exists|intros X; apply C in X; discriminate|now apply number_text_exact].
  - intros [n u A R T|n u A R T]; rewrite (int_arg_to_int E f n A) in *.
    + rewrite (proj2 C R). symmetry. now apply int_text_itoa.
    + destruct (f_eqb f (f_of_Z n)); [now destruct (R (proj1 C eq_refl))|]. now apply number_text_exact.
Qed.
Lemma reported_iff E v t : float64s v -> (fmt_value E v = t <-> reported E v t).
Proof.
  intros N. revert t. induction v as [n|s|f|l IH] using value_ind'; intros t; cbn [fmt_value].
  - split; [intros <-; constructor|]. intros H. now inversion H.
  - split; [intros <-; apply rp_text|]. intros H. now inversion H.
  - split; [intros Q; constructor; now apply report_number_iff|]. intros H. inversion H as [| |? ? Q|]; subst. now apply report_number_iff.
  - change ("("%byte :: join [" "%byte] (map (fmt_value E) l) ++ [")"%byte]) with (bs "(" ++ join [" "%byte] (map (fmt_value E) l) ++ bs ")").
    apply float64s_list in N. split.
    + intros <-. apply (rp_list E l (map (fmt_value E) l)); [|now apply in_row_join].
      induction IH as [|v l A _ IHl]; [constructor|]. inversion N as [|? ? N1 N2]; subst. cbn [map]. constructor; [now apply A|now apply IHl].
    + intros H. inversion H as [| | |l' ls u F R]; subst. apply in_row_join in R. subst u.
      assert (K : map (fmt_value E) l = ls); [|now rewrite K]. clear H.
      revert ls F. induction IH as [|v l A _ IHl]; intros ls F; [now inversion F|]. inversion N as [|? ? N1 N2]; subst. inversion F as [|? y ? ys P Q]; subst. cbn [map].
      rewrite (proj2 (A N1 y) P). now rewrite (IHl N2 ys Q).
Qed.

(** ** Expected results *)
Lemma token_numbers t v : parse_token t = POk v -> float64s v.
Proof.
  unfold parse_token. destruct (_ && _).
  - destruct (_ <? _); [discriminate|]. destruct (unquote t); [|discriminate]. intros [= <-]. exact I.
  - destruct (parse_float t) as [f|] eqn:F; intros [= <-]; [exact (parse_float_valid _ _ F)|exact I].
Qed.
Lemma tokens_numbers fuel : forall ts,
  (forall v r, parse_tokens fuel ts = POk (v, r) -> float64s v) /\
  (forall acc v r, Forall float64s acc -> parse_list fuel acc ts = POk (v, r) -> float64s v).
Proof.
  induction fuel as [|fuel IH]; intros ts; [split; discriminate|]. split.
  - intros v r H. cbn [parse_tokens] in H. destruct ts as [|t ts]; [discriminate|]. destruct (str_eqb t tok_open).
    + apply (proj2 (IH ts) [] v r); [constructor|exact H].
    + destruct (str_eqb t tok_close); [discriminate|]. destruct (parse_token t) as [w| |] eqn:P; try discriminate. injection H as <- <-. now apply token_numbers in P.
  - intros acc v r A H. cbn [parse_list] in H. destruct ts as [|t ts]; [discriminate|]. destruct (str_eqb t tok_close).
    + injection H as <- <-. apply float64s_list. now apply Forall_rev.
    + destruct (parse_tokens fuel (t :: ts)) as [[w r']| |] eqn:P; try discriminate. apply (proj2 (IH r') (w :: acc) v r); [|exact H]. constructor; auto. exact (proj1 (IH (t :: ts)) w r' P).
Qed.
Lemma sexp_numbers s p : parse_sexp s = POk p -> Forall float64s p.
Proof.
  unfold parse_sexp. destruct (trim_space s) as [|c u]; [intros [= <-]; constructor|]. destruct (has_prefix _ _).
  - unfold parse_sexp_line. destruct (tokenize _) as [ts| |]; try discriminate. cbn [pbind].
    destruct (parse_tokens (tok_fuel ts) ts) as [[v r]| |] eqn:P; try discriminate. intros [= <-]. constructor; [|constructor]. exact (proj1 (tokens_numbers _ ts) v r P).
  - destruct (parse_token (c :: u)) as [v| |] eqn:P; try discriminate. intros [= <-]. constructor; [|constructor]. eapply token_numbers; eauto.
Qed.
Lemma token_fuel t : parse_token t <> PFuel.
Proof. unfold parse_token. destruct (_ && _); [destruct (_ <? _); [discriminate|destruct (unquote t); discriminate]|destruct (parse_float t); discriminate]. Qed.
Lemma sexp_fuel s : parse_sexp s <> PFuel.
Proof.
  unfold parse_sexp. destruct (trim_space s) as [|c u]; [discriminate|]. destruct (has_prefix (c :: u) tok_open) eqn:P.
  - pose proof (parse_line_fuel (c :: u)) as F. unfold parse_line in F. rewrite P in F. destruct (parse_sexp_line (c :: u)); cbn; congruence.
  - pose proof (token_fuel (c :: u)). destruct (parse_token (c :: u)); cbn; congruence.
Qed.
Lemma format_cases lang s : (lang = bs "shell" /\ parse_format lang s = parse_string s) \/ (lang = bs "json" /\ parse_format lang s = parse_json_string s) \/
  (~ In lang [bs "shell"; bs "json"] /\ parse_format lang s = parse_sexp s).
Proof.
  unfold parse_format. destruct (str_eqb lang (bs "shell")) eqn:A; [apply str_eqb_eq in A; auto|].
  destruct (str_eqb lang (bs "json")) eqn:B; [apply str_eqb_eq in B; auto|]. apply str_eqb_neq in A, B. right. right. split; [|reflexivity].
  intros [H|[H|[]]]; congruence.
Qed.
Lemma result_read_iff lang s p : well_formed s -> (parse_format lang s = POk p <-> result_read lang s p).
Proof.
  intros W. destruct (format_cases lang s) as [[-> Q]|[[-> Q]|[N Q]]]; rewrite Q.
  - rewrite script_grammar. split; [apply rr_shell|]. intros H. inversion H; subst; auto. exfalso. match goal with X : ~ _ |- _ => apply X; now left end.
  - rewrite json_script_grammar. split; [apply rr_json|]. intros H. inversion H; subst; auto. exfalso. match goal with X : ~ _ |- _ => apply X; right; now left end.
  - destruct W as (l & V & ->). split; [intros H; apply rr_sexp; auto; now apply sexp_grammar|].
    intros H. inversion H as [x y Z K|x y Z K|x m y Nx Vm Sm T K]; subst; try (exfalso; apply N; cbn; auto; fail).
    apply sexp_grammar in Sm; auto.
Qed.
Lemma result_flaw_iff lang s m : well_formed s -> (parse_format lang s = PErr m <-> result_flaw lang s m).
Proof.
  intros W. destruct (format_cases lang s) as [[-> Q]|[[-> Q]|[N Q]]]; rewrite Q.
  - rewrite script_refused. split; [apply rw_shell|]. intros H. inversion H; subst; auto. exfalso. match goal with X : ~ _ |- _ => apply X; now left end.
  - rewrite json_script_told. split; [apply rw_json|]. intros H. inversion H; subst; auto. exfalso. match goal with X : ~ _ |- _ => apply X; right; now left end.
  - destruct W as (l & V & ->). split; [intros H; apply rw_sexp; auto; now apply sexp_refused|].
    intros H. inversion H as [x y Z K|x y Z K|x k y Nx Vm Sm T K]; subst; try (exfalso; apply N; cbn; auto; fail).
    apply sexp_refused in Sm; auto.
Qed.
Lemma format_numbers lang s p : parse_format lang s = POk p -> Forall float64s p.
Proof.
  destruct (format_cases lang s) as [[-> ->]|[[-> ->]|[_ ->]]]; intros H.
  - apply (script_numbers s). auto.
  - apply (script_numbers s). auto.
  - now apply sexp_numbers in H.
Qed.
Lemma format_fuel lang s : parse_format lang s <> PFuel.
Proof.
  destruct (format_cases lang s) as [[-> ->]|[[-> ->]|[_ ->]]].
  - apply parse_string_fuel.
  - intros H. destruct (json_script_or_flaw s) as [[p P]|[m P]]; [apply json_script_grammar in P|apply json_script_told in P]; congruence.
  - apply sexp_fuel.
Qed.
