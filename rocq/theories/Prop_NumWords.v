(** C73: which words of a script are numbers, and which ones (strconv.ParseFloat as called in
    edlisp/parser/linebased.go:314), against the grammar of SpecWord: decimal and hexadecimal
    numerals, digits grouped by underscores, infinities and "not a number". *)
From Coq Require Import ZArith NArith QArith Qabs Qpower List Bool Lia Lqa ZifyBool Strings.Byte.
From Verif Require Import Base Float Ext Utf8 Strconv Values Buffer Parser Spec SpecNumber SpecWord SpecLines
  Proofs_Base Proofs_Float Proofs_Number Proofs_Round Proofs_Nearest Proofs_Unique Proofs_Shortest Proofs_Words Proofs_Word.
Import ListNotations.
Open Scope Z_scope.

(** ** C73 *)

(** names: an infinity or "not a number" in capital or small letters *)
Theorem names_of_numbers t f : named_number t f -> parse_float t = Some f.
Proof. intros H. apply special_named in H. unfold parse_float. now rewrite H. Qed.
(** every numeral, grouped by underscores or not, decimal or hexadecimal, reads as the float64
    nearest to its value, unless it is too large *)
Theorem word_nearest t neg ex x : number_word t neg ex x -> Z.abs ex < 100000 \/ zlen t <= 2000 -> rounds neg x (parse_float t).
Proof. apply word_rounds. Qed.
(** nothing else reads as a number *)
Theorem only_number_words t f : parse_float t = Some f -> named_number t f \/ exists neg ex x, number_word t neg ex x.
Proof.
  intros H. destruct (parse_special t) as [g|] eqn:S.
  - left. apply special_named. unfold parse_float in H. rewrite S in H. now rewrite S.
  - right. now apply (parsed_word t f).
Qed.
(** for words of up to 2000 bytes this is exact *)
Theorem number_words t f : zlen t <= 2000 -> f64_valid f = true ->
  (parse_float t = Some f <-> named_number t f \/ exists neg ex x, number_word t neg ex x /\ rounds neg x (Some f)).
Proof.
  intros L V. split.
  - intros H. destruct (only_number_words t f H) as [N|(neg & ex & x & W)]; [now left|right]. exists neg, ex, x. split; [exact W|].
    rewrite <- H. apply (word_nearest t neg ex x W). now right.
  - intros [N|(neg & ex & x & W & R)]; [now apply names_of_numbers|].
    apply (rounds_same neg x); [apply (word_nearest t neg ex x W); now right|exact R|intros g; apply parse_float_valid|intros g [= <-]; exact V].
Qed.
(** in a script: a word without quotes is a number or a symbol; it is a symbol if and only if it
    is neither a name of a number nor a numeral below the overflow threshold *)
Theorem number_or_symbol t : hd_error t <> Some """"%byte -> (exists f, parse_token t = POk (VNum f)) \/ parse_token t = POk (VSym t).
Proof.
  intros H. unfold parse_token. replace (has_prefix t (bs """")) with false.
  - cbn [andb]. destruct (parse_float t); eauto.
  - symmetry. apply not_true_iff_false. intros X. apply has_prefix_iff in X as [a ->]. now apply H.
Qed.
Theorem symbol_word t : zlen t <= 2000 -> hd_error t <> Some """"%byte ->
  (parse_token t = POk (VSym t) <-> (forall f, ~ named_number t f) /\ forall neg ex x, number_word t neg ex x -> (overflow <= x)%Q).
Proof.
  intros L H. assert (E : parse_token t = match parse_float t with Some f => POk (VNum f) | None => POk (VSym t) end).
  { unfold parse_token. replace (has_prefix t (bs """")) with false; [reflexivity|].
    symmetry. apply not_true_iff_false. intros X. apply has_prefix_iff in X as [a ->]. now apply H. }
  rewrite E. split.
  - intros K. assert (N : parse_float t = None) by (destruct (parse_float t); [discriminate|reflexivity]). split.
    + intros f F. rewrite (names_of_numbers t f F) in N. discriminate.
    + intros neg ex x W. pose proof (word_nearest t neg ex x W (or_intror L)) as R. rewrite N in R. exact R.
  - intros [K1 K2]. destruct (parse_float t) as [f|] eqn:F; [|reflexivity]. exfalso. destruct (only_number_words t f F) as [N|(neg & ex & x & W)]; [now apply (K1 f)|].
    pose proof (word_nearest t neg ex x W (or_intror L)) as R. rewrite F in R. destruct R as (R & _). specialize (K2 neg ex x W). lra.
Qed.
(** a script word is a string, or a symbol, or a number of this grammar (compare C63, where
    the grammar of scripts leaves the numbers open) *)
Theorem script_numbers t f : atom t (VNum f) -> named_number t f \/ exists neg ex x, number_word t neg ex x.
Proof. intros A. inversion A; subst. now apply only_number_words. Qed.

(** *** concrete cases *)
Example grouped_digits : number_word (bs "-1_23.50_0e+1_2") true 12 (123500000000000 # 1).
Proof.
  change (bs "-1_23.50_0e+1_2") with (bs "-" ++ (bs "1_23" ++ "."%byte :: bs "50_0") ++ bs "e+1_2").
  assert (A : digit_group false (bs "1_23") 123 3).
  { apply (dg_more false (bs "1_2") 12 2 "3" 3); [|left; reflexivity]. apply (dg_under false (bs "1") 1 1 "2" 2); [|left; reflexivity]. apply (dg_one false "1" 1). left. reflexivity. }
  assert (B : digit_group false (bs "50_0") 500 3).
  { apply (dg_under false (bs "50") 50 2 "0" 0); [|left; reflexivity]. apply (dg_more false (bs "5") 5 1 "0" 0); [|left; reflexivity]. apply (dg_one false "5" 5). left. reflexivity. }
  assert (C : digit_group false (bs "1_2") 12 2).
  { apply (dg_under false (bs "1") 1 1 "2" 2); [|left; reflexivity]. apply (dg_one false "1" 1). left. reflexivity. }
  apply (nw_decimal (bs "-") true _ 123500 3 (bs "e+1_2") 12).
  - reflexivity.
  - apply (pt_both false (bs "1_23") 123 3 (bs "50_0") 500 3); auto.
  - right. exists "e"%byte, (bs "+"), false, (bs "1_2"), 12, 2. split; [now left|]. split; [now right|]. repeat split; auto.
  - reflexivity.
Qed.
Example hexadecimal : number_word (bs "0x_1F.8p-1") false (-1) (63 # 4).
Proof.
  change (bs "0x_1F.8p-1") with ([] ++ "0"%byte :: "x"%byte :: bs "_" ++ (bs "1F" ++ "."%byte :: bs "8") ++ bs "p-1").
  apply (nw_hexadecimal [] false "x" (bs "_") _ 504 1 (bs "p-1") (-1)).
  - now left.
  - now left.
  - right. split; [reflexivity|discriminate].
  - apply (pt_both true (bs "1F") 31 2 (bs "8") 8 1).
    + apply (dg_more true (bs "1") 1 1 "F" 15); [|right; split; [reflexivity|right; reflexivity]]. apply (dg_one true "1" 1). left. reflexivity.
    + apply (dg_one true "8" 8). left. reflexivity.
  - exists "p"%byte, (bs "-"), true, (bs "1"), 1, 1. split; [now left|]. split; [reflexivity|]. split; [apply (dg_one false "1" 1); left; reflexivity|]. split; reflexivity.
  - reflexivity.
Qed.
Example names : named_number (bs "Infinity") (S754_infinity false) /\ named_number (bs "-inF") (S754_infinity true) /\ named_number (bs "NaN") S754_nan.
Proof. rewrite <- !special_named. repeat split; reflexivity. Qed.
Example words_read :
  parse_float (bs "-1_23.50_0e+1_2") = Some (f_of_Z (-123500000000000)) /\
  parse_float (bs "0x_1F.8p-1") = Some (S754_finite false 8866461766385664 (-49)) /\
  parse_token (bs "Infinity") = POk (VNum (S754_infinity false)) /\
  parse_token (bs "nan") = POk (VNum S754_nan) /\
  map parse_token (map bs ["+nan"; "123_.5"; "1__2"; "_1"; "0x1_p0"; "0x1"; "0x"; "1e"; "1e_5"; "."; "e5"; "0b1"; "1.2.3"; "1-2"]%string) =
  map (fun t => POk (VSym t)) (map bs ["+nan"; "123_.5"; "1__2"; "_1"; "0x1_p0"; "0x1"; "0x"; "1e"; "1e_5"; "."; "e5"; "0b1"; "1.2.3"; "1-2"]%string).
Proof. vm_compute. repeat split. Qed.

(** ** Assumptions of every theorem above *)
Print Assumptions names_of_numbers.
Print Assumptions word_nearest.
Print Assumptions only_number_words.
Print Assumptions number_words.
Print Assumptions number_or_symbol.
Print Assumptions symbol_word.
Print Assumptions script_numbers.
