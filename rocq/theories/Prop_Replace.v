(** C66: replace-regexp-in-string (edlisp/builtin_replace_regexp_in_string.go:14-34).  The
    engine is a parameter; [replaces_matches] is what Go documents about ReplaceAllString
    for replacements without dollar signs. *)
From Coq Require Import ZArith NArith List Bool Lia Strings.Byte ZifyBool.
From Verif Require Import Base Float Ext Utf8 Strconv Values Buffer Builtins Eval RefExt RefRegex Spec
  Proofs_Base Proofs_Loops Proofs_Exec Proofs_Float Proofs_Ref Prop_Edit.
Import ListNotations.
Open Scope Z_scope.

(** ** C66 *)

(** [cut_at off ms s gaps]: [s], which starts at offset [off] of the subject, is cut by the
    matches [ms]; what is left between them is [gaps], one more than there are matches *)
Inductive cut_at : Z -> list (Z * Z) -> str -> list str -> Prop :=
| cut_end off s : cut_at off [] s [s]
| cut_match off i j ms g m s gs : i = off + zlen g -> j = i + zlen m -> cut_at j ms s gs ->
    cut_at off ((i, j) :: ms) (g ++ m ++ s) (g :: gs).
(** the gaps with [r] between them *)
Fixpoint glue (r : str) (gs : list str) : str :=
  match gs with
  | [] => []
  | [g] => g
  | g :: gs' => g ++ r ++ glue r gs'
  end.
Definition plain_replacement (r : str) : Prop := ~ In "$"%byte r.
(** ReplaceAllString replaces the matches that FindAllStringIndex reports *)
Definition replaces_matches (E : Ext) : Prop := forall p s r, re_error E p = None -> plain_replacement r ->
  exists gaps, cut_at 0 (re_find_all E p s) s gaps /\ re_replace_all E p s r = glue r gaps.

Lemma cut_len off ms s gs : cut_at off ms s gs -> length gs = S (length ms).
Proof. intros H. induction H; cbn; auto. Qed.
Lemma app_inj_len {A} (a a' b b' : list A) : length a = length a' -> a ++ b = a' ++ b' -> a = a' /\ b = b'.
Proof.
  revert a'. induction a as [|x a IH]; intros [|x' a']; cbn; try discriminate; auto.
  intros L H. injection H as -> H. destruct (IH a') as [-> ->]; auto.
Qed.
Lemma cut_unique off ms s gs : cut_at off ms s gs -> forall gs', cut_at off ms s gs' -> gs = gs'.
Proof.
  intros H. induction H as [|off i j ms g m s gs Hi Hj H IH]; intros gs' H'.
  - inversion H'; subst; auto.
  - inversion H' as [|? ? ? ? g' m' s' gs'' Hi' Hj' H'' A B C D]; subst.
    assert (Z : zlen g = zlen g') by lia.
    assert (Zm : zlen m = zlen m') by lia.
    destruct (app_inj_len g g' (m ++ s) (m' ++ s')) as [-> X]; [unfold zlen in Z; lia|auto|].
    destruct (app_inj_len m m' s s') as [-> ->]; [unfold zlen in Zm; lia|auto|].
    f_equal. apply IH. auto.
Qed.

(** every match is replaced, the text between the matches is kept, and the buffer is left
    alone; the gaps are determined by the matches *)
Theorem replace_regexp_replaces E b p r s :
  replaces_matches E -> re_error E p = None -> plain_replacement r -> zlen (re_replace_all E p s r) <= max_alloc ->
  exists gaps, cut_at 0 (re_find_all E p s) s gaps /\ (forall gs, cut_at 0 (re_find_all E p s) s gs -> gs = gaps) /\
    call E "replace-regexp-in-string" [VStr p; VStr r; VStr s] b = Done (VStr (glue r gaps)) b.
Proof.
  intros HE He Hr Hl. destruct (HE p s r He Hr) as (gaps & C & R). exists gaps. split; [auto|]. split.
  - intros gs C'. symmetry. eapply cut_unique; eauto.
  - call. unfold b_replace_regexp_in_string. rewrite He, R in *. exe. now replace (max_alloc <? zlen (glue r gaps)) with false by lia.
Qed.
(** nothing to replace: the string is the answer *)
Theorem replace_regexp_no_match E b p r s :
  replaces_matches E -> re_error E p = None -> plain_replacement r -> re_find_all E p s = [] -> zlen s <= max_alloc ->
  call E "replace-regexp-in-string" [VStr p; VStr r; VStr s] b = Done (VStr s) b.
Proof.
  intros HE He Hr Hn Hl. destruct (HE p s r He Hr) as (gaps & C & R). rewrite Hn in C. inversion C; subst. cbn [glue] in R.
  call. unfold b_replace_regexp_in_string. rewrite He, R. exe. now replace (max_alloc <? zlen s) with false by lia.
Qed.
(** an invalid pattern is an error, unlike in the searching commands *)
Theorem replace_regexp_invalid E b p r s msg :
  re_error E p = Some msg ->
  call E "replace-regexp-in-string" [VStr p; VStr r; VStr s] b = Fail (bs "invalid regexp: " ++ msg) b.
Proof. intros He. call. unfold b_replace_regexp_in_string. rewrite He. reflexivity. Qed.
(** the answer does not depend on the buffer, and the buffer is never changed *)
Theorem replace_regexp_pure E args b b' :
  match call E "replace-regexp-in-string" args b with
  | Done v c => c = b /\ call E "replace-regexp-in-string" args b' = Done v b'
  | Fail m c => c = b /\ call E "replace-regexp-in-string" args b' = Fail m b'
  | Panic => False
  | OutOfMemory => call E "replace-regexp-in-string" args b' = OutOfMemory
  | Diverge => False
  end.
Proof.
  call. unfold b_replace_regexp_in_string, wants, got, fail, alloc, bind, ret.
  destruct args as [|[] [|[] [|[] [|? ?]]]]; try (split; reflexivity).
  destruct (re_error E s) as [msg|]; [split; reflexivity|]. destruct (max_alloc <? _); [reflexivity|split; reflexivity].
Qed.

(** the engine used for examples obeys the contract *)
Inductive ordered : Z -> Z -> list (Z * Z) -> Prop :=
| ord_nil off stop : ordered off stop []
| ord_cons off stop i j ms : off <= i <= j -> j <= stop -> ordered j stop ms -> ordered off stop ((i, j) :: ms).
Lemma ordered_weaken off off' stop ms : off' <= off -> ordered off stop ms -> ordered off' stop ms.
Proof. intros L H. destruct H; constructor; auto; lia. Qed.
Lemma replace_cuts r : forall ms s off, ordered off (off + zlen s) ms ->
  exists gaps, cut_at off ms s gaps /\ lit_replace ms s r off = glue r gaps.
Proof.
  induction ms as [|[i j] ms IH]; intros s off H.
  - exists [s]. split; [constructor|reflexivity].
  - inversion H as [|? ? ? ? ? Hi Hj Ho]; subst. cbn [lit_replace].
    destruct (split_at2 s (i - off) (j - off)) as (g & m & rest & -> & Hg & Hm); [lia|lia|].
    assert (Sk : skipn (Z.to_nat (j - off)) (g ++ m ++ rest) = rest).
    { rewrite app_assoc. replace (Z.to_nat (j - off)) with (length (g ++ m)); [now rewrite skipn_app, skipn_all, Nat.sub_diag|].
      rewrite app_length. unfold zlen in *. lia. }
    assert (Fi : firstn (Z.to_nat (i - off)) (g ++ m ++ rest) = g).
    { replace (Z.to_nat (i - off)) with (length g); [now rewrite firstn_app, firstn_all, Nat.sub_diag, firstn_O, app_nil_r|].
      unfold zlen in *. lia. }
    rewrite Sk, Fi. destruct (IH rest j) as (gaps & C & R).
    { replace (j + zlen rest) with (off + zlen (g ++ m ++ rest)); [auto|]. rewrite !zlen_app. lia. }
    exists (g :: gaps). split; [constructor; auto; lia|]. rewrite R.
    pose proof (cut_len _ _ _ _ C). destruct gaps; [discriminate|]. reflexivity.
Qed.
Lemma lit_all_ordered p : forall fuel s off, ordered off (off + zlen s) (lit_all fuel p s off).
Proof.
  induction fuel as [|fuel IH]; intros s off; [constructor|]. cbn [lit_all].
  destruct (lit_find p s) as [[i j]|] eqn:F; [|constructor].
  apply lit_find_ok in F as [(F1 & F2 & F3) _]. cbn [fst snd] in *. constructor; try lia.
  destruct ((j =? 0) && (zlen s =? 0)) eqn:J; [constructor|]. pose proof (zlen_nonneg s).
  set (k := if j =? 0 then 1 else j).
  assert (K : j <= k /\ 0 <= k <= zlen s) by (unfold k; destruct (j =? 0) eqn:J0; lia). clearbody k.
  specialize (IH (skipn (Z.to_nat k) s) (off + k)). rewrite zlen_skipn in IH.
  apply (ordered_weaken (off + k)); [lia|]. replace (off + zlen s) with (off + k + (zlen s - Z.min (zlen s) k)) by lia.
  eapply eq_ind with (P := fun e => ordered _ e _); [apply IH|lia].
Qed.
Theorem ref_engine_replaces : replaces_matches ref_ext.
Proof. intros p s r _ _. apply replace_cuts. apply lit_all_ordered. Qed.

(** a match at either end, an empty string between two matches, and a pattern that matches
    everywhere *)
Example replace_regexp_ex :
  call ref_ext "replace-regexp-in-string" [VStr (bs "an"); VStr (bs "-"); VStr (bs "ananas")] (new_buffer (bs "kept"))
    = Done (VStr (bs "--as")) (new_buffer (bs "kept")) /\
  call rx_ext "replace-regexp-in-string" [VStr (bs "[0-9]+"); VStr (bs "NUM"); VStr (bs "Hello 123 world 456")] (new_buffer [])
    = Done (VStr (bs "Hello NUM world NUM")) (new_buffer []) /\
  call rx_ext "replace-regexp-in-string" [VStr (bs "x*"); VStr (bs "-"); VStr (bs "axxb")] (new_buffer [])
    = Done (VStr (bs "-a-b-")) (new_buffer []) /\
  call ref_ext "replace-regexp-in-string" [VStr (bs "("); VStr (bs "-"); VStr (bs "f(x)")] (new_buffer [])
    = Fail (bs "invalid regexp: unsupported pattern") (new_buffer []).
Proof. repeat split; vm_compute; reflexivity. Qed.
Example replace_regexp_cut_ex :
  cut_at 0 [(0, 2); (2, 4)] (bs "ananas") [[]; []; bs "as"] /\
  re_find_all ref_ext (bs "an") (bs "ananas") = [(0, 2); (2, 4)].
Proof.
  split; [|vm_compute; reflexivity].
  apply (cut_match 0 0 2 _ [] (bs "an") (bs "anas")); [reflexivity|reflexivity|].
  apply (cut_match 2 2 4 _ [] (bs "an") (bs "as")); [reflexivity|reflexivity|]. constructor.
Qed.

(** Regexp.Expand for a pattern without groups: $0 and ${0} are the match, a dollar sign
    doubled is a dollar sign, every other name is empty *)
Definition name_byte (c : byte) : bool := is_letter c || is_digit c || Byte.eqb c "_"%byte.
Fixpoint name_len (s : str) : nat := match s with c :: t => if name_byte c then S (name_len t) else O | [] => O end.
Definition group_text (name m : str) : str := if str_eqb name (bs "0") then m else [].
Fixpoint expand (fuel : nat) (r m : str) : str :=
  match fuel with
  | O => r
  | S f =>
    match r with
    | [] => []
    | c :: t =>
      if Byte.eqb c "$"%byte then
        match t with
        | d :: u =>
          if Byte.eqb d "$"%byte then "$"%byte :: expand f u m
          else if Byte.eqb d "{"%byte then
            let n := name_len u in
            match n, skipn n u with
            | S _, e :: v => if Byte.eqb e "}"%byte then group_text (firstn n u) m ++ expand f v m else c :: expand f t m
            | _, _ => c :: expand f t m
            end
          else let n := name_len t in
               match n with
               | S _ => group_text (firstn n t) m ++ expand f (skipn n t) m
               | O => c :: expand f t m
               end
        | [] => [c]
        end
      else c :: expand f t m
    end
  end.
Lemma expand_plain r m : plain_replacement r -> forall fuel, (length r < fuel)%nat -> expand fuel r m = r.
Proof.
  induction r as [|c r IH]; intros H fuel L; (destruct fuel as [|fuel]; [inversion L|]); [reflexivity|].
  cbn [expand]. destruct (Byte.eqb c "$") eqn:D.
  - exfalso. apply H. left. now apply byte_eqb_eq in D.
  - f_equal. apply IH; [|cbn in L; lia]. intros X. apply H. right. auto.
Qed.
Fixpoint dollar_replace (ms : list (Z * Z)) (s r : str) (off : Z) : str :=
  match ms with
  | [] => s
  | (i, j) :: ms' =>
    firstn (Z.to_nat (i - off)) s
    ++ expand (S (length r)) r (firstn (Z.to_nat (j - i)) (skipn (Z.to_nat (i - off)) s))
    ++ dollar_replace ms' (skipn (Z.to_nat (j - off)) s) r j
  end.
Lemma dollar_plain r : plain_replacement r -> forall ms s off, dollar_replace ms s r off = lit_replace ms s r off.
Proof.
  intros H. induction ms as [|[i j] ms IH]; intros s off; [reflexivity|]. cbn [dollar_replace lit_replace].
  rewrite IH, expand_plain by (auto; lia). reflexivity.
Qed.
Definition dollar_ext : Ext := {|
  re_error := re_error ref_ext; re_find := re_find ref_ext; re_find_all := re_find_all ref_ext;
  re_replace_all := fun p s r => dollar_replace (re_find_all ref_ext p s) s r 0;
  uc_upper := uc_upper ref_ext; uc_lower := uc_lower ref_ext; uc_print := uc_print ref_ext; f2i_oob := f2i_oob ref_ext
|}.
Lemma dollar_ext_ok : ext_ok dollar_ext.
Proof. destruct ref_ext_ok. split; auto. Qed.
Theorem dollar_engine_replaces : replaces_matches dollar_ext.
Proof.
  intros p s r He Hr. destruct (ref_engine_replaces p s r He Hr) as (gaps & C & R). exists gaps. split; [exact C|].
  cbn [dollar_ext re_replace_all]. now rewrite dollar_plain.
Qed.
(** the documentation promises that each match is replaced by the replacement string; with
    an engine that does everything Go documents, a price such as $1 disappears *)
Theorem replacement_verbatim_refuted :
  exists E p r s, ext_ok E /\ replaces_matches E /\ re_error E p = None /\
    (exists gaps, cut_at 0 (re_find_all E p s) s gaps /\ glue r gaps = bs "cost: $1 or $1") /\
    call E "replace-regexp-in-string" [VStr p; VStr r; VStr s] (new_buffer []) = Done (VStr (bs "cost:  or ")) (new_buffer []).
Proof.
  exists dollar_ext, (bs "N"), (bs "$1"), (bs "cost: N or N").
  split; [exact dollar_ext_ok|]. split; [exact dollar_engine_replaces|]. split; [reflexivity|]. split; [|vm_compute; reflexivity].
  exists [bs "cost: "; bs " or "; []]. split; [|reflexivity].
  change (re_find_all dollar_ext (bs "N") (bs "cost: N or N")) with (lit_find_all (bs "N") (bs "cost: N or N")).
  replace (lit_find_all (bs "N") (bs "cost: N or N")) with [(6, 7); (11, 12)] by (vm_compute; reflexivity).
  apply (cut_match 0 6 7 _ (bs "cost: ") (bs "N") (bs " or N")); [reflexivity|reflexivity|].
  apply (cut_match 7 11 12 _ (bs " or ") (bs "N") []); [reflexivity|reflexivity|]. constructor.
Qed.

(** ** Assumptions of every theorem above *)
Print Assumptions replace_regexp_replaces.
Print Assumptions replace_regexp_no_match.
Print Assumptions replace_regexp_invalid.
Print Assumptions replace_regexp_pure.
Print Assumptions ref_engine_replaces.
Print Assumptions dollar_engine_replaces.
Print Assumptions replacement_verbatim_refuted.
