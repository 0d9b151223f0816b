(** Lemmas for C80: JSON texts of strings, numbers and values. *)
From Coq Require Import ZArith NArith QArith List Bool Lia Strings.Byte ZifyBool ZifyN ZifyNat.
From Verif Require Import Base Float Ext Utf8 Strconv Values Parser Json Writer Spec SpecNumber SpecJson SpecMeaning SpecWrite
  Proofs_Base Proofs_Utf8 Proofs_Token Proofs_Number Proofs_Round Proofs_Nearest Proofs_Unique Proofs_Numeral Proofs_Shortest Proofs_Shortest2 Proofs_Json Proofs_Grammar
  Proofs_Reread Proofs_Meaning.
Import ListNotations.
Open Scope Z_scope.

(** ** Strings *)
Definition inner_json (s : str) : str := flat_map json_escape_rune (runes s).
Lemma json_inner_rune r s : valid_rune r = true -> inner_json (encode_rune r ++ s) = json_escape_rune (good_rune r) ++ inner_json s.
Proof. intros V. unfold inner_json. rewrite runes_encode by exact V. reflexivity. Qed.
Lemma json_inner_ascii c s : (byteN c < 128)%N -> inner_json (c :: s) = json_escape_rune (good_rune (byteN c)) ++ inner_json s.
Proof.
  intros L. change (c :: s) with ([c] ++ s). rewrite <- (encode_byte c L) at 1. apply json_inner_rune. unfold valid_rune. lia.
Qed.
Lemma json_inner_bad c s : decode_rune (c :: s) = Some (rune_error, 1%nat) -> inner_json (c :: s) = bs "\ufffd" ++ inner_json s.
Proof. intros D. unfold inner_json. rewrite runes_bad by exact D. reflexivity. Qed.
Lemma json_escaped_inner s t : json_escaped s t -> t = inner_json s.
Proof.
  induction 1 as [|e c s t I _ IH|r h s t C X _ IH|r s t V L N1 N2 _ IH|c s t N _ IH]; [reflexivity|..]; subst t.
  - cbn [In json_letters] in I. repeat (destruct I as [I|I]; [injection I as <- <-; rewrite json_inner_ascii by reflexivity; reflexivity|]). destruct I.
  - apply small_hex_digits in X as ->.
    assert (V : valid_rune r = true).
    { destruct C as [[C _]|C]; [unfold valid_rune; lia|]. cbn in C. repeat (destruct C as [<-|C]; [reflexivity|]). destruct C. }
    rewrite json_inner_rune by exact V. unfold json_escape_rune. cbn [good_rune r_bad r_rune r_bytes].
    destruct C as [[C N]|C].
    + cbn in N. replace ((r =? 34) || (r =? 92))%N with false by lia.
      repeat match goal with |- context [(r =? ?k)%N] => replace (r =? k)%N with false by lia end.
      replace (r <? 32)%N with true by lia. cbn [orb]. rewrite <- app_assoc. reflexivity.
    + cbn in C. repeat (destruct C as [<-|C]; [reflexivity|]). destruct C.
  - rewrite json_inner_rune by exact V. unfold json_escape_rune. cbn [good_rune r_bad r_rune r_bytes].
    cbn in N1, N2. replace (r <? 32)%N with false by lia.
    repeat match goal with |- context [(r =? ?k)%N] => replace (r =? k)%N with false by lia end. reflexivity.
  - rewrite json_inner_bad by (now apply no_rune_bad). reflexivity.
Qed.
Lemma json_inner_escaped s : json_escaped s (inner_json s).
Proof.
  induction s as [|r s V IH|c s H D IH] using runes_ind; [constructor|..].
  - rewrite json_inner_rune by exact V. unfold json_escape_rune. cbn [good_rune r_bad r_rune r_bytes].
    destruct ((r =? 34) || (r =? 92))%N eqn:C1.
    { assert (X : r = 34%N \/ r = 92%N) by lia. destruct X as [-> | ->]; apply je_letter; cbn; auto. }
    destruct (r =? 8)%N eqn:C3; [apply N.eqb_eq in C3 as ->; apply je_letter; cbn; auto|].
    destruct (r =? 12)%N eqn:C4; [apply N.eqb_eq in C4 as ->; apply je_letter; cbn; auto|].
    destruct (r =? 10)%N eqn:C5; [apply N.eqb_eq in C5 as ->; apply je_letter; cbn; auto 6|].
    destruct (r =? 13)%N eqn:C6; [apply N.eqb_eq in C6 as ->; apply je_letter; cbn; auto 7|].
    destruct (r =? 9)%N eqn:C7; [apply N.eqb_eq in C7 as ->; apply je_letter; cbn; auto 8|].
    destruct ((r <? 32) || (r =? 60) || (r =? 62) || (r =? 38) || (r =? 8232) || (r =? 8233))%N eqn:C8.
    + rewrite <- app_assoc. apply (je_code r (hex_digits 4 r)); [|apply digits_small; change (16 ^ N.of_nat 4)%N with 65536%N; lia|exact IH].
      cbn. lia.
    + apply je_plain; [exact V|lia|cbn; lia|cbn; lia|exact IH].
  - rewrite json_inner_bad by exact D. apply je_bad; [now apply bad_no_rune|exact IH].
Qed.
Lemma json_quoted_iff s q : json_quoted s q <-> json_quote s = q.
Proof.
  split.
  - intros (t & H & ->). apply json_escaped_inner in H as ->. reflexivity.
  - intros <-. exists (inner_json s). split; [apply json_inner_escaped|reflexivity].
Qed.

(** ** Numbers *)
Lemma json_fmt_layout (neg : bool) n k : (0 < n)%Z -> let ds := itoa n in
  exists u, json_fmt neg n k = (if neg then bs "-" else []) ++ u /\ json_layout ds (zlen ds + k) u.
Proof.
  intros H ds. unfold json_fmt. fold ds. cbv zeta. set (dp := (zlen ds + k)%Z).
  assert (D : exists d t, ds = d :: t) by now apply digits_shape.
  clearbody dp ds. destruct D as (d & t & ->).
  destruct ((dp - 1 <? -6) || (21 <=? dp - 1))%Z eqn:C.
  - eexists. split; [|apply nl_exponent; [lia|apply itoa_text]].
    replace (if neg then ["-"%byte] else []) with (if neg then bs "-" else []) by (destruct neg; reflexivity). f_equal.
    replace ((Z.abs (dp - 1) <? 10) && (0 <=? dp - 1)) with false by lia.
    destruct t as [|c t]; cbn [app andb]; reflexivity.
  - apply fmt_f_layout; [rewrite zlen_cons; pose proof (zlen_nonneg t); lia|lia].
Qed.
(** what is laid out is a number in JSON *)
Lemma layout_json (neg : bool) ds dp u : json_layout ds dp u -> digits ds -> ds <> [] -> hd_error ds <> Some "0"%byte ->
  number_text ((if neg then bs "-" else []) ++ u).
Proof.
  intros L D N H0.
  assert (K : forall ip fp ep : str, whole_part ip -> (fp = [] \/ exists fs, fp = "."%byte :: fs /\ digits1 fs) ->
    (ep = [] \/ exists e sg es, ep = e :: sg ++ es /\ In e (bs "eE") /\ (sg = [] \/ sg = bs "+" \/ sg = bs "-") /\ digits1 es) ->
    number_text ((if neg then bs "-" else []) ++ ip ++ fp ++ ep)).
  { intros ip fp ep W F X. exists (if neg then bs "-" else []), ip, fp, ep. split; [auto|]. split; [destruct neg; auto|]. auto. }
  destruct L as [d ds dp u C I|ds dp C1 C2|a b dp C1 C2 C3|ds dp C].
  - apply digits_in in D. inversion D as [|? ? D1 D2]; subst. apply (K [d] (match ds with [] => [] | _ => "."%byte :: ds end)).
    + right. exists d, []. split; [auto|]. split; [intros ->; now apply H0|]. split; [discriminate|]. constructor; [auto|constructor].
    + destruct ds as [|c ds]; [now left|right]. exists (c :: ds). split; [auto|]. split; [discriminate|auto].
    + right. exists "e"%byte, [if (dp - 1 <? 0)%Z then "-"%byte else "+"%byte], u.
      split; [reflexivity|]. split; [now left|]. split; [destruct (dp - 1 <? 0)%Z; auto|].
      destruct I as (us & n & Du & Nu & _ & [[-> En]|(-> & En & Pn)]); [|lia]. destruct (value_digits _ _ Du) as [Dg Hn].
      split; [auto|now apply digits_in].
  - change (bs "0." ++ repeat "0"%byte (Z.to_nat (- dp)) ++ ds) with (bs "0" ++ ("."%byte :: repeat "0"%byte (Z.to_nat (- dp)) ++ ds)).
    replace ("."%byte :: repeat "0"%byte (Z.to_nat (- dp)) ++ ds) with (("."%byte :: repeat "0"%byte (Z.to_nat (- dp)) ++ ds) ++ []) by apply app_nil_r.
    apply K; [now left| |now left]. right. eexists. split; [reflexivity|]. split; [intros X; apply N; now apply app_eq_nil in X|].
    apply digits_in. apply Forall_app. split; [apply zeros_digits|auto].
  - apply Forall_app in D as [Da Db]. replace (a ++ "."%byte :: b) with (a ++ ("."%byte :: b) ++ []) by now rewrite app_nil_r.
    apply K; [|right; exists b; split; [auto|]; split; [auto|now apply digits_in]|now left].
    destruct a as [|c a]; [cbn in C1; lia|]. right. exists c, a. split; [auto|]. split; [intros ->; now apply H0|]. split; [discriminate|now apply digits_in].
  - replace (ds ++ repeat "0"%byte (Z.to_nat (dp - zlen ds))) with ((ds ++ repeat "0"%byte (Z.to_nat (dp - zlen ds))) ++ [] ++ []) by now rewrite !app_nil_r.
    apply K; [|now left|now left]. destruct ds as [|c ds]; [congruence|]. right. exists c, (ds ++ repeat "0"%byte (Z.to_nat (dp - zlen (c :: ds)))). split; [reflexivity|].
    split; [intros ->; now apply H0|]. split; [discriminate|]. apply digits_in. apply Forall_app. split; [auto|apply zeros_digits].
Qed.
Lemma json_cand_reads s m e n k : f64_valid (S754_finite s m e) = true -> (0 < n <= 10 ^ 20)%Z -> (-1000 < k < 1000)%Z ->
  json_parses_to (json_cand_text s (n, k)) (S754_finite s m e) = true <-> rounds s (inject_Z n * p10 k)%Q (Some (S754_finite s m e)).
Proof.
  intros V H K. unfold json_cand_text. cbn [fst snd]. pose proof (strip_spec 400 n k ltac:(lia)) as S. destruct (strip_zeros 400 n k) as [n' k'].
  destruct S as (A & B & E & _). replace (Z.of_nat 400) with 400 in B by reflexivity.
  destruct (json_fmt_layout s n' k' ltac:(lia)) as (u & -> & L). destruct (itoa_len n' ltac:(lia)) as (_ & L1 & Dg & _ & Hd).
  unfold json_parses_to. rewrite number_complete; [|eapply layout_json; eauto; intros X; rewrite X in L1; now apply L1].
  rewrite (laid_reads (-6) 21 false s m e n' k' u V ltac:(lia) ltac:(lia) L). split; apply rounds_comp; [auto|now symmetry].
Qed.
Lemma json_shortest_any f s : forall fuel num den dp nd,
  json_shortest fuel f s num den dp nd = any_loop (fun t => json_parses_to t f) (json_cand_text s) fuel num den dp nd.
Proof. induction fuel as [|fuel IH]; intros; cbn [json_shortest any_loop]; [reflexivity|]. destruct (find _ _); [reflexivity|apply IH]. Qed.
Lemma json_finite_shortest s m e : f64_valid (S754_finite s m e) = true ->
  exists t, json_number (S754_finite s m e) = Some t /\ shortest_in json_layout (S754_finite s m e) t.
Proof.
  intros V. pose proof (loop_found 399 (json_fmt s) (fun t => json_parses_to t (S754_finite s m e)) (json_cand_text s) s m e V) as H.
  unfold json_number. destruct (frac m e) as [num den]. destruct H as (t & H1 & H2); [intros; now apply json_cand_reads|reflexivity|].
  rewrite json_shortest_any, H1. exists t. split; [reflexivity|]. apply (found_shortest _ (json_fmt s)); auto. intros n k. apply json_fmt_layout.
Qed.
Lemma json_shown_iff f t : f64_valid f = true -> (json_number f = Some t <-> json_shown f t).
Proof.
  intros V. destruct f as [[]|z| |s m e]; cbn [json_number].
  - split; [intros [= <-]; constructor|intros H; now inversion H].
  - split; [intros [= <-]; constructor|intros H; now inversion H].
  - split; [discriminate|intros H; now inversion H].
  - split; [discriminate|intros H; now inversion H].
  - destruct (json_finite_shortest s m e V) as (u & Hu & Su). change (json_number (S754_finite s m e) = Some t <-> json_shown (S754_finite s m e) t). rewrite Hu. split.
    + intros [= <-]. now constructor.
    + intros H. inversion H as [| |? ? ? ? St]; subst. f_equal. now apply (shortest_in_fun (-6) 21 false (S754_finite s m e)).
Qed.

(** ** Values *)
Lemma comma_row_join ts t : comma_row ts t <-> join [","%byte] ts = t.
Proof.
  split.
  - induction 1 as [|s|s s' l t _ IH]; [reflexivity|reflexivity|]. rewrite <- IH. reflexivity.
  - intros <-. induction ts as [|s [|s' l] IH]; [constructor|constructor|].
    change (join [","%byte] (s :: s' :: l)) with (s ++ bs "," ++ join [","%byte] (s' :: l)). now constructor.
Qed.
Definition enc (v : value) : option str := json_encode (value_to_json v).
Definition uns (v : value) : option str := json_unsupported (value_to_json v).
Lemma enc_list l t : enc (VList l) = Some t <-> exists ts, Forall2 (fun v u => enc v = Some u) l ts /\ t = bs "[" ++ join [","%byte] ts ++ bs "]".
Proof.
  unfold enc. cbn [value_to_json json_encode]. fold enc_items. split.
  - destruct (enc_items (map value_to_json l)) as [ts|] eqn:Q; [|discriminate]. intros [= <-]. exists ts. split; [|reflexivity].
    revert ts Q. induction l as [|v l IH]; cbn [map enc_items]; intros ts Q; [injection Q as <-; constructor|].
    destruct (json_encode (value_to_json v)) as [u|] eqn:U; [|discriminate]. destruct (enc_items (map value_to_json l)) as [us|]; [|discriminate].
    injection Q as <-. constructor; auto.
  - intros (ts & F & ->). assert (Q : enc_items (map value_to_json l) = Some ts); [|now rewrite Q].
    induction F as [|v u l us Hv _ IH]; [reflexivity|]. cbn [map enc_items]. now rewrite Hv, IH.
Qed.
Lemma enc_list_none l : enc (VList l) = None <-> Exists (fun v => enc v = None) l.
Proof.
  unfold enc. cbn [value_to_json json_encode]. fold enc_items.
  transitivity (enc_items (map value_to_json l) = None); [destruct (enc_items (map value_to_json l)); split; congruence|].
  induction l as [|v l IH]; cbn [map enc_items]; [split; [discriminate|intros H; inversion H]|]. rewrite Exists_cons, <- IH.
  destruct (json_encode (value_to_json v)), (enc_items (map value_to_json l)); intuition congruence.
Qed.
Lemma uns_list l m : uns (VList l) = Some m <-> exists front v rest, l = front ++ v :: rest /\ Forall (fun x => uns x = None) front /\ uns v = Some m.
Proof.
  unfold uns. cbn [value_to_json json_unsupported]. induction l as [|v l IH]; cbn [map first_some fold_right].
  - split; [discriminate|]. intros ([|x front] & v & rest & Q & _); discriminate.
  - destruct (json_unsupported (value_to_json v)) as [u|] eqn:U.
    + split; [intros [= ->]; exists [], v, l; repeat split; auto|]. intros ([|x front] & w & rest & Q & F & W).
      * injection Q as -> ->. congruence.
      * injection Q as -> ->. pose proof (Forall_inv F) as F1. cbv beta in F1. congruence.
    + fold first_some. rewrite IH. split; intros (front & w & rest & Q & F & W).
      * exists (v :: front), w, rest. subst. repeat split; auto.
      * destruct front as [|x front]; injection Q as -> ->; [congruence|]. exists front, w, rest. inversion F; subst. repeat split; auto.
Qed.
Lemma uns_list_none l : uns (VList l) = None <-> Forall (fun v => uns v = None) l.
Proof.
  unfold uns. cbn [value_to_json json_unsupported]. induction l as [|v l IH]; cbn [map first_some fold_right]; [split; auto|].
  fold first_some. rewrite Forall_cons_iff, <- IH. destruct (json_unsupported (value_to_json v)); intuition congruence.
Qed.
(** one or the other *)
Lemma enc_uns v : enc v = None <-> uns v <> None.
Proof.
  induction v as [n|s|f|l IH] using value_ind'; [split; [discriminate|intros H; now exfalso; apply H]|split; [discriminate|intros H; now exfalso; apply H]|..].
  - pose proof (json_number_none f) as N. unfold enc, uns. cbn [value_to_json json_encode json_unsupported]. rewrite N.
    destruct f as [s|[]| |s m e]; cbn; split; try discriminate; try (intros H; exfalso; now apply H); auto.
  - rewrite enc_list_none, uns_list_none. induction IH as [|v l A _ IHl]; [split; [intros H; inversion H|intros H; exfalso; apply H; constructor]|].
    rewrite Exists_cons, Forall_cons_iff, A, IHl. destruct (uns v); intuition congruence.
Qed.
Lemma json_value_exact v : float64s v -> (forall t, enc v = Some t <-> json_written v t) /\ (forall m, uns v = Some m <-> no_json v m).
Proof.
  induction v as [n|s|f|l IH] using value_ind'; intros N.
  - split; [intros t|intros m]; unfold enc, uns; cbn [value_to_json json_encode json_unsupported].
    + split; [intros [= <-]; constructor; now apply json_quoted_iff|]. intros H. inversion H as [? ? Q| | |]; subst. f_equal. now apply json_quoted_iff.
    + split; [discriminate|]. intros H. inversion H.
  - split; [intros t|intros m]; unfold enc, uns; cbn [value_to_json json_encode json_unsupported].
    + split; [intros [= <-]; constructor; now apply json_quoted_iff|]. intros H. inversion H as [|? ? Q| |]; subst. f_equal. now apply json_quoted_iff.
    + split; [discriminate|]. intros H. inversion H.
  - split; [intros t|intros m]; unfold enc, uns; cbn [value_to_json json_encode json_unsupported].
    + rewrite json_shown_iff by exact N. split; [now constructor|]. intros H. now inversion H.
    + destruct f as [s|[]| |s m' e]; (split; [first [discriminate|intros [= <-]; constructor]|intros H; now inversion H]).
  - apply float64s_list in N.
    assert (A : Forall (fun v => (forall t, enc v = Some t <-> json_written v t) /\ (forall m, uns v = Some m <-> no_json v m)) l).
    { clear -IH N. induction IH as [|v l A _ IHl]; [constructor|]. inversion N; subst. constructor; auto. }
    clear IH N. split; [intros t|intros m].
    + rewrite enc_list. split.
      * intros (ts & F & ->). apply (jw_list l ts); [|now apply comma_row_join].
        clear -A F. induction F as [|v u l us Hv _ IH]; [constructor|]. inversion A as [|? ? [A1 _] A2]; subst. constructor; [now apply A1|auto].
      * intros H. inversion H as [| | |l' ts u F R]; subst. apply comma_row_join in R as <-. exists ts. split; [|reflexivity].
        clear -A F. induction F as [|v u l us Hv _ IH]; [constructor|]. inversion A as [|? ? [A1 _] A2]; subst. constructor; [now apply A1|auto].
    + rewrite uns_list.
      assert (K : forall front, incl front l -> (Forall (fun x => uns x = None) front <-> Forall (fun x => exists t, json_written x t) front)).
      { intros front I. rewrite !Forall_forall. rewrite Forall_forall in A. split; intros H x X; specialize (H x X); destruct (A x (I x X)) as [A1 _].
        - destruct (enc x) as [t|] eqn:Q; [exists t; now apply A1|]. apply enc_uns in Q. congruence.
        - destruct H as [t H]. apply A1 in H. destruct (uns x) eqn:Q; [|reflexivity]. assert (enc x = None) by (apply enc_uns; congruence). congruence. }
      split.
      * intros (front & v & rest & -> & F & U). apply nj_inside; [apply K; [apply incl_appl, incl_refl|exact F]|].
        apply Forall_app in A as [_ A]. now apply (Forall_inv A).
      * intros H. inversion H as [| | |front v rest m' F U]; subst. exists front, v, rest. split; [auto|]. split; [apply K; [apply incl_appl, incl_refl|exact F]|].
        apply Forall_app in A as [_ A]. now apply (Forall_inv A).
Qed.
