(** Quoting, tokens and script lines. *)
From Coq Require Import ZArith NArith List Bool Lia ZifyBool ZifyN ZifyNat Strings.Byte.
From Verif Require Import Base Float Ext Utf8 Strconv Values Buffer Spec Parser Writer SpecText
  Proofs_Base Proofs_Utf8 Proofs_Float Proofs_Number.
Import ListNotations.
Open Scope Z_scope.

(** ** Hex digits *)
Lemma read_hex_app a : forall b acc s,
  read_hex (a + b) acc s = match read_hex a acc s with Some (v, s') => read_hex b v s' | None => None end.
Proof.
  induction a as [|a IH]; intros b acc s; [reflexivity|]. cbn [Nat.add read_hex].
  destruct s as [|c s]; [reflexivity|]. destruct (unhex c); [apply IH|reflexivity].
Qed.
Lemma unhex_digit n : (n < 16)%N -> unhex (hex_digit n) = Some n.
Proof.
  intros H. unfold hex_digit, unhex.
  rewrite byteN_of_N by (destruct (n <? 10)%N eqn:X; lia).
  destruct (n <? 10)%N eqn:E.
  - replace ((48 <=? 48 + n) && (48 + n <=? 57))%N with true by lia. f_equal. lia.
  - replace ((48 <=? 87 + n) && (87 + n <=? 57))%N with false by lia.
    replace ((97 <=? 87 + n) && (87 + n <=? 102))%N with true by lia. f_equal. lia.
Qed.
Lemma read_hex_digits k : forall n acc rest, (n < 16 ^ N.of_nat k)%N ->
  read_hex k acc (hex_digits k n ++ rest) = Some (acc * 16 ^ N.of_nat k + n, rest)%N.
Proof.
  induction k as [|k IH]; intros n acc rest H.
  - cbn in *. f_equal. f_equal. lia.
  - replace (S k) with (k + 1)%nat at 1 by lia. cbn [hex_digits]. rewrite read_hex_app, <- app_assoc, IH.
    + cbn [app read_hex]. rewrite unhex_digit by (apply N.mod_lt; lia).
      rewrite Nat2N.inj_succ, N.pow_succ_r' in *. f_equal. f_equal.
      pose proof (N.div_mod n 16 ltac:(lia)). lia.
    + rewrite Nat2N.inj_succ, N.pow_succ_r' in H. apply N.div_lt_upper_bound; lia.
Qed.

Lemma valid_max r : valid r -> (r <= 1114111)%N.
Proof. unfold valid, valid_rune. lia. Qed.

(** ** One quoted character is read back *)
Lemma unquote_raw r rest : valid r -> r <> 34%N -> r <> 92%N ->
  unquote_char (encode_rune r ++ rest) = Some (encode_rune r, rest).
Proof.
  intros V H1 H2. pose proof (decode_encode r rest V) as D.
  destruct (r <? 128)%N eqn:A.
  - rewrite encode_ascii in * by lia. cbn [app unquote_char].
    replace (Byte.eqb (byte_of_N r) """") with false.
    2:{ symmetry. apply byte_eqb_neq. intros X. apply (f_equal byteN) in X. rewrite byteN_of_N in X by lia. now apply H1. }
    rewrite byteN_of_N by lia. replace (128 <=? r)%N with false by lia.
    replace (Byte.eqb (byte_of_N r) "\") with false.
    2:{ symmetry. apply byte_eqb_neq. intros X. apply (f_equal byteN) in X. rewrite byteN_of_N in X by lia. now apply H2. }
    reflexivity.
  - destruct (encode_rune r ++ rest) as [|c t] eqn:E; [discriminate|].
    assert (128 <= byteN c)%N.
    { cbn [decode_rune] in D. destruct (byteN c <=? 127)%N eqn:X; [|lia]. injection D as D _. lia. }
    cbn [unquote_char]. replace (Byte.eqb c """") with false.
    2:{ symmetry. apply byte_eqb_neq. intros ->. cbn in *. lia. }
    replace (128 <=? byteN c)%N with true by lia. unfold decode_one. rewrite D, <- E. cbn [r_rune].
    now rewrite skipn_app_exact.
Qed.

Lemma unquote_escaped E ra rest :
  (exists r, valid r /\ ra = good_rune r) \/ (exists b, (128 <= byteN b)%N /\ ra = bad_byte b) ->
  unquote_char (quote_rune E ra ++ rest) = Some (r_bytes ra, rest).
Proof.
  intros [(r & V & ->)|(b & B & ->)]; unfold quote_rune; cbn [good_rune bad_byte r_bad r_rune r_bytes hd].
  2:{ change (bs "\x" ++ hex_digits 2 (byteN b)) with ("\"%byte :: "x"%byte :: hex_digits 2 (byteN b)).
      cbn [app]. cbn -[hex_digits read_hex N.leb byteN]. rewrite read_hex_digits by (pose proof (byteN_lt b); cbn; lia).
      now rewrite N.mul_0_l, N.add_0_l, byte_of_byteN. }
  unfold escape_rune.
  destruct ((r =? 34) || (r =? 92))%N eqn:Q.
  { assert (r = 34 \/ r = 92)%N as [->| ->] by lia; reflexivity. }
  destruct (is_print E r) eqn:P; [apply unquote_raw; auto; lia|].
  destruct (r =? 7)%N eqn:E7; [assert (r = 7)%N as -> by lia; reflexivity|].
  destruct (r =? 8)%N eqn:E8; [assert (r = 8)%N as -> by lia; reflexivity|].
  destruct (r =? 12)%N eqn:E12; [assert (r = 12)%N as -> by lia; reflexivity|].
  destruct (r =? 10)%N eqn:E10; [assert (r = 10)%N as -> by lia; reflexivity|].
  destruct (r =? 13)%N eqn:E13; [assert (r = 13)%N as -> by lia; reflexivity|].
  destruct (r =? 9)%N eqn:E9; [assert (r = 9)%N as -> by lia; reflexivity|].
  destruct (r =? 11)%N eqn:E11; [assert (r = 11)%N as -> by lia; reflexivity|].
  pose proof (valid_max r V). destruct ((r <? 32) || (r =? 127))%N eqn:S.
  { change (bs "\x" ++ hex_digits 2 r) with ("\"%byte :: "x"%byte :: hex_digits 2 r).
    cbn [app]. cbn -[hex_digits read_hex N.leb byteN]. rewrite read_hex_digits by (cbn; lia).
    rewrite N.mul_0_l, N.add_0_l. now rewrite encode_ascii by lia. }
  destruct (r <? 65536)%N eqn:S4.
  { change (bs "\u" ++ hex_digits 4 r) with ("\"%byte :: "u"%byte :: hex_digits 4 r).
    cbn [app]. cbn -[hex_digits read_hex N.leb byteN]. rewrite read_hex_digits by (cbn; lia).
    rewrite N.mul_0_l, N.add_0_l. now rewrite V. }
  change (bs "\U" ++ hex_digits 8 r) with ("\"%byte :: "U"%byte :: hex_digits 8 r).
  cbn [app]. cbn -[hex_digits read_hex N.leb byteN]. rewrite read_hex_digits by (cbn; lia).
  rewrite N.mul_0_l, N.add_0_l. now rewrite V.
Qed.

(** all runes of a string have one of the two forms *)
Definition rune_form (ra : rune_at) : Prop :=
  (exists r, valid r /\ ra = good_rune r) \/ (exists b, (128 <= byteN b)%N /\ ra = bad_byte b).
Lemma runes_form s : Forall rune_form (runes s).
Proof.
  induction s as [|r t V IH|b t B D IH] using runes_ind.
  - constructor.
  - rewrite runes_encode by auto. constructor; auto. left. eauto.
  - rewrite runes_bad by auto. constructor; auto. right. eauto.
Qed.

(** ** The text of a quoted character *)

(** ASCII text *)
Definition ascii (s : str) : Prop := Forall (fun c => (byteN c < 128)%N) s.
Definition codes (s : str) : list rune := map byteN s.
Lemma rune_list_app_valid rs t : Forall valid rs -> rune_list (utf8 rs ++ t) = rs ++ rune_list t.
Proof.
  intros H. unfold rune_list. rewrite runes_utf8 by auto. rewrite map_app, map_map. f_equal.
  cbn. apply map_id.
Qed.
Lemma rune_list_utf8 rs : Forall valid rs -> rune_list (utf8 rs) = rs.
Proof. intros H. rewrite <- (app_nil_r (utf8 rs)), rune_list_app_valid by auto. apply app_nil_r. Qed.

(** well-formed text *)
Definition wf8 (s : str) : Prop := exists rs, Forall valid rs /\ s = utf8 rs.
Lemma utf8_app a b : utf8 (a ++ b) = utf8 a ++ utf8 b.
Proof. apply flat_map_app. Qed.
Lemma wf8_nil : wf8 [].
Proof. exists []. auto. Qed.
Lemma wf8_app a b : wf8 a -> wf8 b -> wf8 (a ++ b).
Proof.
  intros (r & H & ->) (q & K & ->). exists (r ++ q). split; [now apply Forall_app|]. symmetry. apply utf8_app.
Qed.
Lemma wf8_rune r : valid r -> wf8 (encode_rune r).
Proof. intros V. exists [r]. split; auto. cbn. now rewrite app_nil_r. Qed.
Lemma wf8_byte c : (byteN c < 128)%N -> wf8 [c].
Proof. intros H. rewrite <- (encode_byte c H). apply wf8_rune. now apply valid_ascii. Qed.
Lemma wf8_ascii s : ascii s -> wf8 s.
Proof. intros H. induction H as [|c s Hc _ IH]; [apply wf8_nil|]. change (c :: s) with ([c] ++ s). apply wf8_app; auto. now apply wf8_byte. Qed.
Lemma rune_list_app s t : wf8 s -> rune_list (s ++ t) = rune_list s ++ rune_list t.
Proof. intros (rs & V & ->). rewrite rune_list_app_valid by auto. now rewrite rune_list_utf8. Qed.
Lemma rune_list_ascii s : ascii s -> rune_list s = codes s.
Proof.
  intros H. induction H as [|c s Hc H IH]; [reflexivity|]. change (c :: s) with ([c] ++ s) at 1.
  rewrite rune_list_app by now apply wf8_byte. rewrite IH. cbn [codes map]. unfold rune_list at 1.
  rewrite runes_ascii by auto. reflexivity.
Qed.
Lemma rune_list_rune r : valid r -> rune_list (encode_rune r) = [r].
Proof. intros V. unfold rune_list. rewrite <- (app_nil_r (encode_rune r)), runes_encode by auto. reflexivity. Qed.
Lemma wf8_encode s : wf8 s -> utf8 (rune_list s) = s.
Proof. intros (rs & V & ->). now rewrite rune_list_utf8. Qed.

(** visible ASCII other than the quote and the backslash *)
Definition inner (c : byte) : Prop := (32 < byteN c < 127)%N /\ c <> """"%byte /\ c <> "\"%byte.
Lemma hex_digit_inner n : (n < 16)%N -> inner (hex_digit n).
Proof.
  intros H. assert (byteN (hex_digit n) = if n <? 10 then 48 + n else 87 + n)%N as X.
  { unfold hex_digit. apply byteN_of_N. destruct (n <? 10)%N eqn:E; lia. }
  unfold inner. rewrite X. destruct (n <? 10)%N eqn:E; (split; [lia|split]); intros Y; apply (f_equal byteN) in Y;
    rewrite X in Y; unfold byteN in Y; cbn [Byte.to_N] in Y; lia.
Qed.
Lemma hex_digits_inner k : forall n, Forall inner (hex_digits k n).
Proof.
  induction k as [|k IH]; intros n; cbn [hex_digits]; [constructor|]. apply Forall_app. split; [auto|].
  constructor; [|constructor]. apply hex_digit_inner. apply N.mod_lt. lia.
Qed.

Lemma quote_rune_form E ra : rune_form ra ->
  (exists r, valid r /\ r <> 34%N /\ r <> 92%N /\ (32 <= r)%N /\ quote_rune E ra = encode_rune r) \/
  (exists c t, quote_rune E ra = "\"%byte :: c :: t /\ (32 < byteN c < 127)%N /\ Forall inner t).
Proof.
  intros [(r & V & ->)|(b & B & ->)]; unfold quote_rune; cbn [good_rune bad_byte r_bad r_rune r_bytes hd].
  2:{ right. exists "x"%byte, (hex_digits 2 (byteN b)). split; [reflexivity|]. split; [cbn; lia|apply hex_digits_inner]. }
  unfold escape_rune.
  destruct ((r =? 34) || (r =? 92))%N eqn:Q.
  { right. assert (r = 34 \/ r = 92)%N as [->| ->] by lia; eexists _, []; (split; [reflexivity|]); (split; [cbn; lia|constructor]). }
  destruct (is_print E r) eqn:P.
  { left. exists r. repeat split; auto; try lia. unfold is_print in P. destruct (r <=? 127)%N eqn:?; lia. }
  right. pose proof (valid_max r V).
  repeat match goal with
  | |- context [if ?c then bs ?x else _] => destruct c; [eexists _, []; split; [reflexivity|split; [cbn; lia|constructor]]|]
  end.
  destruct ((r <? 32) || (r =? 127))%N; [eexists "x"%byte, (hex_digits 2 r); split; [reflexivity|split; [cbn; lia|apply hex_digits_inner]]|].
  destruct (r <? 65536)%N; [eexists "u"%byte, (hex_digits 4 r); split; [reflexivity|split; [cbn; lia|apply hex_digits_inner]]|].
  eexists "U"%byte, (hex_digits 8 r); split; [reflexivity|split; [cbn; lia|apply hex_digits_inner]].
Qed.
Lemma inner_ascii t : Forall inner t -> ascii t.
Proof. apply Forall_impl. unfold inner. intros; lia. Qed.

(** ** Passing over text without leaving the current token *)
Definition tok_pass (q : bool) (s : str) : Prop := forall cur l,
  tokenize_from cur q false (rune_list s ++ l) = tokenize_from (cur ++ s) q false l.
Definition semi_pass (q : bool) (s : str) : Prop := forall cur l,
  split_semi_from cur q false (rune_list s ++ l) = split_semi_from (cur ++ s) q false l.

Lemma tok_pass_nil q : tok_pass q [].
Proof. intros cur l. cbn. now rewrite app_nil_r. Qed.
Lemma semi_pass_nil q : semi_pass q [].
Proof. intros cur l. cbn. now rewrite app_nil_r. Qed.
Lemma tok_pass_app q a b : wf8 a -> tok_pass q a -> tok_pass q b -> tok_pass q (a ++ b).
Proof. intros W A B cur l. rewrite rune_list_app, <- app_assoc, A, B, app_assoc by auto. reflexivity. Qed.
Lemma semi_pass_app q a b : wf8 a -> semi_pass q a -> semi_pass q b -> semi_pass q (a ++ b).
Proof. intros W A B cur l. rewrite rune_list_app, <- app_assoc, A, B, app_assoc by auto. reflexivity. Qed.

(** a rune with no meaning to the tokenizer outside quotes *)
Definition plain_rune (r : rune) : Prop :=
  valid r /\ r <> 34%N /\ r <> 40%N /\ r <> 41%N /\ r <> 59%N /\ is_space r = false.
Lemma blank_space r : is_blank r = true -> is_space r = true.
Proof. unfold is_blank, is_space. lia. Qed.
Lemma plain_tok r : plain_rune r -> tok_pass false (encode_rune r).
Proof.
  intros (V & H1 & H2 & H3 & H4 & H5) cur l. rewrite rune_list_rune by auto. cbn [app tokenize_from].
  unfold rn_backslash, rn_quote, rn_open, rn_close.
  destruct (r =? 92)%N; [reflexivity|]. replace (r =? 34)%N with false by lia.
  replace ((r =? 40) || (r =? 41))%N with false by lia.
  destruct (is_blank r) eqn:B; [apply blank_space in B; congruence|reflexivity].
Qed.
Lemma plain_semi r : valid r -> r <> 34%N -> r <> 59%N -> semi_pass false (encode_rune r).
Proof.
  intros V H1 H2 cur l. rewrite rune_list_rune by auto. cbn [app split_semi_from].
  unfold rn_backslash, rn_quote, rn_semi.
  destruct (r =? 92)%N; [reflexivity|]. replace (r =? 34)%N with false by lia.
  replace (r =? 59)%N with false by lia. reflexivity.
Qed.
Lemma quoted_tok r : valid r -> r <> 34%N -> r <> 92%N -> tok_pass true (encode_rune r).
Proof.
  intros V H1 H2 cur l. rewrite rune_list_rune by auto. cbn [app tokenize_from].
  unfold rn_backslash, rn_quote. replace (r =? 92)%N with false by lia. replace (r =? 34)%N with false by lia.
  destruct ((r =? rn_open) || (r =? rn_close))%N; [reflexivity|]. destruct (is_blank r); reflexivity.
Qed.
Lemma quoted_semi r : valid r -> r <> 34%N -> r <> 92%N -> semi_pass true (encode_rune r).
Proof.
  intros V H1 H2 cur l. rewrite rune_list_rune by auto. cbn [app split_semi_from].
  unfold rn_backslash, rn_quote. replace (r =? 92)%N with false by lia. replace (r =? 34)%N with false by lia.
  destruct (r =? rn_semi)%N; reflexivity.
Qed.

Lemma inner_not c : inner c -> byteN c <> 34%N /\ byteN c <> 92%N /\ (byteN c < 128)%N.
Proof.
  intros (H & A & B). repeat split; try lia; intros X.
  - apply A. now apply byteN_inj. - apply B. now apply byteN_inj.
Qed.
Lemma inner_pass t : Forall inner t -> tok_pass true t /\ semi_pass true t.
Proof.
  intros H. induction H as [|c t Hc _ [IH IH']]; [split; [apply tok_pass_nil|apply semi_pass_nil]|].
  apply inner_not in Hc as (A & B & C). change (c :: t) with ([c] ++ t).
  pose proof (valid_ascii _ C). split.
  - apply tok_pass_app; auto; [now apply wf8_byte|]. rewrite <- (encode_byte c C). now apply quoted_tok.
  - apply semi_pass_app; auto; [now apply wf8_byte|]. rewrite <- (encode_byte c C). now apply quoted_semi.
Qed.
Lemma escape_pass c t : (32 < byteN c < 127)%N -> Forall inner t ->
  tok_pass true ("\"%byte :: c :: t) /\ semi_pass true ("\"%byte :: c :: t).
Proof.
  intros C T. destruct (inner_pass t T) as [A B]. pose proof (inner_ascii t T) as At.
  assert (W : ascii ["\"%byte; c]) by (repeat constructor; cbn; lia).
  assert (R : rune_list ("\"%byte :: c :: t) = 92%N :: byteN c :: rune_list t).
  { change ("\"%byte :: c :: t) with (["\"%byte; c] ++ t). rewrite rune_list_app by now apply wf8_ascii.
    now rewrite rune_list_ascii. }
  assert (Ec : encode_rune (byteN c) = [c]) by (apply encode_byte; lia).
  assert (Eb : encode_rune 92%N = ["\"%byte]) by reflexivity.
  split; intros cur l; rewrite R; cbn [app tokenize_from split_semi_from]; unfold rn_backslash;
    change (92 =? 92)%N with true; cbv iota; rewrite Eb, Ec; [rewrite A|rewrite B];
    f_equal; now rewrite <- !app_assoc.
Qed.

Lemma quote_rune_pass E ra : rune_form ra ->
  wf8 (quote_rune E ra) /\ tok_pass true (quote_rune E ra) /\ semi_pass true (quote_rune E ra).
Proof.
  intros F. destruct (quote_rune_form E ra F) as [(r & V & A & B & _ & ->)|(c & t & -> & C & T)].
  - split; [now apply wf8_rune|]. split; [now apply quoted_tok|now apply quoted_semi].
  - split; [|now apply escape_pass]. apply wf8_ascii. constructor; [cbn; lia|]. constructor; [lia|]. now apply inner_ascii.
Qed.
Lemma quote_body_pass E l : Forall rune_form l ->
  wf8 (flat_map (quote_rune E) l) /\ tok_pass true (flat_map (quote_rune E) l) /\ semi_pass true (flat_map (quote_rune E) l).
Proof.
  intros H. induction H as [|ra l F _ (W & A & B)]; cbn [flat_map].
  - split; [apply wf8_nil|]. split; [apply tok_pass_nil|apply semi_pass_nil].
  - destruct (quote_rune_pass E ra F) as (W' & A' & B'). split; [now apply wf8_app|].
    split; [now apply tok_pass_app|now apply semi_pass_app].
Qed.

Definition dq : str := [""""%byte].
Lemma dq_wf : wf8 dq.
Proof. apply wf8_byte. cbn. lia. Qed.
Lemma rune_list_dq : rune_list dq = [34%N].
Proof. reflexivity. Qed.
Lemma quote_eq E s : quote E s = dq ++ flat_map (quote_rune E) (runes s) ++ dq.
Proof. reflexivity. Qed.
Lemma quote_wf E s : wf8 (quote E s).
Proof.
  rewrite quote_eq. destruct (quote_body_pass E (runes s) (runes_form s)) as (W & _).
  repeat apply wf8_app; auto using dq_wf.
Qed.
Lemma quote_tok E s : tok_pass false (quote E s).
Proof.
  destruct (quote_body_pass E (runes s) (runes_form s)) as (W & A & _). intros cur l. rewrite quote_eq.
  rewrite rune_list_app, rune_list_app, rune_list_dq by auto using dq_wf. rewrite <- !app_assoc.
  cbn [app]. cbn [tokenize_from]. change (34 =? rn_backslash)%N with false. change (34 =? rn_quote)%N with true.
  cbv iota. cbn [negb]. rewrite A. cbn [tokenize_from]. change (34 =? rn_backslash)%N with false. change (34 =? rn_quote)%N with true.
  cbv iota. cbn [negb]. change (encode_rune 34%N) with dq. now rewrite <- !app_assoc.
Qed.
Lemma quote_semi E s : semi_pass false (quote E s).
Proof.
  destruct (quote_body_pass E (runes s) (runes_form s)) as (W & _ & A). intros cur l. rewrite quote_eq.
  rewrite rune_list_app, rune_list_app, rune_list_dq by auto using dq_wf. rewrite <- !app_assoc.
  cbn [app]. cbn [split_semi_from]. change (34 =? rn_backslash)%N with false. change (34 =? rn_quote)%N with true.
  cbv iota. cbn [negb]. rewrite A. cbn [split_semi_from]. change (34 =? rn_backslash)%N with false. change (34 =? rn_quote)%N with true.
  cbv iota. cbn [negb]. change (encode_rune 34%N) with dq. now rewrite <- !app_assoc.
Qed.

(** ** strconv.Unquote undoes strconv.Quote *)
Lemma unquote_loop_quoted E l : Forall rune_form l -> forall fuel,
  (length (flat_map (quote_rune E) l ++ dq) <= fuel)%nat ->
  unquote_loop fuel (flat_map (quote_rune E) l ++ dq) = Some (flat_map r_bytes l).
Proof.
  intros H. induction H as [|ra l F _ IH]; intros fuel L.
  - destruct fuel; [cbn in L; lia|reflexivity].
  - cbn [flat_map] in *. rewrite <- app_assoc in *. set (rest := flat_map (quote_rune E) l ++ dq) in *.
    pose proof (unquote_escaped E ra rest F) as U.
    assert (Q : exists c t, quote_rune E ra = c :: t /\ Byte.eqb c """" = false /\ Byte.eqb c nl = false).
    { destruct (quote_rune_form E ra F) as [(r & V & A & B & G & X)|(c & t & X & C & T)]; rewrite X.
      - destruct (encode_rune r) as [|c t] eqn:Er; [now apply encode_nonempty in Er|]. exists c, t. split; auto.
        assert (K : byteN c = r \/ (128 <= byteN c)%N).
        { pose proof (decode_encode r [] V) as D. rewrite app_nil_r, Er in D. cbn [decode_rune] in D.
          destruct (byteN c <=? 127)%N eqn:Z; [injection D as D _; auto|right; lia]. }
        split; apply byte_eqb_neq; intros ->; cbn in K; lia.
      - exists "\"%byte, (c :: t). auto. }
    destruct Q as (c & t & Q & Q1 & Q2). destruct fuel as [|fuel]; [rewrite Q in L; cbn in L; lia|].
    cbn [unquote_loop]. rewrite Q in *. cbn [app] in *. rewrite Q1, Q2, U, IH; [reflexivity|].
    cbn [length] in L. rewrite app_length in L. lia.
Qed.
Lemma unquote_quote E s : unquote (quote E s) = Some s.
Proof.
  rewrite quote_eq. cbn [dq app unquote]. change (Byte.eqb """" """") with true. cbv iota.
  fold dq. rewrite unquote_loop_quoted; [now rewrite runes_bytes|apply runes_form|lia].
Qed.
Lemma has_prefix_one c s d : has_prefix (c :: s) [d] = Byte.eqb d c.
Proof. cbn. destruct (Byte.eqb d c); auto. now destruct s. Qed.
Lemma quote_bounds E s : has_prefix (quote E s) (bs """") = true /\ has_suffix (quote E s) (bs """") = true
  /\ 2 <= zlen (quote E s).
Proof.
  rewrite quote_eq. split; [apply has_prefix_one|]. split.
  - unfold has_suffix. rewrite !rev_app_distr. apply has_prefix_one.
  - unfold dq. lens. lia.
Qed.
Lemma parse_token_quote E s : parse_token (quote E s) = POk (VStr s).
Proof.
  destruct (quote_bounds E s) as (A & B & C). unfold parse_token. rewrite A, B, unquote_quote. cbn [andb].
  now replace (zlen (quote E s) <? 2) with false by lia.
Qed.

(** ** Bytes of encoded runes *)
Lemma encode_bytes r c : valid r -> In c (encode_rune r) -> (byteN c = r /\ (r < 128)%N) \/ (128 <= byteN c)%N.
Proof.
  intros V. unfold encode_rune. rewrite V. unfold encode_valid. unfold valid, valid_rune in V.
  destruct (r <=? 127)%N eqn:H1; [|destruct (r <=? 2047)%N eqn:H2; [|destruct (r <=? 65535)%N eqn:H3]]; cbn [In].
  - intros [<-|[]]. left. rewrite byteN_of_N by lia. lia.
  - intros [<-|[<-|[]]]; right; rewrite byteN_of_N; Z.div_mod_to_equations; lia.
  - intros [<-|[<-|[<-|[]]]]; right; rewrite byteN_of_N; Z.div_mod_to_equations; lia.
  - intros [<-|[<-|[<-|[<-|[]]]]]; right; rewrite byteN_of_N; Z.div_mod_to_equations; lia.
Qed.
Lemma utf8_bytes rs c : Forall valid rs -> In c (utf8 rs) -> In (byteN c) rs \/ (128 <= byteN c)%N.
Proof.
  intros H I. unfold utf8 in I. apply in_flat_map in I as (r & Ir & Ic). rewrite Forall_forall in H.
  destruct (encode_bytes r c (H r Ir) Ic) as [[<- _]|K]; auto.
Qed.

(** ** White space at the ends *)
Definition edge_ok (s : str) : Prop :=
  (exists r l, rune_list s = r :: l /\ is_space r = false) /\
  (exists r l, rune_list s = l ++ [r] /\ is_space r = false).
Lemma edge_cons a s b : wf8 a -> wf8 (a ++ s) -> edge_ok a -> edge_ok b -> edge_ok (a ++ s ++ b).
Proof.
  intros W W' [(r & l & E & H) _] [_ (r' & l' & E' & H')]. split.
  - exists r, (l ++ rune_list (s ++ b)). rewrite rune_list_app, E by auto. auto.
  - exists r', (rune_list (a ++ s) ++ l'). rewrite app_assoc, rune_list_app, E' by auto. now rewrite app_assoc.
Qed.
Lemma edge_app a b : wf8 a -> edge_ok a -> edge_ok b -> edge_ok (a ++ b).
Proof. intros W A B. change (a ++ b) with (a ++ [] ++ b). apply edge_cons; auto. now rewrite app_nil_r. Qed.
Lemma edge_byte c : (byteN c < 128)%N -> is_space (byteN c) = false -> edge_ok [c].
Proof.
  intros H S. assert (R : rune_list [c] = [byteN c]) by (rewrite rune_list_ascii; auto; now constructor).
  split; [exists (byteN c), []|exists (byteN c), []]; rewrite R; auto.
Qed.
Lemma edge_runes rs : Forall valid rs -> rs <> [] -> Forall (fun r => is_space r = false) rs -> edge_ok (utf8 rs).
Proof.
  intros V N S. rewrite Forall_forall in S. unfold edge_ok. rewrite rune_list_utf8 by auto. split.
  - destruct rs as [|r l]; [congruence|]. exists r, l. split; auto. apply S. now left.
  - destruct (@exists_last _ rs N) as (l & r & ->). exists r, l. split; auto. apply S. apply in_or_app. right. now left.
Qed.

Lemma trim_left_edge s : edge_ok s -> trim_left s = s.
Proof.
  intros [(r & l & E & H) _]. unfold trim_left. destruct s as [|c s]; [reflexivity|]. cbn [length trim_left_fuel].
  unfold rune_list, runes in E. cbn [length runes_fuel] in E. destruct (decode_one (c :: s)) as [ra rest].
  cbn [map] in E. injection E as -> _. now rewrite H.
Qed.
Lemma drop_space_id l : (exists r l', map r_rune l = r :: l' /\ is_space r = false) -> drop_space l = l.
Proof. intros (r & l' & E & H). destruct l as [|ra l]; [reflexivity|]. cbn in *. injection E as -> _. now rewrite H. Qed.
Lemma trim_space_edge s : edge_ok s -> trim_space s = s.
Proof.
  intros [A (r & l & E & H)]. unfold trim_space. rewrite (drop_space_id (runes s)) by exact A.
  rewrite (drop_space_id (rev (runes s))).
  - rewrite rev_involutive. apply runes_bytes.
  - exists r, (rev l). split; auto. rewrite map_rev. unfold rune_list in E. rewrite E, rev_app_distr. reflexivity.
Qed.

(** ** The text of an atom *)
Record atom_text (a : str) : Prop := {
  at_wf : wf8 a;
  at_ne : a <> [];
  at_tok : tok_pass false a;
  at_semi : semi_pass false a;
  at_nl : ~ In nl a;
  at_edge : edge_ok a;
  at_open : a <> tok_open;
  at_close : a <> tok_close;
  at_head : forall t, a <> "("%byte :: t
}.
Lemma plain_runes_atom rs : rs <> [] -> Forall plain_rune rs -> atom_text (utf8 rs).
Proof.
  intros N P. assert (V : Forall valid rs) by (eapply Forall_impl; [|exact P]; now intros r (? & _)).
  assert (Nl : forall c, In (byteN c) rs -> c <> nl /\ c <> "("%byte /\ c <> ")"%byte).
  { rewrite Forall_forall in P. intros c I. destruct (P _ I) as (_ & _ & H40 & H41 & _ & S).
    repeat split; intros ->; cbn in *; congruence. }
  assert (Nb : forall c, In c (utf8 rs) -> c <> nl /\ c <> "("%byte /\ c <> ")"%byte).
  { intros c I. destruct (utf8_bytes rs c V I) as [J|J]; [now apply Nl|]. repeat split; intros ->; cbn in J; lia. }
  assert (Ne : utf8 rs <> []).
  { destruct rs as [|r l]; [congruence|]. cbn. destruct (encode_rune r) eqn:X; [now apply encode_nonempty in X|discriminate]. }
  assert (Hd : forall t, utf8 rs <> "("%byte :: t).
  { intros t X. destruct (Nb "("%byte) as (_ & H & _); [rewrite X; now left|congruence]. }
  split; auto.
  - exists rs. auto.
  - clear N Nl Nb Ne Hd V. induction P as [|r l Pr _ IH]; [apply tok_pass_nil|]. cbn [utf8 flat_map]. apply tok_pass_app; auto.
    + apply wf8_rune. apply Pr. + now apply plain_tok.
  - clear N Nl Nb Ne Hd V. induction P as [|r l Pr _ IH]; [apply semi_pass_nil|]. cbn [utf8 flat_map].
    destruct Pr as (V & Q & _ & _ & S & _). apply semi_pass_app; auto; [now apply wf8_rune|now apply plain_semi].
  - intros I. now destruct (Nb _ I).
  - apply edge_runes; auto. eapply Forall_impl; [|exact P]. intros r (_ & _ & _ & _ & _ & S). exact S.
  - apply Hd.
  - intros X. destruct (Nb ")"%byte) as (_ & _ & H); [rewrite X; now left|congruence].
Qed.

Lemma quote_no_nl E s : ~ In nl (quote E s).
Proof.
  rewrite quote_eq. intros I. apply in_app_or in I as [I|I]; [destruct I as [I|[]]; discriminate|].
  apply in_app_or in I as [I|I]; [|destruct I as [I|[]]; discriminate].
  apply in_flat_map in I as (ra & Ir & I). pose proof (runes_form s) as F. rewrite Forall_forall in F. specialize (F _ Ir).
  destruct (quote_rune_form E ra F) as [(r & V & A & B & G & X)|(c & t & X & C & T)]; rewrite X in I.
  - destruct (encode_bytes r nl V I) as [[K _]|K]; cbn in K; lia.
  - destruct I as [I|[I|I]]; [discriminate|subst; cbn in C; lia|]. rewrite Forall_forall in T. apply T in I as [K _]. cbn in K. lia.
Qed.
Lemma quote_atom E s : atom_text (quote E s).
Proof.
  assert (C : forall t, quote E s <> "("%byte :: t) by (intros t; rewrite quote_eq; discriminate).
  split; auto using quote_wf, quote_tok, quote_semi, quote_no_nl.
  - discriminate.
  - rewrite quote_eq. destruct (quote_body_pass E (runes s) (runes_form s)) as (W & _).
    apply edge_cons; auto using dq_wf, wf8_app; (apply edge_byte; [cbn; lia|reflexivity]).
  - apply C. - rewrite quote_eq. discriminate.
Qed.

(** ** The text of a number *)
Definition num_byte (c : byte) : bool := existsb (Byte.eqb c) (bs "0123456789+-.eNaInf").
Definition num_text (s : str) : Prop := s <> [] /\ Forall (fun c => num_byte c = true) s.
Lemma digit_num c : is_digit c = true -> num_byte c = true.
Proof. destruct c; try discriminate; reflexivity. Qed.
Lemma utoa_ne n : utoa n <> [].
Proof.
  destruct (N.eq_dec n 0) as [->|H]; [discriminate|]. destruct (utoa_head n H) as (c & t & E & _). now rewrite E.
Qed.
Lemma utoa_num n : Forall (fun c => num_byte c = true) (utoa n).
Proof. eapply Forall_impl; [|apply utoa_digits]. apply digit_num. Qed.
Lemma itoa_num z : num_text (itoa z).
Proof.
  destruct z as [|p|p]; cbn [itoa].
  - split; [apply utoa_ne|apply utoa_num]. - split; [apply utoa_ne|apply utoa_num].
  - split; [discriminate|]. constructor; [reflexivity|apply utoa_num].
Qed.
Lemma Forall_firstn {A} (P : A -> Prop) n l : Forall P l -> Forall P (firstn n l).
Proof. intros H. rewrite <- (firstn_skipn n l) in H. now apply Forall_app in H. Qed.
Lemma Forall_skipn {A} (P : A -> Prop) n l : Forall P l -> Forall P (skipn n l).
Proof. intros H. rewrite <- (firstn_skipn n l) in H. now apply Forall_app in H. Qed.
Lemma Forall_repeat {A} (P : A -> Prop) x n : P x -> Forall P (repeat x n).
Proof. intros H. induction n; cbn; constructor; auto. Qed.
Ltac numc := repeat first
  [ apply Forall_nil | apply Forall_cons; [reflexivity|] | apply Forall_app; split | apply itoa_num
  | apply Forall_firstn | apply Forall_skipn | apply Forall_repeat; reflexivity | assumption ].

Lemma fmt_e_num neg ds x : Forall (fun c => num_byte c = true) ds -> num_text (fmt_e neg ds x).
Proof.
  intros H. unfold fmt_e. split.
  - destruct neg; [discriminate|]. destruct ds as [|a [|b ds]]; discriminate.
  - apply Forall_app. split; [destruct neg; numc|]. apply Forall_app. split.
    + destruct ds as [|a [|b ds]]; [numc|auto|]. inversion H; subst. constructor; auto.
    + cbn [app]. constructor; [reflexivity|]. constructor; [destruct (x <? 0); reflexivity|].
      destruct (Z.abs x <? 10); numc.
Qed.
Lemma fmt_f_num neg ds dp : ds <> [] -> Forall (fun c => num_byte c = true) ds -> num_text (fmt_f neg ds dp).
Proof.
  intros N H. unfold fmt_f. cbv zeta. split.
  - destruct neg; [discriminate|]. cbn [app]. destruct (0 <? dp) eqn:D; [|discriminate].
    destruct (Z.to_nat dp) eqn:X; [lia|]. destruct ds; [congruence|discriminate].
  - apply Forall_app. split; [destruct neg; numc|]. apply Forall_app. split.
    + destruct (0 <? dp); numc.
    + destruct (dp <? zlen ds); numc.
Qed.
Lemma fmt_g_num neg n k : num_text (fmt_g neg n k).
Proof.
  unfold fmt_g. cbv zeta. destruct (itoa_num n) as [N H]. destruct (_ || _); [now apply fmt_e_num|now apply fmt_f_num].
Qed.
Lemma cand_text_num neg c : num_text (cand_text neg c).
Proof. unfold cand_text. destruct (strip_zeros _ _ _). apply fmt_g_num. Qed.
Lemma shortest_num fuel f neg num den dp : forall nd t,
  shortest_loop fuel f neg num den dp nd = Some t -> num_text t.
Proof.
  induction fuel as [|fuel IH]; [discriminate|]. intros nd t. cbn [shortest_loop].
  destruct (find _ _) as [u|] eqn:F; [|apply IH].
  intros H. injection H as <-. apply find_some in F as [F _]. apply in_map_iff in F as (c & <- & _). apply cand_text_num.
Qed.
Lemma fmt_g_finite_num s m e : num_text (fmt_g_finite s m e).
Proof.
  unfold fmt_g_finite. destruct (frac m e) as [num den]. destruct (shortest_loop _ _ _ _ _ _ _) as [t|] eqn:S.
  - now apply shortest_num in S.
  - split.
    + destruct s; [discriminate|]. cbn [app]. destruct (0 <=? e); [apply itoa_num|].
      destruct (itoa (Zpos m * 5 ^ (- e))) eqn:X; [now apply itoa_num in X|discriminate].
    + apply Forall_app. split; [destruct s; numc|]. destruct (0 <=? e); numc.
Qed.
Lemma num_string_num E f : f64_valid f = true -> num_text (num_string E f).
Proof.
  intros V. pose proof (num_string_parses E f V) as P. unfold num_string in *.
  destruct (f_eqb f (f_of_Z (f_to_int E f))).
  - destruct f as [[]|s| |s m e].
    + split; [discriminate|numc].
    + apply itoa_num.
    + exfalso. cbn in P. discriminate.
    + exfalso. cbn in P. discriminate.
    + apply itoa_num.
  - destruct f as [[]|[]| |s m e]; try (split; [discriminate|numc]). apply fmt_g_finite_num.
Qed.

Lemma num_plain s : num_text s -> atom_text s /\ ~ In """"%byte s.
Proof.
  intros [N H].
  assert (F : Forall (fun c => (byteN c < 128)%N /\ plain_rune (byteN c) /\ c <> """"%byte) s).
  { eapply Forall_impl; [|exact H]. intros c Hc. destruct c; try discriminate; 
      (split; [cbn; lia|split; [|discriminate]]); repeat split; discriminate || reflexivity. }
  assert (s = utf8 (codes s)).
  { clear N H. induction F as [|c s (A & _) _ IH]; [reflexivity|]. cbn [codes map utf8 flat_map]. fold (codes s). fold (utf8 (codes s)).
    now rewrite <- IH, encode_byte. }
  split.
  - rewrite H0. apply plain_runes_atom.
    + destruct s; [congruence|discriminate].
    + unfold codes. apply Forall_map. eapply Forall_impl; [|exact F]. now intros c (_ & ? & _).
  - intros I. rewrite Forall_forall in F. apply F in I as (_ & _ & I). congruence.
Qed.
Lemma num_token E f : f64_valid f = true -> parse_token (num_string E f) = POk (VNum f).
Proof.
  intros V. destruct (num_plain _ (num_string_num E f V)) as [_ Q]. unfold parse_token.
  destruct (has_prefix (num_string E f) (bs """")) eqn:X.
  - apply has_prefix_iff in X as [v X]. exfalso. apply Q. rewrite X. now left.
  - cbn [andb]. now rewrite num_string_parses.
Qed.
