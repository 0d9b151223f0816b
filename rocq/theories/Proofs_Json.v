(** JSON text and values: what is encoded is decoded again. *)
From Coq Require Import ZArith NArith List Bool Lia ZifyBool ZifyN ZifyNat Strings.Byte.
From Verif Require Import Base Float Ext Utf8 Strconv Values Buffer Spec Parser Json Writer SpecText
  Proofs_Base Proofs_Utf8 Proofs_Float Proofs_Number Proofs_Token.
Import ListNotations.
Open Scope Z_scope.

(** ** Values *)
Definition conv_items := fix go (i : Z) (l : list json) : presult (list value) :=
  match l with
  | [] => POk []
  | x :: l' =>
    match convert_item x with
    | POk v => pbind (go (i + 1) l') (fun vs => POk (v :: vs))
    | PErr e => PErr (bs "error converting array element " ++ itoa i ++ bs ": " ++ e)
    | PFuel => PFuel
    end
  end.
Lemma convert_call n items : convert_item (JArr (JStr n :: items)) =
  match conv_items 1 items with POk vs => POk (VList (VSym n :: vs)) | PErr e => PErr e | PFuel => PFuel end.
Proof. reflexivity. Qed.
Lemma conv_items_ok l vs : Forall2 (fun j v => convert_item j = POk v) l vs -> forall i, conv_items i l = POk vs.
Proof.
  intros H. induction H as [|j v l vs H _ IH]; intros i; [reflexivity|]. cbn [conv_items]. rewrite H, IH. reflexivity.
Qed.
Lemma conv_items_inv l : forall i vs, conv_items i l = POk vs -> Forall2 (fun j v => convert_item j = POk v) l vs.
Proof.
  induction l as [|j l IH]; intros i vs; cbn [conv_items].
  - intros H. injection H as <-. constructor.
  - destruct (convert_item j) as [v|e|] eqn:C; try discriminate. destruct (conv_items (i + 1) l) as [ws|e|] eqn:D; cbn; try discriminate.
    intros H. injection H as <-. constructor; eauto.
Qed.
Lemma image_convert v : forall w, convert_item (value_to_json v) = POk w <-> json_image v w.
Proof.
  induction v as [n|s|f|l IH] using value_ind'; intros w; cbn [value_to_json].
  1-3: cbn; split; [intros H; injection H as <-; constructor|intros H; inversion H; reflexivity].
  destruct l as [|h args].
  - cbn. split; [intros H; injection H as <-; constructor|intros H; inversion H; reflexivity].
  - inversion IH as [|? ? _ IHa]; subst. cbn [map].
    assert (A : forall ws, Forall2 (fun j v => convert_item j = POk v) (map value_to_json args) ws <-> Forall2 json_image args ws).
    { clear -IHa. induction IHa as [|x l Hx _ IH]; intros ws; cbn [map].
      - split; intros H; inversion H; constructor.
      - split; intros H; inversion H; subst; constructor; (now apply Hx) || now apply IH. }
    assert (B : forall n, h = VSym n \/ h = VStr n -> convert_item (JArr (value_to_json h :: map value_to_json args)) = POk w <-> json_image (VList (h :: args)) w).
    { intros n Hn. replace (value_to_json h) with (JStr n) by (destruct Hn; subst; reflexivity). rewrite convert_call. split.
      - destruct (conv_items 1 (map value_to_json args)) as [ws|e|] eqn:C; try discriminate. intros H. injection H as <-.
        apply conv_items_inv in C. constructor; auto. now apply A.
      - intros H. inversion H as [| | | |h' n' args' ws Hh HF]; subst. assert (n' = n) as -> by (destruct Hn, Hh; congruence).
        apply A in HF. now rewrite (conv_items_ok _ _ HF). }
    destruct h as [n|s|f|m]; [now apply (B n); left|now apply (B s); right|..];
      (split; [discriminate|intros H; inversion H as [| | | |h' n' args' ws Hh HF]; subst; destruct Hh; discriminate]).
Qed.
Lemma canonical_image v : canonical v -> json_image v v.
Proof.
  induction v as [n|s|f|l IH] using value_ind'; intros C; inversion C; subst; try constructor; auto.
  inversion IH as [|? ? _ IHa]; subst. clear -IHa H0. induction IHa as [|x l Hx _ IH]; constructor; inversion H0; subst; auto.
Qed.

Definition valid_items := fix go (i : Z) (l : list json) : option str :=
  match l with
  | [] => None
  | x :: l' => match validate x false with
               | Some e => Some (bs "invalid element at index " ++ itoa i ++ bs ": " ++ e)
               | None => go (i + 1) l' end
  end.
Lemma canonical_valid v : canonical v -> validate (value_to_json v) false = None /\
  (forall l, v = VList l -> validate (value_to_json v) true = None).
Proof.
  induction v as [n|s|f|l IH] using value_ind'; intros C; inversion C; subst; cbn [value_to_json map]; try (split; [reflexivity|intros; reflexivity || discriminate]).
  inversion IH as [|? ? _ IHa]; subst.
  assert (V : forall top, validate (JArr (JStr n :: map value_to_json args)) top = None).
  { intros top. change (valid_items 1 (map value_to_json args) = None). clear -IHa H0. generalize 1.
    induction IHa as [|x l Hx _ IH]; intros i; [reflexivity|]. inversion H0; subst. cbn [map valid_items].
    rewrite (proj1 (Hx ltac:(auto))). auto. }
  split; intros; apply V.
Qed.
Lemma convert_program_ok p : Forall (fun v => canonical v /\ exists l, v = VList l) p ->
  forall i, convert_program i (map value_to_json p) = POk p.
Proof.
  intros H. induction H as [|v p (C & l & ->) _ IH]; intros i; [reflexivity|].
  pose proof (proj2 (canonical_valid _ C) l eq_refl) as V. pose proof (proj2 (image_convert _ _) (canonical_image _ C)) as K.
  cbn [map value_to_json] in *. cbn [convert_program]. rewrite V. unfold convert_value. rewrite K. cbn [pbind]. now rewrite IH.
Qed.

(** ** Number text *)
Definition stops (rest : str) : Prop :=
  match rest with [] => True | c :: _ => is_digit c = false /\ c <> "."%byte /\ lower c <> "e"%byte end.
Lemma take_ext s : forall d r rest, take_digits s = (d, r) ->
  (r <> [] \/ match rest with c :: _ => is_digit c = false | [] => True end) -> take_digits (s ++ rest) = (d, r ++ rest).
Proof.
  induction s as [|c s IH]; intros d r rest; cbn [take_digits app].
  - intros H K. injection H as <- <-. cbn. destruct K as [K|K]; [congruence|]. destruct rest as [|c t]; [reflexivity|]. cbn [take_digits]. now rewrite K.
  - destruct (is_digit c) eqn:D.
    + destruct (take_digits s) as [d0 r0] eqn:T. intros H K. injection H as <- <-. now rewrite (IH d0 r0 rest eq_refl K).
    + intros H K. injection H as <- <-. reflexivity.
Qed.
Lemma take_split s : forall d r, take_digits s = (d, r) -> s = d ++ r.
Proof.
  induction s as [|c s IH]; intros d r; cbn [take_digits].
  - intros H. now injection H as <- <-.
  - destruct (is_digit c); [destruct (take_digits s) as [d0 r0]|]; intros H; injection H as <- <-; [|reflexivity].
    cbn. f_equal. now apply IH.
Qed.
Definition exp_part (sg ip fp s2 : str) : option (str * str) :=
  match s2 with
  | c :: t =>
    if Byte.eqb (lower c) "e"%byte then
      let '(es, t1) :=
        match t with
        | c1 :: t' => if Byte.eqb c1 "+"%byte || Byte.eqb c1 "-"%byte then ([c1], t') else ([], t)
        | [] => ([], t)
        end in
      match take_digits t1 with
      | ([], _) => None
      | (xs, s3) => Some (sg ++ ip ++ fp ++ c :: es ++ xs, s3)
      end
    else Some (sg ++ ip ++ fp, s2)
  | [] => Some (sg ++ ip ++ fp, [])
  end.
Definition frac_part (s1 : str) : option (str * str) :=
  match s1 with
  | c :: t =>
    if Byte.eqb c "."%byte then
      match take_digits t with
      | ([], _) => None
      | (fs, s2) => Some ("."%byte :: fs, s2)
      end
    else Some ([], s1)
  | [] => Some ([], [])
  end.
Definition unsigned_part (sg s0 : str) : option (str * str) :=
  match take_digits s0 with
  | ([], _) => None
  | (d :: ds, s1) =>
    let '(ip, s1) := if Byte.eqb d "0"%byte then ([d], ds ++ s1) else (d :: ds, s1) in
    match frac_part s1 with None => None | Some (fp, s2) => exp_part sg ip fp s2 end
  end.
Lemma number_parts s : json_number_text s =
  match s with
  | c :: t => if Byte.eqb c "-"%byte then unsigned_part ["-"%byte] t else unsigned_part [] s
  | [] => unsigned_part [] s
  end.
Proof.
  destruct s as [|c t]; [reflexivity|]. unfold json_number_text. destruct (Byte.eqb c "-"); reflexivity.
Qed.

Lemma exp_ext sg ip fp s2 a rest : exp_part sg ip fp s2 = Some (a, []) -> stops rest ->
  exp_part sg ip fp (s2 ++ rest) = Some (a, rest) /\ a = sg ++ ip ++ fp ++ s2.
Proof.
  unfold exp_part. destruct s2 as [|c t].
  - intros H S. injection H as <-. cbn [app]. rewrite app_nil_r. split; auto. destruct rest as [|c t]; [reflexivity|].
    destruct S as (_ & _ & S). now replace (Byte.eqb (lower c) "e") with false by (symmetry; now apply byte_eqb_neq).
  - cbn [app]. destruct (Byte.eqb (lower c) "e") eqn:L; [|discriminate].
    assert (K : forall es t1, match take_digits t1 with ([], _) => None | (xs, s3) => Some (sg ++ ip ++ fp ++ c :: es ++ xs, s3) end = Some (a, []) ->
       stops rest -> match take_digits (t1 ++ rest) with ([], _) => None | (xs, s3) => Some (sg ++ ip ++ fp ++ c :: es ++ xs, s3) end = Some (a, rest)
         /\ a = sg ++ ip ++ fp ++ c :: es ++ t1).
    { intros es t1. destruct (take_digits t1) as [xs s3] eqn:T. intros H S. destruct xs as [|x xs]; [discriminate|]. injection H as <- ->.
      rewrite (take_ext t1 _ _ rest T). 2:{ right. destruct rest; [exact I|apply S]. }
      apply take_split in T. rewrite app_nil_r in T. subst t1. auto. }
    destruct t as [|c1 t']; [discriminate|]. cbn [app]. destruct (Byte.eqb c1 "+" || Byte.eqb c1 "-").
    + intros H S. apply (K [c1] t'); auto.
    + intros H S. apply (K [] (c1 :: t')); auto.
Qed.
(** the fraction is followed by nothing or an exponent *)
Lemma frac_ext s1 fp s2 rest : frac_part s1 = Some (fp, s2) -> (s2 <> [] \/ stops rest) ->
  frac_part (s1 ++ rest) = Some (fp, s2 ++ rest) /\ s1 = fp ++ s2.
Proof.
  unfold frac_part. destruct s1 as [|c t].
  - intros H K. injection H as <- <-. cbn [app]. split; auto. destruct K as [K|K]; [congruence|]. destruct rest as [|c t]; [reflexivity|].
    destruct K as (_ & K & _). now replace (Byte.eqb c ".") with false by (symmetry; now apply byte_eqb_neq).
  - cbn [app]. destruct (Byte.eqb c ".") eqn:D.
    + destruct (take_digits t) as [fs r] eqn:T. destruct fs as [|x xs]; [discriminate|]. intros H K. injection H as <- <-.
      rewrite (take_ext t _ _ rest T). 2:{ destruct K as [K|K]; [auto|]. right. destruct rest; [exact I|apply K]. }
      apply byte_eqb_eq in D as ->. apply take_split in T. subst t. auto.
    + intros H K. injection H as <- <-. auto.
Qed.
Lemma unsigned_ext sg s0 a rest : unsigned_part sg s0 = Some (a, []) -> stops rest ->
  unsigned_part sg (s0 ++ rest) = Some (a, rest) /\ a = sg ++ s0.
Proof.
  intros H S. unfold unsigned_part in *. destruct (take_digits s0) as [d r] eqn:T.
  rewrite (take_ext s0 _ _ rest T). 2:{ right. destruct rest; [exact I|apply S]. }
  apply take_split in T. destruct d as [|d ds]; [discriminate|].
  assert (K : forall ip s1, match frac_part s1 with None => None | Some (fp, s2) => exp_part sg ip fp s2 end = Some (a, []) ->
     match frac_part (s1 ++ rest) with None => None | Some (fp, s2) => exp_part sg ip fp s2 end = Some (a, rest) /\ a = sg ++ ip ++ s1).
  { intros ip s1. destruct (frac_part s1) as [[fp s2]|] eqn:F; [|discriminate]. intros X.
    destruct (exp_ext _ _ _ _ _ rest X S) as [Y ->].
    destruct (frac_ext s1 fp s2 rest F) as [Z ->]; [now right|]. rewrite Z. auto. }
  destruct (Byte.eqb d "0"); [rewrite app_assoc|]; apply K in H as [A ->]; rewrite A; split; auto; now rewrite T.
Qed.
Lemma number_ext s a rest : json_number_text s = Some (a, []) -> stops rest ->
  json_number_text (s ++ rest) = Some (a, rest) /\ a = s.
Proof.
  rewrite !number_parts. destruct s as [|c t]; [discriminate|]. cbn [app]. destruct (Byte.eqb c "-") eqn:M.
  - intros H S. apply byte_eqb_eq in M as ->. now apply (unsigned_ext ["-"%byte] t).
  - intros H S. now apply (unsigned_ext [] (c :: t)).
Qed.
Lemma number_head s a r : json_number_text s = Some (a, r) -> exists c t, s = c :: t /\ (c = "-"%byte \/ is_digit c = true).
Proof.
  rewrite number_parts. destruct s as [|c t]; [discriminate|]. intros H. exists c, t. split; auto.
  destruct (Byte.eqb c "-") eqn:M; [left; now apply byte_eqb_eq|right]. unfold unsigned_part in H. cbn [take_digits] in H.
  destruct (is_digit c); [auto|discriminate].
Qed.
Lemma take_all d : digits d -> take_digits d = (d, []).
Proof. intros H. induction H as [|c d Hc _ IH]; [reflexivity|]. cbn [take_digits]. now rewrite Hc, IH. Qed.
Lemma take_until d c t : digits d -> is_digit c = false -> take_digits (d ++ c :: t) = (d, c :: t).
Proof. intros H K. induction H as [|x d Hx _ IH]; cbn [app take_digits]; [now rewrite K|]. now rewrite Hx, IH. Qed.
Lemma json_shortest_ok fuel f neg num den dp : forall nd t,
  json_shortest fuel f neg num den dp nd = Some t -> json_parses_to t f = true.
Proof.
  induction fuel as [|fuel IH]; [discriminate|]. intros nd t. cbn [json_shortest].
  destruct (find _ _) as [u|] eqn:F; [|apply IH]. intros H. injection H as <-. now apply find_some in F as [_ F].
Qed.
Lemma unsigned_int sg n : n <> 0%N -> unsigned_part sg (utoa n) = Some (sg ++ utoa n, []).
Proof.
  intros H. unfold unsigned_part. rewrite take_all by apply utoa_digits. destruct (utoa_head n H) as (c & t & -> & _ & Z).
  replace (Byte.eqb c "0") with false by (symmetry; now apply byte_eqb_neq). cbn [frac_part exp_part]. now rewrite !app_nil_r.
Qed.
Lemma unsigned_int_exp sg n x : n <> 0%N -> x <> 0%N -> unsigned_part sg (utoa n ++ "e"%byte :: "-"%byte :: utoa x)
  = Some (sg ++ utoa n ++ "e"%byte :: "-"%byte :: utoa x, []).
Proof.
  intros H X. unfold unsigned_part. rewrite take_until by (auto using utoa_digits). destruct (utoa_head n H) as (c & t & -> & _ & Z).
  replace (Byte.eqb c "0") with false by (symmetry; now apply byte_eqb_neq). cbn [frac_part]. change (Byte.eqb "e" ".") with false. cbv iota.
  unfold exp_part. change (Byte.eqb (lower "e") "e") with true. change (Byte.eqb "-" "+" || Byte.eqb "-" "-") with true. cbv iota.
  rewrite take_all by apply utoa_digits. destruct (utoa_head x X) as (d & u & -> & _). reflexivity.
Qed.
Definition finite (f : spec_float) : Prop := match f with S754_zero _ | S754_finite _ _ _ => True | _ => False end.
Lemma json_number_reads f : f64_valid f = true -> finite f ->
  exists t, json_number f = Some t /\ json_number_text t = Some (t, []) /\ parse_float t = Some f.
Proof.
  intros V F. destruct f as [s|s| |s m e]; try contradiction.
  - exists (if s then bs "-0" else bs "0"). destruct s; repeat split; vm_compute; reflexivity.
  - unfold json_number. destruct (frac m e) as [num den] eqn:Fr. destruct (json_shortest _ _ _ _ _ _ _) as [t|] eqn:S.
    + apply json_shortest_ok in S. unfold json_parses_to in S. destruct (json_number_text t) as [[a [|x y]]|] eqn:J; try discriminate.
      destruct (number_ext t a [] J I) as [_ ->]. exists t. repeat split; auto. now apply parses_to_eq.
    + eexists. split; [reflexivity|]. pose proof (parse_expansion s m e V) as P. unfold minus in P. unfold frac in Fr.
      assert (SP : forall u, unsigned_part (if s then ["-"%byte] else []) u = Some ((if s then ["-"%byte] else []) ++ u, []) ->
        (forall c t, u = c :: t -> c <> "-"%byte) -> u <> [] ->
        json_number_text ((if s then ["-"%byte] else []) ++ u) = Some ((if s then ["-"%byte] else []) ++ u, [])).
      { intros u U N Ne. rewrite number_parts. destruct s; cbn [app]; [exact U|]. destruct u as [|c t]; [congruence|].
        replace (Byte.eqb c "-") with false; [exact U|]. symmetry. apply byte_eqb_neq. now apply (N c t). }
      assert (Hn : (0 <=? e) = true -> num = Zpos m * 2 ^ e) by (intros X; rewrite X in Fr; congruence). clear Fr.
      destruct (0 <=? e) eqn:E0; (split; [|first [rewrite (Hn eq_refl)|idtac]; exact P]).
      * rewrite (Hn eq_refl) in *. pose proof (Z.pow_pos_nonneg 2 e ltac:(lia) ltac:(lia)). destruct (Zpos m * 2 ^ e) as [|q|q] eqn:Q; try nia. cbn [itoa Z.to_N].
        destruct (utoa_head (Npos q)) as (c & t & U & D & _); [discriminate|].
        apply SP; [apply unsigned_int; discriminate|..]; rewrite U; [|discriminate]. intros c' t' X. injection X as <- _. intros ->. discriminate.
      * pose proof (Z.pow_pos_nonneg 5 (- e) ltac:(lia) ltac:(lia)). destruct (Zpos m * 5 ^ (- e)) as [|q|q] eqn:Q; try nia.
        destruct e as [|e|e]; try lia. cbn [itoa Z.to_N]. destruct (utoa_head (Npos q)) as (c & t & U & D & _); [discriminate|].
        apply SP; [apply unsigned_int_exp; discriminate|..]; rewrite U; [|discriminate]. intros c' t' X. injection X as <- _. intros ->. discriminate.
Qed.

(** ** String text *)
Lemma json_string_raw c t f : (32 <= byteN c < 128)%N -> c <> """"%byte -> c <> "\"%byte ->
  json_string (S f) (c :: t) = match json_string f t with POk (r, rest') => POk ([c] ++ r, rest') | PErr e => PErr e | PFuel => PFuel end.
Proof.
  intros R A B. cbn [json_string]. replace (Byte.eqb c """") with false by (symmetry; now apply byte_eqb_neq).
  replace (byteN c <? 32)%N with false by lia. replace (128 <=? byteN c)%N with false by lia.
  replace (Byte.eqb c "\") with false by (symmetry; now apply byte_eqb_neq). reflexivity.
Qed.
Lemma json_string_high r t f : valid r -> (128 <= r)%N ->
  json_string (S f) (encode_rune r ++ t) = match json_string f t with POk (x, rest') => POk (encode_rune r ++ x, rest') | PErr e => PErr e | PFuel => PFuel end.
Proof.
  intros V H. pose proof (decode_encode r t V) as D. destruct (encode_rune r) as [|c u] eqn:En; [now apply encode_nonempty in En|].
  assert (K : (128 <= byteN c)%N). { destruct (encode_bytes r c V) as [[_ X]|X]; [rewrite En; now left|lia|auto]. }
  cbn [app json_string]. replace (Byte.eqb c """") with false. 2:{ symmetry. apply byte_eqb_neq. intros ->. cbn in K. lia. }
  replace (byteN c <? 32)%N with false by lia. replace (128 <=? byteN c)%N with true by lia.
  unfold decode_one. change (c :: u ++ t) with ((c :: u) ++ t). rewrite D. cbn [r_rune].
  rewrite <- En, skipn_app_exact. rewrite En. reflexivity.
Qed.
Lemma json_string_u r t f : (r < 65536)%N -> is_surrogate r = false ->
  json_string (S f) (bs "\u" ++ hex_digits 4 r ++ t) = match json_string f t with POk (x, rest') => POk (encode_rune r ++ x, rest') | PErr e => PErr e | PFuel => PFuel end.
Proof.
  intros R S. change (bs "\u" ++ hex_digits 4 r ++ t) with ("\"%byte :: "u"%byte :: hex_digits 4 r ++ t).
  cbn [json_string]. change (Byte.eqb "\" """") with false. change (byteN "\" <? 32)%N with false. change (128 <=? byteN "\")%N with false.
  change (negb (Byte.eqb "\" "\")) with false. cbv iota.
  repeat match goal with |- context [Byte.eqb "u" ?x] => let b := eval vm_compute in (Byte.eqb "u" x) in change (Byte.eqb "u" x) with b end. cbv iota.
  rewrite read_hex_digits by (change (16 ^ N.of_nat 4)%N with 65536%N; lia). rewrite N.mul_0_l, N.add_0_l, S. reflexivity.
Qed.
Lemma json_string_step r f t : valid r ->
  (0 < length (json_escape_rune (good_rune r)))%nat /\
  json_string (S f) (json_escape_rune (good_rune r) ++ t) =
    match json_string f t with POk (x, rest') => POk (encode_rune r ++ x, rest') | PErr e => PErr e | PFuel => PFuel end.
Proof.
  intros V. assert (L : (0 < length (json_escape_rune (good_rune r)))%nat).
  { unfold json_escape_rune. cbn [good_rune r_bad r_rune r_bytes].
    repeat match goal with |- context [if ?b then _ else _] => destruct b; [cbn; lia|] end.
    pose proof (encode_nonempty r). destruct (encode_rune r); [congruence|cbn; lia]. }
  split; [exact L|]. clear L. unfold json_escape_rune. cbn [good_rune r_bad r_rune r_bytes].
  destruct ((r =? 34) || (r =? 92))%N eqn:C1.
  { assert (r = 34 \/ r = 92)%N as [->| ->] by lia; reflexivity. }
  destruct (r =? 8)%N eqn:C2; [assert (r = 8%N) as -> by lia; reflexivity|].
  destruct (r =? 12)%N eqn:C3; [assert (r = 12%N) as -> by lia; reflexivity|].
  destruct (r =? 10)%N eqn:C4; [assert (r = 10%N) as -> by lia; reflexivity|].
  destruct (r =? 13)%N eqn:C5; [assert (r = 13%N) as -> by lia; reflexivity|].
  destruct (r =? 9)%N eqn:C6; [assert (r = 9%N) as -> by lia; reflexivity|].
  match goal with |- context [if ?b then bs "\u" ++ _ else _] => destruct b eqn:C7 end.
  { rewrite <- app_assoc. apply json_string_u; [lia|unfold is_surrogate; lia]. }
  destruct (r <? 128)%N eqn:A.
  - rewrite encode_ascii by lia. cbn [app]. assert (X : byteN (byte_of_N r) = r) by (apply byteN_of_N; lia).
    apply json_string_raw; [lia|..]; intros Y; apply (f_equal byteN) in Y; rewrite X in Y; unfold byteN in Y; cbn [Byte.to_N] in Y; lia.
  - apply json_string_high; auto. lia.
Qed.
Lemma json_string_reads rs rest : Forall valid rs -> forall f,
  (length (flat_map json_escape_rune (map good_rune rs)) < f)%nat ->
  json_string f (flat_map json_escape_rune (map good_rune rs) ++ """"%byte :: rest) = POk (utf8 rs, rest).
Proof.
  intros H. induction H as [|r rs V _ IH]; intros f L; cbn [map flat_map] in *.
  - destruct f; [lia|reflexivity].
  - rewrite app_length in L. destruct f as [|f]; [lia|]. rewrite <- app_assoc.
    destruct (json_string_step r f (flat_map json_escape_rune (map good_rune rs) ++ """"%byte :: rest) V) as (K & ->).
    rewrite IH by lia. reflexivity.
Qed.
Lemma json_quote_reads s rest f : wf8 s -> (length (json_quote s) <= f)%nat ->
  exists t, json_quote s = """"%byte :: t /\ json_string f (t ++ rest) = POk (s, rest).
Proof.
  intros (rs & V & ->) L. unfold json_quote in *. rewrite <- (app_nil_r (utf8 rs)) in L |- *. rewrite runes_utf8 in L |- * by auto.
  rewrite runes_nil, app_nil_r in L |- *. rewrite app_nil_r.
  eexists. split; [reflexivity|]. rewrite <- app_assoc. cbn [app]. apply json_string_reads; auto. cbn [length] in L. rewrite app_length in L. lia.
Qed.

(** ** Values as text *)
Fixpoint json_ok (j : json) : Prop :=
  match j with
  | JNum f => f64_valid f = true /\ finite f
  | JStr s => wf8 s
  | JArr l => (fix go l := match l with [] => True | x :: l' => json_ok x /\ go l' end) l
  | _ => False
  end.
Fixpoint json_depth (j : json) : Z :=
  match j with
  | JArr l => 1 + (fix go l := match l with [] => 0 | x :: l' => Z.max (json_depth x) (go l') end) l
  | _ => 0
  end.
Lemma json_ok_arr l : json_ok (JArr l) <-> Forall json_ok l.
Proof.
  cbn [json_ok]. induction l as [|x l IH]; [split; constructor|]. split.
  - intros [A B]. constructor; auto. now apply IH. - intros H. inversion H; subst. split; auto. now apply IH.
Qed.
Lemma json_depth_nonneg j : 0 <= json_depth j.
Proof.
  destruct j; cbn [json_depth]; try lia. apply Z.le_trans with (0 + 0); [lia|]. apply Z.add_le_mono; [lia|]. induction l as [|x l IH]; lia.
Qed.
Lemma json_depth_arr l d : json_depth (JArr l) <= d <-> 1 <= d /\ Forall (fun x => json_depth x <= d - 1) l.
Proof.
  cbn [json_depth]. induction l as [|x l IH]; [split; [intros; split; [lia|constructor]|intros [A _]; lia]|]. split.
  - intros H. assert (1 <= d /\ json_depth x <= d - 1) as [A B]. { pose proof (json_depth_nonneg x). lia. }
    split; auto. constructor; auto. apply IH. lia.
  - intros [A B]. inversion B as [|? ? B1 B2]; subst. destruct IH as [_ IH]. specialize (IH (conj A B2)). lia.
Qed.
Definition json_ind' (P : json -> Prop) (h0 : P JNull) (h1 : forall b, P (JBool b)) (h2 : forall f, P (JNum f)) (h3 : forall s, P (JStr s))
  (h4 : forall l, Forall P l -> P (JArr l)) (h5 : P JObj) : forall j, P j :=
  fix go j := match j with
  | JNull => h0 | JBool b => h1 b | JNum f => h2 f | JStr s => h3 s
  | JArr l => h4 l ((fix all l := match l return Forall P l with [] => Forall_nil P | x :: l' => Forall_cons x (go x) (all l') end) l)
  | JObj => h5
  end.
Definition enc_items := fix go (l : list json) : option (list str) :=
  match l with
  | [] => Some []
  | x :: l' => match json_encode x, go l' with Some t, Some ts => Some (t :: ts) | _, _ => None end
  end.
Definition after_value (rest : str) : Prop :=
  match rest with [] => True | c :: _ => c = ","%byte \/ c = "]"%byte \/ c = nl end.
Lemma after_stops rest : after_value rest -> stops rest.
Proof. destruct rest as [|c t]; [auto|]. intros [->|[->| ->]]; cbn; repeat split; discriminate. Qed.
(** a value's text: non-empty, starting with a visible character other than ] *)
Definition starts_value (t : str) : Prop := exists c u, t = c :: u /\ json_ws c = false /\ c <> "]"%byte.
Lemma skip_value t rest : starts_value t -> skip_ws (t ++ rest) = t ++ rest.
Proof. intros (c & u & -> & W & _). cbn. now rewrite W. Qed.

Definition reads (j : json) : Prop := json_ok j -> exists t, json_encode j = Some t /\ starts_value t /\
  forall fuel depth rest, (length t < fuel)%nat -> json_depth j <= max_nesting - depth -> after_value rest ->
    json_value fuel depth (t ++ rest) = POk (j, rest).
Lemma number_starts c : c = "-"%byte \/ is_digit c = true ->
  json_ws c = false /\ c <> "]"%byte /\ c <> "["%byte /\ c <> "{"%byte /\ c <> """"%byte /\ c <> "n"%byte /\ c <> "t"%byte /\ c <> "f"%byte.
Proof. intros [->|H]; [repeat split; discriminate|]. destruct c; try discriminate H; repeat split; discriminate. Qed.
Lemma has_prefix_head c t d u : c <> d -> has_prefix (c :: t) (d :: u) = false.
Proof. intros H. cbn. replace (Byte.eqb d c) with false; [reflexivity|]. symmetry. apply byte_eqb_neq. congruence. Qed.
Lemma reads_num f : reads (JNum f).
Proof.
  intros [V F]. destruct (json_number_reads f V F) as (t & J & N & P). exists t. split; [exact J|].
  destruct (number_head _ _ _ N) as (c & u & -> & H). destruct (number_starts c H) as (W & C1 & C2 & C3 & C4 & C5 & C6 & C7).
  split; [exists c, u; auto|]. intros fuel depth rest L _ R. destruct fuel as [|fuel]; [lia|].
  destruct (number_ext _ _ rest N (after_stops _ R)) as [X _]. cbn [app] in *. cbn [json_value skip_ws]. rewrite W.
  replace (Byte.eqb c "[") with false by (symmetry; now apply byte_eqb_neq).
  replace (Byte.eqb c "{") with false by (symmetry; now apply byte_eqb_neq).
  replace (Byte.eqb c """") with false by (symmetry; now apply byte_eqb_neq).
  change (bs "null") with ("n"%byte :: bs "ull"). change (bs "true") with ("t"%byte :: bs "rue"). change (bs "false") with ("f"%byte :: bs "alse").
  rewrite !has_prefix_head by auto. now rewrite X, P.
Qed.
Lemma reads_str s : reads (JStr s).
Proof.
  intros W. exists (json_quote s). split; [reflexivity|]. split; [exists """"%byte; eexists; split; [reflexivity|split; [reflexivity|discriminate]]|].
  intros fuel depth rest L _ _. destruct fuel as [|fuel]; [lia|].
  destruct (json_quote_reads s rest (length (json_quote s ++ rest)) W) as (t & E & R); [rewrite app_length; lia|].
  rewrite E in *. cbn [app length] in *. cbn [json_value skip_ws]. change (json_ws """") with false. cbv iota.
  change (Byte.eqb """" "[") with false. change (Byte.eqb """" "{") with false. change (Byte.eqb """" """") with true. cbv iota. now rewrite R.
Qed.
Lemma elems_read l ts : l <> [] -> Forall2 (fun j t => json_encode j = Some t /\ starts_value t /\
    forall fuel depth rest, (length t < fuel)%nat -> json_depth j <= max_nesting - depth -> after_value rest ->
      json_value fuel depth (t ++ rest) = POk (j, rest)) l ts ->
  forall fuel depth acc rest, (length (join [","%byte] ts) + 1 < fuel)%nat -> Forall (fun j => json_depth j <= max_nesting - depth) l ->
    json_elems fuel depth acc (join [","%byte] ts ++ "]"%byte :: rest) = POk (JArr (rev acc ++ l), rest).
Proof.
  intros N H. induction H as [|j t l ts (En & S & R) Hl IH]; [congruence|]. intros fuel depth acc rest L D. inversion D; subst.
  destruct fuel as [|fuel]; [lia|]. cbn [json_elems]. destruct l as [|j' l].
  - inversion Hl; subst. cbn [join] in *. rewrite R; [|lia|auto|cbn; auto].
    cbn [skip_ws]. change (json_ws "]") with false. change (Byte.eqb "]" ",") with false. change (Byte.eqb "]" "]") with true. reflexivity.
  - inversion Hl as [|? t' ? ts' _ _]; subst. remember (t' :: ts') as ts0 eqn:Ets. assert (Nt : ts0 <> []) by (subst; discriminate).
    assert (J : join [","%byte] (t :: ts0) = t ++ ","%byte :: join [","%byte] ts0) by (subst; reflexivity).
    rewrite J in *. rewrite app_length in L. cbn [length] in L. rewrite <- app_assoc. rewrite R; [|lia|auto|cbn; auto].
    cbn [app skip_ws]. change (json_ws ",") with false. change (Byte.eqb "," ",") with true. cbv iota.
    rewrite IH; [|discriminate|lia|auto]. cbn [rev]. now rewrite <- app_assoc.
Qed.
Lemma value_reads j : reads j.
Proof.
  induction j as [| |f|s|l IH|] using json_ind'; [intros []|intros []|apply reads_num|apply reads_str| |intros []].
  intros O. apply json_ok_arr in O.
  assert (X : exists ts, enc_items l = Some ts /\ Forall2 (fun j t => json_encode j = Some t /\ starts_value t /\
    forall fuel depth rest, (length t < fuel)%nat -> json_depth j <= max_nesting - depth -> after_value rest ->
      json_value fuel depth (t ++ rest) = POk (j, rest)) l ts).
  { induction IH as [|j l Hj _ IHl]; [exists []; split; constructor|]. inversion O; subst. destruct (Hj ltac:(auto)) as (t & A & B).
    destruct (IHl ltac:(auto)) as (ts & C & D). exists (t :: ts). cbn [enc_items]. rewrite A, C. split; auto. }
  destruct X as (ts & C & F). exists ("["%byte :: join [","%byte] ts ++ ["]"%byte]). split.
  { cbn [json_encode]. fold enc_items. now rewrite C. }
  split; [exists "["%byte; eexists; split; [reflexivity|split; [reflexivity|discriminate]]|].
  intros fuel depth rest L Dp _. apply json_depth_arr in Dp as [D1 D2]. cbn [length] in L. rewrite app_length in L. cbn [length] in L.
  destruct fuel as [|fuel]; [lia|]. cbn [app]. rewrite <- app_assoc. cbn [app json_value skip_ws].
  change (json_ws "[") with false. change (Byte.eqb "[" "[") with true. cbv iota.
  replace (max_nesting <=? depth) with false by lia.
  destruct l as [|j l].
  - inversion F; subst. cbn [join app skip_ws]. change (json_ws "]") with false. change (Byte.eqb "]" "]") with true. reflexivity.
  - inversion F as [|? t ? ts' (En & (c & u & Ec & Ew & Eb) & _) _]; subst.
    assert (Sk : exists v, join [","%byte] ((c :: u) :: ts') = c :: v) by (destruct ts'; cbn; eauto).
    destruct Sk as [v Sk]. rewrite Sk at 1. cbn [app skip_ws]. rewrite Ew. replace (Byte.eqb c "]") with false by (symmetry; now apply byte_eqb_neq).
    rewrite (elems_read (j :: l) _ ltac:(discriminate) F); [reflexivity|lia|]. eapply Forall_impl; [|exact D2]. intros ? X; cbv beta in *; lia.
Qed.

(** encoding then decoding *)
Lemma decode_encoded j : json_ok j -> json_depth j <= max_nesting ->
  exists t, json_encode j = Some t /\ json_decode t = POk j /\ json_decode (t ++ [nl]) = POk j.
Proof.
  intros O D. destruct (value_reads j O) as (t & E & _ & R). exists t. split; auto. unfold json_decode, json_fuel. split.
  - rewrite <- (app_nil_r t) at 3. rewrite R; [reflexivity|lia|lia|exact I].
  - rewrite R; [reflexivity|rewrite app_length; lia|lia|cbn; auto].
Qed.

(** ** Values and programs *)
Lemma all_atoms_list P l : all_atoms P (VList l) <-> Forall (all_atoms P) l.
Proof.
  cbn [all_atoms]. induction l as [|x l IH]; [split; constructor|]. split.
  - intros [A B]. constructor; auto. now apply IH.
  - intros H. inversion H; subst. split; auto. now apply IH.
Qed.
Lemma value_json_ok v : all_atoms json_atom v -> json_ok (value_to_json v).
Proof.
  induction v as [n|s|f|l IH] using value_ind'; intros H; cbn [value_to_json]; [exact H|exact H|exact H|].
  apply all_atoms_list in H. apply json_ok_arr. induction IH as [|x l Hx _ IHl]; cbn [map]; inversion H; subst; constructor; auto.
Qed.
Lemma value_depth v : json_depth (value_to_json v) = list_depth v.
Proof.
  induction v as [n|s|f|l IH] using value_ind'; try reflexivity. cbn [value_to_json json_depth list_depth]. f_equal.
  induction IH as [|x l Hx _ IHl]; [reflexivity|]. cbn [map]. now rewrite Hx, IHl.
Qed.
Lemma encode_items l ts : Forall2 (fun j t => json_encode j = Some t) l ts ->
  json_encode (JArr l) = Some ("["%byte :: join [","%byte] ts ++ ["]"%byte]).
Proof.
  intros H. cbn [json_encode]. fold enc_items. replace (enc_items l) with (Some ts); [reflexivity|].
  induction H as [|j t l ts H _ IH]; [reflexivity|]. cbn [enc_items]. now rewrite H, <- IH.
Qed.
Lemma write_json E v t : write_value E (bs "json") v = POk (t ++ [nl]) <-> json_encode (value_to_json v) = Some t.
Proof.
  change (write_value E (bs "json") v) with (json_write_value v). unfold json_write_value.
  destruct (json_encode (value_to_json v)) as [u|]; [|split; discriminate]. split.
  - intros H. injection H as H. apply app_inv_tail in H. now subst.
  - intros H. injection H as <-. reflexivity.
Qed.
Lemma array_decodes E p ts : Forall2 (fun v t => write_value E (bs "json") v = POk (t ++ [nl])) p ts ->
  Forall (all_atoms json_atom) p -> Forall (fun v => list_depth v < max_nesting) p ->
  json_decode ("["%byte :: join [","%byte] ts ++ ["]"%byte]) = POk (JArr (map value_to_json p)).
Proof.
  intros T A D.
  assert (En : json_encode (JArr (map value_to_json p)) = Some ("["%byte :: join [","%byte] ts ++ ["]"%byte])).
  { apply encode_items. clear -T. induction T as [|v t p ts H _ IH]; cbn [map]; constructor; auto. now apply write_json in H. }
  destruct (decode_encoded (JArr (map value_to_json p))) as (t & E1 & E2 & _).
  - apply json_ok_arr. apply Forall_map. eapply Forall_impl; [|exact A]. apply value_json_ok.
  - apply json_depth_arr. split; [unfold max_nesting; lia|]. apply Forall_map. eapply Forall_impl; [|exact D]. intros v H. cbv beta in *. rewrite value_depth. lia.
  - congruence.
Qed.

(** decoding first, converting afterwards *)
Fixpoint json_stream (fuel : nat) (s : str) : presult (list json) :=
  match fuel with
  | O => PFuel
  | S f =>
    match skip_ws s with
    | [] => POk []
    | s' =>
      match json_value (json_fuel s') 0 s' with
      | POk (v, rest) => pbind (json_stream f rest) (fun vs => POk (v :: vs))
      | PErr e => PErr e
      | PFuel => PFuel
      end
    end
  end.
Fixpoint convert_stream (l : list json) : presult (list value) :=
  match l with
  | [] => POk []
  | j :: l' => pbind (convert_value j) (fun v => pbind (convert_stream l') (fun vs => POk (v :: vs)))
  end.
Lemma loop_stream fuel : forall s l, json_stream fuel s = POk l -> json_loop fuel s = convert_stream l.
Proof.
  induction fuel as [|fuel IH]; intros s l; cbn [json_stream json_loop]; [discriminate|]. destruct (skip_ws s) as [|c t]; [intros H; now injection H as <-|].
  destruct (json_value _ 0 (c :: t)) as [[j rest]| |]; try discriminate. destruct (json_stream fuel rest) as [l'| |] eqn:R; cbn [pbind]; try discriminate.
  intros H. injection H as <-. cbn [convert_stream]. now rewrite (IH _ _ R).
Qed.
Lemma stream_loop fuel : forall s p, json_loop fuel s = POk p -> exists l, json_stream fuel s = POk l /\ convert_stream l = POk p.
Proof.
  induction fuel as [|fuel IH]; intros s p; cbn [json_stream json_loop]; [discriminate|]. destruct (skip_ws s) as [|c t]; [intros H; injection H as <-; exists []; auto|].
  destruct (json_value _ 0 (c :: t)) as [[j rest]| |]; try discriminate. destruct (convert_value j) as [v| |] eqn:C; cbn [pbind]; try discriminate.
  destruct (json_loop fuel rest) as [vs| |] eqn:R; cbn [pbind]; try discriminate. intros H. injection H as <-. destruct (IH _ _ R) as (l & L & K).
  exists (j :: l). rewrite L. split; [reflexivity|]. cbn [convert_stream]. now rewrite C, K.
Qed.
Lemma stream_reads ls : Forall (fun j => json_ok j /\ json_depth j <= max_nesting) ls -> exists ts,
  Forall2 (fun j t => json_encode j = Some t) ls ts /\
  forall fuel, (length (flat_map (fun t => t ++ [nl]) ts) < fuel)%nat ->
    json_stream fuel (flat_map (fun t => t ++ [nl]) ts) = POk ls /\ json_stream (S fuel) (nl :: flat_map (fun t => t ++ [nl]) ts) = POk ls.
Proof.
  intros H. induction H as [|j ls (O & D) _ IH].
  - exists []. split; [constructor|]. intros [|fuel] L; [cbn in L; lia|]. split; reflexivity.
  - destruct IH as (ts & T & R). destruct (value_reads j O) as (t & En & S & Rj). exists (t :: ts). split; [constructor; auto|].
    cbn [flat_map]. set (more := flat_map (fun t => t ++ [nl]) ts) in *. rewrite <- app_assoc. cbn [app].
    assert (Step : forall fuel, json_stream (Datatypes.S fuel) (t ++ nl :: more) = pbind (json_stream fuel (nl :: more)) (fun vs => POk (j :: vs))).
    { intros fuel. cbn [json_stream]. rewrite skip_value by auto. pose proof S as (c & u & Et & _).
      replace (match t ++ nl :: more with [] => POk [] | b :: l => _ end) with
        (match json_value (json_fuel (t ++ nl :: more)) 0 (t ++ nl :: more) with
         | POk (v, rest) => pbind (json_stream fuel rest) (fun vs => POk (v :: vs)) | PErr e => PErr e | PFuel => PFuel end) by (rewrite Et; reflexivity).
      rewrite Rj; [reflexivity|unfold json_fuel; rewrite app_length; lia|lia|cbn; auto]. }
    assert (Skip : forall fuel, json_stream (Datatypes.S fuel) (nl :: t ++ nl :: more) = json_stream (Datatypes.S fuel) (t ++ nl :: more)).
    { intros fuel. cbn [json_stream]. change (skip_ws (nl :: t ++ nl :: more)) with (skip_ws (t ++ nl :: more)). reflexivity. }
    assert (K : forall fuel, (length (t ++ nl :: more) < fuel)%nat -> json_stream fuel (t ++ nl :: more) = POk (j :: ls)).
    { intros fuel L. destruct fuel as [|fuel]; [lia|]. rewrite Step. rewrite app_length in L. destruct S as (c & u & -> & _). cbn [length] in L.
      destruct fuel as [|fuel]; [lia|]. rewrite (proj2 (R fuel ltac:(lia))). reflexivity. }
    intros fuel L. split; [now apply K|]. rewrite Skip. apply K. lia.
Qed.
Lemma convert_stream_ok l vs : Forall2 (fun j v => convert_value j = POk v) l vs -> convert_stream l = POk vs.
Proof. intros H. induction H as [|j v l vs H _ IH]; [reflexivity|]. cbn [convert_stream]. now rewrite H, IH. Qed.
Lemma convert_stream_inv l : forall vs, convert_stream l = POk vs -> Forall2 (fun j v => convert_value j = POk v) l vs.
Proof.
  induction l as [|j l IH]; intros vs; cbn [convert_stream].
  - intros H. injection H as <-. constructor.
  - destruct (convert_value j) as [v|e|] eqn:C; cbn [pbind]; try discriminate. destruct (convert_stream l) as [ws|e|] eqn:D; cbn; try discriminate.
    intros H. injection H as <-. constructor; auto.
Qed.
Lemma write_program_json E p ts : Forall2 (fun v t => write_value E (bs "json") v = POk (t ++ [nl])) p ts ->
  write_program E (bs "json") p = (flat_map (fun t => t ++ [nl]) ts, None).
Proof.
  intros H. change (write_program E (bs "json") p) with (write_loop json_write_value p).
  induction H as [|v t p ts H _ IH]; [reflexivity|]. cbn [write_loop flat_map].
  change (json_write_value v = POk (t ++ [nl])) in H. rewrite H, IH. reflexivity.
Qed.
Lemma stream_program E p : Forall (all_atoms json_atom) p -> Forall (fun v => list_depth v <= max_nesting) p -> exists t,
  write_program E (bs "json") p = (t, None) /\ parse_json_reader t = convert_stream (map value_to_json p).
Proof.
  intros A D. destruct (stream_reads (map value_to_json p)) as (ts & T & R).
  { apply Forall_map. rewrite Forall_forall in *. intros v I. split; [apply value_json_ok; auto|rewrite value_depth; auto]. }
  exists (flat_map (fun t => t ++ [nl]) ts). split.
  - apply write_program_json. clear -T. remember (map value_to_json p) as l eqn:El. revert p El.
    induction T as [|j t l ts H _ IH]; intros [|v p] El; try discriminate; [constructor|]. injection El as -> ->. constructor; auto. now apply write_json.
  - unfold parse_json_reader. exact (loop_stream _ _ _ (proj1 (R _ (Nat.lt_succ_diag_r _)))).
Qed.
Lemma convert_value_list l : convert_value (value_to_json (VList l)) = convert_item (value_to_json (VList l)).
Proof. reflexivity. Qed.

(** every array decoded from the stream form is one array only when there is one line *)
Lemma lines_rejected j t more : json_ok j -> json_depth j <= max_nesting -> json_encode j = Some t ->
  skip_ws more <> [] -> json_decode (t ++ nl :: more) = json_syntax.
Proof.
  intros O D En N. destruct (value_reads j O) as (t' & E' & _ & R). assert (t' = t) as -> by congruence.
  unfold json_decode. rewrite R; [|unfold json_fuel; rewrite app_length; lia|lia|cbn; auto].
  change (skip_ws (nl :: more)) with (skip_ws more). destruct (skip_ws more); [congruence|reflexivity].
Qed.
(** numbers JSON cannot carry *)
Lemma json_number_none f : json_number f = None <-> ~ finite f.
Proof.
  destruct f as [s|s| |s m e]; cbn [json_number finite]; try (split; [discriminate|tauto]); try (split; [auto|reflexivity]).
  destruct (frac m e) as [num den]. destruct (json_shortest _ _ _ _ _ _ _); split; try discriminate; tauto.
Qed.
