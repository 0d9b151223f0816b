(** JSON scripts and the grammar of SpecJson *)
From Coq Require Import ZArith NArith List Bool Lia Strings.Byte.
From Verif Require Import Base Float Ext Utf8 Strconv Values Parser Json SpecJson Proofs_Base Proofs_Utf8 Proofs_Number Proofs_Token Proofs_Json Proofs_JsonBack.
Import ListNotations.
Open Scope Z_scope.

(** ** String bodies *)
Lemma before {A} (e : list A) : forall a q b u, a ++ q :: b = e ++ u -> ~ In q e -> exists u', a = e ++ u' /\ u = u' ++ q :: b.
Proof.
  induction e as [|x e IH]; intros a q b u H N; [exists a; auto|]. destruct a as [|y a]; injection H as -> H; [destruct N; now left|].
  destruct (IH a q b u H) as (u' & -> & ->); [intros I; apply N; now right|]. exists u'. auto.
Qed.
Lemma hex_unhex c n : hex_value c n <-> unhex c = Some n.
Proof.
  unfold hex_value. remember (N.to_nat n) as k eqn:K. assert (n = N.of_nat k) as -> by lia. clear K. split.
  - intros [H|H]; do 16 (destruct k as [|k]; [injection H as <-; reflexivity|]); destruct k; discriminate.
  - destruct c; intros H; try discriminate H; (assert (k = N.to_nat (N.of_nat k)) as -> by lia); injection H as <-; auto.
Qed.
Lemma read_hex4 h n rest : hex4 h n -> read_hex 4 0 (h ++ rest) = Some (n, rest).
Proof.
  intros (a & b & c & d & na & nb & nc & nd & -> & A & B & C & D & ->). cbn [app read_hex].
  rewrite hex_unhex in A, B, C, D. rewrite A, B, C, D. f_equal. f_equal. lia.
Qed.
Lemma read_hex4_inv s n rest : read_hex 4 0 s = Some (n, rest) -> exists h, s = h ++ rest /\ hex4 h n.
Proof.
  cbn [read_hex]. destruct s as [|a s]; [discriminate|]. destruct (unhex a) as [na|] eqn:A; [|discriminate].
  destruct s as [|b s]; [discriminate|]. destruct (unhex b) as [nb|] eqn:B; [|discriminate].
  destruct s as [|c s]; [discriminate|]. destruct (unhex c) as [nc|] eqn:C; [|discriminate].
  destruct s as [|d s]; [discriminate|]. destruct (unhex d) as [nd|] eqn:D; [|discriminate]. intros H. injection H as <- <-.
  exists [a; b; c; d]. split; [reflexivity|]. rewrite <- hex_unhex in A, B, C, D. exists a, b, c, d, na, nb, nc, nd. repeat split; auto. lia.
Qed.
Lemma hex4_no_quote h n : hex4 h n -> ~ In dquote h.
Proof.
  intros (a & b & c & d & na & nb & nc & nd & -> & A & B & C & D & _) I. rewrite hex_unhex in A, B, C, D.
  destruct I as [->|[->|[->|[->|[]]]]]; discriminate.
Qed.
Lemma surrogates n : is_surrogate n = true <-> high_surrogate n \/ low_surrogate n.
Proof. unfold is_surrogate, high_surrogate, low_surrogate. lia. Qed.
Lemma utf16_pair n m r : utf16_decode n m = Some r <-> high_surrogate n /\ low_surrogate m /\ r = ((n - 55296) * 1024 + (m - 56320) + 65536)%N.
Proof.
  unfold utf16_decode, high_surrogate, low_surrogate. destruct (_ && _) eqn:H.
  - split; [intros X; injection X as <-; lia|intros (_ & _ & ->); reflexivity].
  - split; [discriminate|]. intros (A & B & _). lia.
Qed.
Lemma enc_no_quote r : valid_rune r = true -> (128 <= r)%N -> ~ In dquote (encode_rune r).
Proof. intros V H I. destruct (encode_bytes r dquote V I) as [[_ X]|X]; [lia|cbn in X; lia]. Qed.
Lemma high_decode c t : (128 <= byteN c)%N ->
  (exists r u, valid_rune r = true /\ (128 <= r)%N /\ c :: t = encode_rune r ++ u) \/
  ((forall r u, valid_rune r = true -> c :: t <> encode_rune r ++ u) /\ decode_rune (c :: t) = Some (rune_error, 1%nat)).
Proof.
  intros H. destruct (decode_rune (c :: t)) as [[r w]|] eqn:D; [|apply decode_none in D; discriminate].
  destruct (decode_spec _ _ _ D) as [(-> & -> & _)|(V & u & E & _)].
  - right. split; auto. intros r u V E. rewrite E, decode_encode in D by exact V. injection D as -> L. discriminate L.
  - left. exists r, u. repeat split; auto. destruct (N.ltb_spec r 128); [|lia]. rewrite encode_ascii in E by lia. injection E as -> _.
    rewrite byteN_of_N in H by lia. lia.
Qed.

Lemma string_sound fuel : forall s r rest, json_string fuel s = POk (r, rest) -> exists t, s = t ++ dquote :: rest /\ body t r.
Proof.
  induction fuel as [|fuel IH]; intros s r rest; [discriminate|]. cbn [json_string].
  destruct s as [|c t]; [discriminate|].
  assert (Em : forall pre out u, c :: t = pre ++ u ->
    (forall b s, u = b ++ dquote :: rest -> body b s -> body (pre ++ b) (out ++ s)) ->
    match json_string fuel u with POk (x, rest') => POk (out ++ x, rest') | PErr e => PErr e | PFuel => PFuel end = POk (r, rest) ->
    exists t', c :: t = t' ++ dquote :: rest /\ body t' r).
  { intros pre out u -> K. destruct (json_string fuel u) as [[x rest']| |] eqn:J; try discriminate. intros X. injection X as <- <-.
    destruct (IH _ _ _ J) as (t' & -> & B). exists (pre ++ t'). rewrite <- app_assoc. auto. }
  destruct (Byte.eqb c """") eqn:Q; [intros X; injection X as <- <-; apply byte_eqb_eq in Q as ->; exists []; split; [reflexivity|constructor]|].
  apply byte_eqb_neq in Q.
  destruct (byteN c <? 32)%N eqn:L; [discriminate|].
  destruct (128 <=? byteN c)%N eqn:H.
  { destruct (high_decode c t) as [(x & u & V & X & E)|[N D]]; [lia|..].
    - rewrite E. unfold decode_one. rewrite decode_encode by exact V. cbn [r_rune]. rewrite skipn_app_exact, <- E.
      apply (Em (encode_rune x) (encode_rune x) u); auto. intros b s _ B. now constructor.
    - unfold decode_one. rewrite D. cbn [r_rune skipn]. apply (Em [c]); auto. intros b s -> B. constructor; auto; [lia|].
      intros x u V E. apply (N x (u ++ dquote :: rest) V). change (c :: b ++ dquote :: rest) with ((c :: b) ++ dquote :: rest). cbn [app] in E. now rewrite E, <- app_assoc. }
  destruct (Byte.eqb c "\") eqn:K; cbn [negb].
  2:{ apply byte_eqb_neq in K. apply (Em [c] [c] t); auto. intros b s _ B. constructor; auto. lia. }
  apply byte_eqb_eq in K as ->. destruct t as [|e u]; [discriminate|].
  repeat match goal with |- context [if Byte.eqb e ?x then match json_string _ _ with _ => _ end else _] =>
    let Q := fresh "Q" in destruct (Byte.eqb e x) eqn:Q;
      [apply byte_eqb_eq in Q as ->; eapply (Em [_; _] [_] u); [reflexivity|]; intros b s _ B; apply body_letter; auto; cbn; tauto|]; clear Q end.
  destruct (Byte.eqb e "u") eqn:Qu; [|discriminate]. apply byte_eqb_eq in Qu as ->.
  destruct (read_hex 4 0 u) as [[r1 u1]|] eqn:R1; [|discriminate]. apply read_hex4_inv in R1 as (h & -> & R1).
  destruct (is_surrogate r1) eqn:S1.
  2:{ apply (Em (backslash :: "u"%byte :: h)); [reflexivity|]. intros b s _ B. apply body_u; auto; intros X;
      assert (is_surrogate r1 = true) by (apply surrogates; auto); congruence. }
  apply surrogates in S1.
  assert (Lone : (forall h' n' u', high_surrogate r1 -> hex4 h' n' -> low_surrogate n' -> u1 <> backslash :: "u"%byte :: h' ++ u') ->
    match json_string fuel u1 with POk (x, rest') => POk (encode_rune rune_error ++ x, rest') | PErr e => PErr e | PFuel => PFuel end = POk (r, rest) ->
    exists t', "\"%byte :: "u"%byte :: h ++ u1 = t' ++ dquote :: rest /\ body t' r).
  { intros N. apply (Em (backslash :: "u"%byte :: h)); [reflexivity|]. intros b s -> B. apply (body_lone h r1 b s); auto.
    intros h' n' u' A1 A2 A3 ->. eapply (N h' n' (u' ++ dquote :: rest)); eauto. cbn [app]. now rewrite <- app_assoc. }
  destruct u1 as [|b0 [|b1 u2]]; try (apply Lone; discriminate).
  destruct (Byte.eqb b0 "\" && Byte.eqb b1 "u") eqn:P.
  2:{ apply Lone. intros h' n' u' _ _ _ X. injection X as -> -> _. discriminate. }
  apply andb_prop in P as [P1 P2]. apply byte_eqb_eq in P1 as ->. apply byte_eqb_eq in P2 as ->.
  destruct (read_hex 4 0 u2) as [[r2 u3]|] eqn:R2.
  2:{ apply Lone. intros h' n' u' _ X _ Y. injection Y as ->. now rewrite (read_hex4 _ _ _ X) in R2. }
  destruct (utf16_decode r1 r2) as [x|] eqn:U.
  - apply utf16_pair in U as (U1 & U2 & ->). apply read_hex4_inv in R2 as (h2 & -> & R2).
    apply (Em (backslash :: "u"%byte :: h ++ backslash :: "u"%byte :: h2)).
    + cbn [app]. rewrite <- app_assoc. reflexivity.
    + intros b s _ B. cbn [app]. rewrite <- app_assoc. cbn [app]. now apply body_pair.
  - apply Lone. intros h' n' u' X Y Z W. injection W as ->. rewrite (read_hex4 _ _ _ Y) in R2. injection R2 as <- <-.
    assert (utf16_decode r1 n' <> None); [|congruence]. intros V. pose proof (proj2 (utf16_pair r1 n' _) (conj X (conj Z eq_refl))). congruence.
Qed.

Lemma string_complete t s : body t s -> forall f rest, (length t < f)%nat -> json_string f (t ++ dquote :: rest) = POk (s, rest).
Proof.
  assert (U : forall f u, json_string (S f) (backslash :: "u"%byte :: u) =
    let emit (out rest : str) := match json_string f rest with POk (r, rest') => POk (out ++ r, rest') | PErr e => PErr e | PFuel => PFuel end in
    match read_hex 4 0 u with
            | None => json_syntax
            | Some (r1, u1) =>
              if is_surrogate r1 then
                match u1 with
                | b0 :: b1 :: u2 =>
                  if Byte.eqb b0 "\"%byte && Byte.eqb b1 "u"%byte then
                    match read_hex 4 0 u2 with
                    | Some (r2, u3) =>
                      match utf16_decode r1 r2 with
                      | Some r => emit (encode_rune r) u3
                      | None => emit (encode_rune rune_error) u1
                      end
                    | None => emit (encode_rune rune_error) u1
                    end
                  else emit (encode_rune rune_error) u1
                | _ => emit (encode_rune rune_error) u1
                end
              else emit (encode_rune r1) u1
            end) by reflexivity.
  induction 1 as [|c t s R Q B _ IH|r t s V R _ IH|c t s H N _ IH|e c t s I _ IH|h n t s Hx Nh Nl _ IH|h n h' n' t s Hx Hx' Sh Sl _ IH|h n t s Hx Sg N _ IH];
    intros f rest L; (destruct f as [|f]; [lia|]).
  - reflexivity.
  - cbn [app length] in *. rewrite json_string_raw by auto. rewrite IH by lia. reflexivity.
  - rewrite <- app_assoc. rewrite json_string_high by auto. rewrite app_length in L. pose proof (encode_nonempty r).
    destruct (encode_rune r) eqn:En; [congruence|]. rewrite <- En in *. cbn [length] in L. rewrite En in L. cbn [length] in L. rewrite IH by lia. reflexivity.
  - cbn [app length] in *. cbn [json_string]. replace (Byte.eqb c """") with false. 2:{ symmetry. apply byte_eqb_neq. intros ->. cbn in H. lia. }
    replace (byteN c <? 32)%N with false by lia. replace (128 <=? byteN c)%N with true by lia.
    destruct (high_decode c (t ++ dquote :: rest) H) as [(r & u & V & R & E)|[_ D]].
    + exfalso. destruct (before (encode_rune r) (c :: t) dquote rest u E (enc_no_quote r V R)) as (u' & X & _). exact (N r u' V X).
    + unfold decode_one. rewrite D. cbn [r_rune skipn]. rewrite IH by lia. reflexivity.
  - cbn [app length] in *. cbn [In letter_escapes] in I.
    destruct I as [I|[I|[I|[I|[I|[I|[I|[I|[]]]]]]]]]; injection I as <- <-;
      (match goal with |- json_string (S ?g) (backslash :: ?x :: ?u) = POk (?o :: _, _) =>
         change (json_string (S g) (backslash :: x :: u)) with (match json_string g u with POk (r, rest') => POk ([o] ++ r, rest') | PErr e => PErr e | PFuel => PFuel end) end;
       rewrite IH by lia; reflexivity).
  - cbn [app length] in *. rewrite <- app_assoc, U. cbv zeta. rewrite (read_hex4 _ _ _ Hx).
    destruct (is_surrogate n) eqn:S; [apply surrogates in S; tauto|]. rewrite app_length in L. rewrite IH by lia. reflexivity.
  - cbn [app length] in *. rewrite <- app_assoc, U. cbv zeta. rewrite (read_hex4 _ _ _ Hx).
    replace (is_surrogate n) with true by (symmetry; apply surrogates; auto). cbn [app].
    change (Byte.eqb backslash "\" && Byte.eqb "u" "u") with true. cbv iota. rewrite <- app_assoc, (read_hex4 _ _ _ Hx').
    rewrite (proj2 (utf16_pair n n' _) (conj Sh (conj Sl eq_refl))).
    rewrite app_length in L. cbn [length] in L. rewrite app_length in L. rewrite IH by lia. reflexivity.
  - cbn [app length] in *. rewrite <- app_assoc, U. cbv zeta. rewrite (read_hex4 _ _ _ Hx).
    replace (is_surrogate n) with true by (symmetry; apply surrogates; auto). rewrite app_length in L.
    assert (E : match json_string f (t ++ dquote :: rest) with POk (r, rest') => POk (encode_rune rune_error ++ r, rest') | PErr e => PErr e | PFuel => PFuel end
                = POk (encode_rune rune_error ++ s, rest)) by (rewrite IH by lia; reflexivity).
    destruct (t ++ dquote :: rest) as [|b0 [|b1 u2]] eqn:T; try exact E.
    destruct (Byte.eqb b0 "\" && Byte.eqb b1 "u") eqn:P; [|exact E]. apply andb_prop in P as [P1 P2]. apply byte_eqb_eq in P1 as ->. apply byte_eqb_eq in P2 as ->.
    destruct (read_hex 4 0 u2) as [[r2 u3]|] eqn:R2; [|exact E]. destruct (utf16_decode n r2) as [x|] eqn:X; [|exact E].
    exfalso. apply utf16_pair in X as (X1 & X2 & _). apply read_hex4_inv in R2 as (h2 & -> & R2).
    destruct (before (backslash :: "u"%byte :: h2) t dquote rest u3) as (u' & Y & _); [rewrite T; reflexivity| |].
    + intros [D|[D|D]]; try discriminate. exact (hex4_no_quote _ _ R2 D).
    + exact (N h2 r2 u' X1 R2 X2 Y).
Qed.

(** ** Numbers *)
Lemma digit_in c : In c (bs "0123456789") <-> is_digit c = true.
Proof. split; [intros I; cbn in I; repeat (destruct I as [<-|I]; [reflexivity|]); destruct I|destruct c; intros H; try discriminate H; cbn; tauto]. Qed.
Lemma digits_in s : Forall (fun c => In c (bs "0123456789")) s <-> digits s.
Proof. unfold digits. split; intros H; (eapply Forall_impl; [|exact H]); intros c; apply digit_in. Qed.
Lemma take_digits_are s : forall d r, take_digits s = (d, r) -> digits d.
Proof.
  induction s as [|c s IH]; intros d r; cbn [take_digits]; [intros H; injection H as <- _; constructor|].
  destruct (is_digit c) eqn:D; [|intros H; injection H as <- _; constructor].
  destruct (take_digits s) as [d0 r0] eqn:T. intros H; injection H as <- _. constructor; [exact D|exact (IH _ _ eq_refl)].
Qed.
Lemma lower_e c : lower c = "e"%byte <-> In c (bs "eE").
Proof. split; [destruct c; intros H; try discriminate H; cbn; tauto|]. intros [<-|[<-|[]]]; reflexivity. Qed.
Lemma take_some s d ds r : take_digits s = (d :: ds, r) -> s = (d :: ds) ++ r /\ digits1 (d :: ds).
Proof. intros T. split; [now apply take_split|]. split; [discriminate|]. apply digits_in. now apply take_digits_are in T. Qed.

Definition exp_text (ep : str) : Prop :=
  ep = [] \/ exists e sg ds, ep = e :: sg ++ ds /\ In e (bs "eE") /\ (sg = [] \/ sg = bs "+" \/ sg = bs "-") /\ digits1 ds.
Definition frac_text (fp : str) : Prop := fp = [] \/ exists ds, fp = "."%byte :: ds /\ digits1 ds.
Lemma exp_sound sg ip fp s a r : exp_part sg ip fp s = Some (a, r) -> exists ep, exp_text ep /\ s = ep ++ r /\ a = sg ++ ip ++ fp ++ ep.
Proof.
  assert (None' : forall r', Some (sg ++ ip ++ fp, r') = Some (a, r) -> exists ep, exp_text ep /\ r' = ep ++ r /\ a = sg ++ ip ++ fp ++ ep).
  { intros r' H. injection H as <- <-. exists []. rewrite app_nil_r. split; [now left|auto]. }
  unfold exp_part. destruct s as [|c t]; [apply None'|]. destruct (Byte.eqb (lower c) "e") eqn:L; [|apply None'].
  apply byte_eqb_eq, lower_e in L.
  assert (K : forall es t1, (es = [] \/ es = bs "+" \/ es = bs "-") -> t = es ++ t1 ->
    match take_digits t1 with ([], _) => None | (xs, s3) => Some (sg ++ ip ++ fp ++ c :: es ++ xs, s3) end = Some (a, r) ->
    exists ep, exp_text ep /\ c :: t = ep ++ r /\ a = sg ++ ip ++ fp ++ ep).
  { intros es t1 Es ->. destruct (take_digits t1) as [[|x xs] s3] eqn:T; [discriminate|]. apply take_some in T as [-> D].
    intros H. injection H as <- <-. exists (c :: es ++ x :: xs). split; [right; exists c, es, (x :: xs); auto|]. cbn [app]. split; auto.
    f_equal. now rewrite <- app_assoc. }
  destruct t as [|c1 t']; [discriminate|]. destruct (Byte.eqb c1 "+" || Byte.eqb c1 "-") eqn:S; apply K; auto.
  apply orb_prop in S as [S|S]; apply byte_eqb_eq in S as ->; auto.
Qed.
Lemma frac_sound s fp r : frac_part s = Some (fp, r) -> frac_text fp /\ s = fp ++ r.
Proof.
  unfold frac_part. destruct s as [|c t]; [intros H; injection H as <- <-; split; [now left|auto]|].
  destruct (Byte.eqb c ".") eqn:D; [|intros H; injection H as <- <-; split; [now left|auto]]. apply byte_eqb_eq in D as ->.
  destruct (take_digits t) as [[|x xs] s3] eqn:T; [discriminate|]. apply take_some in T as [-> D]. intros H. injection H as <- <-.
  split; [right; eauto|reflexivity].
Qed.
Lemma unsigned_sound sg s a r : unsigned_part sg s = Some (a, r) ->
  exists ip fp ep, a = sg ++ ip ++ fp ++ ep /\ s = ip ++ fp ++ ep ++ r /\ whole_part ip /\ frac_text fp /\ exp_text ep.
Proof.
  unfold unsigned_part. destruct (take_digits s) as [[|d ds] s1] eqn:T; [discriminate|]. apply take_some in T as [-> D].
  assert (K : forall ip s', whole_part ip -> (d :: ds) ++ s1 = ip ++ s' ->
    match frac_part s' with None => None | Some (fp, s2) => exp_part sg ip fp s2 end = Some (a, r) ->
    exists ip fp ep, a = sg ++ ip ++ fp ++ ep /\ (d :: ds) ++ s1 = ip ++ fp ++ ep ++ r /\ whole_part ip /\ frac_text fp /\ exp_text ep).
  { intros ip s' W ->. destruct (frac_part s') as [[fp s2]|] eqn:F; [|discriminate]. apply frac_sound in F as [F ->].
    intros X. apply exp_sound in X as (ep & X & -> & ->). exists ip, fp, ep. repeat split; auto. }
  destruct (Byte.eqb d "0") eqn:Z.
  - apply byte_eqb_eq in Z as ->. apply K; [now left|reflexivity].
  - apply byte_eqb_neq in Z. apply K; [right; exists d, ds; auto|reflexivity].
Qed.
Lemma number_sound s a r : json_number_text s = Some (a, r) -> s = a ++ r /\ number_text a.
Proof.
  rewrite number_parts. destruct s as [|c t]; [discriminate|]. destruct (Byte.eqb c "-") eqn:M; intros H; apply unsigned_sound in H as (ip & fp & ep & -> & E & W & F & X).
  - apply byte_eqb_eq in M as ->. split; [rewrite <- !app_assoc; cbn [app]; now rewrite E|]. exists (bs "-"), ip, fp, ep. repeat split; auto.
  - split; [rewrite <- !app_assoc; now rewrite E|]. exists [], ip, fp, ep. repeat split; auto.
Qed.
Lemma take_then d rest : digits d -> match rest with c :: _ => is_digit c = false | [] => True end -> take_digits (d ++ rest) = (d, rest).
Proof. destruct rest as [|c t]; [rewrite app_nil_r; intros; now apply take_all|intros; now apply take_until]. Qed.
Lemma exp_complete sg ip fp ep : exp_text ep -> exp_part sg ip fp ep = Some (sg ++ ip ++ fp ++ ep, []).
Proof.
  intros [->|(e & es & ds & -> & E & S & Ne & D)]; [cbn; now rewrite app_nil_r|]. unfold exp_part.
  replace (Byte.eqb (lower e) "e") with true by (symmetry; apply byte_eqb_eq; now apply lower_e).
  apply digits_in in D. destruct S as [->|[->| ->]]; cbn [app].
  - destruct ds as [|x ds]; [congruence|]. inversion D as [|? ? Dx _]; subst.
    replace (Byte.eqb x "+" || Byte.eqb x "-") with false by (destruct x; try discriminate Dx; reflexivity). rewrite take_all by auto. reflexivity.
  - change (bs "+") with ["+"%byte]. cbn [app]. change (Byte.eqb "+" "+" || Byte.eqb "+" "-") with true. cbv iota. rewrite take_all by auto. destruct ds; [congruence|reflexivity].
  - change (bs "-") with ["-"%byte]. cbn [app]. change (Byte.eqb "-" "+" || Byte.eqb "-" "-") with true. cbv iota. rewrite take_all by auto. destruct ds; [congruence|reflexivity].
Qed.
Lemma exp_head ep c t : exp_text ep -> ep = c :: t -> is_digit c = false /\ c <> "."%byte.
Proof. intros [->|(e & es & ds & -> & E & _)] H; [discriminate|]. injection H as <- _. destruct E as [<-|[<-|[]]]; split; (reflexivity || discriminate). Qed.
Lemma frac_complete fp ep : frac_text fp -> exp_text ep -> frac_part (fp ++ ep) = Some (fp, ep).
Proof.
  intros [->|(ds & -> & Ne & D)] X.
  - cbn [app]. destruct ep as [|c t]; [reflexivity|]. destruct (exp_head _ c t X eq_refl) as [_ H]. unfold frac_part.
    now replace (Byte.eqb c ".") with false by (symmetry; now apply byte_eqb_neq).
  - cbn [app frac_part]. change (Byte.eqb "." ".") with true. cbv iota. rewrite take_then; [|now apply digits_in|].
    + destruct ds; [congruence|reflexivity].
    + destruct ep as [|c t]; [exact I|]. now apply (exp_head _ c t X).
Qed.
Lemma unsigned_complete sg ip fp ep : whole_part ip -> frac_text fp -> exp_text ep -> unsigned_part sg (ip ++ fp ++ ep) = Some (sg ++ ip ++ fp ++ ep, []).
Proof.
  intros W F X.
  assert (H : match fp ++ ep with c :: _ => is_digit c = false | [] => True end).
  { destruct F as [->|(ds & -> & _)]; [|reflexivity]. cbn [app]. destruct ep as [|c t]; [exact I|]. now apply (exp_head _ c t X). }
  destruct W as [->|(c & t & -> & Z & _ & D)].
  - unfold unsigned_part. rewrite (take_then (bs "0")); [|repeat constructor|exact H]. 
    change (match frac_part (fp ++ ep) with None => None | Some (fp', s2) => exp_part sg (bs "0") fp' s2 end = Some (sg ++ bs "0" ++ fp ++ ep, [])). rewrite frac_complete by auto. now apply exp_complete.
  - unfold unsigned_part. rewrite take_then; [|now apply digits_in|exact H].
    replace (Byte.eqb c "0") with false by (symmetry; now apply byte_eqb_neq). rewrite frac_complete by auto. now apply exp_complete.
Qed.
Lemma whole_head ip : whole_part ip -> exists c t, ip = c :: t /\ is_digit c = true.
Proof.
  intros [->|(c & t & -> & _ & _ & D)]; [exists "0"%byte, []; split; reflexivity|]. inversion D; subst. exists c, t. split; auto. now apply digit_in.
Qed.
Lemma number_complete t : number_text t -> json_number_text t = Some (t, []).
Proof.
  intros (sg & ip & fp & ep & -> & S & W & F & X). rewrite number_parts. destruct S as [->| ->].
  - destruct (whole_head ip W) as (c & u & -> & D). cbn [app]. replace (Byte.eqb c "-") with false by (destruct c; try discriminate D; reflexivity).
    exact (unsigned_complete [] (c :: u) fp ep W F X).
  - cbn [app]. change (bs "-" ++ ip ++ fp ++ ep) with ("-"%byte :: ip ++ fp ++ ep). change (Byte.eqb "-" "-") with true. cbv iota.
    exact (unsigned_complete ["-"%byte] ip fp ep W F X).
Qed.

(** ** White space *)
Lemma ws_in c : In c [x20; x09; x0a; x0d] <-> json_ws c = true.
Proof. split; [intros [<-|[<-|[<-|[<-|[]]]]]; reflexivity|destruct c; intros H; try discriminate H; cbn; tauto]. Qed.
Lemma skip_white w s : white w -> skip_ws (w ++ s) = skip_ws s.
Proof. induction 1 as [|c w H _ IH]; [reflexivity|]. cbn [app skip_ws]. apply ws_in in H. now rewrite H. Qed.
Lemma skip_split s : exists w, white w /\ s = w ++ skip_ws s.
Proof.
  induction s as [|c s (w & B & E)]; [exists []; split; [constructor|reflexivity]|]. cbn [skip_ws]. destruct (json_ws c) eqn:W.
  - exists (c :: w). split; [constructor; auto; now apply ws_in|]. cbn [app]. congruence.
  - exists []. split; [constructor|reflexivity].
Qed.
Lemma skip_shape s c t : skip_ws s = c :: t -> exists w, white w /\ s = w ++ c :: t.
Proof. intros H. destruct (skip_split s) as (w & B & E). rewrite H in E. eauto. Qed.
Lemma skip_empty s : skip_ws s = [] -> white s.
Proof. intros H. destruct (skip_split s) as (w & B & E). rewrite H, app_nil_r in E. now subst. Qed.
Lemma blanks_skip w : white w -> skip_ws w = [].
Proof. intros B. rewrite <- (app_nil_r w), skip_white; auto. Qed.
Lemma value_blanks f depth w s : white w -> json_value f depth (w ++ s) = json_value f depth s.
Proof. intros B. destruct f; [reflexivity|]. cbn [json_value]. now rewrite skip_white. Qed.
Lemma elems_blanks f depth acc w s : white w -> json_elems f depth acc (w ++ s) = json_elems f depth acc s.
Proof. intros B. destruct f; [reflexivity|]. cbn [json_elems]. now rewrite value_blanks. Qed.

(** ** What the decoder accepts *)
Inductive jt : Z -> str -> json -> Prop :=
| jt_null d : jt d (bs "null") JNull
| jt_str d t s : body t s -> jt d (dquote :: t ++ [dquote]) (JStr s)
| jt_num d t f : number_text t -> parse_float t = Some f -> jt d t (JNum f)
| jt_empty d w : 1 <= d -> white w -> jt d ("["%byte :: w ++ ["]"%byte]) (JArr [])
| jt_arr d items l : 1 <= d -> l <> [] -> jts (d - 1) (","%byte :: items) l -> jt d ("["%byte :: items ++ ["]"%byte]) (JArr l)
| jt_other d t j : j = JObj \/ (exists b, j = JBool b) -> jt d t j
with jts : Z -> str -> list json -> Prop :=
| jts_none d : jts d [] []
| jts_more d w1 t j w2 rest l : white w1 -> jt d t j -> white w2 -> jts d rest l -> jts d (","%byte :: w1 ++ t ++ w2 ++ rest) (j :: l).
Scheme jt_ind2 := Minimality for jt Sort Prop with jts_ind2 := Minimality for jts Sort Prop.
Combined Scheme jt_both from jt_ind2, jts_ind2.

Lemma has_prefix_split s p : has_prefix s p = true -> s = p ++ skipn (length p) s.
Proof.
  revert s. induction p as [|c p IH]; intros s H; [reflexivity|]. destruct s as [|x s]; [discriminate|]. cbn in H. apply andb_prop in H as [A B].
  apply byte_eqb_eq in A as ->. cbn [length skipn app]. f_equal. now apply IH.
Qed.
Lemma value_sound fuel : forall depth s,
  (forall j rest, json_value fuel depth s = POk (j, rest) -> exists w t, white w /\ s = w ++ t ++ rest /\ jt (max_nesting - depth) t j) /\
  (forall acc j rest, json_elems fuel depth acc s = POk (j, rest) -> exists items l, j = JArr (rev acc ++ l) /\ l <> [] /\
     s = items ++ "]"%byte :: rest /\ jts (max_nesting - depth) (","%byte :: items) l) /\
  (forall j rest, json_members fuel depth s = POk (j, rest) -> j = JObj /\ exists t, s = t ++ rest).
Proof.
  induction fuel as [|fuel IH]; intros depth s; [split; [|split]; discriminate|]. split; [|split].
  - intros j rest. cbn [json_value]. destruct (skip_ws s) as [|c t] eqn:Sk; [discriminate|]. apply skip_shape in Sk as (w & B & ->).
    enough (K : (if Byte.eqb c "["%byte then
        if max_nesting <=? depth then json_syntax
        else match skip_ws t with
             | d :: t' => if Byte.eqb d "]"%byte then POk (JArr [], t')
                          else json_elems fuel (depth + 1) [] t
             | [] => json_syntax
             end
      else if Byte.eqb c "{"%byte then
        if max_nesting <=? depth then json_syntax
        else match skip_ws t with
             | d :: t' => if Byte.eqb d "}"%byte then POk (JObj, t')
                          else json_members fuel (depth + 1) t
             | [] => json_syntax
             end
      else if Byte.eqb c """"%byte then
        match json_string (S (length t)) t with
        | POk (r, rest) => POk (JStr r, rest)
        | PErr e => PErr e
        | PFuel => PFuel
        end
      else if has_prefix (c :: t) (bs "null") then POk (JNull, skipn 4 (c :: t))
      else if has_prefix (c :: t) (bs "true") then POk (JBool true, skipn 4 (c :: t))
      else if has_prefix (c :: t) (bs "false") then POk (JBool false, skipn 5 (c :: t))
      else
        match json_number_text (c :: t) with
        | Some (txt, rest) =>
          match parse_float txt with
          | Some x => POk (JNum x, rest)
          | None => json_syntax
          end
        | None => json_syntax
        end) = POk (j, rest) -> exists u, c :: t = u ++ rest /\ jt (max_nesting - depth) u j).
    { intros H. destruct (K H) as (u & E & J). exists w, u. rewrite E. auto. }
    destruct (Byte.eqb c "[") eqn:Q1.
    { apply byte_eqb_eq in Q1 as ->. destruct (max_nesting <=? depth) eqn:D; [discriminate|].
      destruct (skip_ws t) as [|x t'] eqn:Sk; [discriminate|]. destruct (Byte.eqb x "]") eqn:Q2.
      - intros H. injection H as <- <-. apply byte_eqb_eq in Q2 as ->. apply skip_shape in Sk as (w' & B' & ->).
        exists ("["%byte :: w' ++ ["]"%byte]). split; [cbn [app]; now rewrite <- app_assoc|]. apply jt_empty; [lia|auto].
      - intros H. destruct (IH (depth + 1) t) as (_ & E & _). apply E in H as (items & l & -> & N & -> & J).
        exists ("["%byte :: items ++ ["]"%byte]). split; [cbn [app]; now rewrite <- app_assoc|]. apply jt_arr; [lia|auto|].
        now replace (max_nesting - depth - 1) with (max_nesting - (depth + 1)) by lia. }
    destruct (Byte.eqb c "{") eqn:Q2.
    { destruct (max_nesting <=? depth) eqn:D; [discriminate|]. destruct (skip_ws t) as [|x t'] eqn:Sk; [discriminate|].
      destruct (Byte.eqb x "}").
      - intros H. injection H as <- <-. apply skip_shape in Sk as (w' & B' & ->).
        exists (c :: w' ++ [x]). split; [cbn [app]; now rewrite <- app_assoc|]. apply jt_other; auto.
      - intros H. destruct (IH (depth + 1) t) as (_ & _ & E). apply E in H as (-> & u & ->). exists (c :: u). split; [reflexivity|]. apply jt_other; auto. }
    destruct (Byte.eqb c """") eqn:Q3.
    { apply byte_eqb_eq in Q3 as ->. destruct (json_string _ t) as [[r u]| |] eqn:J; try discriminate. intros H. injection H as <- <-.
      apply string_sound in J as (b & -> & J). exists (dquote :: b ++ [dquote]). split; [cbn [app]; now rewrite <- app_assoc|]. now apply jt_str. }
    destruct (has_prefix (c :: t) (bs "null")) eqn:P1.
    { intros H. injection H as <- <-. apply has_prefix_split in P1. exists (bs "null"). split; [exact P1|constructor]. }
    destruct (has_prefix (c :: t) (bs "true")) eqn:P2.
    { intros H. injection H as <- <-. apply has_prefix_split in P2. exists (bs "true"). split; [exact P2|apply jt_other; eauto]. }
    destruct (has_prefix (c :: t) (bs "false")) eqn:P3.
    { intros H. injection H as <- <-. apply has_prefix_split in P3. exists (bs "false"). split; [exact P3|apply jt_other; eauto]. }
    destruct (json_number_text (c :: t)) as [[txt u]|] eqn:N; [|discriminate].
    destruct (parse_float txt) as [f|] eqn:P; [|discriminate]. intros H. injection H as <- <-. apply number_sound in N as [-> N].
    exists txt. split; [reflexivity|]. now apply jt_num.
  - intros acc j rest. cbn [json_elems]. destruct (json_value fuel depth s) as [[v u]| |] eqn:J; try discriminate.
    destruct (IH depth s) as (V & _). apply V in J as (w & t & B & -> & J).
    destruct (skip_ws u) as [|c u'] eqn:Sk; [discriminate|]. apply skip_shape in Sk as (w2 & B2 & ->). destruct (Byte.eqb c ",") eqn:Q.
    + apply byte_eqb_eq in Q as ->. intros H. destruct (IH depth u') as (_ & E & _). apply E in H as (items & l & -> & N & -> & H).
      exists (w ++ t ++ w2 ++ ","%byte :: items), (v :: l). split; [cbn [rev]; now rewrite <- app_assoc|]. split; [discriminate|].
      split; [now rewrite <- !app_assoc|]. now apply jts_more.
    + destruct (Byte.eqb c "]") eqn:Q2; [|discriminate]. apply byte_eqb_eq in Q2 as ->. intros H. injection H as <- <-.
      exists (w ++ t ++ w2), [v]. split; [reflexivity|]. split; [discriminate|]. split; [now rewrite <- !app_assoc|].
      rewrite <- (app_nil_r w2). apply jts_more; auto. constructor.
  - intros j rest. cbn [json_members]. destruct (skip_ws s) as [|c t] eqn:Sk; [discriminate|]. apply skip_shape in Sk as (w & _ & ->).
    destruct (Byte.eqb c """"); [|discriminate]. destruct (json_string _ t) as [[r u]| |] eqn:J; try discriminate.
    apply string_sound in J as (b & -> & _).
    destruct (skip_ws u) as [|c1 t1] eqn:Sk; [discriminate|]. apply skip_shape in Sk as (w1 & _ & ->). destruct (Byte.eqb c1 ":"); [|discriminate].
    destruct (json_value fuel depth t1) as [[v u2]| |] eqn:J; try discriminate. destruct (IH depth t1) as (V & _). apply V in J as (w2 & t2 & _ & -> & _).
    destruct (skip_ws u2) as [|c2 u3] eqn:Sk; [discriminate|]. apply skip_shape in Sk as (w3 & _ & ->).
    destruct (Byte.eqb c2 ",").
    + intros H. destruct (IH depth u3) as (_ & _ & E). apply E in H as (-> & x & ->). split; [reflexivity|].
      exists (w ++ c :: b ++ dquote :: w1 ++ c1 :: w2 ++ t2 ++ w3 ++ c2 :: x). repeat (rewrite <- app_assoc || cbn [app]). reflexivity.
    + destruct (Byte.eqb c2 "}"); [|discriminate]. intros H. injection H as <- <-. split; [reflexivity|].
      exists (w ++ c :: b ++ dquote :: w1 ++ c1 :: w2 ++ t2 ++ w3 ++ [c2]). repeat (rewrite <- app_assoc || cbn [app]). reflexivity.
Qed.

(** ** Converting what was decoded *)
Lemma converted_text : (forall d t j, jt d t j -> forall v, convert_item j = POk v -> json_arg d t v) /\
  (forall d t l, jts d t l ->
     (forall vs, Forall2 (fun j v => convert_item j = POk v) l vs -> json_args d t vs) /\
     (forall n l' vs, l = JStr n :: l' -> Forall2 (fun j v => convert_item j = POk v) l' vs ->
        exists w1 b w2 rest, t = ","%byte :: w1 ++ dquote :: b ++ dquote :: w2 ++ rest /\ white w1 /\ white w2 /\ body b n /\ json_args d rest vs)).
Proof.
  apply jt_both.
  - discriminate.
  - intros d t s B v H. injection H as <-. now constructor.
  - intros d t f N P v H. injection H as <-. now constructor.
  - intros d w D B v H. injection H as <-. now constructor.
  - intros d items l D Ne J [_ IH] v H. destruct l as [|j0 l]; [congruence|]. destruct j0 as [| | |n| |]; try discriminate H.
    rewrite convert_call in H. destruct (conv_items 1 l) as [vs| |] eqn:C; try discriminate. injection H as <-. apply conv_items_inv in C.
    destruct (IH n l vs eq_refl C) as (w1 & b & w2 & rest & E & B1 & B2 & Bd & A). injection E as ->.
    repeat (rewrite <- app_assoc || cbn [app]). now apply ja_call.
  - intros d t j [->|[b ->]] v H; discriminate.
  - intros d. split; [intros vs H; inversion H; subst; constructor|discriminate].
  - intros d w1 t j w2 rest l B1 J IHj B2 Js [IH1 IH2]. split.
    + intros vs H. inversion H; subst. constructor; auto.
    + intros n l' vs E F. injection E as -> ->. inversion J as [|? b ? Bd| | | |? ? ? O]; subst.
      2:{ destruct O as [O|[b O]]; discriminate. }
      exists w1, b, w2, rest. repeat split; auto. repeat (rewrite <- app_assoc || cbn [app]). reflexivity.
Qed.

(** ** Completeness *)
Definition after (rest : str) : Prop := match rest with [] => True | c :: _ => json_ws c = true \/ c = ","%byte \/ c = "]"%byte end.
Lemma after_stop rest : after rest -> stops rest.
Proof. destruct rest as [|c t]; [auto|]. intros [H|[->| ->]]; [destruct c; try discriminate H|..]; cbn; repeat split; discriminate. Qed.
Lemma after_blanks w rest : white w -> after rest -> after (w ++ rest).
Proof. intros [|c w' H _] A; [exact A|]. left. now apply ws_in. Qed.
Definition vreads (d : Z) (t : str) (j : json) : Prop := starts_value t /\ forall fuel depth rest, (length t < fuel)%nat ->
  d <= max_nesting - depth -> (after rest \/ exists u, t = "["%byte :: u) -> json_value fuel depth (t ++ rest) = POk (j, rest).
Definition treads (d : Z) (args : str) (l : list json) : Prop := (args = [] /\ l = []) \/
  exists more, args = ","%byte :: more /\ l <> [] /\ exists w t, white w /\ (exists t', more = w ++ t ++ t') /\ starts_value t /\
    forall fuel depth acc rest, (length args < fuel)%nat -> d <= max_nesting - depth ->
      json_elems fuel depth acc (more ++ "]"%byte :: rest) = POk (JArr (rev acc ++ l), rest).
Lemma treads_more d w1 t w2 args j l : white w1 -> white w2 -> vreads d t j -> treads d args l ->
  treads d (","%byte :: w1 ++ t ++ w2 ++ args) (j :: l).
Proof.
  intros B1 B2 [S V] T. right. eexists. split; [reflexivity|]. split; [discriminate|]. exists w1, t. split; [auto|]. split; [eauto|]. split; [auto|].
  intros fuel depth acc rest L D. destruct fuel as [|fuel]; [lia|]. cbn [json_elems]. cbn [length] in L. rewrite !app_length in L.
  assert (0 < length t)%nat by (destruct S as (c & u & -> & _); cbn; lia).
  rewrite <- app_assoc, value_blanks by auto. rewrite <- !app_assoc, V; [|lia|auto|].
  2:{ left. apply after_blanks; auto. destruct T as [[-> _]|(more & -> & _)]; cbn; auto. }
  rewrite skip_white by auto. destruct T as [[-> ->]|(more & -> & _ & _ & _ & _ & _ & _ & T)].
  - reflexivity.
  - cbn [app skip_ws]. change (json_ws ",") with false. change (Byte.eqb "," ",") with true. cbv iota.
    rewrite T; [|cbn [length] in *; lia|auto]. cbn [rev]. now rewrite <- app_assoc.
Qed.
Lemma vreads_arr d items l : 1 <= d -> treads (d - 1) (","%byte :: items) l -> vreads d ("["%byte :: items ++ ["]"%byte]) (JArr l).
Proof.
  intros D [[X _]|(more & E & _ & w & t & B & (t' & Em) & (c & u & Et & Ew & Eb) & T)]; [discriminate|]. injection E as <-. split; [exists "["%byte; eexists; repeat split; discriminate|].
  intros fuel depth rest L Dp A. cbn [length] in L. rewrite app_length in L. cbn [length] in L. destruct fuel as [|fuel]; [lia|].
  cbn [app]. rewrite <- app_assoc. cbn [app json_value skip_ws]. change (json_ws "[") with false. change (Byte.eqb "[" "[") with true. cbv iota.
  replace (max_nesting <=? depth) with false by lia.
  rewrite Em at 1. rewrite <- app_assoc, skip_white by auto. rewrite Et. cbn [app skip_ws]. rewrite Ew.
  replace (Byte.eqb c "]") with false by (symmetry; now apply byte_eqb_neq). rewrite T; [reflexivity|cbn [length]; lia|lia].
Qed.
Lemma vreads_str d t s : body t s -> vreads d (dquote :: t ++ [dquote]) (JStr s).
Proof.
  intros B. split; [exists dquote; eexists; repeat split; discriminate|]. intros fuel depth rest L _ _. destruct fuel as [|fuel]; [lia|].
  cbn [app]. rewrite <- app_assoc. cbn [app json_value skip_ws]. change (json_ws dquote) with false.
  change (Byte.eqb dquote "[") with false. change (Byte.eqb dquote "{") with false. change (Byte.eqb dquote """") with true. cbv iota.
  rewrite (string_complete t s B); [reflexivity|]. rewrite app_length. lia.
Qed.
Lemma vreads_num_at t f rest fuel depth : number_text t -> parse_float t = Some f -> json_number_text (t ++ rest) = Some (t, rest) ->
  json_value (S fuel) depth (t ++ rest) = POk (JNum f, rest).
Proof.
  intros N P X. destruct (number_head _ _ _ (number_complete t N)) as (c & u & -> & H). destruct (number_starts c H) as (W & C1 & C2 & C3 & C4 & C5 & C6 & C7).
  cbn [app] in *. cbn [json_value skip_ws]. rewrite W.
  replace (Byte.eqb c "[") with false by (symmetry; now apply byte_eqb_neq).
  replace (Byte.eqb c "{") with false by (symmetry; now apply byte_eqb_neq).
  replace (Byte.eqb c """") with false by (symmetry; now apply byte_eqb_neq).
  change (bs "null") with ("n"%byte :: bs "ull"). change (bs "true") with ("t"%byte :: bs "rue"). change (bs "false") with ("f"%byte :: bs "alse").
  rewrite !has_prefix_head by auto. now rewrite X, P.
Qed.
Lemma vreads_num d t f : number_text t -> parse_float t = Some f -> vreads d t (JNum f).
Proof.
  intros N P. split.
  - destruct (number_head _ _ _ (number_complete t N)) as (c & u & -> & H). destruct (number_starts c H) as (W & C1 & _). exists c, u. auto.
  - intros fuel depth rest L _ A. destruct fuel as [|fuel]; [lia|]. apply vreads_num_at; auto.
    destruct A as [A|(u & ->)]; [|exfalso; apply number_complete, number_head in N as (c & x & X & H); injection X as <- _; destruct H as [H|H]; discriminate].
    now destruct (number_ext _ _ rest (number_complete t N) (after_stop _ A)).
Qed.
Scheme json_arg_ind2 := Minimality for json_arg Sort Prop with json_args_ind2 := Minimality for json_args Sort Prop.
Combined Scheme json_arg_both from json_arg_ind2, json_args_ind2.
Lemma grammar_reads : (forall d t v, json_arg d t v -> exists j, convert_item j = POk v /\ vreads d t j) /\
  (forall d t vs, json_args d t vs -> exists l, Forall2 (fun j v => convert_item j = POk v) l vs /\ treads d t l).
Proof.
  apply json_arg_both.
  - intros d t s B. exists (JStr s). split; [reflexivity|now apply vreads_str].
  - intros d t f N P. exists (JNum f). split; [reflexivity|now apply vreads_num].
  - intros d w D B. exists (JArr []). split; [reflexivity|]. split; [exists "["%byte; eexists; repeat split; discriminate|].
    intros fuel depth rest L Dp A. destruct fuel as [|fuel]; [lia|]. cbn [app]. rewrite <- app_assoc. cbn [app json_value skip_ws].
    change (json_ws "[") with false. change (Byte.eqb "[" "[") with true. cbv iota. replace (max_nesting <=? depth) with false by lia.
    rewrite skip_white by auto. reflexivity.
  - intros d w1 t name w2 args vs D B1 B B2 A (l & F & T). exists (JArr (JStr name :: l)). split.
    + rewrite convert_call. now rewrite (conv_items_ok l vs F).
    + replace ("["%byte :: w1 ++ dquote :: t ++ dquote :: w2 ++ args ++ ["]"%byte])
        with ("["%byte :: (w1 ++ (dquote :: t ++ [dquote]) ++ w2 ++ args) ++ ["]"%byte]) by (repeat (rewrite <- app_assoc || cbn [app]); reflexivity).
      apply vreads_arr; auto. apply treads_more; auto. now apply vreads_str.
  - intros d. exists []. split; [constructor|now left].
  - intros d w1 t v w2 rest vs B1 _ (j & C & V) B2 _ (l & F & T). exists (j :: l). split; [constructor; auto|]. now apply treads_more.
Qed.

(** ** Scripts *)
Lemma converts_valid j : forall v, convert_item j = POk v -> validate j false = None.
Proof.
  induction j as [| | | |l IH|] using json_ind'; intros v H; try discriminate; try reflexivity.
  destruct l as [|j0 l]; [reflexivity|]. destruct j0; try discriminate H. rewrite convert_call in H.
  destruct (conv_items 1 l) as [vs| |] eqn:C; try discriminate. apply conv_items_inv in C. change (valid_items 1 l = None).
  inversion IH as [|? ? _ IHl]; subst. clear IH H. generalize 1. induction C as [|x v0 l vs Hx _ IHC]; intros i; [reflexivity|].
  inversion IHl; subst. cbn [valid_items]. fold valid_items. erewrite H1 by eauto. now apply IHC.
Qed.
Lemma program_ok l p : Forall2 (fun j v => convert_item j = POk v) l p -> Forall (fun v => exists l, v = VList l) p -> forall i, convert_program i l = POk p.
Proof.
  intros F L. induction F as [|j v l p C _ IH]; intros i; [reflexivity|]. inversion L as [|? ? [k ->] L']; subst. cbn [convert_program].
  pose proof (converts_valid j _ C) as V. destruct j; try discriminate C. change (validate (JArr l0) true) with (validate (JArr l0) false). rewrite V.
  cbn [convert_value]. rewrite C. cbn [pbind]. now rewrite IH.
Qed.
Lemma program_inv l : forall i p, convert_program i l = POk p -> Forall2 (fun j v => convert_item j = POk v) l p /\ Forall (fun v => exists l, v = VList l) p.
Proof.
  induction l as [|j l IH]; intros i p; cbn [convert_program]; [intros H; injection H as <-; split; constructor|].
  destruct (validate j true) eqn:V; [discriminate|]. destruct (convert_value j) as [v| |] eqn:C; cbn [pbind]; try discriminate.
  destruct (convert_program (i + 1) l) as [vs| |] eqn:P; cbn [pbind]; try discriminate. intros H. injection H as <-.
  apply IH in P as [F L]. destruct j; try discriminate V. cbn [convert_value] in C. split; constructor; auto.
  destruct l0 as [|j0 l0]; [injection C as <-; eauto|]. destruct j0; try discriminate C. rewrite convert_call in C.
  destruct (conv_items 1 l0); try discriminate. injection C as <-. eauto.
Qed.
Lemma script_sound s p : parse_json_string s = POk p -> json_script s p.
Proof.
  unfold parse_json_string, json_decode. destruct (json_value (json_fuel s) 0 s) as [[j rest]| |] eqn:J; try discriminate.
  destruct (value_sound (json_fuel s) 0 s) as (V & _). apply V in J as (w & t & B & E & J). clear V.
  destruct (skip_ws rest) as [|? ?] eqn:Sk; [|destruct j; discriminate]. apply skip_empty in Sk. subst s. destruct j; try discriminate.
  - intros H. injection H as <-. inversion J as [| | | | |? ? ? O]; subst; [now apply js_null|destruct O as [O|[b O]]; discriminate].
  - intros H. inversion J as [| | |? w' D B'|? items ? D Ne Js|? ? ? O]; subst.
    + injection H as <-. cbn [app]. rewrite <- app_assoc. now apply js_empty.
    + apply program_inv in H as [F L]. cbn [app]. rewrite <- app_assoc. apply js_calls; auto.
      * destruct p; [inversion F; subst; congruence|discriminate].
      * destruct converted_text as [_ K]. change 9999 with (max_nesting - 0 - 1). now apply (K _ _ _ Js).
    + destruct O as [O|[b O]]; discriminate.
Qed.
Lemma script_complete s p : json_script s p -> parse_json_string s = POk p.
Proof.
  assert (K : forall w1 t w2 j, white w1 -> white w2 -> (forall fuel, (length t < fuel)%nat -> json_value fuel 0 (t ++ w2) = POk (j, w2)) ->
    json_decode (w1 ++ t ++ w2) = POk j).
  { intros w1 t w2 j B1 B2 H. unfold json_decode. rewrite value_blanks by auto. rewrite H; [now rewrite blanks_skip|].
    unfold json_fuel. rewrite !app_length. lia. }
  assert (A : forall w, white w -> after w) by (intros w Bw; rewrite <- (app_nil_r w); apply after_blanks; cbn; auto).
  intros [w1 w2 B1 B2|w1 w w2 B1 B B2|w1 items w2 p' B1 B2 Ne J L]; unfold parse_json_string.
  - rewrite (K w1 (bs "null") w2 JNull); auto. intros [|fuel] Lf; [lia|]. destruct w2; reflexivity.
  - replace (w1 ++ "["%byte :: w ++ "]"%byte :: w2) with (w1 ++ ("["%byte :: w ++ ["]"%byte]) ++ w2) by (repeat (rewrite <- app_assoc || cbn [app]); reflexivity).
    rewrite (K w1 _ w2 (JArr [])); auto. intros fuel Lf.
    destruct grammar_reads as [G _]. destruct (G 1 _ _ (ja_empty 1 w ltac:(lia) B)) as (j & C & V). destruct V as [_ V].
    rewrite V; [|auto|unfold max_nesting; lia|auto]. destruct j as [| | | |l|]; try discriminate. destruct l as [|[] ?]; try discriminate; [reflexivity|].
    rewrite convert_call in C. destruct (conv_items _ _); discriminate.
  - replace (w1 ++ "["%byte :: items ++ "]"%byte :: w2) with (w1 ++ ("["%byte :: items ++ ["]"%byte]) ++ w2) by (repeat (rewrite <- app_assoc || cbn [app]); reflexivity).
    destruct grammar_reads as [_ G]. destruct (G _ _ _ J) as (l & F & T).
    destruct (vreads_arr 10000 items l ltac:(lia) T) as [_ V].
    rewrite (K w1 _ w2 (JArr l)); auto. 2:{ intros fuel Lf. apply V; auto. unfold max_nesting. lia. }
    now apply program_ok.
Qed.

(** ** Where a number ends *)
Lemma take_stop s : forall d c r, take_digits s = (d, c :: r) -> is_digit c = false.
Proof.
  induction s as [|x s IH]; intros d c r; cbn [take_digits]; [discriminate|]. destruct (is_digit x) eqn:D.
  - destruct (take_digits s) as [d0 r0] eqn:T. intros H. injection H as _ ->. eapply IH; eauto.
  - intros H. injection H as _ -> _. exact D.
Qed.
Definition stopped (ip fp ep : str) (c : byte) : Prop :=
  (is_digit c = true -> ip = bs "0" /\ fp = [] /\ ep = []) /\ (c = "."%byte -> fp <> [] \/ ep <> []) /\ (In c (bs "eE") -> ep <> []).
Lemma exp_stops sg ip fp s a c r : exp_part sg ip fp s = Some (a, c :: r) -> exists ep, exp_text ep /\ s = ep ++ c :: r /\ a = sg ++ ip ++ fp ++ ep /\
  (ep = [] -> ~ In c (bs "eE")) /\ (ep <> [] -> is_digit c = false).
Proof.
  unfold exp_part. destruct s as [|x t]; [discriminate|]. destruct (Byte.eqb (lower x) "e") eqn:L.
  2:{ intros H. injection H as <- -> ->. exists []. rewrite app_nil_r. apply byte_eqb_neq in L. repeat split; try (now left); try congruence.
      intros _ X. apply L. now apply lower_e. }
  apply byte_eqb_eq, lower_e in L.
  assert (K : forall es t1, (es = [] \/ es = bs "+" \/ es = bs "-") -> t = es ++ t1 ->
    match take_digits t1 with ([], _) => None | (xs, s3) => Some (sg ++ ip ++ fp ++ x :: es ++ xs, s3) end = Some (a, c :: r) ->
    exists ep, exp_text ep /\ x :: t = ep ++ c :: r /\ a = sg ++ ip ++ fp ++ ep /\ (ep = [] -> ~ In c (bs "eE")) /\ (ep <> [] -> is_digit c = false)).
  { intros es t1 Es ->. destruct (take_digits t1) as [[|y xs] s3] eqn:T; [discriminate|]. intros H. injection H as <- ->. pose proof (take_stop _ _ _ _ T) as St.
    apply take_some in T as [-> D]. exists (x :: es ++ y :: xs). split; [right; exists x, es, (y :: xs); auto|]. cbn [app]. split; [f_equal; now rewrite <- app_assoc|].
    split; auto. split; [discriminate|auto]. }
  destruct t as [|c1 t']; [discriminate|]. destruct (Byte.eqb c1 "+" || Byte.eqb c1 "-") eqn:S; apply K; auto.
  apply orb_prop in S as [S|S]; apply byte_eqb_eq in S as ->; auto.
Qed.
Lemma frac_stops s fp c r : frac_part s = Some (fp, c :: r) -> (fp = [] -> c <> "."%byte) /\ (fp <> [] -> is_digit c = false).
Proof.
  unfold frac_part. destruct s as [|x t]; [discriminate|]. destruct (Byte.eqb x ".") eqn:D.
  - destruct (take_digits t) as [[|y xs] s3] eqn:T; [discriminate|]. intros H. injection H as <- ->. split; [discriminate|]. intros _. now apply take_stop in T.
  - intros H. injection H as <- -> ->. apply byte_eqb_neq in D. split; congruence.
Qed.
Lemma unsigned_stops sg s a c r : unsigned_part sg s = Some (a, c :: r) ->
  exists ip fp ep, a = sg ++ ip ++ fp ++ ep /\ s = ip ++ fp ++ ep ++ c :: r /\ whole_part ip /\ frac_text fp /\ exp_text ep /\ stopped ip fp ep c.
Proof.
  unfold unsigned_part. destruct (take_digits s) as [[|d ds] s1] eqn:T; [discriminate|]. pose proof (take_stop s (d :: ds)) as St. rewrite T in St. apply take_some in T as [-> D].
  assert (K : forall ip s', whole_part ip -> (d :: ds) ++ s1 = ip ++ s' -> (ip = bs "0" \/ s' = s1) ->
    match frac_part s' with None => None | Some (fp, s2) => exp_part sg ip fp s2 end = Some (a, c :: r) ->
    exists ip fp ep, a = sg ++ ip ++ fp ++ ep /\ (d :: ds) ++ s1 = ip ++ fp ++ ep ++ c :: r /\ whole_part ip /\ frac_text fp /\ exp_text ep /\ stopped ip fp ep c).
  { intros ip s' W E Z. rewrite E. destruct (frac_part s') as [[fp s2]|] eqn:F; [|discriminate]. pose proof (frac_sound _ _ _ F) as [Ft ->].
    intros X. apply exp_stops in X as (ep & X & -> & -> & X1 & X2). exists ip, fp, ep. repeat (split; [solve [auto]|]).
    destruct ep as [|y ep].
    - cbn [app] in F. apply frac_stops in F as [F1 F2]. split; [|split].
      + intros Dc. destruct fp as [|z fp]; [|rewrite F2 in Dc by discriminate; discriminate]. destruct Z as [->|Z]; [auto|].
        cbn [app] in Z. rewrite (St c r) in Dc; [discriminate|]. now rewrite <- Z.
      + intros ->. left. intros ->. now apply F1.
      + intros I. now apply X1 in I.
    - split; [intros Dc; rewrite X2 in Dc by discriminate; discriminate|]. split; [intros _; right; discriminate|discriminate]. }
  destruct (Byte.eqb d "0") eqn:Z.
  - apply byte_eqb_eq in Z as ->. apply K; [now left|reflexivity|now left].
  - apply byte_eqb_neq in Z. apply K; [right; exists d, ds; auto|reflexivity|now right].
Qed.
Lemma exp_local sg ip fp ep c r : exp_text ep -> (ep = [] -> ~ In c (bs "eE")) -> (ep <> [] -> is_digit c = false) ->
  exp_part sg ip fp (ep ++ c :: r) = Some (sg ++ ip ++ fp ++ ep, c :: r).
Proof.
  intros [->|(e & es & ds & -> & E & S & Ne & D)] H1 H2.
  - cbn [app exp_part]. rewrite app_nil_r. replace (Byte.eqb (lower c) "e") with false; [reflexivity|]. symmetry. apply byte_eqb_neq. intros X. apply lower_e in X. now apply H1.
  - specialize (H2 ltac:(discriminate)). cbn [app]. unfold exp_part.
    replace (Byte.eqb (lower e) "e") with true by (symmetry; apply byte_eqb_eq; now apply lower_e).
    apply digits_in in D. destruct S as [->|[->| ->]].
    + destruct ds as [|x ds]; [congruence|]. inversion D as [|? ? Dx _]; subst. cbn [app].
      replace (Byte.eqb x "+" || Byte.eqb x "-") with false by (destruct x; try discriminate Dx; reflexivity).
      change (x :: ds ++ c :: r) with ((x :: ds) ++ c :: r). rewrite take_until by auto. reflexivity.
    + change (bs "+") with ["+"%byte]. cbn [app]. change (Byte.eqb "+" "+" || Byte.eqb "+" "-") with true. cbv iota. rewrite take_until by auto. destruct ds; [congruence|reflexivity].
    + change (bs "-") with ["-"%byte]. cbn [app]. change (Byte.eqb "-" "+" || Byte.eqb "-" "-") with true. cbv iota. rewrite take_until by auto. destruct ds; [congruence|reflexivity].
Qed.
Lemma unsigned_local sg ip fp ep c r : whole_part ip -> frac_text fp -> exp_text ep -> stopped ip fp ep c ->
  unsigned_part sg (ip ++ fp ++ ep ++ c :: r) = Some (sg ++ ip ++ fp ++ ep, c :: r).
Proof.
  intros W F X (S1 & S2 & S3).
  assert (Ex : exp_part sg ip fp (ep ++ c :: r) = Some (sg ++ ip ++ fp ++ ep, c :: r)).
  { apply exp_local; auto; [intros -> I; now apply S3 in I|]. intros N. destruct (is_digit c); [|reflexivity]. destruct S1 as (_ & _ & ->); congruence. }
  assert (Fr : frac_part (fp ++ ep ++ c :: r) = Some (fp, ep ++ c :: r)).
  { destruct F as [->|(ds & -> & Ne & D)].
    - cbn [app]. destruct ep as [|y ep]; cbn [app frac_part].
      + replace (Byte.eqb c ".") with false; [reflexivity|]. symmetry. apply byte_eqb_neq. intros ->. destruct S2 as [A|A]; auto.
      + destruct (exp_head _ y ep X eq_refl) as [_ H]. now replace (Byte.eqb y ".") with false by (symmetry; now apply byte_eqb_neq).
    - cbn [app frac_part]. change (Byte.eqb "." ".") with true. cbv iota. rewrite take_then; [|now apply digits_in|].
      + destruct ds; [congruence|reflexivity].
      + destruct ep as [|y ep]; cbn [app]; [|now apply (exp_head _ y ep X)]. destruct (is_digit c); [|reflexivity]. destruct S1 as (_ & A & _); [auto|discriminate]. }
  unfold unsigned_part. destruct W as [->|(d & t & -> & Z & _ & D)].
  - change (bs "0" ++ fp ++ ep ++ c :: r) with ("0"%byte :: fp ++ ep ++ c :: r). cbn [take_digits]. change (is_digit "0") with true. cbv iota.
    destruct (take_digits (fp ++ ep ++ c :: r)) as [d0 r0] eqn:T. apply take_split in T. change (Byte.eqb "0" "0") with true. cbv iota. rewrite <- T, Fr. exact Ex.
  - rewrite take_then; [|now apply digits_in|].
    + replace (Byte.eqb d "0") with false by (symmetry; now apply byte_eqb_neq). rewrite Fr. exact Ex.
    + destruct F as [->|(ds & -> & _)]; [|reflexivity]. cbn [app]. destruct ep as [|y ep]; cbn [app]; [|now apply (exp_head _ y ep X)].
      destruct (is_digit c); [|reflexivity]. destruct S1 as (A & _ & _); [auto|]. injection A as -> _. congruence.
Qed.
Lemma number_local t c r : (exists sg ip fp ep, t = sg ++ ip ++ fp ++ ep /\ (sg = [] \/ sg = bs "-") /\ whole_part ip /\ frac_text fp /\ exp_text ep /\ stopped ip fp ep c) ->
  json_number_text (t ++ c :: r) = Some (t, c :: r).
Proof.
  intros (sg & ip & fp & ep & -> & S & W & F & X & St). rewrite number_parts. destruct S as [->| ->].
  - destruct (whole_head ip W) as (d & u & -> & D). cbn [app]. replace (Byte.eqb d "-") with false by (destruct d; try discriminate D; reflexivity).
    pose proof (unsigned_local [] (d :: u) fp ep c r W F X St) as K. cbn [app] in K. rewrite <- !app_assoc. exact K.
  - pose proof (unsigned_local ["-"%byte] ip fp ep c r W F X St) as K.
    change ((bs "-" ++ ip ++ fp ++ ep) ++ c :: r) with ("-"%byte :: (ip ++ fp ++ ep) ++ c :: r). change (Byte.eqb "-" "-") with true. cbv iota.
    rewrite <- !app_assoc. exact K.
Qed.
Lemma number_stopped s t c r : json_number_text s = Some (t, c :: r) ->
  exists sg ip fp ep, t = sg ++ ip ++ fp ++ ep /\ (sg = [] \/ sg = bs "-") /\ whole_part ip /\ frac_text fp /\ exp_text ep /\ stopped ip fp ep c.
Proof.
  rewrite number_parts. destruct s as [|x u]; [discriminate|].
  destruct (Byte.eqb x "-"); intros H; apply unsigned_stops in H as (ip & fp & ep & -> & _ & H); do 4 eexists; (split; [reflexivity|]); tauto.
Qed.
Lemma number_ends_iff t rest : number_text t -> (json_number_text (t ++ rest) = Some (t, rest) <-> number_ends t rest).
Proof.
  intros N. destruct rest as [|c u].
  { rewrite app_nil_r. split; [intros _ c u v H; discriminate|intros _; now apply number_complete]. }
  split.
  - intros H c' u' v E M. injection E as <- <-. apply number_stopped in H. apply (number_local t c v) in H.
    rewrite (number_complete _ M) in H. discriminate.
  - intros H. apply number_local. destruct N as (sg & ip & fp & ep & -> & S & W & F & X). exists sg, ip, fp, ep. repeat (split; [solve [auto]|]).
    assert (NE : forall v, ~ number_text ((sg ++ ip ++ fp ++ ep) ++ c :: v)) by (intros v; apply (H c u v eq_refl)). clear H.
    split; [|split].
    + intros D. apply digit_in in D. destruct X as [->|(e & es & ds & -> & E & Es & Ne & Dd)].
      2:{ exfalso. apply (NE []). exists sg, ip, fp, (e :: es ++ ds ++ [c]). split; [repeat (rewrite <- app_assoc || cbn [app]); reflexivity|]. repeat (split; [solve [auto]|]).
          right. exists e, es, (ds ++ [c]). repeat split; auto; [destruct ds; discriminate|]. apply Forall_app. split; auto. }
      destruct F as [->|(ds & -> & Ne & Dd)].
      2:{ exfalso. apply (NE []). exists sg, ip, ("."%byte :: ds ++ [c]), []. split; [repeat (rewrite <- app_assoc || cbn [app]); reflexivity|]. repeat (split; [solve [auto]|]).
          split; [|now left]. right. exists (ds ++ [c]). repeat split; auto; [destruct ds; discriminate|]. apply Forall_app. split; auto. }
      destruct W as [->|(d & t & -> & Z & _ & Dd)]; [auto|]. exfalso. apply (NE []). exists sg, (d :: t ++ [c]), [], []. split; [repeat (rewrite <- app_assoc || cbn [app]); reflexivity|].
      split; [auto|]. split; [|split; now left]. right. exists d, (t ++ [c]). split; [reflexivity|]. split; [auto|]. split; [discriminate|].
      change (d :: t ++ [c]) with ((d :: t) ++ [c]). apply Forall_app. split; auto.
    + intros ->. destruct X as [->|(e & es & ds & -> & _)]; [|right; discriminate]. destruct F as [->|(ds & -> & _)]; [|left; discriminate].
      exfalso. apply (NE (bs "0")). exists sg, ip, (bs ".0"), []. split; [repeat (rewrite <- app_assoc || cbn [app]); reflexivity|]. repeat (split; [solve [auto]|]).
      split; [|now left]. right. exists (bs "0"). split; [reflexivity|]. split; [discriminate|]. repeat constructor.
    + intros E. destruct X as [->|(e & es & ds & -> & _)]; [|discriminate].
      exfalso. apply (NE (bs "0")). exists sg, ip, fp, (c :: bs "0"). split; [repeat (rewrite <- app_assoc || cbn [app]); reflexivity|]. repeat (split; [solve [auto]|]).
      right. exists c, [], (bs "0"). split; [reflexivity|]. split; [auto|]. split; [auto|]. split; [discriminate|]. repeat constructor.
Qed.

(** ** Streams *)
Lemma value_number fuel depth s f rest : json_value fuel depth s = POk (JNum f, rest) ->
  exists w t, white w /\ s = w ++ t ++ rest /\ number_text t /\ parse_float t = Some f /\ number_ends t rest.
Proof.
  destruct fuel as [|fuel]; [discriminate|]. cbn [json_value]. destruct (skip_ws s) as [|c t] eqn:Sk; [discriminate|]. apply skip_shape in Sk as (w & B & ->).
  destruct (Byte.eqb c "[").
  { destruct (max_nesting <=? depth); [discriminate|]. destruct (skip_ws t) as [|x t']; [discriminate|]. destruct (Byte.eqb x "]"); [discriminate|].
    intros H. destruct (value_sound fuel (depth + 1) t) as (_ & E & _). apply E in H as (? & ? & X & _). discriminate. }
  destruct (Byte.eqb c "{").
  { destruct (max_nesting <=? depth); [discriminate|]. destruct (skip_ws t) as [|x t']; [discriminate|]. destruct (Byte.eqb x "}"); [discriminate|].
    intros H. destruct (value_sound fuel (depth + 1) t) as (_ & _ & E). apply E in H as (X & _). discriminate. }
  destruct (Byte.eqb c """"); [destruct (json_string _ t) as [[r u]| |]; discriminate|].
  destruct (has_prefix (c :: t) (bs "null")); [discriminate|]. destruct (has_prefix (c :: t) (bs "true")); [discriminate|]. destruct (has_prefix (c :: t) (bs "false")); [discriminate|].
  destruct (json_number_text (c :: t)) as [[txt u]|] eqn:N; [|discriminate].
  destruct (parse_float txt) as [f'|] eqn:P; [|discriminate]. intros H. injection H as -> ->. pose proof (number_sound _ _ _ N) as [E Nt].
  exists w, txt. rewrite E in N |- *. repeat split; auto. now apply number_ends_iff.
Qed.
Lemma top_sound s j rest v : json_value (json_fuel s) 0 s = POk (j, rest) -> convert_value j = POk v ->
  exists w t, white w /\ s = w ++ t ++ rest /\ json_top t rest v.
Proof.
  intros J C. destruct j as [| |f|n|l|]; try discriminate C.
  - apply value_number in J as (w & t & B & E & N & P & Ne). injection C as <-. exists w, t. repeat split; auto. now constructor.
  - destruct (value_sound (json_fuel s) 0 s) as (V & _). apply V in J as (w & t & B & E & J). injection C as <-. exists w, t. repeat split; auto.
    inversion J as [|? b ? Bd| | | |? ? ? O]; subst; [now constructor|destruct O as [O|[b O]]; discriminate].
  - destruct (value_sound (json_fuel s) 0 s) as (V & _). apply V in J as (w & t & B & E & J). cbn [convert_value] in C. exists w, t. repeat split; auto.
    destruct converted_text as [K _]. apply (K _ _ _ J) in C. assert (exists k, v = VList k) as [k ->]; [|now constructor].
    inversion C; subst; eauto; exfalso.
    + inversion J as [| | | | |? ? ? O]; subst. destruct O as [O|[b O]]; discriminate.
    + inversion J as [| | | ? w' ? ? X|? items ? ? ? ? X|? ? ? O]; subst.
      * apply number_complete, number_head in H as (? & ? & Y & [D|D]); injection Y as <- _; discriminate.
      * apply number_complete, number_head in H as (? & ? & Y & [D|D]); injection Y as <- _; discriminate.
      * destruct O as [O|[b O]]; discriminate.
Qed.
Lemma stream_sound fuel : forall s l p, json_stream fuel s = POk l -> convert_stream l = POk p -> json_values s p.
Proof.
  induction fuel as [|fuel IH]; intros s l p; cbn [json_stream]; [discriminate|]. destruct (skip_ws s) as [|c t] eqn:Sk.
  { intros H. injection H as <-. intros H. injection H as <-. constructor. now apply skip_empty. }
  apply skip_shape in Sk as (w & B & ->). destruct (json_value (json_fuel (c :: t)) 0 (c :: t)) as [[j rest]| |] eqn:J; try discriminate.
  destruct (json_stream fuel rest) as [l'| |] eqn:R; cbn [pbind]; try discriminate. intros H. injection H as <-. cbn [convert_stream].
  destruct (convert_value j) as [v| |] eqn:C; cbn [pbind]; try discriminate. destruct (convert_stream l') as [p'| |] eqn:P; cbn [pbind]; try discriminate.
  intros H. injection H as <-. destruct (top_sound _ _ _ _ J C) as (w' & u & B' & -> & T). rewrite app_assoc. apply jv_more; [apply Forall_app; auto|auto|eauto].
Qed.
Lemma top_complete t rest v : json_top t rest v -> starts_value t /\ exists j, convert_value j = POk v /\ json_value (json_fuel (t ++ rest)) 0 (t ++ rest) = POk (j, rest).
Proof.
  intros [t' r l A|t' r s B|t' r f N P Ne].
  - destruct grammar_reads as [G _]. destruct (G _ _ _ A) as (j & C & V). split; [exact (proj1 V)|]. destruct V as [_ V]. exists j.
    split; [destruct j; try discriminate C; exact C|]. apply V; [unfold json_fuel; rewrite app_length; lia|unfold max_nesting; lia|]. right.
    inversion A; subst; eauto.
  - destruct (vreads_str 0 t' s B) as [S _]. split; [exact S|]. exists (JStr s). split; [reflexivity|]. unfold json_fuel.
    cbn [app]. rewrite <- app_assoc. cbn [app json_value skip_ws length]. change (json_ws dquote) with false.
    change (Byte.eqb dquote "[") with false. change (Byte.eqb dquote "{") with false. change (Byte.eqb dquote """") with true. cbv iota.
    rewrite (string_complete t' s B); [reflexivity|]. rewrite app_length. lia.
  - destruct (vreads_num 0 t' f N P) as [S _]. split; [exact S|]. exists (JNum f). split; [reflexivity|]. apply vreads_num_at; auto. now apply number_ends_iff.
Qed.
Lemma stream_complete s p : json_values s p -> forall fuel, (length s < fuel)%nat -> exists l, json_stream fuel s = POk l /\ convert_stream l = POk p.
Proof.
  induction 1 as [w B|w t rest v p B T _ IH]; intros fuel L; (destruct fuel as [|fuel]; [lia|]); cbn [json_stream].
  - rewrite blanks_skip by auto. exists []. auto.
  - rewrite skip_white by auto. destruct (top_complete _ _ _ T) as (S & j & C & J).
    rewrite (skip_value t rest S). assert (0 < length t)%nat by (destruct S as (c & u & -> & _); cbn; lia). rewrite !app_length in L.
    destruct (IH fuel) as (l & R & Cl); [lia|]. destruct (t ++ rest) as [|c u] eqn:E; [destruct S as (? & ? & -> & _); discriminate|].
    rewrite J, R. exists (j :: l). split; [reflexivity|]. cbn [convert_stream]. rewrite C. cbn [pbind]. now rewrite Cl.
Qed.
Lemma reader_iff s p : parse_json_reader s = POk p <-> json_values s p.
Proof.
  unfold parse_json_reader. split.
  - intros H. apply stream_loop in H as (l & J & C). eapply stream_sound; eauto.
  - intros V. destruct (stream_complete s p V (S (length s))) as (l & J & C); [lia|]. now rewrite (loop_stream _ _ _ J).
Qed.

(** ** The decoder's fuel never runs out *)
Lemma string_fuel fuel : forall s, (length s < fuel)%nat -> json_string fuel s <> PFuel.
Proof.
  induction fuel as [|fuel IH]; intros s L; [lia|]. cbn [json_string]. destruct s as [|c t]; [discriminate|]. cbn [length] in L.
  assert (Em : forall out u, (length u <= length t)%nat ->
    match json_string fuel u with POk (x, rest') => POk (out ++ x, rest') | PErr e => PErr e | PFuel => PFuel end <> PFuel).
  { intros out u K. specialize (IH u ltac:(lia)). destruct (json_string fuel u) as [[x r]| |]; congruence. }
  destruct (Byte.eqb c """"); [discriminate|]. destruct (byteN c <? 32)%N; [discriminate|].
  destruct (128 <=? byteN c)%N.
  { unfold decode_one. destruct (decode_rune (c :: t)) as [[r w]|] eqn:D; [|apply decode_none in D; discriminate].
    apply decode_width in D. apply Em. rewrite skipn_length. cbn [length] in *. lia. }
  destruct (negb _); [apply Em; lia|]. destruct t as [|e u]; [discriminate|]. cbn [length] in *.
  repeat match goal with |- context [if Byte.eqb e ?x then match json_string _ _ with _ => _ end else _] => destruct (Byte.eqb e x); [apply Em; lia|] end.
  destruct (Byte.eqb e "u"); [|discriminate].
  destruct (read_hex 4 0 u) as [[r1 u1]|] eqn:R1; [|discriminate]. apply read_hex4_inv in R1 as (h & -> & _). rewrite app_length in *.
  destruct (is_surrogate r1); [|apply Em; lia]. destruct u1 as [|b0 [|b1 u2]]; try (apply Em; cbn [length] in *; lia).
  destruct (_ && _); [|apply Em; cbn [length] in *; lia].
  destruct (read_hex 4 0 u2) as [[r2 u3]|] eqn:R2; [|apply Em; cbn [length] in *; lia]. apply read_hex4_inv in R2 as (h2 & -> & _).
  destruct (utf16_decode r1 r2); apply Em; cbn [length] in *; rewrite ?app_length in *; lia.
Qed.
Lemma skip_len s c t : skip_ws s = c :: t -> (length t < length s)%nat.
Proof. intros H. apply skip_shape in H as (w & _ & ->). rewrite app_length. cbn. lia. Qed.
Lemma value_fuel fuel : forall depth s,
  ((2 * length s < fuel)%nat -> json_value fuel depth s <> PFuel /\ forall j rest, json_value fuel depth s = POk (j, rest) -> (length rest < length s)%nat) /\
  (forall acc, (2 * length s + 1 < fuel)%nat -> json_elems fuel depth acc s <> PFuel /\ forall j rest, json_elems fuel depth acc s = POk (j, rest) -> (length rest < length s)%nat) /\
  ((2 * length s + 1 < fuel)%nat -> json_members fuel depth s <> PFuel /\ forall j rest, json_members fuel depth s = POk (j, rest) -> (length rest < length s)%nat).
Proof.
  induction fuel as [|fuel IH]; intros depth s; [repeat split; lia|].
  assert (Mono : forall (r : presult (json * str)) n m, (n <= m)%nat -> (r <> PFuel /\ forall j rest, r = POk (j, rest) -> (length rest < n)%nat) ->
     r <> PFuel /\ forall j rest, r = POk (j, rest) -> (length rest < m)%nat).
  { intros r n m K [A B]. split; auto. intros j rest E. specialize (B j rest E). lia. }
  assert (Syn : forall n, @json_syntax (json * str) <> PFuel /\ forall j rest, @json_syntax (json * str) = POk (j, rest) -> (length rest < n)%nat).
  { split; [discriminate|]. discriminate. }
  assert (Ok : forall x u n, (length u < n)%nat -> @POk (json * str) (x, u) <> PFuel /\ forall j rest, POk (x, u) = POk (j, rest) -> (length rest < n)%nat).
  { intros x u n K. split; [discriminate|]. intros j rest E. injection E as _ <-. exact K. }
  split; [|split].
  - intros L. cbn [json_value]. destruct (skip_ws s) as [|c t] eqn:Sk; [apply Syn|]. apply skip_len in Sk.
    destruct (Byte.eqb c "[").
    { destruct (max_nesting <=? depth); [apply Syn|]. destruct (skip_ws t) as [|x t'] eqn:Sk'; [apply Syn|]. apply skip_len in Sk'.
      destruct (Byte.eqb x "]"); [apply Ok; lia|]. eapply Mono; [|apply IH]; lia. }
    destruct (Byte.eqb c "{").
    { destruct (max_nesting <=? depth); [apply Syn|]. destruct (skip_ws t) as [|x t'] eqn:Sk'; [apply Syn|]. apply skip_len in Sk'.
      destruct (Byte.eqb x "}"); [apply Ok; lia|]. eapply Mono; [|apply IH]; lia. }
    destruct (Byte.eqb c """").
    { pose proof (string_fuel (S (length t)) t ltac:(lia)). destruct (json_string _ t) as [[r u]| |] eqn:J; [|split; discriminate|congruence].
      apply string_sound in J as (b & -> & _). apply Ok. rewrite app_length in Sk. cbn [length] in *. lia. }
    assert (Sk1 : forall n, (n <> 0)%nat -> (length (skipn n (c :: t)) < length s)%nat) by (intros n K; rewrite skipn_length; cbn [length]; lia).
    destruct (has_prefix _ _); [apply Ok, Sk1; lia|]. destruct (has_prefix _ _); [apply Ok, Sk1; lia|]. destruct (has_prefix _ _); [apply Ok, Sk1; lia|].
    destruct (json_number_text (c :: t)) as [[txt u]|] eqn:N; [|apply Syn]. destruct (parse_float txt); [|apply Syn]. apply Ok.
    pose proof (number_sound _ _ _ N) as [E Nt]. apply (f_equal (@length byte)) in E. rewrite app_length in E. cbn [length] in E.
    apply number_complete, number_head in Nt as (? & ? & -> & _). cbn [length] in E. lia.
  - intros acc L. cbn [json_elems]. destruct (IH depth s) as [V _]. destruct (V ltac:(lia)) as [V1 V2].
    destruct (json_value fuel depth s) as [[v u]| |]; [|split; discriminate|congruence]. specialize (V2 v u eq_refl).
    destruct (skip_ws u) as [|c t] eqn:Sk; [apply Syn|]. apply skip_len in Sk. destruct (Byte.eqb c ","); [eapply Mono; [|apply IH]; lia|].
    destruct (Byte.eqb c "]"); [apply Ok; lia|apply Syn].
  - intros L. cbn [json_members]. destruct (skip_ws s) as [|c t] eqn:Sk; [apply Syn|]. apply skip_len in Sk. destruct (Byte.eqb c """"); [|apply Syn].
    pose proof (string_fuel (S (length t)) t ltac:(lia)). destruct (json_string _ t) as [[r u]| |] eqn:J; [|split; discriminate|congruence].
    apply string_sound in J as (b & -> & _). rewrite app_length in Sk. cbn [length] in Sk.
    destruct (skip_ws u) as [|c1 t1] eqn:Sk1; [apply Syn|]. apply skip_len in Sk1. destruct (Byte.eqb c1 ":"); [|apply Syn].
    destruct (IH depth t1) as [V _]. destruct (V ltac:(lia)) as [V1 V2]. destruct (json_value fuel depth t1) as [[v u2]| |]; [|split; discriminate|congruence]. specialize (V2 v u2 eq_refl).
    destruct (skip_ws u2) as [|c2 t2] eqn:Sk2; [apply Syn|]. apply skip_len in Sk2. destruct (Byte.eqb c2 ","); [eapply Mono; [|apply IH]; lia|].
    destruct (Byte.eqb c2 "}"); [apply Ok; lia|apply Syn].
Qed.
Lemma fuel_enough s : json_value (json_fuel s) 0 s <> PFuel /\ forall j rest, json_value (json_fuel s) 0 s = POk (j, rest) -> (length rest < length s)%nat.
Proof. destruct (value_fuel (json_fuel s) 0 s) as [V _]. apply V. unfold json_fuel. lia. Qed.
Lemma convert_item_fuel j : convert_item j <> PFuel.
Proof.
  induction j as [| | | |l IH|] using json_ind'; try discriminate. destruct l as [|j0 l]; [discriminate|]. destruct j0; try discriminate. rewrite convert_call.
  enough (forall i, conv_items i l <> PFuel) as K by (specialize (K 1); destruct (conv_items 1 l); congruence).
  inversion IH as [|? ? _ IHl]; subst. clear IH. induction IHl as [|x l Hx _ IHl]; intros i; [discriminate|]. cbn [conv_items]. fold conv_items.
  destruct (convert_item x); [|discriminate|congruence]. specialize (IHl (i + 1)). destruct (conv_items (i + 1) l); cbn; congruence.
Qed.
Lemma convert_value_fuel j : convert_value j <> PFuel.
Proof. destruct j; try discriminate. apply convert_item_fuel. Qed.
Lemma script_fuel s : parse_json_string s <> PFuel.
Proof.
  unfold parse_json_string, json_decode. destruct (fuel_enough s) as [F _]. destruct (json_value (json_fuel s) 0 s) as [[j rest]| |]; [|discriminate|congruence].
  destruct (skip_ws rest); [|destruct j; discriminate]. destruct j; try discriminate. generalize 0. induction l as [|x l IH]; intros i; [discriminate|].
  cbn [convert_program]. destruct (validate x true); [discriminate|]. pose proof (convert_value_fuel x). destruct (convert_value x); cbn [pbind]; [|discriminate|congruence].
  specialize (IH ltac:(discriminate) (i + 1)). destruct (convert_program (i + 1) l); cbn; congruence.
Qed.
Lemma loop_fuel fuel : forall s, (length s < fuel)%nat -> json_loop fuel s <> PFuel.
Proof.
  induction fuel as [|fuel IH]; intros s L; [lia|]. cbn [json_loop]. destruct (skip_ws s) as [|c t] eqn:Sk; [discriminate|]. apply skip_len in Sk.
  destruct (fuel_enough (c :: t)) as [F R]. destruct (json_value (json_fuel (c :: t)) 0 (c :: t)) as [[j rest]| |]; [|discriminate|congruence].
  specialize (R j rest eq_refl). cbn [length] in R. specialize (IH rest ltac:(lia)). pose proof (convert_value_fuel j). destruct (convert_value j); cbn [pbind]; [|discriminate|congruence].
  destruct (json_loop fuel rest); cbn; congruence.
Qed.
Lemma reader_fuel s : parse_json_reader s <> PFuel.
Proof. apply loop_fuel. lia. Qed.
