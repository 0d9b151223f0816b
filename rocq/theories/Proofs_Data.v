(** The JSON decoder and the grammar of SpecData *)
From Coq Require Import ZArith NArith List Bool Lia Strings.Byte.
From Verif Require Import Base Float Ext Utf8 Strconv Values Parser Json SpecJson SpecData Proofs_Base Proofs_Utf8 Proofs_Number Proofs_Token Proofs_Json Proofs_JsonBack Proofs_Grammar.
Import ListNotations.
Open Scope Z_scope.

Scheme json_data_ind2 := Minimality for json_data Sort Prop with json_items_ind2 := Minimality for json_items Sort Prop with json_pairs_ind2 := Minimality for json_pairs Sort Prop.
Combined Scheme json_data_all from json_data_ind2, json_items_ind2, json_pairs_ind2.

Lemma number_text_head c u : number_text (c :: u) -> c = "-"%byte \/ is_digit c = true.
Proof. intros N. apply number_complete, number_head in N as (c' & t & E & H). injection E as -> ->. exact H. Qed.
Ltac no_number := let N := fresh in intros N; apply number_text_head in N; destruct N as [N|N]; discriminate N.

(** ** Soundness *)
Lemma data_sound fuel : forall depth s,
  (forall j rest, json_value fuel depth s = POk (j, rest) -> exists w t, white w /\ s = w ++ t ++ rest /\ json_data (max_nesting - depth) t j /\ (number_text t -> number_ends t rest)) /\
  (forall acc j rest, json_elems fuel depth acc s = POk (j, rest) -> exists items l, j = JArr (rev acc ++ l) /\
     s = items ++ "]"%byte :: rest /\ json_items (max_nesting - depth) items l) /\
  (forall j rest, json_members fuel depth s = POk (j, rest) -> j = JObj /\ exists t, s = t ++ "}"%byte :: rest /\ json_pairs (max_nesting - depth) t).
Proof.
  induction fuel as [|fuel IH]; intros depth s; [split; [|split]; discriminate|]. split; [|split].
  - intros j rest. cbn [json_value]. destruct (skip_ws s) as [|c t] eqn:Sk; [discriminate|]. apply skip_shape in Sk as (w & B & ->).
    set (r := if Byte.eqb c "[" then _ else _). enough (K : r = POk (j, rest) -> exists u, c :: t = u ++ rest /\ json_data (max_nesting - depth) u j /\ (number_text u -> number_ends u rest)).
    { intros H. destruct (K H) as (u & E & J). exists w, u. rewrite E. auto. }
    subst r. destruct (Byte.eqb c "[") eqn:Q1.
    { apply byte_eqb_eq in Q1 as ->. destruct (max_nesting <=? depth) eqn:D; [discriminate|].
      destruct (skip_ws t) as [|x t'] eqn:Sk; [discriminate|]. destruct (Byte.eqb x "]") eqn:Q2.
      - intros H. injection H as <- <-. apply byte_eqb_eq in Q2 as ->. apply skip_shape in Sk as (w' & B' & ->).
        exists ("["%byte :: w' ++ ["]"%byte]). split; [cbn [app]; now rewrite <- app_assoc|]. split; [apply jd_no_items; [lia|auto]|no_number].
      - intros H. destruct (IH (depth + 1) t) as (_ & E & _). apply E in H as (items & l & -> & -> & J).
        exists ("["%byte :: items ++ ["]"%byte]). split; [cbn [app]; now rewrite <- app_assoc|]. split; [|no_number]. apply jd_array; [lia|].
        now replace (max_nesting - depth - 1) with (max_nesting - (depth + 1)) by lia. }
    destruct (Byte.eqb c "{") eqn:Q2.
    { apply byte_eqb_eq in Q2 as ->. destruct (max_nesting <=? depth) eqn:D; [discriminate|]. destruct (skip_ws t) as [|x t'] eqn:Sk; [discriminate|].
      destruct (Byte.eqb x "}") eqn:Q3.
      - apply byte_eqb_eq in Q3 as ->. intros H. injection H as <- <-. apply skip_shape in Sk as (w' & B' & ->).
        exists ("{"%byte :: w' ++ ["}"%byte]). split; [cbn [app]; now rewrite <- app_assoc|]. split; [apply jd_no_members; [lia|auto]|no_number].
      - intros H. destruct (IH (depth + 1) t) as (_ & _ & E). apply E in H as (-> & u & -> & J). exists ("{"%byte :: u ++ ["}"%byte]).
        split; [cbn [app]; now rewrite <- app_assoc|]. split; [|no_number]. apply jd_object; [lia|].
        now replace (max_nesting - depth - 1) with (max_nesting - (depth + 1)) by lia. }
    destruct (Byte.eqb c """") eqn:Q3.
    { apply byte_eqb_eq in Q3 as ->. destruct (json_string _ t) as [[r u]| |] eqn:J; try discriminate. intros H. injection H as <- <-.
      apply string_sound in J as (b & -> & J). exists (dquote :: b ++ [dquote]). split; [cbn [app]; now rewrite <- app_assoc|]. split; [now apply jd_string|no_number]. }
    destruct (has_prefix (c :: t) (bs "null")) eqn:P1.
    { intros H. injection H as <- <-. apply has_prefix_split in P1. exists (bs "null"). split; [exact P1|]. split; [constructor|no_number]. }
    destruct (has_prefix (c :: t) (bs "true")) eqn:P2.
    { intros H. injection H as <- <-. apply has_prefix_split in P2. exists (bs "true"). split; [exact P2|]. split; [constructor|no_number]. }
    destruct (has_prefix (c :: t) (bs "false")) eqn:P3.
    { intros H. injection H as <- <-. apply has_prefix_split in P3. exists (bs "false"). split; [exact P3|]. split; [constructor|no_number]. }
    destruct (json_number_text (c :: t)) as [[txt u]|] eqn:N; [|discriminate].
    destruct (parse_float txt) as [f|] eqn:P; [|discriminate]. intros H. injection H as <- <-. pose proof (number_sound _ _ _ N) as [E Nt].
    exists txt. split; [exact E|]. split; [now apply jd_number|]. intros _. rewrite E in N. now apply number_ends_iff.
  - intros acc j rest. cbn [json_elems]. destruct (json_value fuel depth s) as [[v u]| |] eqn:J; try discriminate.
    destruct (IH depth s) as (V & _). apply V in J as (w & t & B & -> & J & _).
    destruct (skip_ws u) as [|c u'] eqn:Sk; [discriminate|]. apply skip_shape in Sk as (w2 & B2 & ->). destruct (Byte.eqb c ",") eqn:Q.
    + apply byte_eqb_eq in Q as ->. intros H. destruct (IH depth u') as (_ & E & _). apply E in H as (items & l & -> & -> & H).
      exists (w ++ t ++ w2 ++ ","%byte :: items), (v :: l). split; [cbn [rev]; now rewrite <- app_assoc|].
      split; [repeat (rewrite <- app_assoc || cbn [app]); reflexivity|]. now apply ji_more.
    + destruct (Byte.eqb c "]") eqn:Q2; [|discriminate]. apply byte_eqb_eq in Q2 as ->. intros H. injection H as <- <-.
      exists (w ++ t ++ w2), [v]. split; [reflexivity|]. split; [now rewrite <- !app_assoc|]. now apply ji_one.
  - intros j rest. cbn [json_members]. destruct (skip_ws s) as [|c t] eqn:Sk; [discriminate|]. apply skip_shape in Sk as (w & B & ->).
    destruct (Byte.eqb c """") eqn:Q; [|discriminate]. apply byte_eqb_eq in Q as ->. destruct (json_string _ t) as [[r u]| |] eqn:J; try discriminate.
    apply string_sound in J as (b & -> & Bd).
    destruct (skip_ws u) as [|c1 t1] eqn:Sk; [discriminate|]. apply skip_shape in Sk as (w1 & B1 & ->). destruct (Byte.eqb c1 ":") eqn:Q; [|discriminate]. apply byte_eqb_eq in Q as ->.
    destruct (json_value fuel depth t1) as [[v u2]| |] eqn:J; try discriminate. destruct (IH depth t1) as (V & _). apply V in J as (w2 & t2 & B2 & -> & J & _).
    destruct (skip_ws u2) as [|c2 u3] eqn:Sk; [discriminate|]. apply skip_shape in Sk as (w3 & B3 & ->).
    destruct (Byte.eqb c2 ",") eqn:Q.
    + apply byte_eqb_eq in Q as ->. intros H. destruct (IH depth u3) as (_ & _ & E). apply E in H as (-> & x & -> & X). split; [reflexivity|].
      exists (w ++ dquote :: b ++ dquote :: w1 ++ ":"%byte :: w2 ++ t2 ++ w3 ++ ","%byte :: x). split; [repeat (rewrite <- app_assoc || cbn [app]); reflexivity|]. eapply jp_more; eauto.
    + destruct (Byte.eqb c2 "}") eqn:Q2; [|discriminate]. apply byte_eqb_eq in Q2 as ->. intros H. injection H as <- <-. split; [reflexivity|].
      exists (w ++ dquote :: b ++ dquote :: w1 ++ ":"%byte :: w2 ++ t2 ++ w3). split; [repeat (rewrite <- app_assoc || cbn [app]); reflexivity|]. eapply jp_one; eauto.
Qed.

(** ** Completeness *)
Definition begins (t : str) : Prop := exists c u, t = c :: u /\ json_ws c = false /\ c <> "]"%byte /\ c <> "}"%byte.
Lemma skip_begins t rest : begins t -> skip_ws (t ++ rest) = t ++ rest.
Proof. intros (c & u & -> & W & _). cbn. now rewrite W. Qed.
Definition ends (rest : str) : Prop := match rest with [] => True | c :: _ => json_ws c = true \/ In c [","%byte; "]"%byte; "}"%byte] end.
Lemma ends_stop rest : ends rest -> stops rest.
Proof. destruct rest as [|c t]; [auto|]. intros [H|[<-|[<-|[<-|[]]]]]; [destruct c; try discriminate H|..]; cbn; repeat split; discriminate. Qed.
Lemma ends_blanks w rest : white w -> ends rest -> ends (w ++ rest).
Proof. intros [|c w' H _] A; [exact A|]. left. now apply ws_in. Qed.
Lemma ends_number t rest : ends rest -> number_text t -> json_number_text (t ++ rest) = Some (t, rest).
Proof. intros A N. now destruct (number_ext _ _ rest (number_complete t N) (ends_stop _ A)). Qed.
Definition dreads (d : Z) (t : str) (j : json) : Prop := begins t /\ forall fuel depth rest, (length t < fuel)%nat -> d <= max_nesting - depth ->
  (number_text t -> json_number_text (t ++ rest) = Some (t, rest)) -> json_value fuel depth (t ++ rest) = POk (j, rest).
Definition ireads (d : Z) (items : str) (l : list json) : Prop := (exists w t t', white w /\ begins t /\ items = w ++ t ++ t') /\
  forall fuel depth acc rest, (length items + 1 < fuel)%nat -> d <= max_nesting - depth -> json_elems fuel depth acc (items ++ "]"%byte :: rest) = POk (JArr (rev acc ++ l), rest).
Definition preads (d : Z) (items : str) : Prop := (exists w t t', white w /\ begins t /\ items = w ++ t ++ t') /\
  forall fuel depth rest, (length items + 1 < fuel)%nat -> d <= max_nesting - depth -> json_members fuel depth (items ++ "}"%byte :: rest) = POk (JObj, rest).
Lemma begins_quote t : begins (dquote :: t).
Proof. exists dquote, t. repeat split; discriminate. Qed.
Lemma data_reads : (forall d t j, json_data d t j -> dreads d t j) /\ (forall d t l, json_items d t l -> ireads d t l) /\ (forall d t, json_pairs d t -> preads d t).
Proof.
  apply json_data_all.
  - intros d. split; [exists "n"%byte; eexists; repeat split; discriminate|]. intros [|fuel] depth rest L _ _; [lia|]. destruct rest; reflexivity.
  - intros d. split; [exists "t"%byte; eexists; repeat split; discriminate|]. intros [|fuel] depth rest L _ _; [lia|]. destruct rest; reflexivity.
  - intros d. split; [exists "f"%byte; eexists; repeat split; discriminate|]. intros [|fuel] depth rest L _ _; [lia|]. destruct rest; reflexivity.
  - intros d t f N P. split.
    + destruct (number_head _ _ _ (number_complete t N)) as (c & u & -> & H). exists c, u. split; [reflexivity|]. destruct H as [->|H]; [repeat split; discriminate|destruct c; try discriminate H; repeat split; discriminate].
    + intros [|fuel] depth rest L _ A; [lia|]. now apply vreads_num_at; auto.
  - intros d t s B. split; [apply begins_quote|]. intros [|fuel] depth rest L _ _; [lia|].
    cbn [app]. rewrite <- app_assoc. cbn [app json_value skip_ws]. change (json_ws dquote) with false.
    change (Byte.eqb dquote "[") with false. change (Byte.eqb dquote "{") with false. change (Byte.eqb dquote """") with true. cbv iota.
    rewrite (string_complete t s B); [reflexivity|]. rewrite app_length. lia.
  - intros d w D B. split; [exists "["%byte; eexists; repeat split; discriminate|]. intros [|fuel] depth rest L Dp _; [lia|].
    cbn [app]. rewrite <- app_assoc. cbn [app json_value skip_ws].
    change (json_ws "[") with false. change (Byte.eqb "[" "[") with true. cbv iota. replace (max_nesting <=? depth) with false by lia.
    rewrite skip_white by auto. reflexivity.
  - intros d t l D _ [(w & u & u' & B & (c & x & -> & Bc & C1 & C2) & ->) T]. split; [exists "["%byte; eexists; repeat split; discriminate|]. intros [|fuel] depth rest L Dp _; [lia|].
    cbn [length] in L. rewrite app_length in L. cbn [length] in L.
    assert (Sk : skip_ws ((w ++ (c :: x) ++ u') ++ "]"%byte :: rest) = c :: x ++ u' ++ "]"%byte :: rest) by (rewrite <- !app_assoc, skip_white by auto; cbn [app skip_ws]; now rewrite Bc).
    specialize (T fuel (depth + 1)). set (M := w ++ (c :: x) ++ u') in *. change (("["%byte :: M ++ ["]"%byte]) ++ rest) with ("["%byte :: (M ++ ["]"%byte]) ++ rest). rewrite <- app_assoc. cbn [app json_value skip_ws].
    change (json_ws "[") with false. change (Byte.eqb "[" "[") with true. cbv iota. replace (max_nesting <=? depth) with false by lia.
    rewrite Sk. replace (Byte.eqb c "]") with false by (symmetry; now apply byte_eqb_neq).
    rewrite T; [reflexivity|lia|lia].
  - intros d w D B. split; [exists "{"%byte; eexists; repeat split; discriminate|]. intros [|fuel] depth rest L Dp _; [lia|].
    cbn [app]. rewrite <- app_assoc. cbn [app json_value skip_ws].
    change (json_ws "{") with false. change (Byte.eqb "{" "[") with false. change (Byte.eqb "{" "{") with true. cbv iota. replace (max_nesting <=? depth) with false by lia.
    rewrite skip_white by auto. reflexivity.
  - intros d t D _ [(w & u & u' & B & (c & x & -> & Bc & C1 & C2) & ->) T]. split; [exists "{"%byte; eexists; repeat split; discriminate|]. intros [|fuel] depth rest L Dp _; [lia|].
    cbn [length] in L. rewrite app_length in L. cbn [length] in L.
    assert (Sk : skip_ws ((w ++ (c :: x) ++ u') ++ "}"%byte :: rest) = c :: x ++ u' ++ "}"%byte :: rest) by (rewrite <- !app_assoc, skip_white by auto; cbn [app skip_ws]; now rewrite Bc).
    specialize (T fuel (depth + 1)). set (M := w ++ (c :: x) ++ u') in *. change (("{"%byte :: M ++ ["}"%byte]) ++ rest) with ("{"%byte :: (M ++ ["}"%byte]) ++ rest). rewrite <- app_assoc. cbn [app json_value skip_ws].
    change (json_ws "{") with false. change (Byte.eqb "{" "[") with false. change (Byte.eqb "{" "{") with true. cbv iota. replace (max_nesting <=? depth) with false by lia.
    rewrite Sk. replace (Byte.eqb c "}") with false by (symmetry; now apply byte_eqb_neq).
    rewrite T; [reflexivity|lia|lia].
  - intros d w1 t w2 j B1 _ [S V] B2. split; [exists w1, t, w2; auto|]. intros [|fuel] depth acc rest L Dp; [lia|]. cbn [json_elems]. rewrite !app_length in L.
    rewrite <- !app_assoc, value_blanks by auto. rewrite V; [|lia|lia|].
    + rewrite skip_white by auto. cbn [rev]. reflexivity.
    + apply ends_number. apply ends_blanks; [auto|]. cbn. auto.
  - intros d w1 t w2 items j l B1 _ [S V] B2 _ [_ T]. split; [exists w1, t, (w2 ++ ","%byte :: items); auto|]. intros [|fuel] depth acc rest L Dp; [lia|]. cbn [json_elems].
    rewrite !app_length in L. cbn [length] in L. rewrite <- !app_assoc, value_blanks by auto. cbn [app]. rewrite V; [|lia|lia|].
    + rewrite skip_white by auto. cbn [skip_ws]. change (json_ws ",") with false. cbv iota. change (Byte.eqb "," ",") with true. cbv iota.
      rewrite T; [|lia|lia]. cbn [rev]. now rewrite <- app_assoc.
    + apply ends_number. apply ends_blanks; [auto|]. cbn. auto.
  - intros d w1 k n w2 w3 t w4 j B1 Bd B2 B3 _ [S V] B4. split; [exists w1, (dquote :: k ++ dquote :: w2 ++ ":"%byte :: w3 ++ t ++ w4), []; rewrite app_nil_r; repeat split; auto; apply begins_quote|].
    intros [|fuel] depth rest L Dp; [lia|]. cbn [json_members]. repeat (rewrite app_length in L || cbn [length] in L).
    rewrite <- app_assoc, skip_white by auto. cbn [app skip_ws]. change (json_ws dquote) with false. cbv iota. change (Byte.eqb dquote """") with true. cbv iota.
    rewrite <- app_assoc. cbn [app]. rewrite (string_complete k n Bd) by (rewrite app_length; lia).
    rewrite <- app_assoc, skip_white by auto. cbn [app skip_ws]. change (json_ws ":") with false. cbv iota. change (Byte.eqb ":" ":") with true. cbv iota.
    rewrite <- app_assoc, value_blanks by auto. rewrite <- app_assoc, V; [|lia|lia|].
    + rewrite skip_white by auto. reflexivity.
    + apply ends_number. apply ends_blanks; [auto|]. cbn. auto.
  - intros d w1 k n w2 w3 t w4 j items B1 Bd B2 B3 _ [S V] B4 _ [_ T]. split; [eexists w1, (dquote :: k ++ dquote :: w2 ++ ":"%byte :: w3 ++ t ++ w4 ++ ","%byte :: items), []; rewrite app_nil_r; repeat split; auto; apply begins_quote|].
    intros [|fuel] depth rest L Dp; [lia|]. cbn [json_members]. repeat (rewrite app_length in L || cbn [length] in L).
    rewrite <- app_assoc, skip_white by auto. cbn [app skip_ws]. change (json_ws dquote) with false. cbv iota. change (Byte.eqb dquote """") with true. cbv iota.
    rewrite <- app_assoc. cbn [app]. rewrite (string_complete k n Bd) by (rewrite app_length; lia).
    rewrite <- app_assoc, skip_white by auto. cbn [app skip_ws]. change (json_ws ":") with false. cbv iota. change (Byte.eqb ":" ":") with true. cbv iota.
    rewrite <- app_assoc, value_blanks by auto. rewrite <- app_assoc, V; [|lia|lia|].
    + rewrite <- app_assoc, skip_white by auto. cbn [app skip_ws]. change (json_ws ",") with false. cbv iota. change (Byte.eqb "," ",") with true. cbv iota. apply T; lia.
    + apply ends_number. rewrite <- app_assoc. apply ends_blanks; [auto|]. cbn. auto.
Qed.

(** ** Texts *)
Lemma first_iff t rest j : begins (t ++ rest) -> (json_value (json_fuel (t ++ rest)) 0 (t ++ rest) = POk (j, rest) <-> json_first t rest j).
Proof.
  intros Bg. split.
  - intros H. destruct (data_sound (json_fuel (t ++ rest)) 0 (t ++ rest)) as (V & _). apply V in H as (w & u & B & E & J & N).
    destruct Bg as (c & x & Ec & Wc & _). destruct w as [|y w].
    + cbn [app] in E. apply app_inv_tail in E. subst u. split; [exact J|exact N].
    + rewrite Ec in E. injection E as -> _. inversion B as [|? ? H _]; subst. apply ws_in in H. congruence.
  - intros [J N]. destruct data_reads as (R & _). destruct (R _ _ _ J) as [_ V]. apply V; [unfold json_fuel; rewrite app_length; lia|unfold max_nesting; lia|].
    intros X. apply number_ends_iff; auto.
Qed.
Lemma decode_iff s j : json_decode s = POk j <-> is_json s j.
Proof.
  unfold json_decode, is_json. split.
  - destruct (json_value (json_fuel s) 0 s) as [[j' rest]| |] eqn:J; try discriminate. destruct (data_sound (json_fuel s) 0 s) as (V & _). apply V in J as (w & t & B & E & J & _).
    destruct (skip_ws rest) as [|? ?] eqn:Sk; [|discriminate]. apply skip_empty in Sk. intros H. injection H as <-. exists w, t, rest. auto.
  - intros (w1 & t & w2 & B1 & B2 & -> & J). rewrite value_blanks by auto. destruct data_reads as (R & _). destruct (R _ _ _ J) as [_ V].
    rewrite V; [now rewrite blanks_skip|unfold json_fuel; rewrite !app_length; lia|unfold max_nesting; lia|]. apply ends_number. rewrite <- (app_nil_r w2). apply ends_blanks; cbn; auto.
Qed.
Lemma syntax_only : (forall fuel s e, json_string fuel s = PErr e -> e = bs "JSON syntax error") /\
  forall fuel depth s, (forall e, json_value fuel depth s = PErr e -> e = bs "JSON syntax error") /\
    (forall acc e, json_elems fuel depth acc s = PErr e -> e = bs "JSON syntax error") /\ (forall e, json_members fuel depth s = PErr e -> e = bs "JSON syntax error").
Proof.
  assert (St : forall fuel s e, json_string fuel s = PErr e -> e = bs "JSON syntax error").
  { induction fuel as [|fuel IH]; intros s e; cbn [json_string]; [discriminate|]. destruct s as [|c t]; [intros H; now injection H as <-|].
    assert (Em : forall (out : str) u, match json_string fuel u with POk (x, rest') => POk (out ++ x, rest') | PErr e => PErr e | PFuel => PFuel end = PErr e -> e = bs "JSON syntax error").
    { intros out u. specialize (IH u). destruct (json_string fuel u) as [[x r]| e'|]; try discriminate. intros H. injection H as <-. now apply IH. }
    cbv zeta. destruct (Byte.eqb c """"); [discriminate|]. destruct (byteN c <? 32)%N; [intros H; now injection H as <-|].
    destruct (128 <=? byteN c)%N; [destruct (decode_one (c :: t)); apply Em|]. destruct (negb _); [apply Em|]. destruct t as [|x u]; [intros H; now injection H as <-|].
    repeat match goal with |- context [if Byte.eqb x ?y then match json_string _ _ with _ => _ end else _] => destruct (Byte.eqb x y); [apply Em|] end.
    destruct (Byte.eqb x "u"); [|intros H; now injection H as <-]. destruct (read_hex 4 0 u) as [[r1 u1]|]; [|intros H; now injection H as <-].
    destruct (is_surrogate r1); [|apply Em]. destruct u1 as [|b0 [|b1 u2]]; try apply Em. destruct (_ && _); [|apply Em].
    destruct (read_hex 4 0 u2) as [[r2 u3]|]; [|apply Em]. destruct (utf16_decode r1 r2); apply Em. }
  split; [exact St|]. assert (Sx : forall A e, @json_syntax A = PErr e -> e = bs "JSON syntax error") by (intros A e H; now injection H as <-).
  induction fuel as [|fuel IH]; intros depth s; [split; [|split]; discriminate|]. split; [|split].
  - intros e. cbn [json_value]. destruct (skip_ws s) as [|c t]; [apply Sx|]. destruct (Byte.eqb c "[").
    { destruct (max_nesting <=? depth); [apply Sx|]. destruct (skip_ws t) as [|x t']; [apply Sx|]. destruct (Byte.eqb x "]"); [discriminate|]. apply IH. }
    destruct (Byte.eqb c "{").
    { destruct (max_nesting <=? depth); [apply Sx|]. destruct (skip_ws t) as [|x t']; [apply Sx|]. destruct (Byte.eqb x "}"); [discriminate|]. apply IH. }
    destruct (Byte.eqb c """"). { destruct (json_string _ t) as [[r u]|e'|] eqn:J; try discriminate. intros H. injection H as <-. now apply St in J. }
    destruct (has_prefix _ _); [discriminate|]. destruct (has_prefix _ _); [discriminate|]. destruct (has_prefix _ _); [discriminate|].
    destruct (json_number_text (c :: t)) as [[txt u]|]; [|apply Sx]. destruct (parse_float txt); [discriminate|apply Sx].
  - intros acc e. cbn [json_elems]. destruct (json_value fuel depth s) as [[v u]|e'|] eqn:J; [|intros H; injection H as <-; now apply IH in J|discriminate].
    destruct (skip_ws u) as [|c t]; [apply Sx|]. destruct (Byte.eqb c ","); [apply IH|]. destruct (Byte.eqb c "]"); [discriminate|apply Sx].
  - intros e. cbn [json_members]. destruct (skip_ws s) as [|c t]; [apply Sx|]. destruct (Byte.eqb c """"); [|apply Sx].
    destruct (json_string _ t) as [[r u]|e'|] eqn:J; [|intros H; injection H as <-; now apply St in J|discriminate].
    destruct (skip_ws u) as [|c1 t1]; [apply Sx|]. destruct (Byte.eqb c1 ":"); [|apply Sx].
    destruct (json_value fuel depth t1) as [[v u2]|e'|] eqn:J'; [|intros H; injection H as <-; now apply IH in J'|discriminate].
    destruct (skip_ws u2) as [|c2 t2]; [apply Sx|]. destruct (Byte.eqb c2 ","); [apply IH|]. destruct (Byte.eqb c2 "}"); [discriminate|apply Sx].
Qed.
Lemma decode_error s e : json_decode s = PErr e <-> (forall j, ~ is_json s j) /\ e = bs "JSON syntax error".
Proof.
  split.
  - intros H. split; [intros j J; apply decode_iff in J; congruence|]. unfold json_decode in H. destruct (json_value (json_fuel s) 0 s) as [[j rest]|e'|] eqn:J; [|injection H as <-; now apply (proj2 syntax_only) in J|discriminate].
    destruct (skip_ws rest); [discriminate|]. now injection H as <-.
  - intros [N ->]. destruct (json_decode s) as [j|e|] eqn:D.
    + apply decode_iff in D. now apply N in D.
    + unfold json_decode in D. destruct (json_value (json_fuel s) 0 s) as [[j rest]|e'|] eqn:J; [|injection D as <-; apply (proj2 syntax_only) in J; now subst|discriminate].
      destruct (skip_ws rest); [discriminate|]. injection D as <-. reflexivity.
    + unfold json_decode in D. destruct (fuel_enough s) as [F _]. destruct (json_value (json_fuel s) 0 s) as [[j rest]|e'|]; [|discriminate|congruence]. destruct (skip_ws rest); discriminate.
Qed.
