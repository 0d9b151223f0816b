(** Lemmas for C79: names in messages, expressions, programs. *)
From Coq Require Import ZArith NArith QArith List Bool Lia Strings.Byte ZifyBool ZifyN ZifyNat.
From Verif Require Import Proofs_Round.
From Verif Require Import Base Float Ext Utf8 Strconv Values Buffer Builtins Eval Parser Spec SpecText SpecNumber SpecJson SpecLines SpecManual SpecMeaning
  Proofs_Base Proofs_Exec Proofs_Effects Proofs_Utf8 Proofs_Token Proofs_Json Proofs_Grammar Proofs_Words Prop_Calls Prop_Eval Proofs_Manual4 Proofs_Manual5 Proofs_Manual6 Prop_Manual.
Import ListNotations.
Open Scope Z_scope.

(** ** Names in messages *)
Lemma hex_small c d : hex_value c d -> (d < 16)%N.
Proof.
  intros H. assert (L : (N.to_nat d < 16)%nat); [|lia].
  destruct H as [H|H]; [apply (nth_error_Some (bs "0123456789abcdef"))|apply (nth_error_Some (bs "0123456789ABCDEF"))]; rewrite H; discriminate.
Qed.
Lemma small_digit c d : hex_value c d -> In c (bs "0123456789abcdef") -> c = hex_digit d.
Proof.
  intros H I. pose proof (hex_small c d H) as L. destruct H as [H|H]; rewrite <- (N2Nat.id d); revert H; generalize (N.to_nat d) as k; intros k H.
  - do 16 (destruct k as [|k]; [injection H as <-; reflexivity|]). destruct k; discriminate.
  - do 16 (destruct k as [|k]; [injection H as <-; first [reflexivity|exfalso; revert I; cbn; clear; intuition discriminate]|]). destruct k; discriminate.
Qed.
Lemma small_hex_digits k : forall h n, small_hex k h n -> h = hex_digits k n.
Proof.
  induction k as [|k IH]; intros h n (H & L & F).
  - destruct h; [reflexivity|discriminate].
  - destruct H as [|h n c d H V]; [discriminate|]. rewrite app_length in L. cbn [length] in L. apply Forall_app in F as [F1 F2].
    inversion F2 as [|? ? I _]; subst. pose proof (hex_small c d V) as D. cbn [hex_digits].
    replace ((16 * n + d) / 16)%N with n by (apply (N.div_unique _ _ _ d); lia).
    replace ((16 * n + d) mod 16)%N with d by (apply (N.mod_unique _ _ n); lia).
    rewrite <- (IH h n) by (split; [auto|split; [lia|auto]]). now rewrite <- (small_digit c d V I).
Qed.
Lemma digit_small d : (d < 16)%N -> hex_value (hex_digit d) d /\ In (hex_digit d) (bs "0123456789abcdef").
Proof.
  intros L. assert (K : exists k, d = N.of_nat k /\ (k < 16)%nat) by (exists (N.to_nat d); lia). destruct K as (k & -> & K).
  do 16 (destruct k as [|k]; [split; [left; reflexivity|cbn; tauto]|]). lia.
Qed.
Lemma digits_small k : forall n, (n < 16 ^ N.of_nat k)%N -> small_hex k (hex_digits k n) n.
Proof.
  induction k as [|k IH]; intros n L.
  - change (16 ^ N.of_nat 0)%N with 1%N in L. replace n with 0%N by lia. split; [constructor|split; [reflexivity|constructor]].
  - rewrite Nnat.Nat2N.inj_succ, N.pow_succ_r' in L. cbn [hex_digits].
    destruct (IH (n / 16)%N) as (H & Q & F); [apply N.div_lt_upper_bound; lia|].
    destruct (digit_small (n mod 16)%N) as [V I]; [apply N.mod_lt; lia|].
    split; [|split; [rewrite app_length, Q; cbn; lia|apply Forall_app; split; [auto|constructor; [exact I|constructor]]]].
    assert (X : hexs (hex_digits k (n / 16) ++ [hex_digit (n mod 16)]) (16 * (n / 16) + n mod 16)%N) by (now apply hexs_more).
    now rewrite <- N.div_mod in X by lia.
Qed.
Definition inner_quote (E : Ext) (s : str) : str := flat_map (quote_rune E) (runes s).
Lemma inner_rune E r s : valid_rune r = true -> inner_quote E (encode_rune r ++ s) = escape_rune E r (encode_rune r) ++ inner_quote E s.
Proof. intros V. unfold inner_quote. rewrite runes_encode by exact V. reflexivity. Qed.
Lemma inner_ascii E c s : (byteN c < 128)%N -> inner_quote E (c :: s) = escape_rune E (byteN c) [c] ++ inner_quote E s.
Proof.
  intros L. change (c :: s) with ([c] ++ s). rewrite <- (encode_byte c L) at 1 2. apply (inner_rune E (byteN c) s). unfold valid_rune. lia.
Qed.
Lemma no_rune_bad c s : (forall r u, valid_rune r = true -> c :: s <> encode_rune r ++ u) -> decode_rune (c :: s) = Some (rune_error, 1%nat).
Proof.
  intros N. assert (H : (128 <= byteN c)%N).
  { destruct (N.ltb_spec (byteN c) 128) as [L|L]; [|lia]. exfalso. apply (N (byteN c) s); [unfold valid_rune; lia|].
    rewrite encode_ascii by lia. rewrite byte_of_byteN. reflexivity. }
  destruct (high_decode c s H) as [(r & u & V & _ & Q)|[_ D]]; [exfalso; exact (N r u V Q)|exact D].
Qed.
Lemma bad_no_rune c s : decode_rune (c :: s) = Some (rune_error, 1%nat) -> (128 <= byteN c)%N ->
  forall r u, valid_rune r = true -> c :: s <> encode_rune r ++ u.
Proof.
  intros D H r u V Q. rewrite Q, decode_encode in D by exact V. injection D as -> L. discriminate.
Qed.
Lemma inner_bad E c s : decode_rune (c :: s) = Some (rune_error, 1%nat) -> inner_quote E (c :: s) = bs "\x" ++ hex_digits 2 (byteN c) ++ inner_quote E s.
Proof. intros D. unfold inner_quote. rewrite runes_bad by exact D. reflexivity. Qed.
Lemma print_iff E r : is_print E r = true <-> printable E r.
Proof. unfold is_print, printable. destruct (r <=? 127)%N eqn:L; (split; [intros H|intros [H|[H1 H2]]]); try lia; [right; split; [lia|exact H]|exact H2]. Qed.
Lemma print_false E r : ~ printable E r -> is_print E r = false.
Proof. rewrite <- print_iff. now destruct (is_print E r). Qed.
Lemma escaped_inner E s t : escaped E s t -> t = inner_quote E s.
Proof.
  induction 1 as [|c s t I _ IH|r s t V P N _ IH|e c s t I _ IH|c h s t L N X _ IH|r h s t V P L X _ IH|r h s t V P L X _ IH|c h s t N X _ IH]; [reflexivity|..]; subst t.
  - destruct I as [<-|[<-|[]]]; rewrite inner_ascii by reflexivity; reflexivity.
  - rewrite inner_rune by exact V. unfold escape_rune. apply print_iff in P. rewrite P.
    replace ((r =? 34) || (r =? 92))%N with false; [reflexivity|]. cbn in N. lia.
  - unfold control_letters in I. cbn [In] in I. repeat (destruct I as [I|I]; [injection I as <- <-; rewrite inner_ascii by reflexivity; reflexivity|]). destruct I.
  - apply small_hex_digits in X as ->. rewrite inner_ascii by lia. unfold escape_rune.
    assert (K : forall n, In (byte_of_N n) (map snd control_letters) -> byteN c <> n).
    { intros n I <-. apply N. now rewrite byte_of_byteN in I. }
    rewrite print_false by (unfold printable; lia).
    replace ((byteN c =? 34) || (byteN c =? 92))%N with false by lia.
    repeat match goal with |- context [(byteN c =? ?k)%N] => lazymatch k with 127%N => fail | _ =>
      replace (byteN c =? k)%N with false by (symmetry; apply N.eqb_neq; apply K; cbn; tauto) end end.
    replace ((byteN c <? 32) || (byteN c =? 127))%N with true by lia. rewrite <- app_assoc. reflexivity.
  - apply small_hex_digits in X as ->. rewrite inner_rune by exact V. unfold escape_rune. rewrite print_false by exact P.
    repeat match goal with |- context [(r =? ?k)%N] => replace (r =? k)%N with false by lia end.
    replace (r <? 32)%N with false by lia. replace (r <? 65536)%N with true by lia. cbn [orb]. rewrite <- app_assoc. reflexivity.
  - apply small_hex_digits in X as ->. rewrite inner_rune by exact V. unfold escape_rune. rewrite print_false by exact P.
    repeat match goal with |- context [(r =? ?k)%N] => replace (r =? k)%N with false by lia end.
    replace (r <? 32)%N with false by lia. replace (r <? 65536)%N with false by lia. cbn [orb]. rewrite <- app_assoc. reflexivity.
  - apply small_hex_digits in X as ->. rewrite inner_bad by (now apply no_rune_bad). reflexivity.
Qed.
Lemma inner_escaped E s : escaped E s (inner_quote E s).
Proof.
  induction s as [|r s V IH|c s H D IH] using runes_ind; [constructor|..].
  - rewrite inner_rune by exact V. unfold escape_rune.
    assert (A : (r < 128)%N -> exists c, byteN c = r /\ encode_rune r = [c]).
    { intros L. exists (byte_of_N r). split; [apply byteN_of_N; lia|now apply encode_ascii]. }
    destruct ((r =? 34) || (r =? 92))%N eqn:C1.
    { assert (X : r = 34%N \/ r = 92%N) by lia. destruct X as [-> | ->]; apply es_quote; cbn; auto. }
    destruct (is_print E r) eqn:P; [apply es_printable; [exact V|now apply print_iff|cbn; lia|exact IH]|].
    assert (NP : ~ printable E r) by (rewrite <- print_iff; congruence).
    destruct (r =? 7)%N eqn:C2; [apply N.eqb_eq in C2 as ->; apply es_letter; cbn; auto|].
    destruct (r =? 8)%N eqn:C3; [apply N.eqb_eq in C3 as ->; apply es_letter; cbn; auto|].
    destruct (r =? 12)%N eqn:C4; [apply N.eqb_eq in C4 as ->; apply es_letter; cbn; auto|].
    destruct (r =? 10)%N eqn:C5; [apply N.eqb_eq in C5 as ->; apply es_letter; cbn; auto|].
    destruct (r =? 13)%N eqn:C6; [apply N.eqb_eq in C6 as ->; apply es_letter; cbn; auto 6|].
    destruct (r =? 9)%N eqn:C7; [apply N.eqb_eq in C7 as ->; apply es_letter; cbn; auto 7|].
    destruct (r =? 11)%N eqn:C8; [apply N.eqb_eq in C8 as ->; apply es_letter; cbn; auto 8|].
    destruct ((r <? 32) || (r =? 127))%N eqn:C9.
    { destruct A as (c & <- & ->); [lia|]. rewrite <- app_assoc. apply (es_control E c (hex_digits 2 (byteN c)) s); [lia| |apply digits_small; cbn; lia|exact IH].
      intros I. cbn in I. repeat (destruct I as [<-|I]; [discriminate|]). destruct I. }
    assert (L : (128 <= r)%N) by (unfold printable in NP; lia).
    destruct (r <? 65536)%N eqn:C10; rewrite <- app_assoc.
    + apply (es_u E r (hex_digits 4 r)); [exact V|exact NP|lia|apply digits_small; change (16 ^ N.of_nat 4)%N with 65536%N; lia|exact IH].
    + apply (es_U E r (hex_digits 8 r)); [exact V|exact NP|lia|apply digits_small; change (16 ^ N.of_nat 8)%N with 4294967296%N; unfold valid, valid_rune in V; lia|exact IH].
  - rewrite inner_bad by exact D. apply (es_bad E c (hex_digits 2 (byteN c)) s); [now apply bad_no_rune|apply digits_small; pose proof (byteN_lt c); cbn; lia|exact IH].
Qed.
Lemma quoted_iff E s q : quoted E s q <-> q = quote E s.
Proof.
  split.
  - intros (t & H & ->). apply escaped_inner in H as ->. reflexivity.
  - intros ->. exists (inner_quote E s). split; [apply inner_escaped|reflexivity].
Qed.

(** ** Expressions *)
Lemma known_iff E n : known n <-> default_env E n <> None.
Proof. rewrite signatures_are_the_commands. split; intros (name & s & A & B); exists name, s; auto. Qed.
Lemma manual_known E name args b o : manual E name args b o -> exists s, In (name, s) signatures.
Proof.
  intros H. destruct H; try (eexists; apply in_signatures; reflexivity). destruct H; try (eexists; eassumption); eexists; apply in_signatures; reflexivity.
Qed.
Lemma known_call E n f args b : default_env E n = Some f -> exists name s, In (name, s) signatures /\ n = bs name /\ f args b = call E name args b.
Proof.
  intros D. assert (K : known n) by (apply (known_iff E); congruence). destruct K as (name & s & I & ->).
  exists name, s. split; auto. split; auto. unfold call. now rewrite D.
Qed.
Lemma known_some E n : known n -> exists f, default_env E n = Some f.
Proof. intros K. apply (known_iff E) in K. destruct (default_env E n); [eauto|congruence]. Qed.

Section Evaluation.
Variable E : Ext.
Hypothesis X : ext_ok E.
Lemma held_cons v vs : held [v] -> held vs -> held (v :: vs).
Proof. intros H1 H2 s [H| H]; [apply H1; now left|now apply H2]. Qed.
Lemma held_nil : held []. Proof. intros s []. Qed.

(** the state after an expression is one of the machine, and so is the value *)
Definition lands (o : outcome value) : Prop := match o with Done v b' => machine b' /\ held [v] | Fail _ b' => machine b' | Diverge => False | _ => True end.
Definition lands_all (o : outcome (list value)) : Prop := match o with Done vs b' => machine b' /\ held vs | Fail _ b' => machine b' | Diverge => False | _ => True end.
Lemma call_lands name args b : machine b -> held args -> (exists s, In (name, s) signatures) -> lands (call E name args b).
Proof.
  intros M A N. pose proof (machine_kept E name args b X M A N) as K. unfold lands. destruct (call E name args b); auto. now subst.
Qed.
Lemma eval_list_done args : Forall (fun e => holds_texts e -> forall b, machine b -> lands (eval_expr E (default_env E) e b)) args ->
  Forall holds_texts args -> forall b, machine b -> lands_all (eval_list E (default_env E) args b).
Proof.
  induction 1 as [|e es He _ IH]; intros T b M.
  - split; [exact M|apply held_nil].
  - rewrite eval_list_cons. inversion T as [|? ? T1 T2]; subst. specialize (He T1 b M). unfold bind.
    destruct (eval_expr E (default_env E) e b) as [v b1|m b1| | |]; auto. destruct He as [M1 H1].
    specialize (IH T2 b1 M1). destruct (eval_list E (default_env E) es b1) as [vs b2|m b2| | |]; auto. destruct IH as [M2 H2].
    split; auto. now apply held_cons.
Qed.
Lemma eval_lands e : holds_texts e -> forall b, machine b -> lands (eval_expr E (default_env E) e b).
Proof.
  induction e as [n|s|f|l IH] using value_ind'; intros T b M; cbn [eval_expr].
  - exact M.
  - split; auto. apply held_text. now apply (T s).
  - split; auto. intros s [Q|[]]. discriminate.
  - apply all_atoms_list in T. destruct l as [|h args]; [exact M|]. destruct h as [n|s|f|l']; try exact M.
    change (lands (eval_expr E (default_env E) (VList (VSym n :: args)) b)). rewrite eval_call.
    destruct (default_env E n) as [f|] eqn:D; [|exact M]. inversion IH as [|? ? _ IH']; subst. inversion T as [|? ? _ T']; subst.
    pose proof (eval_list_done args IH' T' b M) as L. unfold bind. destruct (eval_list E (default_env E) args b) as [vs b1|m b1| | |]; auto.
    destruct L as [M1 H1]. destruct (known_call E n f vs b1 D) as (name & s & I & -> & ->). apply call_lands; eauto.
Qed.
Lemma list_lands args : Forall holds_texts args -> forall b, machine b -> lands_all (eval_list E (default_env E) args b).
Proof. intros T. apply eval_list_done; auto. apply Forall_forall. intros e _ Te. now apply eval_lands. Qed.

(** every expression has the meaning it is evaluated to *)
Definition meant (e : value) : Prop := holds_texts e -> forall b, machine b -> means E e b (eval_expr E (default_env E) e b).
Lemma list_each args : Forall meant args -> Forall holds_texts args -> forall b, machine b ->
  (exists vs b', eval_list E (default_env E) args b = Done vs b' /\ each E args b vs b') \/
  exists front arg rest vs b' o, args = front ++ arg :: rest /\ each E front b vs b' /\ means E arg b' o /\ ~ finished o /\
    forall f, bind (eval_list E (default_env E) args) f b = o.
Proof.
  induction 1 as [|e es He _ IH]; intros T b M.
  - left. exists [], b. split; [reflexivity|constructor].
  - inversion T as [|? ? T1 T2]; subst. specialize (He T1 b M). pose proof (eval_lands e T1 b M) as L.
    assert (St : forall o, eval_expr E (default_env E) e b = o -> ~ finished o -> (forall f : list value -> buffer -> outcome value, bind (eval_list E (default_env E) (e :: es)) f b = o) -> 
      exists front arg rest vs b' o, e :: es = front ++ arg :: rest /\ each E front b vs b' /\ means E arg b' o /\ ~ finished o /\
      forall f, bind (eval_list E (default_env E) (e :: es)) f b = o).
    { intros o Q N F. exists [], e, es, [], b, o. repeat split; auto; [constructor|now rewrite <- Q]. }
    destruct (eval_expr E (default_env E) e b) as [v b1|m b1| | |] eqn:Q.
    + destruct L as [M1 H1]. destruct (IH T2 b1 M1) as [(vs & b2 & Q2 & C)|(front & arg & rest & vs & b2 & o & -> & C & Me & N & F)].
      * left. exists (v :: vs), b2. split; [|now apply each_more with b1]. rewrite eval_list_cons. unfold bind. now rewrite Q, Q2.
      * right. exists (e :: front), arg, rest, (v :: vs), b2, o. repeat split; auto; [now apply each_more with b1|].
        intros f. rewrite eval_list_cons. unfold bind in *. rewrite Q. specialize (F (fun vs' => f (v :: vs'))). revert F.
        destruct (eval_list E (default_env E) (front ++ arg :: rest) b1); auto.
    + right. apply (St (Fail m b1)); auto; [now intros (? & ? & ?)|]. intros f. rewrite eval_list_cons. unfold bind. now rewrite Q.
    + right. apply (St Panic); auto; [now intros (? & ? & ?)|]. intros f. rewrite eval_list_cons. unfold bind. now rewrite Q.
    + right. apply (St OutOfMemory); auto; [now intros (? & ? & ?)|]. intros f. rewrite eval_list_cons. unfold bind. now rewrite Q.
    + destruct L.
Qed.
Lemma list_held args b vs b' : Forall holds_texts args -> machine b -> eval_list E (default_env E) args b = Done vs b' -> machine b' /\ held vs.
Proof. intros T M Q. pose proof (list_lands args T b M) as L. now rewrite Q in L. Qed.
Lemma means_total e : meant e.
Proof.
  induction e as [n|s|f|l IH] using value_ind'; intros T b M; cbn [eval_expr]; try constructor.
  apply all_atoms_list in T. destruct l as [|h args]; [constructor|]. destruct h as [n|s|f|l']; try (constructor; discriminate).
  change (means E (VList (VSym n :: args)) b (eval_expr E (default_env E) (VList (VSym n :: args)) b)). rewrite eval_call.
  inversion IH as [|? ? _ IH']; subst. inversion T as [|? ? _ T']; subst.
  destruct (default_env E n) as [f|] eqn:D.
  - destruct (list_each args IH' T' b M) as [(vs & b1 & Q & C)|(front & arg & rest & vs & b1 & o & -> & C & Me & N & F)].
    + destruct (list_held args b vs b1 T' M Q) as [M1 H1]. unfold bind. rewrite Q.
      destruct (known_call E n f vs b1 D) as (name & s & I & -> & ->). apply mn_call with vs b1; auto. apply manual_exact; eauto.
    + rewrite F. apply mn_argument with vs b1; auto. apply (known_iff E). congruence.
  - apply mn_unknown; [rewrite (known_iff E); congruence|now apply quoted_iff].
Qed.

(** and no other *)
Scheme means_mut := Minimality for means Sort Prop with each_mut := Minimality for each Sort Prop.
Combined Scheme means_each_ind from means_mut, each_mut.
Lemma eval_list_app front arg rest b vs b' (f : list value -> M value) : eval_list E (default_env E) front b = Done vs b' ->
  ~ finished (eval_expr E (default_env E) arg b') -> bind (eval_list E (default_env E) (front ++ arg :: rest)) f b = eval_expr E (default_env E) arg b'.
Proof.
  revert b vs f. induction front as [|e es IH]; intros b vs f Q N.
  - cbn [app]. rewrite eval_list_cons. injection Q as _ ->. unfold bind. destruct (eval_expr E (default_env E) arg b'); auto. exfalso. apply N. eexists. eauto.
  - cbn [app]. rewrite eval_list_cons in *. unfold bind in *. destruct (eval_expr E (default_env E) e b) as [v b1|m b1| | |]; try discriminate.
    destruct (eval_list E (default_env E) es b1) as [ws b2|m b2| | |] eqn:Q2; try discriminate. injection Q as _ ->.
    specialize (IH b1 ws (fun l => f (v :: l)) Q2 N). revert IH. destruct (eval_list E (default_env E) (es ++ arg :: rest) b1); auto.
Qed.
Lemma means_right : (forall e b o, means E e b o -> holds_texts e -> machine b -> eval_expr E (default_env E) e b = o) /\
  (forall args b vs b', each E args b vs b' -> Forall holds_texts args -> machine b -> eval_list E (default_env E) args b = Done vs b').
Proof.
  apply means_each_ind; try reflexivity.
  - intros v l b N T M. destruct v; try reflexivity. now destruct (N name).
  - intros n q args b K Q T M. apply quoted_iff in Q as ->. rewrite eval_call. destruct (default_env E n) eqn:D; [|reflexivity].
    exfalso. apply K. apply (known_iff E). congruence.
  - intros name args vs b b' o C IH H T M. apply all_atoms_list in T. inversion T as [|? ? _ T']; subst. specialize (IH T' M).
    destruct (manual_known _ _ _ _ _ H) as [s I]. destruct (known_some E (bs name)) as [f D]; [exists name, s; auto|].
    rewrite eval_call, D. unfold bind. rewrite IH. destruct (list_held args b vs b' T' M IH) as [M1 H1].
    apply manual_exact in H; eauto. unfold call in H. now rewrite D in H.
  - intros n front arg rest vs b b' o K C IH Me IHe N T M. apply all_atoms_list in T. inversion T as [|? ? _ T']; subst.
    apply Forall_app in T' as [T1 T2]. inversion T2 as [|? ? T3 _]; subst. specialize (IH T1 M).
    destruct (list_held front b vs b' T1 M IH) as [M1 H1]. specialize (IHe T3 M1).
    destruct (known_some E n K) as [f D]. rewrite eval_call, D. etransitivity; [|exact IHe].
    apply (eval_list_app front arg rest b vs b' f IH). now rewrite IHe.
  - intros e es b v b1 vs b2 H IH C IHe T M. inversion T as [|? ? T1 T2]; subst. specialize (IH T1 M).
    pose proof (eval_lands e T1 b M) as L. rewrite IH in L. destruct L as [M1 _]. specialize (IHe T2 M1).
    rewrite eval_list_cons. unfold bind. now rewrite IH, IHe.
Qed.
Lemma means_iff e b o : holds_texts e -> machine b -> (eval_expr E (default_env E) e b = o <-> means E e b o).
Proof. intros T M. split; [intros <-; now apply means_total|]. intros H. now apply means_right. Qed.
End Evaluation.
