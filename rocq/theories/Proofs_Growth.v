(** Proofs for C85: how long a text a script can make, and when memory runs out. *)
From Coq Require Import ZArith NArith QArith List Bool Lia Strings.Byte ZifyBool.
From Verif Require Import Base Float Ext Utf8 Strconv Values Buffer Builtins Eval Files Tools Spec SpecText SpecNumber SpecJson SpecLines SpecManual SpecMeaning SpecGrowth
  Proofs_Base Proofs_Float Proofs_Utf8 Proofs_Json Proofs_Effects Proofs_Loops Proofs_Chars Proofs_Meaning Proofs_Meaning2 Proofs_Manual6 Prop_Manual Prop_Meaning RefExt Proofs_Ref.
Import ListNotations.
Open Scope Z_scope.

Lemma multiplier_cases n : multiplier n = 4 /\ In n recoding \/ multiplier n = 2 /\ In n copying \/ multiplier n = 1.
Proof.
  unfold multiplier. destruct (existsb (str_eqb n) recoding) eqn:R.
  - apply existsb_exists in R as (m & I & Q). apply str_eqb_eq in Q as ->. auto.
  - destruct (existsb (str_eqb n) copying) eqn:C; auto.
    apply existsb_exists in C as (m & I & Q). apply str_eqb_eq in Q as ->. auto.
Qed.
Lemma multiplier_pos n : 1 <= multiplier n.
Proof. destruct (multiplier_cases n) as [[-> _]|[[-> _]| ->]]; lia. Qed.
Lemma bytes_nonneg v : 0 <= bytes_of v. Proof. destruct v; cbn; try lia. apply zlen_nonneg. Qed.
Lemma total_nonneg l : 0 <= total (map bytes_of l).
Proof. induction l as [|v l IH]; cbn; [lia|]. pose proof (bytes_nonneg v). unfold total in IH. lia. Qed.
Lemma total_texts ss : total (map bytes_of (map VStr ss)) = zlen (concat ss).
Proof. induction ss as [|s ss IH]; [reflexivity|]. cbn [map concat]. rewrite zlen_app, <- IH. reflexivity. Qed.
Lemma total_app l m : total (map bytes_of (l ++ m)) = total (map bytes_of l) + total (map bytes_of m).
Proof. induction l as [|v l IH]; [reflexivity|]. cbn [app map]. unfold total in *. cbn. rewrite IH. lia. Qed.
Lemma total_one v : total (map bytes_of [v]) = bytes_of v. Proof. cbn. lia. Qed.

Lemma chars_count s l : chars s l -> zlen l <= zlen s.
Proof.
  induction 1 as [|r t l V _ IH|c t l B _ IH]; [reflexivity || (rewrite !zlen_nil; lia)| |]; rewrite ?zlen_app, !zlen_cons; [pose proof (encode_length r)|]; lia.
Qed.
Lemma text_length l : zlen (SpecLines.text l) <= 4 * zlen l.
Proof.
  unfold SpecLines.text. induction l as [|r l IH]; [reflexivity || (unfold zlen; cbn; lia)|]. cbn [flat_map]. rewrite zlen_app, zlen_cons. pose proof (encode_length r). lia.
Qed.
Lemma forall2_length {A B} (R : A -> B -> Prop) l m : Forall2 R l m -> zlen l = zlen m.
Proof. induction 1; [reflexivity|]. rewrite !zlen_cons. lia. Qed.

(** the outcome of an evaluation begun with [c] bytes: at most [k] times as many at the end *)
Definition within (k c : Z) (o : outcome value) : Prop :=
  match o with
  | Done v b => zlen (content b) + bytes_of v <= k * c
  | Fail _ b => zlen (content b) <= k * c
  | OutOfMemory => max_alloc < k * c
  | Panic => True
  | Diverge => False
  end.
Lemma within_kept k c b v : 1 <= k -> zlen (content b) <= c -> bytes_of v = 0 -> within k c (Done v b).
Proof. intros K L Z. cbn. pose proof (zlen_nonneg (content b)). rewrite Z. nia. Qed.
Lemma within_becomes k c b t p o : becomes b t p o -> zlen t <= k * c -> within k c o.
Proof. intros [[F ->]|[F ->]] L; cbn; [lia|]. unfold fits in F. lia. Qed.
Lemma within_gives k c b t o : gives b t o -> zlen (content b) + zlen t <= k * c -> within k c o.
Proof. intros [[F ->]|[F ->]] L; cbn; [lia|]. unfold fits in F. pose proof (zlen_nonneg (content b)). lia. Qed.
Lemma within_yes P k c b o : yes_if P b o -> 1 <= k -> zlen (content b) <= c -> within k c o.
Proof. intros [[_ ->]|[_ ->]] K L; apply within_kept; auto. Qed.

Ltac sizes := cbn [map bytes_of total fold_right] in *; repeat (rewrite zlen_app in * || rewrite zlen_cons in * ).
Ltac parts := repeat match goal with
  | H : passes_words _ _ _ _ |- _ => apply words_parts in H
  | H : passes_words_back _ _ _ _ |- _ => apply words_back_parts in H
  | H : passes_lines _ _ _ _ |- _ => apply lines_parts in H
  | H : selected _ _ _ _ |- _ => destruct H as (? & ? & _ & _ & _ & H & _)
  | H : piece _ _ _ _ |- _ => destruct H as (? & ? & H & _)
  | H : between _ _ _ |- _ => destruct H as [H _]
  | H : splits _ _ _ _ |- _ => destruct H as [H _]
  end.
Ltac nonneg := repeat match goal with
  | |- context [zlen ?x] => lazymatch goal with _ : 0 <= zlen x |- _ => fail | _ => pose proof (zlen_nonneg x) end
  end.

Lemma manual_within E name args b o : manual E name args b o -> bs name <> bs "replace-regexp-in-string" ->
  within (multiplier (bs name)) (zlen (content b) + total (map bytes_of args)) o.
Proof.
  intros H N. pose proof (total_nonneg args) as T. pose proof (multiplier_pos (bs name)) as K. pose proof (zlen_nonneg (content b)) as Z.
  assert (Keep : forall b' : buffer, content b' = content b -> within (multiplier (bs name)) (zlen (content b) + total (map bytes_of args)) (fine b')).
  { intros b' Q. apply within_kept; auto. rewrite Q. lia. }
  assert (Cut : forall t p, zlen t <= zlen (content b) -> within (multiplier (bs name)) (zlen (content b) + total (map bytes_of args)) (fine (with_text b t p))).
  { intros t p Q. apply within_kept; auto. cbn. lia. }
  destruct H; try exact I;
    try (cbn [within]; nia);
    try (apply Keep; reflexivity);
    try (match goal with Q : number _ _ |- _ => destruct Q as (f' & -> & _); apply within_kept; [exact K|cbn [with_mark at_point with_text with_match content]; lia|reflexivity] end);
    try (apply within_kept; [exact K|cbn [with_mark at_point with_text with_match content]; lia|reflexivity]);
    try (eapply within_yes; [eassumption|exact K|lia]);
    try (clear Keep; apply Cut; parts; match goal with Q : content b = _ |- _ => rewrite Q end; subst; sizes; nonneg; lia);
    try (eapply within_becomes; [eassumption|]; parts; try match goal with Q : content b = _ |- _ => rewrite Q in * end; clear Keep Cut;
      change (multiplier (bs _)) with 1; sizes; nonneg; lia).
  all: clear Keep Cut.
  - change (multiplier (bs "delete-char")) with 2. eapply within_becomes; [eassumption|]. parts. match goal with Q : content b = _ |- _ => rewrite Q end. sizes. nonneg. lia.
  - change (multiplier (bs "backward-kill-word")) with 1. parts. cbn [within fine with_text content bytes_of]. match goal with Q : content b = _ |- _ => rewrite Q end.
    subst. destruct after as [|c after]; cbn [tl]; sizes; change (zlen (@nil byte)) with 0; nonneg; lia.
  - change (multiplier (bs "concat")) with 1. rewrite total_texts. eapply within_gives; [eassumption|]. lia.
  - change (multiplier (bs "concat")) with 1. rewrite total_app, total_texts. cbn [within]. match goal with Q : ~ fits _ |- _ => unfold fits in Q end.
    pose proof (total_nonneg (v :: rest)). lia.
  - change (multiplier (bs "substring")) with 1. parts. subst. cbn [within]. sizes. nonneg. lia.
  - change (multiplier (bs "substring")) with 1. parts. subst. cbn [within]. sizes. nonneg. lia.
  - change (multiplier (bs "buffer-substring")) with 2. parts. cbn [within]. sizes. match goal with Q : content b = _ |- _ => rewrite Q end. sizes. nonneg. lia.
  - change (multiplier (bs "upcase")) with 4. eapply within_gives; [eassumption|]. pose proof (text_length l').
    match goal with Q : chars _ _, R : Forall2 _ _ _ |- _ => apply chars_count in Q; apply forall2_length in R end. sizes. lia.
  - change (multiplier (bs "downcase")) with 4. eapply within_gives; [eassumption|]. pose proof (text_length l').
    match goal with Q : chars _ _, R : Forall2 _ _ _ |- _ => apply chars_count in Q; apply forall2_length in R end. sizes. lia.
  - change (multiplier (bs "capitalize")) with 4. eapply within_gives; [eassumption|]. pose proof (text_length (r :: l')).
    match goal with Q : chars _ _, R : Forall2 _ _ _ |- _ => apply chars_count in Q; apply forall2_length in R end. sizes. lia.
  - now contradiction N.
Qed.

Lemma factor_cons x l : factor (VList (x :: l)) = factor x * factor (VList l). Proof. reflexivity. Qed.
Lemma amount_cons x l : amount (VList (x :: l)) = amount x + amount (VList l). Proof. reflexivity. Qed.
Lemma mentions_cons n x l : mentions n (VList (x :: l)) <-> mentions n x \/ mentions n (VList l). Proof. reflexivity. Qed.
Lemma factor_pos e : 1 <= factor e.
Proof.
  induction e as [n|s|f|l IH] using value_ind'; [apply multiplier_pos|cbn; lia|cbn; lia|].
  induction IH as [|x l Hx _ IHl]; [cbn; lia|]. rewrite factor_cons. nia.
Qed.
Lemma amount_nonneg e : 0 <= amount e.
Proof.
  induction e as [n|s|f|l IH] using value_ind'; [cbn; lia|apply zlen_nonneg|cbn; lia|].
  induction IH as [|x l Hx _ IHl]; [cbn; lia|]. rewrite amount_cons. lia.
Qed.

Lemma join F1 F2 c a A w : 1 <= F1 -> 1 <= F2 -> 0 <= A -> w <= F1 * (c + a) -> F2 * (w + A) <= F1 * F2 * (c + (a + A)).
Proof.
  intros H1 H2 HA H. replace (F1 * F2 * (c + (a + A))) with (F2 * (F1 * (c + a) + F1 * A)) by ring.
  apply Z.mul_le_mono_nonneg_l; [lia|]. assert (A <= F1 * A) by nia. lia.
Qed.
Lemma widen F1 F2 c a A w : 1 <= F1 -> 1 <= F2 -> 0 <= c + a -> 0 <= A -> w <= F1 * (c + a) -> w <= F1 * F2 * (c + (a + A)).
Proof.
  intros H1 H2 H0 HA H. assert (F1 * (c + a) <= F1 * F2 * (c + (a + A))); [|lia]. rewrite <- Z.mul_assoc. apply Z.mul_le_mono_nonneg_l; [lia|]. nia.
Qed.

Section Growth.
Context (E : Ext) (X : ext_ok E).
Definition modest (e : value) : Prop := ~ mentions (bs "replace-regexp-in-string") e.
Definition listed (k c : Z) (o : outcome (list value)) : Prop :=
  match o with
  | Done vs b => zlen (content b) + total (map bytes_of vs) <= k * c
  | Fail _ b => zlen (content b) <= k * c
  | OutOfMemory => max_alloc < k * c
  | Panic => True
  | Diverge => False
  end.
Definition tame (e : value) : Prop := holds_texts e -> modest e -> forall b, machine b ->
  within (factor e) (zlen (content b) + amount e) (eval_expr E (default_env E) e b).
Lemma list_listed l : Forall tame l -> Forall holds_texts l -> modest (VList l) -> forall b, machine b ->
  listed (factor (VList l)) (zlen (content b) + amount (VList l)) (eval_list E (default_env E) l b).
Proof.
  induction 1 as [|e l He _ IH]; intros T N b M.
  { change (zlen (content b) + 0 <= 1 * (zlen (content b) + 0)). lia. }
  inversion T as [|? ? T1 T2]; subst. unfold modest in N. rewrite mentions_cons in N.
  specialize (He T1 ltac:(intros ?; apply N; auto) b M). pose proof (eval_lands E X e T1 b M) as L.
  rewrite eval_list_cons, factor_cons, amount_cons. unfold bind.
  pose proof (factor_pos e) as F1. pose proof (factor_pos (VList l)) as F2. pose proof (amount_nonneg e) as A1. pose proof (amount_nonneg (VList l)) as A2.
  pose proof (zlen_nonneg (content b)) as C.
  destruct (eval_expr E (default_env E) e b) as [v b1|m b1| | |]; cbn [within] in He; try exact He.
  - destruct L as [M1 _]. specialize (IH T2 ltac:(intros ?; apply N; auto) b1 M1). pose proof (bytes_nonneg v) as V. pose proof (zlen_nonneg (content b1)) as C1.
    assert (G : factor (VList l) * (zlen (content b1) + bytes_of v + amount (VList l)) <= factor e * factor (VList l) * (zlen (content b) + (amount e + amount (VList l)))) by (apply join; auto).
    replace (zlen (content b1) + bytes_of v + amount (VList l)) with (zlen (content b1) + amount (VList l) + bytes_of v) in G by ring. rewrite Z.mul_add_distr_l in G.
    assert (V' : bytes_of v <= factor (VList l) * bytes_of v) by nia.
    destruct (eval_list E (default_env E) l b1) as [vs b2|m b2| | |]; cbn [listed] in *; try exact IH.
    + change (listed (factor e * factor (VList l)) (zlen (content b) + (amount e + amount (VList l))) (Done (v :: vs) b2)). cbn [listed]. change (total (map bytes_of (v :: vs))) with (bytes_of v + total (map bytes_of vs)). lia.
    + lia.
    + lia.
  - cbn [listed]. apply widen; auto. lia.
  - cbn [listed]. apply Z.lt_le_trans with (1 := He), widen; auto; lia.
Qed.
Lemma expr_within e : tame e.
Proof.
  induction e as [n|s|f|l IH] using value_ind'; intros T N b M; cbn [eval_expr].
  - change (zlen (content b) <= multiplier n * (zlen (content b) + 0)). pose proof (multiplier_pos n). pose proof (zlen_nonneg (content b)). nia.
  - change (zlen (content b) + zlen s <= 1 * (zlen (content b) + zlen s)). lia.
  - change (zlen (content b) + 0 <= 1 * (zlen (content b) + 0)). lia.
  - pose proof (factor_pos (VList l)) as F. pose proof (amount_nonneg (VList l)) as A. pose proof (zlen_nonneg (content b)) as C.
    assert (Fl : forall m, within (factor (VList l)) (zlen (content b) + amount (VList l)) (Fail m b)) by (intros m; cbn [within]; nia).
    destruct l as [|h args]; [apply Fl|]. destruct h as [n|s|f|l']; try apply Fl.
    change (within (factor (VList (VSym n :: args))) (zlen (content b) + amount (VList (VSym n :: args))) (eval_expr E (default_env E) (VList (VSym n :: args)) b)).
    rewrite eval_call. destruct (default_env E n) as [f|] eqn:D; [|apply Fl]. apply all_atoms_list in T.
    inversion IH as [|? ? _ IH']; subst. inversion T as [|? ? _ T']; subst. unfold modest in N. rewrite mentions_cons in N.
    pose proof (list_listed args IH' T' ltac:(intros ?; apply N; auto) b M) as L. pose proof (list_lands E X args T' b M) as La.
    rewrite factor_cons, amount_cons. change (factor (VSym n)) with (multiplier n). change (amount (VSym n)) with 0. pose proof (multiplier_pos n) as K.
    pose proof (factor_pos (VList args)) as Fa. pose proof (amount_nonneg (VList args)) as Aa. clear Fl F A.
    unfold bind. destruct (eval_list E (default_env E) args b) as [vs b1|m b1| | |]; cbn [listed within] in *; try exact L; [|apply Z.le_trans with (1 := L); rewrite <- Z.mul_assoc, Z.add_0_l; nia|apply Z.lt_le_trans with (1 := L); rewrite <- Z.mul_assoc, Z.add_0_l; nia].
    destruct La as [M1 H1]. destruct (known_call E n f vs b1 D) as (name & s & I & -> & ->).
    assert (W : within (multiplier (bs name)) (zlen (content b1) + total (map bytes_of vs)) (call E name vs b1)).
    { apply manual_within with E; [apply manual_exact; eauto|intros Q; apply N; left; exact Q]. }
    assert (G : multiplier (bs name) * (zlen (content b1) + total (map bytes_of vs)) <= multiplier (bs name) * factor (VList args) * (zlen (content b) + (0 + amount (VList args)))).
    { rewrite <- Z.mul_assoc. apply Z.mul_le_mono_nonneg_l; lia. }
    destruct (call E name vs b1); cbn [within] in *; lia.
Qed.

Definition ended (k c : Z) (r : eval_result) : Prop :=
  match r with
  | EvDone v b => zlen (content b) + bytes_of v <= k * c
  | EvError _ b => zlen (content b) <= k * c
  | EvOutOfMemory => max_alloc < k * c
  | EvPanic => True
  | EvDiverge => False
  end.
Lemma program_ended program rest : Forall holds_texts rest -> bounded rest -> forall i v b, machine b -> (rest = [] -> bytes_of v = 0) ->
  ended (factors rest) (zlen (content b) + amounts rest)
    (fst (eval_from E (default_env E) (@None (@callback unit)) program i rest v tt b)).
Proof.
  unfold factors, amounts. induction rest as [|e rest IH]; intros T N i v b M V.
  - cbn [eval_from fst ended]. rewrite V by auto. change (factor (VList [])) with 1. change (amount (VList [])) with 0. lia.
  - inversion T as [|? ? T1 T2]; subst. unfold bounded in *. rewrite mentions_cons in N.
    pose proof (expr_within e T1 ltac:(intros ?; apply N; auto) b M) as W. pose proof (eval_lands E X e T1 b M) as L.
    pose proof (factor_pos e) as F1. pose proof (factor_pos (VList rest)) as F2. pose proof (amount_nonneg e) as A1. pose proof (amount_nonneg (VList rest)) as A2.
    pose proof (zlen_nonneg (content b)) as C. rewrite factor_cons, amount_cons. cbn [eval_from].
    destruct (eval_expr E (default_env E) e b) as [w b1|m b1| | |]; cbn [within fst ended] in *; try exact W; [|apply widen; auto; lia|apply Z.lt_le_trans with (1 := W), widen; auto; lia].
    destruct L as [M1 _]. pose proof (bytes_nonneg w) as Bw. pose proof (zlen_nonneg (content b1)) as C1.
    assert (G : factor (VList rest) * (zlen (content b1) + bytes_of w + amount (VList rest)) <= factor e * factor (VList rest) * (zlen (content b) + (amount e + amount (VList rest)))) by (apply join; auto).
    destruct rest as [|e' rest'].
    + cbn [eval_from fst ended]. change (factor (VList [])) with 1 in *. change (amount (VList [])) with 0 in *. lia.
    + replace (zlen (content b1) + bytes_of w + amount (VList (e' :: rest'))) with (zlen (content b1) + amount (VList (e' :: rest')) + bytes_of w) in G by ring. rewrite Z.mul_add_distr_l in G.
      assert (V' : bytes_of w <= factor (VList (e' :: rest')) * bytes_of w) by nia.
      specialize (IH T2 ltac:(intros ?; apply N; auto) (i + 1) w b1 M1 ltac:(discriminate)).
      remember (e' :: rest') as r eqn:Qr. clear Qr.
      destruct (fst (eval_from E (default_env E) None program (i + 1) r w tt b1)); cbn [ended] in *; try exact IH; lia.
Qed.
End Growth.

(** ** The literals of a script *)
Lemma ascii_text s : (forall c, In c s -> (byteN c < 128)%N) -> utf8_text s.
Proof.
  induction s as [|c s IH]; intros H; [apply text_nil|]. change (c :: s) with ([c] ++ s).
  apply text_app; [rewrite <- (encode_byte c) by (apply H; now left); apply text_rune|apply IH; intros d I; apply H; now right].
Qed.
Lemma all_low (t : String.string) : forallb (fun c => N.ltb (byteN c) 128) (bs t) = true -> forall c, In c (bs t) -> (byteN c < 128)%N.
Proof. intros H c I. apply N.ltb_lt. rewrite forallb_forall in H. now apply H. Qed.
Lemma hexs_ascii h n : hexs h n -> forall c, In c h -> (byteN c < 128)%N.
Proof.
  induction 1 as [|h n c d _ IH V]; intros x I; [destruct I|]. apply in_app_iff in I as [I|[<-|[]]]; auto.
  destruct V as [V|V]; apply nth_error_In in V; revert V; apply all_low; reflexivity.
Qed.
Lemma octal_ascii h n : octal3 h n -> forall c, In c h -> (byteN c < 128)%N.
Proof.
  intros (a & b & c & na & nb & nc & -> & A & B & C & _) x I.
  destruct I as [<-|[<-|[<-|[]]]]; [apply nth_error_In in A; revert A|apply nth_error_In in B; revert B|apply nth_error_In in C; revert C]; apply all_low; reflexivity.
Qed.
Lemma escape_low e c : In (e, c) go_escapes -> (byteN e < 128)%N.
Proof.
  intros I. assert (H : forallb (fun p : byte * byte => N.ltb (byteN (fst p)) 128) go_escapes = true) by reflexivity.
  rewrite forallb_forall in H. apply N.ltb_lt. apply (H _ I).
Qed.
Lemma low_cancel s t : (forall c, In c s -> (byteN c < 128)%N) -> utf8_text (s ++ t) -> utf8_text t.
Proof. intros H U. apply (cancel s); auto. now apply ascii_text. Qed.
Lemma encode_four n : zlen (encode_rune n) <= 4. Proof. apply encode_length. Qed.
Lemma literal_fits t s : SpecLines.literal t s -> utf8_text t -> zlen s <= zlen t.
Proof.
  induction 1 as [|r t s V N _ IH|c t s N _ IH|e c t s I _ IH|h n t s H L _ IH|h n t s H L V _ IH|h n t s H L V _ IH|h n t s H L _ IH]; intros U.
  - reflexivity.
  - apply cancel in U; [|apply text_rune]. specialize (IH U). rewrite !zlen_app. lia.
  - exfalso. destruct U as ([|r rs] & V & Q); [discriminate|]. inversion V; subst. now apply (N r (flat_map encode_rune rs)).
  - assert (U' : utf8_text t) by (apply (low_cancel [backslash; e]); [intros x [<-|[<-|[]]]; [reflexivity|now apply (escape_low _ c)]|exact U]).
    specialize (IH U'). rewrite !zlen_cons. lia.
  - assert (U' : utf8_text t).
    { apply (low_cancel (backslash :: "x"%byte :: h)); [intros x [<-|[<-|J]]; [reflexivity|reflexivity|now apply (hexs_ascii h n)]|exact U]. }
    specialize (IH U'). rewrite !zlen_cons, zlen_app. pose proof (zlen_nonneg h). lia.
  - assert (U' : utf8_text t).
    { apply (low_cancel (backslash :: "u"%byte :: h)); [intros x [<-|[<-|J]]; [reflexivity|reflexivity|now apply (hexs_ascii h n)]|exact U]. }
    specialize (IH U'). rewrite !zlen_cons, !zlen_app. pose proof (encode_four n). unfold zlen in *. lia.
  - assert (U' : utf8_text t).
    { apply (low_cancel (backslash :: "U"%byte :: h)); [intros x [<-|[<-|J]]; [reflexivity|reflexivity|now apply (hexs_ascii h n)]|exact U]. }
    specialize (IH U'). rewrite !zlen_cons, !zlen_app. pose proof (encode_four n). unfold zlen in *. lia.
  - assert (U' : utf8_text t).
    { apply (low_cancel (backslash :: h)); [intros x [<-|J]; [reflexivity|now apply (octal_ascii h n)]|exact U]. }
    specialize (IH U'). rewrite !zlen_cons, zlen_app. pose proof (zlen_nonneg h). lia.
Qed.
Lemma runes_text l : utf8_text (SpecLines.text l).
Proof. unfold SpecLines.text. induction l as [|r l IH]; [apply text_nil|]. cbn [flat_map]. apply text_app; [apply text_rune|exact IH]. Qed.
Definition word_bytes (t : tok) : Z := match t with Word w => zlen (SpecLines.text w) | _ => 0 end.
Definition words_bytes (ts : list tok) : Z := total (map word_bytes ts).
Lemma words_bytes_app a b : words_bytes (a ++ b) = words_bytes a + words_bytes b.
Proof. unfold words_bytes, total. induction a as [|t a IH]; [reflexivity|]. cbn [app map fold_right]. rewrite IH. lia. Qed.
Lemma words_bytes_nonneg a : 0 <= words_bytes a.
Proof. induction a as [|t a IH]; [cbn; lia|]. change (0 <= word_bytes t + words_bytes a). destruct t as [| |w]; cbn [word_bytes]; try lia. pose proof (zlen_nonneg (SpecLines.text w)). lia. Qed.
Lemma tokens_total l ts : tokens l ts -> words_bytes ts <= zlen (SpecLines.text l).
Proof.
  induction 1 as [|c l ts _ _ IH|l ts _ IH|l ts _ IH|w l ts W B _ IH].
  - reflexivity.
  - rewrite text_cons. pose proof (encode_length c). lia.
  - rewrite text_cons. pose proof (encode_length c_open). change (0 + words_bytes ts <= zlen (encode_rune c_open) + zlen (SpecLines.text l)). lia.
  - rewrite text_cons. pose proof (encode_length c_close). change (0 + words_bytes ts <= zlen (encode_rune c_close) + zlen (SpecLines.text l)). lia.
  - rewrite text_join. change (zlen (SpecLines.text w) + words_bytes ts <= zlen (SpecLines.text w) + zlen (SpecLines.text l)). lia.
Qed.
Lemma expr_amount : (forall ts v, expr ts v -> amount v <= words_bytes ts) /\ (forall ts vs, exprs ts vs -> amount (VList vs) <= words_bytes ts).
Proof.
  apply expr_exprs_ind.
  - intros w v A. change (words_bytes [Word w]) with (zlen (SpecLines.text w) + 0). pose proof (runes_text w) as U. pose proof (zlen_nonneg (SpecLines.text w)) as Z.
    inversion A as [t s L Q|t f N1 N2 P Q|t N1 N2 P Q]; subst; cbn [amount]; try lia.
    rewrite <- Q in U. change (dquote :: t ++ [dquote]) with ([dquote] ++ t ++ [dquote]) in U.
    apply low_cancel in U; [|intros c [<-|[]]; reflexivity]. apply cut_before in U as [U _]; [|reflexivity].
    pose proof (literal_fits t s L U). rewrite zlen_cons, zlen_app. change (zlen [dquote]) with 1. lia.
  - intros ts vs _ IH. change (words_bytes (Open :: ts ++ [Close])) with (0 + words_bytes (ts ++ [Close])). rewrite words_bytes_app. change (words_bytes [Close]) with 0. lia.
  - reflexivity.
  - intros ts v us vs _ IH1 _ IH2. rewrite amount_cons, words_bytes_app. lia.
Qed.
Lemma command_amount l v : command l v -> amount v <= zlen (SpecLines.text l).
Proof.
  intros [m ts rest v' K Ex|m ts vs N1 N2 K Ex]; apply tokens_total in K; apply expr_amount in Ex; [|lia].
  rewrite words_bytes_app in K. pose proof (words_bytes_nonneg rest). lia.
Qed.
Lemma part_amount l p : part l p -> amounts p <= zlen (SpecLines.text l).
Proof.
  unfold amounts. intros [a _|a m b v _ _ _ _ C]; [apply zlen_nonneg|]. apply command_amount in C. rewrite amount_cons. change (amount (VList [])) with 0.
  rewrite !text_join. pose proof (zlen_nonneg (SpecLines.text a)). pose proof (zlen_nonneg (SpecLines.text b)). lia.
Qed.
Lemma amounts_app p q : amounts (p ++ q) = amounts p + amounts q.
Proof. unfold amounts. induction p as [|e p IH]; [reflexivity|]. cbn [app]. rewrite !amount_cons, IH. lia. Qed.
Lemma line_amount l p : line l p -> amounts p <= zlen (SpecLines.text l).
Proof.
  induction 1 as [l p _ P|l p m q _ P _ IH]; [now apply part_amount|]. apply part_amount in P. rewrite amounts_app, text_join, text_cons.
  pose proof (encode_length c_semicolon). lia.
Qed.
Lemma chars_text s l : chars s l -> utf8_text s -> SpecLines.text l = s.
Proof.
  induction 1 as [|r t l V _ IH|c t l N _ IH]; intros U; [reflexivity| |].
  - apply cancel in U; [|apply text_rune]. unfold SpecLines.text in *. cbn [flat_map]. now rewrite IH.
  - exfalso. destruct U as ([|r rs] & V & Q); [discriminate|]. inversion V; subst. now apply (N r (flat_map encode_rune rs)).
Qed.
Lemma script_amount s p : SpecLines.script s p -> amounts p <= 3 * zlen s.
Proof.
  induction 1 as [l cs p _ _ C P|l cs p s q _ _ C P _ IH]; apply line_amount in P; apply chars_length in C; [lia|].
  rewrite amounts_app, zlen_app, zlen_cons. lia.
Qed.
Lemma script_amount_text s p : SpecLines.script s p -> utf8_text s -> amounts p <= zlen s.
Proof.
  induction 1 as [l cs p _ _ C P|l cs p s q _ _ C P _ IH]; intros U; apply line_amount in P.
  - apply chars_text in C; auto. rewrite C in P. exact P.
  - apply cut_before in U as [U1 U2]; [|reflexivity]. apply text_tail in U2; [|reflexivity]. apply chars_text in C; auto. rewrite C in P.
    rewrite amounts_app, zlen_app, zlen_cons. specialize (IH U2). lia.
Qed.

(** ** Frugal programs *)
Lemma unmentioned e : Forall (fun n => ~ mentions n e) (copying ++ recoding) -> factor e = 1.
Proof.
  induction e as [n|s|f|l IH] using value_ind'; try reflexivity.
  - intros H. rewrite Forall_forall in H. cbn [factor]. destruct (multiplier_cases n) as [[_ I]|[[_ I]|Q]]; auto;
      exfalso; apply (H n); try reflexivity; apply in_app_iff; auto.
  - intros H. induction IH as [|x l Hx _ IHl]; [reflexivity|]. rewrite factor_cons, Hx, IHl; [reflexivity| |];
      rewrite Forall_forall in *; intros n I M; apply (H n I); apply mentions_cons; auto.
Qed.

(** ** Doubling *)
Section Double.
Context (E : Ext) (X : ext_ok E).
Lemma double_holds : holds_texts double.
Proof. apply all_atoms_list. repeat constructor; try (intros s Q; discriminate). Qed.
Lemma whole_given b : machine b -> means E (VList [VSym (bs "buffer-substring"); VInt 1; VInt (-1)]) b (Done (VStr (content b)) b).
Proof.
  intros M. apply (mn_call E "buffer-substring"%string [VInt 1; VInt (-1)] [VInt 1; VInt (-1)] b b).
  - apply each_more with b; [constructor|]. apply each_more with b; constructor.
  - apply (m_buffer_substring E (f_of_Z 1) (f_of_Z (-1)) 1 (-1) 1 (zlen (content b) + 1)).
    + apply f_of_Z_int_arg; lia.
    + apply f_of_Z_int_arg; lia.
    + right. split; [discriminate|reflexivity].
    + left. auto.
    + exists [], []. rewrite app_nil_r. pose proof (zlen_nonneg (content b)). unfold clamp. change (zlen (@nil byte)) with 0. split; [reflexivity|]. lia.
Qed.
Lemma double_means b before after o : machine b -> between b before after -> becomes b (before ++ content b ++ after) (point b + zlen (content b)) o ->
  means E double b o.
Proof.
  intros M B H. apply (mn_call E "insert"%string [VList [VSym (bs "buffer-substring"); VInt 1; VInt (-1)]] [VStr (content b)] b b).
  - apply each_more with b; [now apply whole_given|constructor].
  - now apply (m_insert E b (content b) before after).
Qed.
Lemma doubles k : forall program i v b before after, machine b -> between b before after ->
  match fst (eval_from E (default_env E) (@None (@callback unit)) program i (repeat double k) v tt b) with
  | EvDone _ b' => 2 ^ Z.of_nat k * zlen (content b) <= max_alloc /\ zlen (content b') = 2 ^ Z.of_nat k * zlen (content b)
  | EvOutOfMemory => max_alloc < 2 ^ Z.of_nat k * zlen (content b)
  | _ => False
  end.
Proof.
  induction k as [|k IH]; intros program i v b before after M B.
  - cbn [repeat eval_from fst]. change (2 ^ Z.of_nat 0) with 1. destruct M as [F _]. unfold fits in F. lia.
  - cbn [repeat eval_from]. set (t := before ++ content b ++ after). destruct B as [B P].
    assert (L : zlen t = 2 * zlen (content b)). { unfold t. rewrite B, !zlen_app. lia. }
    replace (2 ^ Z.of_nat (S k) * zlen (content b)) with (2 ^ Z.of_nat k * zlen t) by (rewrite L, Nat2Z.inj_succ, Z.pow_succ_r by lia; ring).
    assert (P2 : 1 <= 2 ^ Z.of_nat k) by (pose proof (Z.pow_pos_nonneg 2 (Z.of_nat k)); lia). pose proof (zlen_nonneg t) as Z.
    destruct (Z_le_gt_dec (zlen t) max_alloc) as [Y|Y].
    + assert (H : means E double b (fine (with_text b t (point b + zlen (content b))))) by (apply (double_means b before after); [exact M|now split|left; now split]).
      pose proof (eval_lands E X double double_holds b M) as La. apply (means_iff E X) in H; auto using double_holds. rewrite H in *. destruct La as [M' _].
      apply (IH program (i + 1) (VStr []) _ (before ++ content b) after M'). split; [unfold t; cbn; now rewrite <- app_assoc|].
      cbn [with_text point]. rewrite P, zlen_app. lia.
    + assert (H : means E double b OutOfMemory) by (apply (double_means b before after); [exact M|now split|right; split; [unfold fits; fold t; lia|reflexivity]]).
      apply (means_iff E X) in H; auto using double_holds. rewrite H. cbn [fst]. nia.
Qed.
End Double.
