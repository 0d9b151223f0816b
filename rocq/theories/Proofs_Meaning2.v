(** Lemmas for C79, continued: programs, and how long the texts in a script can be. *)
From Coq Require Import ZArith NArith QArith List Bool Lia Strings.Byte ZifyBool ZifyN ZifyNat.
From Verif Require Import Proofs_Round.
From Verif Require Import Base Float Ext Utf8 Strconv Values Buffer Builtins Eval Parser Spec SpecText SpecNumber SpecJson SpecLines SpecManual SpecMeaning
  Proofs_Base Proofs_Exec Proofs_Effects Proofs_Utf8 Proofs_Token Proofs_Json Proofs_Words Prop_Calls Prop_Eval Proofs_Manual4 Proofs_Manual5 Proofs_Manual6 Prop_Manual Proofs_Meaning.
Import ListNotations.
Open Scope Z_scope.

(** ** Programs *)
Section Programs.
Variable E : Ext.
Hypothesis X : ext_ok E.
Notation from := (eval_from E (default_env E) (@None (@callback unit))).
Lemma sequence_from p b v b' : sequence E p b v b' -> Forall holds_texts p -> machine b ->
  machine b' /\ forall whole i, from whole i p (VStr []) tt b = (EvDone v b', tt).
Proof.
  induction 1 as [b|p i b v b1 w b2 S IH H]; intros T M; [split; auto|].
  apply Forall_app in T as [T1 T2]. inversion T2 as [|? ? Ti _]; subst. destruct (IH T1 M) as [M1 F].
  apply (means_iff E X) in H; auto. pose proof (eval_lands E X i Ti b1 M1) as L. rewrite H in L. split; [apply L|].
  intros whole k. rewrite eval_from_app, F. cbn [eval_from]. now rewrite H.
Qed.
Lemma program_split p : Forall holds_texts p -> forall b, machine b ->
  (exists v b', sequence E p b v b') \/
  exists before i rest v b1 o, p = before ++ i :: rest /\ sequence E before b v b1 /\ means E i b1 o /\ ~ finished o /\ o <> Diverge.
Proof.
  intros T. induction p as [|i p IH] using rev_ind; intros b M; [left; exists (VStr []), b; constructor|].
  apply Forall_app in T as [T1 T2]. inversion T2 as [|? ? Ti _]; subst.
  destruct (IH T1 b M) as [(v & b1 & S)|(before & j & rest & v & b1 & o & -> & H)].
  - destruct (sequence_from _ _ _ _ S T1 M) as [M1 _]. pose proof (eval_lands E X i Ti b1 M1) as L.
    pose proof (means_total E X i Ti b1 M1) as Me. destruct (eval_expr E (default_env E) i b1) as [w b2|m b2| | |] eqn:Q.
    + left. exists w, b2. now apply sq_more with v b1.
    + right. exists p, i, [], v, b1, (Fail m b2). repeat split; auto; [now intros (? & ? & ?)|discriminate].
    + right. exists p, i, [], v, b1, Panic. repeat split; auto; [now intros (? & ? & ?)|discriminate].
    + right. exists p, i, [], v, b1, OutOfMemory. repeat split; auto; [now intros (? & ? & ?)|discriminate].
    + destruct L.
  - right. exists before, j, (rest ++ [i]), v, b1, o. split; [now rewrite <- app_assoc|exact H].
Qed.
Definition ending (p : list value) (n : Z) (i : value) (o : outcome value) : eval_result :=
  match o with
  | Done v b => EvDone v b
  | Fail msg b => EvError (new_exec_error msg p n i b) b
  | Panic => EvPanic
  | OutOfMemory => EvOutOfMemory
  | Diverge => EvDiverge
  end.
Lemma program_stop before i rest v b b1 o : Forall holds_texts (before ++ i :: rest) -> machine b ->
  sequence E before b v b1 -> means E i b1 o -> ~ finished o ->
  eval E (default_env E) (before ++ i :: rest) b = ending (before ++ i :: rest) (zlen before) i o.
Proof.
  intros T M S Me N. assert (T' := T). apply Forall_app in T as [T1 T2]. inversion T2 as [|? ? Ti _]; subst.
  destruct (sequence_from _ _ _ _ S T1 M) as [M1 F]. apply (means_iff E X) in Me; auto.
  unfold eval, eval_with_trace. rewrite eval_from_app, F. cbn [eval_from]. rewrite Me.
  destruct o; try reflexivity. exfalso. apply N. eexists. eauto.
Qed.
Lemma plays_iff p b r : Forall holds_texts p -> machine b -> (eval E (default_env E) p b = r <-> plays E p b r).
Proof.
  intros T M. assert (R : forall r', plays E p b r' -> eval E (default_env E) p b = r').
  { intros r' H. destruct H as [v b' S|before i rest v b1 msg b2 -> S Me|before i rest v b1 -> S Me|before i rest v b1 -> S Me].
    - destruct (sequence_from _ _ _ _ S T M) as [_ F]. unfold eval, eval_with_trace. now rewrite F.
    - rewrite (program_stop _ _ _ _ _ _ _ T M S Me); [reflexivity|now intros (? & ? & ?)].
    - rewrite (program_stop _ _ _ _ _ _ _ T M S Me); [reflexivity|now intros (? & ? & ?)].
    - rewrite (program_stop _ _ _ _ _ _ _ T M S Me); [reflexivity|now intros (? & ? & ?)]. }
  split; [|apply R]. intros <-.
  destruct (program_split p T b M) as [(v & b' & S)|(before & i & rest & v & b1 & o & -> & S & Me & N & D)].
  - assert (H : plays E p b (EvDone v b')) by (now constructor). now rewrite (R _ H).
  - destruct o as [w b2|m b2| | |]; try congruence.
    + exfalso. apply N. eexists. eauto.
    + pose proof (pl_error E (before ++ i :: rest) b before i rest _ _ _ _ eq_refl S Me) as H. now rewrite (R _ H).
    + pose proof (pl_crash E (before ++ i :: rest) b before i rest _ _ eq_refl S Me) as H. now rewrite (R _ H).
    + pose proof (pl_memory E (before ++ i :: rest) b before i rest _ _ eq_refl S Me) as H. now rewrite (R _ H).
Qed.
End Programs.

(** ** How long the texts in a script can be *)
Lemma encode_length r : 1 <= zlen (encode_rune r) <= 4.
Proof.
  unfold encode_rune, encode_valid. destruct (if valid_rune r then r else rune_error) as [|p];
    repeat match goal with |- context [if ?c then _ else _] => destruct c end; cbn; lia.
Qed.
Lemma literal_length t s : SpecLines.literal t s -> zlen s <= 3 * zlen t.
Proof.
  assert (K : forall h : str, 0 <= zlen h) by (intros; apply zlen_nonneg).
  induction 1 as [|r t s V N _ IH|c t s N _ IH|e c t s I _ IH|h n t s H L _ IH|h n t s H L V _ IH|h n t s H L V _ IH|h n t s H L _ IH];
  autorewrite with zlen.
  - reflexivity.
  - pose proof (encode_length r). lia.
  - change (zlen (encode_rune rune_error)) with 3. lia.
  - lia.
  - pose proof (K h). lia.
  - pose proof (encode_length n). pose proof (K h). lia.
  - pose proof (encode_length n). pose proof (K h). lia.
  - pose proof (K h). lia.
Qed.
Lemma text_cons c l : zlen (text (c :: l)) = zlen (encode_rune c) + zlen (text l).
Proof. unfold text. cbn [flat_map]. apply zlen_app. Qed.
Lemma text_join a b : zlen (text (a ++ b)) = zlen (text a) + zlen (text b).
Proof. unfold text. rewrite flat_map_app. apply zlen_app. Qed.
Lemma chars_length s l : chars s l -> zlen (text l) <= 3 * zlen s.
Proof.
  induction 1 as [|r t l V _ IH|c t l N _ IH]; [reflexivity|..]; rewrite text_cons; autorewrite with zlen.
  - pose proof (encode_length r). lia.
  - change (zlen (encode_rune rune_error)) with 3. lia.
Qed.
Lemma tokens_length l ts : tokens l ts -> forall w, In (Word w) ts -> zlen (text w) <= zlen (text l).
Proof.
  assert (K : forall h, 0 <= zlen (text h)) by (intros; apply zlen_nonneg).
  induction 1 as [|c l ts _ _ IH|l ts _ IH|l ts _ IH|w' l ts W B _ IH]; intros w I.
  - destruct I.
  - rewrite text_cons. pose proof (encode_length c). specialize (IH w I). lia.
  - rewrite text_cons. pose proof (encode_length c_open). destruct I as [I|I]; [discriminate|]. specialize (IH w I). lia.
  - rewrite text_cons. pose proof (encode_length c_close). destruct I as [I|I]; [discriminate|]. specialize (IH w I). lia.
  - rewrite text_join. destruct I as [I|I]; [injection I as ->; pose proof (K l); lia|]. specialize (IH w I). pose proof (K w'). lia.
Qed.
Scheme expr_mut := Minimality for expr Sort Prop with exprs_mut := Minimality for exprs Sort Prop.
Combined Scheme expr_exprs_ind from expr_mut, exprs_mut.
Definition short (n : Z) (v : value) : Prop := all_atoms (fun v => forall s, v = VStr s -> zlen s <= n) v.
Lemma expr_short n : (forall ts v, expr ts v -> (forall w, In (Word w) ts -> zlen (text w) <= n) -> short (3 * n) v) /\
  (forall ts vs, exprs ts vs -> (forall w, In (Word w) ts -> zlen (text w) <= n) -> Forall (short (3 * n)) vs).
Proof.
  apply expr_exprs_ind.
  - intros w v A H. specialize (H w (or_introl eq_refl)). inversion A as [t s L Q|t f N1 N2 P Q|t N1 N2 P Q]; subst.
    + intros s' Q'. injection Q' as <-. apply literal_length in L. rewrite <- Q in H. revert H. autorewrite with zlen. lia.
    + intros s' Q'. discriminate.
    + intros s' Q'. discriminate.
  - intros ts vs _ IH H. apply all_atoms_list. apply IH. intros w I. apply H. right. apply in_app_iff. now left.
  - constructor.
  - intros ts v us vs _ IH1 _ IH2 H. constructor; [apply IH1|apply IH2]; intros w I; apply H, in_app_iff; auto.
Qed.
Lemma command_short l v : command l v -> short (3 * zlen (text l)) v.
Proof.
  intros [m ts rest v' K Ex|m ts vs N1 N2 K Ex].
  - apply (expr_short (zlen (text (c_open :: m)))) with ts; auto. intros w I. apply (tokens_length _ _ K w). apply in_app_iff. now left.
  - apply all_atoms_list. apply (expr_short (zlen (text m))) with ts; auto. intros w I. now apply (tokens_length _ _ K w).
Qed.
Lemma short_more n m v : n <= m -> short n v -> short m v.
Proof.
  intros L. induction v as [k|s|f|l IH] using value_ind'; intros H; try (intros s' Q; specialize (H s' Q); lia).
  apply all_atoms_list in H. apply all_atoms_list. rewrite Forall_forall in *. intros x I. apply (IH x I), (H x I).
Qed.
Lemma part_short l p : part l p -> Forall (short (3 * zlen (text l))) p.
Proof.
  intros [a _|a m b v _ _ _ _ C]; constructor; [|constructor]. apply short_more with (3 * zlen (text m)); [|now apply command_short].
  rewrite !text_join. pose proof (zlen_nonneg (text a)). pose proof (zlen_nonneg (text b)). lia.
Qed.
Lemma Forall_short n m p : n <= m -> Forall (short n) p -> Forall (short m) p.
Proof. intros L H. rewrite Forall_forall in *. intros v I. apply short_more with n; auto. Qed.
Lemma line_short l p : line l p -> Forall (short (3 * zlen (text l))) p.
Proof.
  induction 1 as [l p _ P|l p m q _ P _ IH]; [now apply part_short|]. apply Forall_app. rewrite text_join, text_cons.
  pose proof (encode_length c_semicolon). pose proof (zlen_nonneg (text l)). pose proof (zlen_nonneg (text m)).
  split; [apply Forall_short with (2 := part_short _ _ P); lia|apply Forall_short with (2 := IH); lia].
Qed.
Lemma short_holds n v : n <= max_alloc -> short n v -> holds_texts v.
Proof.
  intros L. induction v as [k|s|f|l IH] using value_ind'; intros H; try (intros s' Q; specialize (H s' Q); unfold fits; lia).
  apply all_atoms_list in H. apply all_atoms_list. rewrite Forall_forall in *. intros x I. apply (IH x I), (H x I).
Qed.
Lemma script_holds s p : script s p -> Forall holds_texts p.
Proof.
  assert (K : forall l cs p, zlen l < 65536 -> chars l cs -> line cs p -> Forall holds_texts p).
  { intros l cs q L C Q. apply chars_length in C. apply line_short in Q. rewrite Forall_forall in *. intros v I.
    apply (short_holds (3 * zlen (text cs))); auto. change max_alloc with 281474976710656. lia. }
  induction 1 as [l cs p _ L C Q|l cs p s q _ L C Q _ IH]; [now apply (K l cs)|]. apply Forall_app. split; [now apply (K l cs)|exact IH].
Qed.

(** ** Values are built from float64 numbers *)
Lemma manual_numbers E name vs b o : manual E name vs b o -> forall vv bb, o = Done vv bb -> float64s vv.
Proof.
  intros H. destruct H; intros vv bb QQ; try discriminate; try (unfold fine in QQ; injection QQ as <- <-; exact I).
  all: try (injection QQ as <- <-; match goal with N : number _ ?u |- float64s ?u => destruct N as (fn & -> & Vn & _); exact Vn end).
  all: try (injection QQ as <- <-; exact I).
  all: match goal with N : becomes _ _ _ _ |- _ => destruct N as [[_ KK]|[_ KK]] | N : gives _ _ _ |- _ => destruct N as [[_ KK]|[_ KK]]
    | N : yes_if _ _ _ |- _ => destruct N as [[_ KK]|[_ KK]] end; rewrite KK in QQ; try discriminate; injection QQ as <- <-; exact I.
Qed.
Lemma means_numbers E e b o : means E e b o -> float64s e -> forall v b', o = Done v b' -> float64s v.
Proof.
  intros H F v b' Q. destruct H; try discriminate; [injection Q as <- <-; exact I|injection Q as <- <-; exact F|now apply (manual_numbers _ _ _ _ _ H0 v b')|].
  exfalso. apply H2. now exists v, b'.
Qed.
Lemma sequence_numbers E p b v b' : sequence E p b v b' -> Forall float64s p -> float64s v.
Proof.
  intros H F. destruct H as [b|p i b v b1 w b2 _ M]; [exact I|]. apply Forall_app in F as [_ F]. apply (means_numbers E i b1 _ M (Forall_inv F) w b2 eq_refl).
Qed.
