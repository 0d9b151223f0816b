(** Proofs for C86. *)
From Coq Require Import ZArith NArith List Bool Lia Strings.Byte ZifyBool.
From Verif Require Import Base Float Ext Utf8 Strconv Values Buffer Builtins Eval Files Tools Spec SpecText SpecNumber SpecFiles SpecLines SpecManual SpecMeaning SpecEvery
  Proofs_Base Proofs_Json Proofs_Effects Proofs_Meaning Proofs_Meaning2 Proofs_Numeral Proofs_Files Prop_Manual Prop_Meaning Prop_Words Prop_Files Prop_Tools.
Import ListNotations.
Open Scope Z_scope.

(** ** Occurrences *)
Lemma app_split {A} (a b c d : list A) : a ++ b = c ++ d -> (exists m, a = c ++ m /\ d = m ++ b) \/ (exists m, c = a ++ m /\ b = m ++ d).
Proof.
  revert c. induction a as [|x a IH]; intros [|y c] H; cbn in *.
  - left. exists []. auto.
  - right. exists (y :: c). auto.
  - left. exists (x :: a). auto.
  - injection H as -> H. destruct (IH c H) as [(m & -> & ->)|(m & -> & ->)]; [left|right]; exists m; auto.
Qed.
Lemma occurs_dec s t : absent s t \/ exists u v, first_at s t u v.
Proof.
  induction t as [|c t IH].
  - destruct s as [|x s].
    + right. exists [], []. split; [reflexivity|]. change (zlen (@nil byte)) with 0. lia.
    + left. intros i (u & v & Q & _). destruct u; discriminate Q.
  - destruct (has_prefix (c :: t) s) eqn:P.
    + apply occurs_0 in P as (u & v & Q & Z). destruct u as [|y u]; [|rewrite zlen_cons in Z; pose proof (zlen_nonneg u); lia].
      right. exists [], v. split; [exact Q|]. change (zlen (@nil byte)) with 0. lia.
    + assert (N0 : ~ occurs_at (c :: t) s 0) by (rewrite occurs_0; congruence).
      destruct IH as [A|(u & v & -> & F)].
      * left. intros i O. destruct (occurs_bound _ _ _ O) as [B _]. destruct (Z.eq_dec i 0) as [->|N]; auto. apply occurs_S in O; [|lia]. now apply (A (i - 1)).
      * right. exists (c :: u), v. split; [reflexivity|]. rewrite zlen_cons. intros i B O. destruct (Z.eq_dec i 0) as [->|N]; auto.
        apply occurs_S in O; [|lia]. apply (F (i - 1)); auto. lia.
Qed.
Lemma first_absent s t u v : first_at s t u v -> ~ absent s t.
Proof. intros [-> _] A. apply (A (zlen u)). now exists u, v. Qed.
Lemma occurs_shift a t s i : occurs_at t s i -> occurs_at (a ++ t) s (zlen a + i).
Proof. intros (u & v & -> & ->). exists (a ++ u), v. rewrite zlen_app, <- app_assoc. auto. Qed.
Lemma occurs_left a t s i : occurs_at (a ++ t) s i -> i + zlen s <= zlen a -> occurs_at a s i.
Proof.
  intros (u & v & Q & ->) L. rewrite app_assoc in Q. apply app_split in Q as [(m & -> & _)|(m & Q & ->)].
  - exists u, m. now rewrite <- app_assoc.
  - assert (m = []). { apply (f_equal zlen) in Q. rewrite !zlen_app in Q. destruct m as [|x m]; auto. rewrite zlen_cons in Q. pose proof (zlen_nonneg m). lia. }
    subst. exists u, []. rewrite app_nil_r in Q. rewrite app_nil_r. auto.
Qed.
Lemma occurs_right a t s i : occurs_at (a ++ t) s i -> zlen a <= i -> occurs_at t s (i - zlen a).
Proof.
  intros (u & v & Q & ->) L. apply app_split in Q as [(m & -> & Q)|(m & -> & Q)].
  - assert (m = []). { rewrite zlen_app in L. destruct m as [|x m]; auto. rewrite zlen_cons in L. pose proof (zlen_nonneg m). lia. }
    subst. exists [], v. rewrite app_nil_r. split; [now symmetry|]. change (zlen (@nil byte)) with 0. lia.
  - exists m, v. split; auto. rewrite zlen_app. lia.
Qed.
Lemma once_total s r t : absent s t \/ exists t', replaced_once s r t t'.
Proof. destruct (occurs_dec s t) as [A|(u & v & F)]; [auto|right]. exists (u ++ r ++ v), u, v. auto. Qed.
Lemma first_unique s t u v u' v' : first_at s t u v -> first_at s t u' v' -> u = u' /\ v = v'.
Proof.
  intros [Q F] [Q' F']. assert (L : zlen u = zlen u').
  { pose proof (zlen_nonneg u). pose proof (zlen_nonneg u'). destruct (Z.lt_trichotomy (zlen u) (zlen u')) as [L|[L|L]]; auto; exfalso.
    - apply (F' (zlen u)); [lia|]. now exists u, v.
    - apply (F (zlen u')); [lia|]. now exists u', v'. }
  rewrite Q in Q'. apply app_split in Q' as [(m & -> & Q')|(m & -> & Q')]; rewrite zlen_app in L; (destruct m as [|x m]; [|rewrite zlen_cons in L; pose proof (zlen_nonneg m); lia]);
    rewrite app_nil_r; cbn [app] in Q'; apply app_inv_head in Q'; auto.
Qed.
Lemma once_length s r t t' : replaced_once s r t t' -> zlen t' = zlen t + (zlen r - zlen s).
Proof. intros (u & v & [-> _] & ->). rewrite !zlen_app. lia. Qed.
Lemma times_length s r n t t' : replaced_times s r n t t' -> zlen t' = zlen t + Z.of_nat n * (zlen r - zlen s).
Proof. induction 1 as [t|n t t1 t2 O _ IH]; [lia|]. apply once_length in O. rewrite IH, O. lia. Qed.

(** shorter replacements come to an end *)
Lemma shrinks s r : zlen r < zlen s -> forall k t, zlen t <= Z.of_nat k -> exists n t', replaced_times s r n t t' /\ absent s t'.
Proof.
  intros L. induction k as [|k IH]; intros t B.
  - exists O, t. split; [constructor|]. intros i O. apply occurs_bound in O. pose proof (zlen_nonneg r). lia.
  - destruct (once_total s r t) as [A|(t1 & O)]; [exists O, t; split; [constructor|exact A]|].
    destruct (IH t1) as (n & t' & T & A); [apply once_length in O; lia|]. exists (S n), t'. split; auto. econstructor; eauto.
Qed.

Lemma cons_of {A} (l : list A) : l <> [] -> exists x m, l = x :: m.
Proof. destruct l as [|x m]; [congruence|eauto]. Qed.
(** ** Replacements that have no byte in common with what they replace *)
Section Apart.
Context (s r : str) (D : forall c, In c s -> ~ In c r) (Ns : s <> []) (Nr : r <> []).
Definition wall (a : str) : Prop := forall t i, occurs_at (a ++ t) s i -> zlen a <= i.
Lemma wall_nil : wall []. Proof. intros t i (u & v & _ & ->). apply zlen_nonneg. Qed.
Lemma wall_more a t u v : wall a -> first_at s t u v -> wall (a ++ u ++ r).
Proof.
  intros W [-> F] t' i O. rewrite <- !app_assoc in O. pose proof (W _ _ O) as L. apply occurs_right in O; auto. set (j := i - zlen a) in *.
  rewrite !zlen_app. destruct (Z_lt_le_dec j (zlen u + zlen r)) as [Y|Y]; [exfalso|lia]. pose proof (occurs_bound _ _ _ O) as [B _].
  destruct (cons_of s Ns) as (sd & s' & Es). destruct (cons_of r Nr) as (rd & r' & Er).
  assert (Ls : 0 < zlen s) by (rewrite Es, zlen_cons; pose proof (zlen_nonneg s'); lia).
  destruct (Z_le_gt_dec (j + zlen s) (zlen u)) as [Z|Z].
  - apply occurs_left in O; auto. apply (F j); [lia|].
    destruct O as (x & y & -> & Q). exists x, (y ++ s ++ v). rewrite <- !app_assoc. auto.
  - destruct O as (x & y & Q & Qj). (* the occurrence has a byte of r *)
    assert (H : exists c, In c s /\ In c r); [|destruct H as (c & I1 & I2); now apply (D c)].
    apply app_split in Q as [(m & -> & Q)|(m & -> & Q)].
    + (* it begins in u *) destruct (app_split _ _ _ _ Q) as [(m' & Q0 & Q')|(m' & -> & Q')].
      * (* s ends before r begins: or at it *) destruct m' as [|c m'].
        -- rewrite app_nil_r in Q0. exfalso. rewrite Q0 in Z. rewrite zlen_app in Z. rewrite Qj in *. lia.
        -- rewrite Er in Q'. cbn [app] in Q'. injection Q' as Q1 _. exists rd. rewrite Er. split; [|now left]. rewrite Q0. apply in_app_iff. right. left. congruence.
      * exfalso. rewrite !zlen_app in Z. rewrite Qj in *. pose proof (zlen_nonneg m'). lia.
    + (* it begins in r *) rewrite zlen_app in Qj. assert (Lm : zlen m < zlen r) by lia.
      destruct (app_split _ _ _ _ Q) as [(m' & Q0 & Q')|(m' & -> & Q')].
      * rewrite Q0 in Lm. destruct m' as [|c m']; [rewrite app_nil_r in Lm; lia|]. rewrite Es in Q'. cbn [app] in Q'. injection Q' as Q1 _. exists sd. rewrite Es, Q0. split; [now left|]. apply in_app_iff. right. left. congruence.
      * rewrite zlen_app in Lm. pose proof (zlen_nonneg m'). lia.
Qed.
Lemma everywhere_times t t' : replaced_everywhere s r t t' -> forall a, wall a -> exists n, replaced_times s r n (a ++ t) (a ++ t') /\ absent s (a ++ t').
Proof.
  induction 1 as [t A|t u v v' F _ IH]; intros a W.
  - exists O. split; [constructor|]. intros i O. pose proof (W _ _ O) as L. apply occurs_right in O; auto. now apply (A (i - zlen a)).
  - destruct (IH (a ++ u ++ r) (wall_more a t u v W F)) as (n & T & A). assert (As : forall x, (a ++ u ++ r) ++ x = a ++ u ++ r ++ x) by (intros x; now rewrite <- !app_assoc). rewrite !As in T. rewrite As in A. exists (S n). split; auto.
    apply rt_more with (a ++ u ++ r ++ v); auto. exists (a ++ u), v. destruct F as [-> F]. split; [|now rewrite <- app_assoc].
    split; [now rewrite <- !app_assoc|]. intros i B O. pose proof (W _ _ O) as L. apply occurs_right in O; auto. rewrite zlen_app in B.
    apply (F (i - zlen a)); auto. lia.
Qed.
End Apart.
Lemma everywhere_total s r : s <> [] -> forall t, exists t', replaced_everywhere s r t t'.
Proof.
  intros N t. remember (length t) as k eqn:K. revert t K. induction k as [k IH] using lt_wf_ind. intros t ->.
  destruct (occurs_dec s t) as [A|(u & v & F)]; [exists t; now constructor|].
  destruct (IH (length v)) with (t := v) as (v' & E); auto.
  - destruct F as [-> _]. rewrite !app_length. destruct s; [congruence|]. cbn. lia.
  - exists (u ++ r ++ v'). now apply re_more with v.
Qed.

(** replacements that bring back what they replace *)
Lemma comes_back s a b t t' : replaced_once s (a ++ s ++ b) t t' -> ~ absent s t'.
Proof. intros (u & v & _ & ->) A. apply (A (zlen (u ++ a))). exists (u ++ a), (b ++ v). rewrite <- !app_assoc. auto. Qed.

(** ** One round *)
Section Round.
Context (E : Ext) (X : ext_ok E) (sc s r : str) (S : SpecLines.script sc (replacing s r)) (Ns : s <> []).
Lemma found_means t u v : first_at s t u v -> t <> [] ->
  means E (VList [VSym (bs "search-forward"); VStr s]) (new_buffer t)
    (fine (with_match (new_buffer t) (zlen (u ++ s) + 1) s (zlen u + 1) (zlen (u ++ s) + 1))).
Proof.
  intros [Q F] N. apply (mn_call E "search-forward"%string [VStr s] [VStr s] (new_buffer t) (new_buffer t)); [repeat econstructor|].
  apply (m_search_forward E (new_buffer t) s [] u v); rewrite <- ?Q; auto. left. split; [reflexivity|]. reflexivity.
Qed.
Lemma absent_means t : absent s t -> means E (VList [VSym (bs "search-forward"); VStr s]) (new_buffer t) (Fail (bs "search failed") (new_buffer t)).
Proof.
  intros A. apply (mn_call E "search-forward"%string [VStr s] [VStr s] (new_buffer t) (new_buffer t)); [repeat econstructor|].
  apply (m_search_forward_fails E (new_buffer t) s [] t); [left; split; reflexivity|right; exact A].
Qed.
Lemma replaced_means t u v o : t = u ++ s ++ v ->
  let b := with_match (new_buffer t) (zlen (u ++ s) + 1) s (zlen u + 1) (zlen (u ++ s) + 1) in
  becomes b (u ++ r ++ v) (zlen (u ++ r) + 1) o -> means E (VList [VSym (bs "replace-match"); VStr r]) b o.
Proof.
  intros Q b H. apply (mn_call E "replace-match"%string [VStr r] [VStr r] b b); [repeat econstructor|].
  apply (m_replace_match E b r u s v); auto.
Qed.
Lemma round_ok t t' : fits t -> replaced_once s r t t' -> fits t' -> execute_script E t sc = Ok t'.
Proof.
  intros Ft (u & v & F & ->) Ft'. apply script_exact; auto. pose proof F as [Q _].
  assert (N : t <> []) by (rewrite Q; destruct u; [destruct s; [congruence|]|]; discriminate).
  pose proof (found_means t u v F N) as M1.
  pose proof (replaced_means t u v (fine (with_text (with_match (new_buffer t) (zlen (u ++ s) + 1) s (zlen u + 1) (zlen (u ++ s) + 1)) (u ++ r ++ v) (zlen (u ++ r) + 1))) Q) as M2.
  cbn zeta in M2. specialize (M2 ltac:(left; auto)).
  refine (ed_done E _ _ t (replacing s r) _ _ S (sq_more E [VList [VSym (bs "search-forward"); VStr s]] _ _ _ _ _ _ (sq_more E [] _ _ _ _ _ _ (sq_nothing E _) M1) M2)).
Qed.
Lemma round_memory t t' : fits t -> replaced_once s r t t' -> ~ fits t' -> execute_script E t sc = Crash CrashMemory.
Proof.
  intros Ft (u & v & F & ->) Ft'. apply script_exact; auto. pose proof F as [Q _].
  assert (N : t <> []) by (rewrite Q; destruct u; [destruct s; [congruence|]|]; discriminate).
  pose proof (found_means t u v F N) as M1.
  pose proof (replaced_means t u v OutOfMemory Q) as M2. cbn zeta in M2. specialize (M2 ltac:(right; auto)).
  refine (ed_memory E _ _ t [VList [VSym (bs "search-forward"); VStr s]] _ [] _ _ S (sq_more E [] _ _ _ _ _ _ (sq_nothing E _) M1) M2).
Qed.
Lemma round_error t q : fits t -> absent s t -> quoted E s q ->
  execute_script E t sc = Err (bs "script execution failed: search failed (at instruction 0: (search-forward " ++ q ++ bs "), point=1, mark=1)").
Proof.
  intros Ft A Q. apply script_exact; auto.
  assert (C : complaint E (bs "search failed") (zlen (@nil value)) (VList [VSym (bs "search-forward"); VStr s]) (new_buffer t)
    (bs "search failed" ++ bs " (at instruction " ++ itoa 0 ++ bs ": " ++ (bs "(" ++ (bs "search-forward" ++ bs " " ++ q) ++ bs ")") ++ bs ", point=" ++ itoa 1 ++ bs ", mark=" ++ itoa 1 ++ bs ")")).
  { exists (bs "(" ++ (bs "search-forward" ++ bs " " ++ q) ++ bs ")"), (itoa 0), (itoa 1), (itoa 1).
    split; [|split; [|split; [|split; [|reflexivity]]]].
    - apply (wr_list E _ [bs "search-forward"; q]); [repeat constructor; exact Q|]. apply row_more, row_one.
    - apply itoa_text.
    - apply itoa_text.
    - apply itoa_text. }
  replace (bs "script execution failed: search failed (at instruction 0: (search-forward " ++ q ++ bs "), point=1, mark=1)")
    with (bs "script execution failed: " ++ (bs "search failed" ++ bs " (at instruction " ++ itoa 0 ++ bs ": " ++ (bs "(" ++ (bs "search-forward" ++ bs " " ++ q) ++ bs ")") ++ bs ", point=" ++ itoa 1 ++ bs ", mark=" ++ itoa 1 ++ bs ")"))
    by (rewrite <- !app_assoc; reflexivity).
  exact (ed_error E _ _ t [] _ _ _ _ _ _ _ S (sq_nothing E _) (absent_means t A) C).
Qed.
End Round.

(** ** The loop on one file *)
Section Loop.
Context (E : Ext) (X : ext_ok E) (sc s r : str) (S : SpecLines.script sc (replacing s r)) (Ns : s <> []).
Context (os : OS) (NF : no_faults os) (f : str) (q : str) (Qq : quoted E s q).
Definition not_found : str := bs "script execution failed: search failed (at instruction 0: (search-forward " ++ q ++ bs "), point=1, mark=1)".
Lemma file_ok w t t' : w_fs w (canon os f) = Some t -> fits t -> execute_script E t sc = Ok t' ->
  exists w', edit_files E os [f] sc w = (Ok [mkResult f None], w') /\ w_fs w' (canon os f) = Some t'.
Proof.
  intros F L Ex. destruct (edit_file_succeeds E os f sc w t t' NF F L Ex) as (w' & Ed & Sm). exists w'. split.
  - unfold edit_files, edit_loop, io_try. rewrite Ed. reflexivity.
  - rewrite Sm. apply upd_here.
Qed.
Lemma file_other w t x : w_fs w (canon os f) = Some t -> fits t -> execute_script E t sc = x ->
  edit_file E os f sc w = match x with Ok _ => edit_file E os f sc w | Err e => (Err e, tick w) | Crash c => (Crash c, tick w) end.
Proof.
  intros F L Ex. unfold edit_file, io_bind, read_file, io_try, os_read_file, io_res. rewrite F. destruct (NF (w_ops w)) as (-> & _).
  replace (max_alloc <? zlen t) with false by (unfold fits in L; lia). rewrite Ex. destruct x; reflexivity.
Qed.
Lemma times_fits n t t1 t2 : replaced_once s r t t1 -> replaced_times s r n t1 t2 -> fits t -> fits t2 -> fits t1.
Proof.
  intros O T A B. apply once_length in O. apply times_length in T. unfold fits in *.
  destruct (Z_le_gt_dec (zlen r) (zlen s)); [lia|]. nia.
Qed.
Lemma loop_ends n t t' : replaced_times s r n t t' -> absent s t' -> fits t -> fits t' -> forall w it, w_fs w (canon os f) = Some t ->
  exists w', edit_rounds (Datatypes.S n) (edit_files E os [f] sc) it w = Some (Ok ([mkResult f (Some not_found)], it + Z.of_nat n + 1), w') /\ w_fs w' (canon os f) = Some t'.
Proof.
  induction 1 as [t|n t t1 t2 O T IH]; intros A Ft Ft' w it F.
  - exists (tick w). pose proof (file_other w t _ F Ft (round_error E X sc s r S t q Ft A Qq)) as Ed. cbn [edit_rounds].
    unfold edit_files, edit_loop, io_try. rewrite Ed. cbn. split; [|exact F]. replace (it + 0 + 1) with (it + 1) by lia. reflexivity.
  - pose proof (times_fits n t t1 t2 O T Ft Ft') as F1. destruct (file_ok w t t1 F Ft (round_ok E X sc s r S Ns t t1 Ft O F1)) as (w1 & Ed & Fw).
    destruct (IH A F1 Ft' w1 (it + 1) Fw) as (w' & L & Fw'). exists w'. split; auto.
    change (edit_rounds (Datatypes.S (Datatypes.S n)) (edit_files E os [f] sc) it w) with
      (match edit_files E os [f] sc w with
       | (Ok rs, w') => if existsb failed rs then Some (Ok (rs, it + 1), w') else edit_rounds (Datatypes.S n) (edit_files E os [f] sc) (it + 1) w'
       | (Err e, w') => Some (Err e, w')
       | (Crash c, w') => Some (Crash c, w')
       end). rewrite Ed. cbn [existsb failed r_err orb]. rewrite L. replace (it + Z.of_nat (Datatypes.S n) + 1) with (it + 1 + Z.of_nat n + 1) by lia. reflexivity.
Qed.
Lemma loop_traced fuel : forall t w it, w_fs w (canon os f) = Some t -> fits t ->
  match edit_rounds fuel (edit_files E os [f] sc) it w with
  | None => exists t', replaced_times s r fuel t t' /\ fits t'
  | Some (Ok (rs, m), w') => exists n t', replaced_times s r n t t' /\ absent s t' /\ fits t' /\
      rs = [mkResult f (Some not_found)] /\ m = it + Z.of_nat n + 1 /\ w_fs w' (canon os f) = Some t'
  | Some (Crash c, w') => c = CrashMemory /\ exists n t' t'', replaced_times s r n t t' /\ replaced_once s r t' t'' /\ ~ fits t'' /\ w_fs w' (canon os f) = Some t'
  | Some (Err _, _) => False
  end.
Proof.
  induction fuel as [|fuel IH]; intros t w it F Ft; [exists t; split; [constructor|exact Ft]|]. cbn [edit_rounds].
  destruct (once_total s r t) as [A|(t1 & O)].
  - pose proof (file_other w t _ F Ft (round_error E X sc s r S t q Ft A Qq)) as Ed. unfold edit_files at 1, edit_loop, io_try. rewrite Ed.
    cbn [io_bind io_ret existsb failed r_err orb]. exists O, t. repeat split; auto; [constructor|]. cbn. lia.
  - destruct (Z_le_gt_dec (zlen t1) max_alloc) as [F1|F1].
    + destruct (file_ok w t t1 F Ft (round_ok E X sc s r S Ns t t1 Ft O F1)) as (w1 & Ed & Fw). rewrite Ed. cbn [existsb failed r_err orb].
      specialize (IH t1 w1 (it + 1) Fw F1). destruct (edit_rounds fuel (edit_files E os [f] sc) (it + 1) w1) as [[[[rs m]|e|c] w']|]; auto.
      * destruct IH as (n & t' & T & A & F' & -> & -> & Fw'). exists (Datatypes.S n), t'. repeat split; auto; [econstructor; eauto|lia].
      * destruct IH as (-> & n & t' & t'' & T & O' & N & Fw'). split; auto. exists (Datatypes.S n), t', t''. repeat split; auto. econstructor; eauto.
      * destruct IH as (t' & T & F'). exists t'. split; auto. econstructor; eauto.
    + assert (N1 : ~ fits t1) by (unfold fits; lia). pose proof (file_other w t _ F Ft (round_memory E X sc s r S Ns t t1 Ft O N1)) as Ed.
      unfold edit_files at 1, edit_loop, io_try. rewrite Ed. split; auto. exists 0%nat, t, t1. repeat split; auto. constructor.
Qed.
End Loop.
