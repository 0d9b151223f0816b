(** C85: how long a text a script can make, and when memory runs out. *)
From Coq Require Import ZArith NArith QArith List Bool Lia Strings.Byte ZifyBool.
From Verif Require Import Base Float Ext Utf8 Strconv Values Buffer Builtins Eval Files Tools Spec SpecText SpecNumber SpecJson SpecLines SpecManual SpecMeaning SpecGrowth
  Proofs_Base Proofs_Float Proofs_Utf8 Proofs_Json Proofs_Effects Proofs_Loops Proofs_Chars Proofs_Meaning Proofs_Meaning2 Proofs_Manual6 Proofs_Growth
  Prop_Manual Prop_Meaning Prop_Words RefExt Proofs_Ref.
Import ListNotations.
Open Scope Z_scope.

(** ** C85 *)

(** one call: what the text and the value have together is at most the multiplier times what
    the text and the arguments had; memory runs out only if that is more than there is *)
Theorem call_growth E name args b : ext_ok E -> machine b -> held args -> (exists s, In (name, s) signatures) ->
  bs name <> bs "replace-regexp-in-string" ->
  match call E name args b with
  | Done v b' => zlen (content b') + bytes_of v <= multiplier (bs name) * (zlen (content b) + total (map bytes_of args))
  | OutOfMemory => max_alloc < multiplier (bs name) * (zlen (content b) + total (map bytes_of args))
  | _ => True
  end.
Proof.
  intros X M A N Q. assert (H : manual E name args b (call E name args b)) by (apply manual_exact; auto).
  apply manual_within in H; auto. now destruct (call E name args b).
Qed.
(** doubling by deleting: three bytes more after (delete-char -3) *)
Example call_growth_witness : exists b', call ref_ext "delete-char" [VInt (-3)] (mkBuffer (bs "abcd") 4 1 [] 0 0) = fine b' /\ content b' = bs "abcabcd".
Proof.
  exists (mkBuffer (bs "abcabcd") 4 1 [] 0 0). split; [|reflexivity]. apply manual_exact; [apply ref_ext_ok|split; [cbv; discriminate|repeat split; cbv; discriminate]| |eexists; cbn; eauto 60|].
  - intros s [Q|[]]. discriminate.
  - apply (m_delete_char_doubles ref_ext _ _ (-3) [] (bs "abc") (bs "d")); [apply count_lit; lia|split; reflexivity|discriminate|lia|reflexivity|].
    left. split; [cbv; discriminate|reflexivity].
Qed.

(** only four commands ever lengthen the text, *)
Theorem only_four_lengthen E name args b v b' : ext_ok E -> machine b -> held args -> (exists s, In (name, s) signatures) ->
  call E name args b = Done v b' -> ~ In (bs name) lengthening -> zlen (content b') <= zlen (content b).
Proof.
  intros X M A N H L. apply manual_exact in H; auto. remember (Done v b') as o eqn:Q.
  assert (G : forall b1, content b1 = content b -> o = fine b1 -> zlen (content b') <= zlen (content b)).
  { intros b1 E1 E2. rewrite E2 in Q. injection Q as _ <-. now rewrite E1. }
  assert (K : forall w, o = Done w b -> zlen (content b') <= zlen (content b)).
  { intros w E2. rewrite E2 in Q. injection Q as _ <-. lia. }
  assert (T : forall t p, o = fine (with_text b t p) -> zlen t <= zlen (content b) -> zlen (content b') <= zlen (content b)).
  { intros t p E2 E3. rewrite E2 in Q. injection Q as _ <-. exact E3. }
  destruct H;
    try discriminate;
    try (eapply G; [|reflexivity]; reflexivity);
    try (eapply K; reflexivity);
    try (match goal with Y : yes_if _ _ _ |- _ => destruct Y as [[_ Y]|[_ Y]]; eapply K; exact Y end);
    try (match goal with Y : gives _ _ _ |- _ => destruct Y as [[_ Y]|[_ Y]]; [eapply K; exact Y|rewrite Y in Q; discriminate Q] end);
    try (exfalso; apply L; cbn; tauto);
    try (eapply T; [reflexivity|]; clear G K T; parts; match goal with Y : content b = _ |- _ => rewrite Y end; subst; sizes; nonneg; lia).
  eapply T; [reflexivity|]. clear G K T. parts. match goal with Y : content b = _ |- _ => rewrite Y end. subst.
  destruct after as [|c after]; cbn [tl]; sizes; nonneg; lia.
Qed.
Example only_four_lengthen_witness : zlen (content (mkBuffer (bs "abcd") 2 1 [] 0 0)) = 4 /\
  call ref_ext "delete-region" [] (mkBuffer (bs "abcd") 2 1 [] 0 0) = fine (mkBuffer (bs "bcd") 1 1 [] 0 0).
Proof. split; vm_compute; reflexivity. Qed.
(** and three of them by no more than they are given *)
Theorem written_is_given E name args b v b' : ext_ok E -> machine b -> held args -> (exists s, In (name, s) signatures) ->
  call E name args b = Done v b' -> bs name <> bs "delete-char" -> zlen (content b') <= zlen (content b) + total (map bytes_of args).
Proof.
  intros X M A N H Q. destruct (in_dec (list_eq_dec Byte.byte_eq_dec) (bs name) lengthening) as [I|I].
  - pose proof (call_growth E name args b X M A N) as G. rewrite H in G. pose proof (bytes_nonneg v) as V.
    destruct I as [I|[I|[I|[I|[]]]]]; rewrite <- I in *;
      [change (multiplier (bs "insert")) with 1 in G|change (multiplier (bs "replace-match")) with 1 in G|change (multiplier (bs "replace-region")) with 1 in G|congruence];
      specialize (G ltac:(discriminate)); lia.
  - pose proof (only_four_lengthen E name args b v b' X M A N H I). pose proof (total_nonneg args). lia.
Qed.
Example written_is_given_witness : call ref_ext "insert" [VStr (bs "xyz")] (new_buffer (bs "abcd")) = fine (mkBuffer (bs "xyzabcd") 4 1 [] 0 0) /\
  total (map bytes_of [VStr (bs "xyz")]) = 3.
Proof. split; vm_compute; reflexivity. Qed.

(** a whole program: neither a finished text, with the final value, nor the text of an error
    report is longer than the limit; and memory runs out only if the limit is above it *)
Theorem program_growth E p b : ext_ok E -> machine b -> Forall holds_texts p -> bounded p ->
  match eval E (default_env E) p b with
  | EvDone v b' => zlen (content b') + bytes_of v <= limit p (zlen (content b))
  | EvError x b' => zlen (x_content x) <= limit p (zlen (content b)) /\ zlen (content b') <= limit p (zlen (content b))
  | EvOutOfMemory => max_alloc < limit p (zlen (content b))
  | EvPanic => True
  | EvDiverge => False
  end.
Proof.
  intros X M T B. pose proof (program_ended E X p p T B 0 (VStr []) b M ltac:(reflexivity)) as H. unfold eval, eval_with_trace, limit in *.
  assert (Xc : forall rest i v c, match fst (eval_from E (default_env E) (@None (@callback unit)) p i rest v tt c) with EvError x b' => x_content x = content b' | _ => True end).
  { clear. induction rest as [|e rest IH]; intros i v c; [exact I|]. cbn [eval_from]. destruct (eval_expr E (default_env E) e c); try exact I; [apply IH|reflexivity]. }
  specialize (Xc p 0 (VStr []) b). destruct (fst (eval_from E (default_env E) None p 0 p (VStr []) tt b)); cbn [ended] in H; auto. rewrite Xc. now split.
Qed.
(** programs that only write what they bring along *)
Theorem frugal_growth E p b v b' : ext_ok E -> machine b -> Forall holds_texts p -> frugal p ->
  eval E (default_env E) p b = EvDone v b' -> zlen (content b') <= zlen (content b) + amounts p.
Proof.
  intros X M T [B F] H. pose proof (program_growth E p b X M T B) as G. rewrite H in G. unfold limit, factors in G. rewrite unmentioned in G by exact F.
  pose proof (bytes_nonneg v). lia.
Qed.
Definition tidy : list value := [VList [VSym (bs "insert"); VList [VSym (bs "concat"); VStr (bs "a"); VStr (bs "bc")]]; VList [VSym (bs "end-of-line")]].
Lemma tidy_frugal : frugal tidy.
Proof.
  split; [|repeat constructor];
    (unfold bounded, tidy; rewrite !mentions_cons; cbn [mentions]; intros H;
     repeat match type of H with
     | _ \/ _ => destruct H as [H|H]
     | False => destruct H
     | bs _ = bs _ => discriminate H
     end).
Qed.
Example frugal_growth_witness : frugal tidy /\ Forall holds_texts tidy /\ amounts tidy = 3 /\ limit tidy 4 = 7 /\ exists v b, eval ref_ext (default_env ref_ext) tidy (new_buffer (bs "text")) = EvDone v b /\ zlen (content b) = 7.
Proof.
  split; [exact tidy_frugal|]. split; [apply script_texts with (bs "insert (concat ""a"" ""bc""); end-of-line"); apply script_grammar; vm_compute; reflexivity|].
  split; [reflexivity|]. split; [reflexivity|]. exists (VStr []), (mkBuffer (bs "abctext") 8 1 [] 0 0). split; vm_compute; reflexivity.
Qed.
(** a program whose limit is not above the memory never runs out of it *)
Theorem program_has_room E p b : ext_ok E -> machine b -> Forall holds_texts p -> bounded p -> limit p (zlen (content b)) <= max_alloc ->
  eval E (default_env E) p b <> EvOutOfMemory.
Proof. intros X M T B L H. pose proof (program_growth E p b X M T B) as G. rewrite H in G. lia. Qed.

(** the limit is reached: inserting the text into itself, [k] times over, makes it 2^k times
    as long, or runs out of memory *)
Theorem doubling E s k : ext_ok E -> fits s ->
  limit (repeat double k) (zlen s) = 2 ^ Z.of_nat k * zlen s /\
  (2 ^ Z.of_nat k * zlen s <= max_alloc -> exists v b, eval E (default_env E) (repeat double k) (new_buffer s) = EvDone v b /\ zlen (content b) = 2 ^ Z.of_nat k * zlen s) /\
  (max_alloc < 2 ^ Z.of_nat k * zlen s -> eval E (default_env E) (repeat double k) (new_buffer s) = EvOutOfMemory).
Proof.
  intros X F. split.
  - unfold limit, factors, amounts. assert (H : factor (VList (repeat double k)) = 2 ^ Z.of_nat k /\ amount (VList (repeat double k)) = 0); [|destruct H as [-> ->]; f_equal; lia].
    induction k as [|k [IH1 IH2]]; [split; reflexivity|]. cbn [repeat]. rewrite factor_cons, amount_cons, IH1, IH2. change (factor double) with 2. change (amount double) with 0.
    rewrite Nat2Z.inj_succ, Z.pow_succ_r by lia. auto.
  - assert (B : between (new_buffer s) [] s) by (split; reflexivity).
    pose proof (doubles E X k (repeat double k) 0 (VStr []) (new_buffer s) [] s (machine_begins s F) B) as H.
    change (zlen (content (new_buffer s))) with (zlen s) in H. unfold eval, eval_with_trace.
    destruct (fst (eval_from E (default_env E) None (repeat double k) 0 (repeat double k) (VStr []) tt (new_buffer s))) as [v b|x b| | |]; try contradiction.
    + destruct H as [H1 H2]. split; [eauto|lia].
    + split; [lia|auto].
Qed.
(** so 49 instructions are too many for any text but the empty one: this program has no text
    in it and memory is never enough for it *)
Theorem short_scripts_fit_refuted E : ext_ok E -> exists p, bounded p /\ amounts p = 0 /\ zlen p = 49 /\
  forall s, s <> [] -> fits s -> eval E (default_env E) p (new_buffer s) = EvOutOfMemory.
Proof.
  intros X. exists (repeat double 49). split; [|split; [reflexivity|split; [reflexivity|]]].
  - unfold bounded. assert (H : forall k, ~ mentions (bs "replace-regexp-in-string") (VList (repeat double k))).
    { induction k as [|k IH]; [intros []|]. cbn [repeat]. rewrite mentions_cons. intros [H|H]; [|now apply IH].
      revert H. clear. unfold double. rewrite !mentions_cons. cbn [mentions].
      assert (Q1 : bs "insert" <> bs "replace-regexp-in-string") by discriminate.
      assert (Q2 : bs "buffer-substring" <> bs "replace-regexp-in-string") by discriminate. tauto. }
    apply H.
  - intros s N F. apply (doubling E s 49 X F). destruct s as [|c s]; [congruence|]. rewrite zlen_cons. pose proof (zlen_nonneg s).
    change (2 ^ Z.of_nat 49) with 562949953421312. change max_alloc with 281474976710656. lia.
Qed.

(** the literals of a script together are no longer than the script *)
Theorem script_literals s p : SpecLines.script s p -> amounts p <= 3 * zlen s /\ (utf8_text s -> amounts p <= zlen s).
Proof. intros H. split; [now apply script_amount|]. intros U. now apply script_amount_text. Qed.

(** scripts in the shell notation, by their length alone *)
Theorem script_growth E input s p out : ext_ok E -> fits input -> SpecLines.script s p -> frugal p ->
  execute_script E input s = Ok out -> zlen out <= zlen input + 3 * zlen s /\ (utf8_text s -> zlen out <= zlen input + zlen s).
Proof.
  intros X F S Fr H. destruct (script_literals s p S) as [L1 L2]. unfold execute_script in H. rewrite (proj2 (script_grammar s p) S) in H. cbn [run_program] in H.
  destruct (eval E (default_env E) p (new_buffer input)) as [v b|x b| | |] eqn:Q; try discriminate. injection H as <-.
  pose proof (frugal_growth E p (new_buffer input) v b X (machine_begins input F) (script_texts s p S) Fr Q) as G.
  change (content (new_buffer input)) with input in G. split; [lia|]. intros U. specialize (L2 U). lia.
Qed.
Theorem script_has_room E input s p : ext_ok E -> SpecLines.script s p -> frugal p -> zlen input + 3 * zlen s <= max_alloc ->
  execute_script E input s <> Crash CrashMemory.
Proof.
  intros X S [B Fr] L H. destruct (script_literals s p S) as [L1 _]. unfold execute_script in H. rewrite (proj2 (script_grammar s p) S) in H. cbn [run_program] in H.
  pose proof (zlen_nonneg s) as Z.
  assert (R : eval E (default_env E) p (new_buffer input) <> EvOutOfMemory).
  { apply program_has_room; auto; [apply machine_begins; unfold fits; lia|now apply script_texts with s|].
    unfold limit, factors. rewrite unmentioned by exact Fr. change (content (new_buffer input)) with input. lia. }
  destruct (eval E (default_env E) p (new_buffer input)); congruence.
Qed.
Example script_growth_witness : SpecLines.script (bs "insert (concat ""a"" ""bc""); end-of-line") tidy /\
  execute_script ref_ext (bs "text") (bs "insert (concat ""a"" ""bc""); end-of-line") = Ok (bs "abctext").
Proof. split; [apply script_grammar|]; vm_compute; reflexivity. Qed.

(** ** Assumptions of every theorem above *)
Print Assumptions call_growth.
Print Assumptions only_four_lengthen.
Print Assumptions written_is_given.
Print Assumptions program_growth.
Print Assumptions frugal_growth.
Print Assumptions program_has_room.
Print Assumptions doubling.
Print Assumptions short_scripts_fit_refuted.
Print Assumptions script_literals.
Print Assumptions script_growth.
Print Assumptions script_has_room.
