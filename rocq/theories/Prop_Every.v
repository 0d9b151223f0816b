(** C86: replacing a text everywhere by looping. *)
From Coq Require Import ZArith NArith List Bool Lia Strings.Byte ZifyBool.
From Verif Require Import Base Float Ext Utf8 Strconv Values Buffer Builtins Eval Files Tools Spec SpecText SpecNumber SpecFiles SpecLines SpecManual SpecMeaning SpecEvery
  Proofs_Base Proofs_Meaning Proofs_Meaning2 Proofs_Every Prop_Manual Prop_Meaning Prop_Words Prop_Files Prop_Tools RefExt Proofs_Ref.
Import ListNotations.
Open Scope Z_scope.

(** ** C86 *)

(** one run of a script that searches for [s] and replaces what was found by [r] *)
Theorem replacement_exact E sc s r t : ext_ok E -> SpecLines.script sc (replacing s r) -> s <> [] -> fits t ->
  (forall t', replaced_once s r t t' -> fits t' -> execute_script E t sc = Ok t') /\
  (forall t', replaced_once s r t t' -> ~ fits t' -> execute_script E t sc = Crash CrashMemory) /\
  (forall q, absent s t -> quoted E s q ->
    execute_script E t sc = Err (bs "script execution failed: search failed (at instruction 0: (search-forward " ++ q ++ bs "), point=1, mark=1)")) /\
  (absent s t \/ exists t', replaced_once s r t t' /\ forall t'', replaced_once s r t t'' -> t'' = t').
Proof.
  intros X S N F. split; [|split; [|split]].
  - intros t' O F'. exact (round_ok E X sc s r S N t t' F O F').
  - intros t' O F'. exact (round_memory E X sc s r S N t t' F O F').
  - intros q A Q. exact (round_error E X sc s r S t q F A Q).
  - destruct (occurs_dec s t) as [A|(u & v & Fu)]; [auto|right]. exists (u ++ r ++ v). split; [exists u, v; auto|].
    intros t'' (u' & v' & Fu' & ->). destruct (first_unique _ _ _ _ _ _ Fu Fu') as [<- <-]. reflexivity.
Qed.
Definition demo_script : str := bs "search-forward ""ab""; replace-match ""-""".
Lemma demo_replacing : SpecLines.script demo_script (replacing (bs "ab") (bs "-")).
Proof. apply script_grammar. vm_compute. reflexivity. Qed.
Example replacement_witness : first_at (bs "ab") (bs "aabab") (bs "a") (bs "ab") /\ execute_script ref_ext (bs "aabab") demo_script = Ok (bs "a-ab").
Proof.
  split; [|vm_compute; reflexivity]. split; [reflexivity|]. intros i B O. assert (i = 0) by (change (zlen (bs "a")) with 1 in B; lia). subst.
  apply occurs_0 in O. discriminate O.
Qed.

(** the tool edit_file with loopUntilError on one file, on a disk without faults: it ends
    with [n] + 1 rounds exactly if after [n] replacements nothing is left to replace, and the
    file then holds the result *)
Theorem loop_replaces E sc s r os f t w q n : ext_ok E -> SpecLines.script sc (replacing s r) -> s <> [] -> fits t ->
  no_faults os -> w_fs w (canon os f) = Some t -> quoted E s q ->
  let loop fuel := edit_files_loop E os fuel [f] sc w in
  (exists t', replaced_times s r n t t' /\ absent s t' /\ fits t') <->
  exists fuel rs w', loop fuel = Some (Ok (rs, Z.of_nat n + 1), w') /\
    rs = [mkResult f (Some (bs "script execution failed: search failed (at instruction 0: (search-forward " ++ q ++ bs "), point=1, mark=1)"))] /\
    exists t', replaced_times s r n t t' /\ absent s t' /\ w_fs w' (canon os f) = Some t'.
Proof.
  intros X S N F NF Fw Q loop. split.
  - intros (t' & T & A & F'). destruct (loop_ends E X sc s r S N os NF f q Q n t t' T A F F' w 0 Fw) as (w' & L & Fw').
    exists (Datatypes.S n), [mkResult f (Some (not_found q))], w'. split; [exact L|]. split; [reflexivity|]. exists t'. auto.
  - intros (fuel & rs & w' & L & _ & _). pose proof (loop_traced E X sc s r S N os NF f q Q fuel t w 0 Fw F) as H.
    unfold loop, edit_files_loop in L. rewrite L in H. destruct H as (n' & t' & T & A & F' & _ & Z & _). assert (n' = n) by lia. subst. eauto.
Qed.
(** it answers with nothing else, and runs out of memory only if a replacement is too long *)
Theorem loop_outcomes E sc s r os f t w fuel : ext_ok E -> SpecLines.script sc (replacing s r) -> s <> [] -> fits t ->
  no_faults os -> w_fs w (canon os f) = Some t ->
  match edit_files_loop E os fuel [f] sc w with
  | None => exists t', replaced_times s r fuel t t' /\ fits t'
  | Some (Ok (_, m), w') => exists n t', m = Z.of_nat n + 1 /\ replaced_times s r n t t' /\ absent s t' /\ w_fs w' (canon os f) = Some t'
  | Some (Crash c, w') => c = CrashMemory /\ exists n t' t'', replaced_times s r n t t' /\ replaced_once s r t' t'' /\ ~ fits t'' /\ w_fs w' (canon os f) = Some t'
  | Some (Err _, _) => False
  end.
Proof.
  intros X S N F NF Fw. assert (Q : quoted E s (quote E s)) by now apply quoted_exact.
  pose proof (loop_traced E X sc s r S N os NF f (quote E s) Q fuel t w 0 Fw F) as H. unfold edit_files_loop.
  destruct (edit_rounds fuel (edit_files E os [f] sc) 0 w) as [[[[rs m]|e|c] w']|]; auto.
  destruct H as (n & t' & T & A & _ & _ & -> & Fw'). exists n, t'. repeat split; auto.
Qed.

(** a replacement shorter than what it replaces: the loop ends, after no more rounds than the
    file has bytes and one, and [s] is nowhere in the file *)
Theorem shorter_ends E sc s r os f t w : ext_ok E -> SpecLines.script sc (replacing s r) -> zlen r < zlen s -> fits t ->
  no_faults os -> w_fs w (canon os f) = Some t ->
  exists fuel rs n w' t', edit_files_loop E os fuel [f] sc w = Some (Ok (rs, n), w') /\ n <= zlen t + 1 /\ w_fs w' (canon os f) = Some t' /\ absent s t'.
Proof.
  intros X S L F NF Fw. assert (N : s <> []) by (intros ->; pose proof (zlen_nonneg r); change (zlen (@nil byte)) with 0 in L; lia).
  assert (Q : quoted E s (quote E s)) by now apply quoted_exact.
  destruct (shrinks s r L (length t) t) as (n & t' & T & A); [unfold zlen; lia|]. pose proof (times_length _ _ _ _ _ T) as Z.
  assert (F' : fits t') by (unfold fits in *; nia). pose proof (zlen_nonneg t') as P.
  destruct (loop_ends E X sc s r S N os NF f (quote E s) Q n t t' T A F F' w 0 Fw) as (w' & Lp & Fw').
  exists (Datatypes.S n), [mkResult f (Some (not_found (quote E s)))], (0 + Z.of_nat n + 1), w', t'. split; [exact Lp|]. split; [nia|]. auto.
Qed.
(** a replacement that has no byte in common with what it replaces: the loop ends with what
    replacing everywhere in one pass gives *)
Theorem apart_replaces_everywhere E sc s r os f t w : ext_ok E -> SpecLines.script sc (replacing s r) -> s <> [] -> r <> [] ->
  (forall c, In c s -> ~ In c r) -> no_faults os -> w_fs w (canon os f) = Some t -> fits t ->
  exists t', replaced_everywhere s r t t' /\
    (fits t' -> exists fuel rs n w', edit_files_loop E os fuel [f] sc w = Some (Ok (rs, n), w') /\ w_fs w' (canon os f) = Some t').
Proof.
  intros X S Ns Nr D NF Fw F. assert (Q : quoted E s (quote E s)) by now apply quoted_exact.
  destruct (everywhere_total s r Ns t) as (t' & Ev). exists t'. split; auto. intros F'.
  destruct (everywhere_times s r D Ns Nr t t' Ev [] (wall_nil s)) as (n & T & A). cbn [app] in T, A.
  destruct (loop_ends E X sc s r S Ns os NF f (quote E s) Q n t t' T A F F' w 0 Fw) as (w' & Lp & Fw').
  exists (Datatypes.S n), [mkResult f (Some (not_found (quote E s)))], (0 + Z.of_nat n + 1), w'. auto.
Qed.
(** a replacement that contains what it replaces: the request is never answered *)
Theorem containing_never_ends E sc s a b os f t w : ext_ok E -> SpecLines.script sc (replacing s (a ++ s ++ b)) -> s <> [] -> fits t ->
  no_faults os -> w_fs w (canon os f) = Some t -> ~ absent s t ->
  (forall fuel rs n w', edit_files_loop E os fuel [f] sc w <> Some (Ok (rs, n), w')) /\
  (a ++ b = [] -> forall fuel, edit_files_loop E os fuel [f] sc w = None) /\
  (a ++ b <> [] -> exists fuel w', edit_files_loop E os fuel [f] sc w = Some (Crash CrashMemory, w')).
Proof.
  intros X S Ns F NF Fw NA. assert (Keeps : forall n t0 t', replaced_times s (a ++ s ++ b) n t0 t' -> ~ absent s t0 -> ~ absent s t').
  { induction 1 as [t0|n t0 t1 t2 O _ IH]; auto. intros _. apply IH. now apply comes_back with (1 := O). }
  pose proof (loop_outcomes E sc s (a ++ s ++ b) os f t w) as H.
  assert (No : forall fuel rs n w', edit_files_loop E os fuel [f] sc w <> Some (Ok (rs, n), w')).
  { intros fuel rs n w' L. specialize (H fuel X S Ns F NF Fw). rewrite L in H. destruct H as (k & t' & _ & T & A & _). now apply (Keeps k t t'). }
  split; [exact No|]. split.
  - intros Z fuel. apply app_eq_nil in Z as [-> ->]. specialize (H fuel X S Ns F NF Fw).
    destruct (edit_files_loop E os fuel [f] sc w) as [[[[rs m]|e|c] w']|] eqn:L; auto; [now apply No in L|destruct H|].
    destruct H as (_ & k & t' & t'' & T & O & N & _). exfalso. apply N. apply times_length in T. apply once_length in O.
    rewrite app_nil_l, app_nil_r in *. unfold fits in *. lia.
  - intros Z. set (fuel := Datatypes.S (Z.to_nat max_alloc)). specialize (H fuel X S Ns F NF Fw).
    destruct (edit_files_loop E os fuel [f] sc w) as [[[[rs m]|e|c] w']|] eqn:L; [now apply No in L|destruct H| |].
    + destruct H as [-> _]. exists fuel, w'. exact L.
    + exfalso. destruct H as (t' & T & F'). apply times_length in T. pose proof (zlen_nonneg t). unfold fits in F'.
      assert (P : 1 <= zlen (a ++ s ++ b) - zlen s). { rewrite !zlen_app. destruct a as [|x a]; [destruct b as [|x b]; [now contradiction Z|]|]; rewrite zlen_cons;
        [pose proof (zlen_nonneg b)|pose proof (zlen_nonneg a); pose proof (zlen_nonneg b)]; change (zlen (@nil byte)) with 0; lia. }
      assert (G : max_alloc < Z.of_nat fuel). { unfold fuel. rewrite Nat2Z.inj_succ, Z2Nat.id by (cbv; discriminate). lia. }
      clearbody fuel. nia.
Qed.
(** searching for nothing: an error in the first round, and the file is as before *)
Theorem empty_search_ends E sc r os f t w : ext_ok E -> SpecLines.script sc (replacing [] r) -> fits t ->
  no_faults os -> w_fs w (canon os f) = Some t ->
  exists e w', edit_files_loop E os 1 [f] sc w = Some (Ok ([mkResult f (Some e)], 1), w') /\ w_fs w' (canon os f) = Some t.
Proof.
  intros X S F NF Fw. assert (H : exists e, execute_script E t sc = Err e).
  { unfold execute_script. rewrite (proj2 (script_grammar sc _) S). cbn [run_program].
    assert (P : exists x b, plays E (replacing [] r) (new_buffer t) (EvError x b)).
    { destruct t as [|c t].
      - do 2 eexists. eapply (pl_error E _ _ []); [reflexivity|constructor|].
        apply (mn_call E "search-forward"%string [VStr []] [VStr []] (new_buffer []) (new_buffer [])); [repeat econstructor|].
        apply (m_search_forward_fails E (new_buffer []) [] [] []); [left; split; reflexivity|now left].
      - assert (M1 : means E (VList [VSym (bs "search-forward"); VStr []]) (new_buffer (c :: t)) (fine (with_match (new_buffer (c :: t)) 1 [] 1 1))).
        { apply (mn_call E "search-forward"%string [VStr []] [VStr []] (new_buffer (c :: t)) (new_buffer (c :: t))); [repeat econstructor|].
          apply (m_search_forward E (new_buffer (c :: t)) [] [] [] (c :: t)); [left; split; reflexivity|discriminate|]. change (zlen (@nil byte)) with 0. lia. }
        do 2 eexists. eapply (pl_error E _ _ [VList [VSym (bs "search-forward"); VStr []]]); [reflexivity| |].
        + exact (sq_more E [] _ _ _ _ _ _ (sq_nothing E _) M1).
        + eapply (mn_call E "replace-match"%string [VStr r] [VStr r]); [repeat econstructor|]. apply m_replace_no_match. reflexivity. }
    destruct P as (x & b & P). apply (program_exact E X) in P; [rewrite P; eauto|now apply script_texts with sc|now apply machine_begins]. }
  destruct H as (e & H). exists e, (tick w). pose proof (file_other E sc os NF f w t _ Fw F H) as Ed.
  unfold edit_files_loop. cbn [edit_rounds]. unfold edit_files, edit_loop, io_try. rewrite Ed. cbn. auto.
Qed.

(** looping is not the same as one pass: what is left may come together *)
Theorem loop_is_one_pass_refuted : exists t s r t1 t2, replaced_everywhere s r t t1 /\ replaced_times s r 2 t t2 /\ absent s t2 /\ t1 <> t2.
Proof.
  exists (bs "aabb"), (bs "ab"), [], (bs "ab"), []. split; [|split; [|split]].
  - apply (re_more (bs "ab") [] (bs "aabb") (bs "a") (bs "b") (bs "b")).
    + split; [reflexivity|]. intros i B O. assert (i = 0) by (change (zlen (bs "a")) with 1 in B; lia). subst. apply occurs_0 in O. discriminate O.
    + constructor. intros i O. apply occurs_bound in O. change (zlen (bs "ab")) with 2 in O. change (zlen (bs "b")) with 1 in O. lia.
  - apply rt_more with (bs "ab"); [|apply rt_more with []; [|constructor]].
    + exists (bs "a"), (bs "b"). split; [|reflexivity]. split; [reflexivity|]. intros i B O. assert (i = 0) by (change (zlen (bs "a")) with 1 in B; lia). subst.
      apply occurs_0 in O. discriminate O.
    + exists [], []. split; [|reflexivity]. split; [reflexivity|]. change (zlen (@nil byte)) with 0. lia.
  - intros i O. apply occurs_bound in O. change (zlen (bs "ab")) with 2 in O. change (zlen (@nil byte)) with 0 in O. lia.
  - discriminate.
Qed.
Example apart_witness : SpecLines.script demo_script (replacing (bs "ab") (bs "-")) /\ (forall c, In c (bs "ab") -> ~ In c (bs "-")) /\ no_faults Prop_Files.demo_os /\
  match edit_files_loop ref_ext Prop_Files.demo_os 5 [bs "f"] demo_script (Prop_Files.demo [(bs "f", bs "xababy")]) with
  | Some (Ok (_, n), w') => n = 3 /\ w_fs w' (bs "f") = Some (bs "x--y")
  | _ => False
  end.
Proof.
  split; [exact demo_replacing|]. split; [|split; [repeat split|vm_compute; split; reflexivity]].
  intros c [<-|[<-|[]]] [Q|[]]; discriminate Q.
Qed.
Example containing_witness : SpecLines.script (bs "search-forward ""b""; replace-match ""abc""") (replacing (bs "b") (bs "a" ++ bs "b" ++ bs "c")) /\ ~ absent (bs "b") (bs "xby") /\
  edit_files_loop ref_ext Prop_Files.demo_os 5 [bs "f"] (bs "search-forward ""b""; replace-match ""abc""") (Prop_Files.demo [(bs "f", bs "xby")]) = None.
Proof.
  split; [apply script_grammar; vm_compute; reflexivity|]. split; [|vm_compute; reflexivity].
  intros A. apply (A 1). exists (bs "x"), (bs "y"). split; reflexivity.
Qed.
Example empty_search_witness : SpecLines.script (bs "search-forward """"; replace-match ""x""") (replacing [] (bs "x")).
Proof. apply script_grammar. vm_compute. reflexivity. Qed.

(** ** Assumptions of every theorem above *)
Print Assumptions replacement_exact.
Print Assumptions loop_replaces.
Print Assumptions loop_outcomes.
Print Assumptions shorter_ends.
Print Assumptions apart_replaces_everywhere.
Print Assumptions containing_never_ends.
Print Assumptions empty_search_ends.
Print Assumptions loop_is_one_pass_refuted.
