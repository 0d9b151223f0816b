(** C87: what can be known about a script without running it. *)
From Coq Require Import ZArith NArith QArith List Bool Lia Strings.Byte ZifyBool.
From Verif Require Import Base Float Ext Utf8 Strconv Values Parser Buffer Builtins Eval Files Tools Docs DocsData Spec SpecText SpecNumber SpecJson SpecLines SpecFiles SpecRefuse SpecManual SpecMeaning SpecKinds
  Proofs_Base Proofs_Json Proofs_Effects Proofs_Meaning Proofs_Meaning2 Proofs_Program Proofs_Kinds Prop_Calls Prop_Manual Prop_Meaning Prop_Files Prop_Tools Prop_Words Prop_Refuse RefExt Proofs_Ref.
Import ListNotations.
Open Scope Z_scope.

(** ** C87 *)

(** an expression has at most one kind, and the check can be computed *)
Theorem check_computes : exists check : value -> option (option kind), forall e k, check e = Some k <-> checked e k.
Proof. exists kind_of. exact kind_of_iff. Qed.
Theorem checked_one e k k' : checked e k -> checked e k' -> k = k'.
Proof. intros A B. apply kind_of_iff in A, B. congruence. Qed.

(** the value of an expression that is in order is of the announced kind *)
Theorem checked_value E e k b v b' : ext_ok E -> holds_texts e -> machine b -> checked e k ->
  eval_expr E (default_env E) e b = Done v b' -> of_kind k v.
Proof. intros X T M C Q. pose proof (proj1 (checked_sound E X) e k C T b M) as S. now rewrite Q in S. Qed.

(** it fails only because one of six commands in it did not find, or could not use, what it
    was asked for; never because of the number or the kinds of the arguments, an unknown
    name or a wrong form *)
Theorem checked_error E e b m b' : ext_ok E -> holds_texts e -> machine b -> in_order e ->
  eval_expr E (default_env E) e b = Fail m b' -> exists name args, called (bs name) e /\ In name fallible /\ expected_error E name args m.
Proof. intros X T M [k C] Q. pose proof (proj1 (checked_sound E X) e k C T b M) as S. now rewrite Q in S. Qed.
Theorem program_error E p b x b' : ext_ok E -> Forall holds_texts p -> machine b -> Forall in_order p ->
  eval E (default_env E) p b = EvError x b' ->
  exists i name args, In i p /\ x_instruction x = i /\ called (bs name) i /\ In name fallible /\ expected_error E name args (x_error x).
Proof. intros X T M O Q. eapply program_errors; eauto. Qed.
Theorem script_error E input s p m : ext_ok E -> fits input -> SpecLines.script s p -> Forall in_order p ->
  execute_script E input s = Err m -> exists name args e rest, In name fallible /\ expected_error E name args e /\
    m = bs "script execution failed: " ++ e ++ bs " (at instruction " ++ rest.
Proof.
  intros X F S O Q. pose proof (script_texts s p S) as T. apply script_exact in Q; auto.
  inversion Q as [|before i rest v b1 msg b2 t S' Sq Me C EQ|m' B| |]; subst.
  - rewrite (script_one_meaning s p (before ++ i :: rest) S S') in *. clear S S'.
    apply Forall_app in T as [T1 T2]. inversion T2 as [|? ? T3 _]; subst. apply Forall_app in O as [_ O]. inversion O as [|? ? O1 _]; subst.
    pose proof (sequence_machine E X _ _ _ _ Sq T1 (machine_begins input F)) as M1. apply means_iff in Me; auto.
    destruct (checked_error E i b1 msg b2 X T3 M1 O1 Me) as (name & args & _ & I & Ex). destruct C as (ti & tn & tp & tm & _ & _ & _ & _ & ->).
    exists name, args, msg, (tn ++ bs ": " ++ ti ++ bs ", point=" ++ tp ++ bs ", mark=" ++ tm ++ bs ")"). repeat split; auto.
  - exfalso. now apply (script_not_refused s p m') in B.
Qed.

(** a program in order that calls none of the six never fails *)
Theorem certain_never_fails E p b x b' : ext_ok E -> Forall holds_texts p -> machine b -> Forall in_order p -> Forall certain p ->
  eval E (default_env E) p b <> EvError x b'.
Proof.
  intros X T M O C Q. destruct (program_error E p b x b' X T M O Q) as (i & name & args & I & _ & H & N & _).
  rewrite Forall_forall in C. exact (C i I name N H).
Qed.
Theorem certain_script_never_fails E input s p m : ext_ok E -> fits input -> SpecLines.script s p -> Forall in_order p -> Forall certain p ->
  execute_script E input s <> Err m.
Proof.
  intros X F S O C Q. pose proof (script_texts s p S) as T. apply script_exact in Q; auto.
  inversion Q as [|before i rest v b1 msg b2 t S' Sq Me Cm EQ|m' B| |]; subst.
  - rewrite (script_one_meaning s p (before ++ i :: rest) S S') in *. clear S S'.
    apply Forall_app in T as [T1 T2]. inversion T2 as [|? ? T3 _]; subst. apply Forall_app in O as [_ O]. inversion O as [|? ? O1 _]; subst.
    apply Forall_app in C as [_ C]. inversion C as [|? ? C1 _]; subst.
    pose proof (sequence_machine E X _ _ _ _ Sq T1 (machine_begins input F)) as M1. apply means_iff in Me; auto.
    destruct (checked_error E i b1 msg b2 X T3 M1 O1 Me) as (name & args & H & I & _). exact (C1 name I H).
  - now apply (script_not_refused s p m') in B.
Qed.
(** so the loop of the tool texted_edit_file never comes to an end with a report *)
Lemma repeated_fits E s k c ck : ext_ok E -> fits c -> repeated E s k c ck -> fits ck.
Proof.
  intros X F R. induction R as [c|k c c1 c2 R IH Q]; auto. specialize (IH F). apply script_exact in Q; auto.
  inversion Q as [p v b S Sq| | | |]; subst. pose proof (script_texts s p S) as T. exact (proj1 (sequence_machine E X _ _ _ _ Sq T (machine_begins c1 IH))).
Qed.
Theorem certain_loop_no_report E os fuel files s p w rs n w' : ext_ok E -> no_faults os -> NoDup (map (canon os) files) ->
  (forall f, In f files -> exists c, w_fs w (canon os f) = Some c /\ fits c) -> SpecLines.script s p -> Forall in_order p -> Forall certain p ->
  edit_files_loop E os fuel files s w <> Some (Ok (rs, n), w').
Proof.
  intros X NF ND F S O C Q. destruct (loop_result E os fuel files s w rs n w' NF ND) as (k & _ & M & Ex & A); auto.
  { intros f I H. destruct (F f I) as (c & Fc & _). congruence. }
  apply Exists_exists in Ex as (x & I & Hx). destruct (A x I) as (c & ck & Fc & R & [(out & _ & H & _)|(e & H & _ & _)]); [congruence|].
  assert (If : In (r_file x) files) by (rewrite <- M; now apply in_map). destruct (F _ If) as (c' & Fc' & L).
  assert (c = c') as -> by congruence. apply (repeated_fits E s k c' ck X L) in R. now apply (certain_script_never_fails E ck s p e X R S O C) in H.
Qed.

(** the check is exact: what is not in order has no value in any state, unless the answer
    of string-match, a number or nil, is used as an argument *)
Theorem unchecked_never_finishes E e b v b' : ext_ok E -> holds_texts e -> machine b -> plain e ->
  eval_expr E (default_env E) e b = Done v b' -> in_order e.
Proof. intros X T M P Q. destruct (done_checked E X e P T b v b' M Q) as (k & C & _). now exists k. Qed.
Theorem unchecked_program_never_finishes E p b v b' : ext_ok E -> Forall holds_texts p -> machine b -> Forall plain p ->
  eval E (default_env E) p b = EvDone v b' -> Forall in_order p.
Proof.
  intros X T M P Q. apply program_exact in Q; auto. inversion Q as [v' b1 S| | |]; subst. clear Q.
  induction S as [|p i b v1 b1 w b2 S IH H]; [constructor|]. apply Forall_app in T as [T1 T2], P as [P1 P2].
  inversion T2; inversion P2; subst. pose proof (sequence_machine E X _ _ _ _ S T1 M) as M1. apply means_iff in H; auto.
  apply Forall_app. split; auto. constructor; auto. eapply unchecked_never_finishes; eauto.
Qed.
(** without that exception it is not *)
Theorem unchecked_never_finishes_refuted : exists e v b', holds_texts e /\ ~ in_order e /\
  eval_expr ref_ext (default_env ref_ext) e (new_buffer (bs "abc")) = Done v b' /\ point b' = 2.
Proof.
  exists (VList [VSym (bs "goto-char"); VList [VSym (bs "string-match"); VStr (bs "c"); VStr (bs "abc")]]), (VStr []), (at_point (new_buffer (bs "abc")) 2).
  split; [|split; [|split]].
  - unfold holds_texts. cbn. repeat split; intros s H; try discriminate; injection H as <-; apply Z.leb_le; reflexivity.
  - intros [k C]. apply kind_of_iff in C. vm_compute in C. discriminate.
  - vm_compute. reflexivity.
  - reflexivity.
Qed.
(** nor does being in order keep a script from crashing *)
Theorem checked_never_crashes_refuted : exists p, Forall in_order p /\ Forall certain p /\
  eval ref_ext (default_env ref_ext) p (new_buffer []) = EvPanic.
Proof.
  exists [VList [VSym (bs "beginning-of-line")]; VList [VSym (bs "kill-word")]]. split; [|split].
  - repeat constructor; exists (Some KString); apply kind_of_iff; vm_compute; reflexivity.
  - repeat constructor; intros name I C; inversion C as [args Q|h args a I' C']; subst; try contradiction;
      cbn in I; repeat (destruct I as [<-|I]; [discriminate|]); exact I.
  - vm_compute. reflexivity.
Qed.

(** of the 108 worked examples on the documentation pages 105 are in order; *)
Definition broken_examples : list str :=
  [bs "set-mark 5; mark"; bs "end-of-buffer search-backward ""test"""; bs "beginning-of-buffer search-backward ""missing"""].
Definition orderly (s : str) : bool :=
  match parse_string s with POk p => forallb (fun i => match kind_of i with Some _ => true | None => false end) p | _ => false end.
Lemma orderly_right s : orderly s = true -> exists p, SpecLines.script s p /\ Forall in_order p.
Proof.
  unfold orderly. destruct (parse_string s) as [p| |] eqn:Q; try discriminate. intros H. exists p. split; [now apply script_grammar|].
  rewrite forallb_forall in H. apply Forall_forall. intros i I. specialize (H i I). destruct (kind_of i) as [k|] eqn:K; [|discriminate].
  exists k. now apply kind_of_iff.
Qed.
Theorem examples_in_order : zlen (flat_map d_examples registered) = 108 /\ forall e, In e (flat_map d_examples registered) ->
  (exists p, SpecLines.script (e_input e) p /\ Forall in_order p) <-> ~ In (e_input e) broken_examples.
Proof.
  split; [vm_compute; reflexivity|].
  assert (H : forallb (fun e => Bool.eqb (orderly (e_input e)) (negb (existsb (str_eqb (e_input e)) broken_examples))) (flat_map d_examples registered) = true) by (vm_compute; reflexivity).
  assert (N : forall s, In s broken_examples -> existsb (str_eqb s) broken_examples = true).
  { intros s I. apply existsb_exists. exists s. split; auto. apply str_eqb_refl. }
  assert (B : forall s p, In s broken_examples -> SpecLines.script s p -> ~ Forall in_order p).
  { intros s p I S F. apply script_grammar in S. destruct I as [<-|[<-|[<-|[]]]]; vm_compute in S; injection S as <-; inversion F as [|? ? [k C] _]; subst;
      apply kind_of_iff in C; vm_compute in C; discriminate. }
  rewrite forallb_forall in H. intros e I. specialize (H e I). apply eqb_prop in H. split.
  - intros (p & S & F) J. exact (B _ p J S F).
  - intros J. apply orderly_right. rewrite H. apply negb_true_iff. destruct (existsb (str_eqb (e_input e)) broken_examples) eqn:Q; auto.
    apply existsb_exists in Q as (s & Is & Q). apply str_eqb_eq in Q. now subst.
Qed.
(** the other three work on no text at all *)
Theorem broken_examples_fail E s input out : ext_ok E -> fits input -> In s broken_examples -> execute_script E input s <> Ok out.
Proof.
  intros X F I Q. apply script_exact in Q; auto. inversion Q as [p v b S Sq| | | |]; subst. pose proof (script_texts s p S) as T.
  assert (P : Forall plain p /\ ~ Forall in_order p).
  { clear - I S. apply script_grammar in S. destruct I as [<-|[<-|[<-|[]]]]; vm_compute in S; injection S as <-; (split; [|intros O; inversion O as [|? ? [k C] _]; subst;
      apply kind_of_iff in C; vm_compute in C; discriminate]); repeat constructor; cbn; intros l H; repeat (destruct H as [H|H]; [discriminate|]); exact H. }
  destruct P as [P N]. apply N. apply (unchecked_program_never_finishes E p (new_buffer input) v b X T (machine_begins input F) P).
  apply program_exact; auto; [now apply machine_begins|]. now constructor.
Qed.

(** ** Witnesses *)
Definition demo_text : str := bs "search-forward ""b""; insert (concat ""<"" (buffer-substring (point) (point-max)))".
Definition demo_program : list value :=
  [VList [VSym (bs "search-forward"); VStr (bs "b")];
   VList [VSym (bs "insert"); VList [VSym (bs "concat"); VStr (bs "<"); VList [VSym (bs "buffer-substring"); VList [VSym (bs "point")]; VList [VSym (bs "point-max")]]]]].
Example checked_witness : SpecLines.script demo_text demo_program /\ Forall in_order demo_program /\ Forall holds_texts demo_program /\ Forall plain demo_program /\
  machine (new_buffer (bs "abc")) /\ execute_script ref_ext (bs "abc") demo_text = Ok (bs "ab<cc") /\
  exists x b, eval ref_ext (default_env ref_ext) demo_program (new_buffer (bs "acc")) = EvError x b /\ x_error x = bs "search failed".
Proof.
  assert (S : SpecLines.script demo_text demo_program) by (apply script_grammar; vm_compute; reflexivity).
  split; [exact S|]. split; [repeat constructor; exists (Some KString); apply kind_of_iff; vm_compute; reflexivity|].
  split; [now apply script_texts with demo_text|]. split.
  { repeat constructor; cbn; intros l H; repeat (destruct H as [H|H]; [discriminate|]); exact H. }
  split; [apply machine_begins; cbv; discriminate|]. split; [vm_compute; reflexivity|].
  do 2 eexists. split; [vm_compute; reflexivity|reflexivity].
Qed.
Example certain_witness : SpecLines.script (bs "goto-char (point-max); insert ""x""") 
    [VList [VSym (bs "goto-char"); VList [VSym (bs "point-max")]]; VList [VSym (bs "insert"); VStr (bs "x")]] /\
  Forall in_order [VList [VSym (bs "goto-char"); VList [VSym (bs "point-max")]]; VList [VSym (bs "insert"); VStr (bs "x")]] /\
  Forall certain [VList [VSym (bs "goto-char"); VList [VSym (bs "point-max")]]; VList [VSym (bs "insert"); VStr (bs "x")]] /\
  execute_script ref_ext (bs "abc") (bs "goto-char (point-max); insert ""x""") = Ok (bs "abcx").
Proof.
  split; [apply script_grammar; vm_compute; reflexivity|]. split; [repeat constructor; exists (Some KString); apply kind_of_iff; vm_compute; reflexivity|].
  split; [|vm_compute; reflexivity].
  assert (K : forall n m args, called n (VList (VSym m :: args)) -> n = m \/ exists a, In a args /\ called n a).
  { intros n m args C. inversion C as [|h l a I C']; subst; [now left|right; eauto]. }
  repeat constructor; intros name I C; (apply K in C as [C|(a & [<-|[]] & C)]; [|try (apply K in C as [C|(a' & [] & _)]); [..|inversion C]]);
    cbn in I; repeat (destruct I as [<-|I]; [discriminate C|]); exact I.
Qed.

(** ** Assumptions of every theorem above *)
Print Assumptions check_computes.
Print Assumptions checked_one.
Print Assumptions checked_value.
Print Assumptions checked_error.
Print Assumptions program_error.
Print Assumptions script_error.
Print Assumptions certain_never_fails.
Print Assumptions certain_script_never_fails.
Print Assumptions certain_loop_no_report.
Print Assumptions unchecked_never_finishes.
Print Assumptions unchecked_program_never_finishes.
Print Assumptions unchecked_never_finishes_refuted.
Print Assumptions checked_never_crashes_refuted.
Print Assumptions examples_in_order.
Print Assumptions broken_examples_fail.
