(** C03-C06, C10: what calling a command can and cannot do. *)
From Coq Require Import ZArith NArith List Bool Lia Strings.Byte ZifyBool.
From Verif Require Import Base Float Ext Utf8 Strconv Values Buffer Builtins Eval Spec
  Proofs_Base Proofs_Loops Proofs_Exec Proofs_Effects RefExt.
Import ListNotations.
Open Scope Z_scope.

(** ** C03 *)

(** every function of the default environment, every argument list, every buffer *)
Theorem failing_command_changes_nothing E n f args b e b' :
  default_env E n = Some f -> f args b = Fail e b' -> b' = b.
Proof. intros H. apply default_env_in in H. apply (builtin_clean E n f args H). Qed.
Theorem failing_call_changes_nothing E name args b e b' :
  call E name args b = Fail e b' -> b' = b.
Proof.
  unfold call. destruct (default_env E (bs name)) as [f|] eqn:D.
  - apply (failing_command_changes_nothing E (bs name)); auto.
  - intros H. now injection H as _ <-.
Qed.

(** an instruction whose arguments are literals *)
Definition literal (v : value) : Prop := match v with VStr _ | VNum _ => True | _ => False end.
Lemma eval_literals E env args b : Forall literal args -> eval_list E env args b = Done args b.
Proof.
  induction 1 as [|x l Hx Hl IH]; [reflexivity|]. destruct x; try contradiction; rewrite eval_list_cons; cbn [eval_expr];
  unfold bind, ret in *; now rewrite IH.
Qed.
Theorem failing_instruction_changes_nothing E n args b e b' : Forall literal args ->
  eval_expr E (default_env E) (VList (VSym n :: args)) b = Fail e b' -> b' = b.
Proof.
  intros H. rewrite eval_call. destruct (default_env E n) as [f|] eqn:D.
  - unfold bind. rewrite eval_literals by auto. now apply (failing_command_changes_nothing E n).
  - intros X. now injection X as _ <-.
Qed.
(** with nested calls the argument's effects remain: (search-forward (concat (insert "x") "z")) *)
Theorem failing_nested_instruction_changes_nothing_refuted E : exists i b e b',
  eval_expr E (default_env E) i b = Fail e b' /\ content b' <> content b.
Proof.
  exists (VList [VSym (bs "search-forward");
                 VList [VSym (bs "concat"); VList [VSym (bs "insert"); VStr (bs "x")]; VStr (bs "z")]]),
         (new_buffer (bs "abc")), (bs "search failed"), (mkBuffer (bs "xabc") 2 1 [] 0 0).
  split; [reflexivity|discriminate].
Qed.
Example failing_command_ex E :
  exists e b', call E "search-forward" [VStr (bs "zz")] (mkBuffer (bs "abc") 2 3 (bs "b") 2 3) = Fail e b' /\
  b' = mkBuffer (bs "abc") 2 3 (bs "b") 2 3.
Proof. do 2 eexists. split; reflexivity. Qed.

(** ** C04 *)

Ltac each_name H :=
  cbn [queries motions searches mark_setters editors In app] in H;
  repeat (destruct H as [<-|H]; [call|]); [..|try destruct H].

Theorem queries_change_nothing E name args b v b' :
  In name queries -> call E name args b = Done v b' -> b' = b.
Proof.
  intros H Hd. enough (keeps eq (call E name args)) as K by (symmetry; eapply K; eauto). clear Hd.
  each_name H; show_body; repeat keep; congruence.
Qed.
(** hence also inside expressions: an expression made of queries and literals only *)
Inductive query_expr : value -> Prop :=
| qe_str s : query_expr (VStr s)
| qe_num f : query_expr (VNum f)
| qe_call name args : In name queries -> Forall query_expr args -> query_expr (VList (VSym (bs name) :: args)).
Theorem query_expressions_change_nothing E e : query_expr e -> forall b v b',
  eval_expr E (default_env E) e b = Done v b' -> b' = b.
Proof.
  induction e as [n|s|f|l IH] using value_ind'; intros Hq b v b' H; inversion Hq; subst.
  - injection H as _ <-; auto.
  - injection H as _ <-; auto.
  - rewrite eval_call in H. destruct (default_env E (bs name)) as [fn|] eqn:D; [|discriminate].
    assert (K : forall b vs b1, eval_list E (default_env E) args b = Done vs b1 -> b1 = b).
    { clear - IH H2. inversion IH as [|? ? _ IHa]; subst. clear IH. revert H2.
      induction IHa as [|a l Ha Hl IHl]; intros H2 b vs b1 E1.
      - now injection E1 as _ <-.
      - inversion H2; subst. rewrite eval_list_cons in E1. unfold bind in E1.
        destruct (eval_expr E (default_env E) a b) as [va ba| | | |] eqn:Ea; try discriminate.
        apply Ha in Ea; auto. subst ba.
        destruct (eval_list E (default_env E) l b) as [vl bl| | | |] eqn:El; try discriminate.
        apply IHl in El; auto. subst bl. now injection E1 as _ <-. }
    unfold bind in H. destruct (eval_list E (default_env E) args b) as [vs b1| | | |] eqn:Em; try discriminate.
    apply K in Em. subst b1. apply (queries_change_nothing E name vs b v b'); auto.
    unfold call. now rewrite D.
Qed.
Example queries_ex E : exists v, call E "line-number-at-pos" [] (mkBuffer [nl; nl] 3 1 [] 0 0) = Done v (mkBuffer [nl; nl] 3 1 [] 0 0).
Proof. eexists. reflexivity. Qed.

(** ** C05 *)

Theorem motions_searches_marks_keep_text E name args b v b' :
  In name (motions ++ searches ++ mark_setters) -> call E name args b = Done v b' ->
  content b' = content b.
Proof.
  intros H Hd. symmetry. enough (keeps (fun x y => content x = content y) (call E name args)) as K by (eapply K; eauto).
  clear Hd. each_name H; show_body; repeat keep; try congruence; reflexivity.
Qed.
Theorem only_mark_setters_set_mark E name args b v b' :
  In name (queries ++ motions ++ searches ++ editors) -> call E name args b = Done v b' ->
  mark b' = mark b.
Proof.
  intros H Hd. symmetry. enough (keeps (fun x y => mark x = mark y) (call E name args)) as K by (eapply K; eauto).
  clear Hd. each_name H; show_body; repeat keep; try congruence; reflexivity.
Qed.
Theorem only_searches_set_match E name args b v b' :
  In name (queries ++ motions ++ mark_setters ++ editors) -> call E name args b = Done v b' ->
  last_match b' = last_match b /\ last_start b' = last_start b /\ last_end b' = last_end b.
Proof.
  intros H Hd. enough (keeps (fun x y => last_match y = last_match x /\ last_start y = last_start x /\ last_end y = last_end x)
    (call E name args)) as K by (eapply K; eauto).
  clear Hd. each_name H; show_body; repeat keep; cbn; intuition congruence.
Qed.
(** set-mark and set-mark-command do not move point either *)
Theorem set_mark_keeps_point E name args b v b' :
  In name ["set-mark"; "set-mark-command"]%string -> call E name args b = Done v b' ->
  b' = with_mark b (mark b').
Proof.
  intros H Hd. enough (keeps (fun x y => y = with_mark x (mark y)) (call E name args)) as K by (eapply K; eauto).
  clear Hd. each_name H; show_body; repeat keep; try (destruct b0; reflexivity).
  all: intros; subst; try reflexivity; try (destruct b0; reflexivity);
    match goal with H1 : ?x = _, H2 : ?y = _ |- _ => rewrite H2, H1; reflexivity end.
Qed.
Lemma in_names name l : existsb (String.eqb name) l = true -> In name l.
Proof. rewrite existsb_exists. intros (x & Hx & H). apply String.eqb_eq in H. now subst. Qed.
(** the five groups cover all commands *)
Theorem groups_cover_all_commands E n f : default_env E n = Some f ->
  exists name, n = bs name /\ In name (queries ++ motions ++ searches ++ mark_setters ++ editors).
Proof.
  intros H. apply default_env_in in H. each H.
  all: match goal with |- exists name, bs ?s = bs name /\ _ => exists s end; split; [reflexivity|apply in_names; reflexivity].
Qed.
Example motions_ex E : exists v b', call E "end-of-line" [] (new_buffer (bs "abc")) = Done v b' /\ point b' = 4 /\
  content b' = bs "abc".
Proof. exists VEmpty, (mkBuffer (bs "abc") 4 1 [] 0 0). split; [reflexivity|]. split; reflexivity. Qed.

(** ** C06 *)

Lemma in_signatures name s :
  option_map snd (find (fun x => String.eqb name (fst x)) signatures) = Some s -> In (name, s) signatures.
Proof.
  destruct (find _ signatures) as [[k g]|] eqn:F; [|discriminate]. intros H. injection H as <-.
  apply find_some in F as [F H]. apply String.eqb_eq in H. cbn in H. now subst.
Qed.
(** the table of signatures lists exactly the commands of the default environment *)
Theorem signatures_are_the_commands E n :
  default_env E n <> None <-> exists name s, n = bs name /\ In (name, s) signatures.
Proof.
  split.
  - intros H. destruct (default_env E n) as [f|] eqn:D; [|congruence]. clear H. apply default_env_in in D.
    each D.
    all: match goal with |- exists name _, bs ?s = bs name /\ _ => exists s end;
      eexists; (split; [reflexivity|apply in_signatures; reflexivity]).
  - intros (name & s & -> & H). cbn [signatures In] in H.
    repeat (destruct H as [H|H]; [injection H as <- <-; intros X; discriminate X|]). destruct H.
Qed.
(** each command has one signature *)
Theorem signatures_unique name s s' : In (name, s) signatures -> In (name, s') signatures -> s = s'.
Proof.
  assert (H : forall k g, In (k, g) signatures ->
    option_map snd (find (fun x => String.eqb (fst x) k) signatures) = Some g).
  { intros k g H. cbn [signatures In] in H.
    repeat (destruct H as [H|H]; [injection H as <- <-; reflexivity|]). destruct H. }
  intros H1 H2. apply H in H1, H2. congruence.
Qed.

Definition kindb (k : kind) (v : value) : bool :=
  match k, v with KString, VStr _ => true | KNumber, VNum _ => true | _, _ => false end.
Fixpoint kindsb (ks : list kind) (vs : list value) : bool :=
  match ks, vs with
  | [], [] => true
  | k :: ks, v :: vs => kindb k v && kindsb ks vs
  | _, _ => false
  end.
Definition acceptsb (s : signature) (args : list value) : bool :=
  match s with
  | OneOf shapes => existsb (fun ks => kindsb ks args) shapes
  | AnyNumberOf k => forallb (kindb k) args
  end.
Lemma kindb_spec k v : kindb k v = true <-> has_kind k v.
Proof. destruct k, v; cbn; split; auto; discriminate || contradiction. Qed.
Lemma kindsb_spec ks : forall vs, kindsb ks vs = true <-> Forall2 has_kind ks vs.
Proof.
  induction ks as [|k ks IH]; intros [|v vs]; cbn; split; intros H; try discriminate; try constructor; try now inversion H.
  - apply andb_true_iff in H. now apply kindb_spec.
  - apply andb_true_iff in H. now apply IH.
  - inversion H; subst. apply andb_true_iff. rewrite kindb_spec, IH. auto.
Qed.
Lemma acceptsb_spec s args : acceptsb s args = true <-> accepts s args.
Proof.
  destruct s as [shapes|k]; cbn.
  - rewrite existsb_exists. split; intros (ks & H1 & H2); exists ks; split; auto; now apply kindsb_spec.
  - rewrite forallb_forall, Forall_forall. split; intros H x Hx; apply kindb_spec; auto.
Qed.

Lemma concat_rejects args : forall i acc b, ~ Forall (has_kind KString) args -> fits (acc ++ texts args) ->
  exists e, concat_loop args i acc b = Fail (bs "concat expects " ++ e) b.
Proof.
  induction args as [|v args IH]; intros i acc b Hk Hf; [exfalso; auto|].
  destruct v as [n|s|f|l]; cbn [concat_loop].
  1,3,4: exists (bs "string arguments, got non-string at position " ++ itoa (i + 1)); reflexivity.
  unfold bind, alloc. cbn [texts flat_map] in Hf. unfold fits in Hf. rewrite app_assoc in Hf.
  replace (max_alloc <? zlen (acc ++ s)) with false.
  2:{ symmetry. apply Z.ltb_ge. fold (texts args) in Hf. rewrite zlen_app in Hf. pose proof (zlen_nonneg (texts args)). lia. }
  apply IH; auto. intros X. apply Hk. constructor; cbn; auto.
Qed.

Lemma reject_no_args name args k b : acceptsb NoArgs args = false ->
  exists e, no_args name args k b = Fail (bs name ++ bs " expects " ++ e) b.
Proof. destruct args; [discriminate|]. eexists. reflexivity. Qed.
Lemma reject_one_string name args k b : acceptsb AString args = false ->
  exists e, one_string name args k b = Fail (bs name ++ bs " expects " ++ e) b.
Proof. destruct args as [|[] [|]]; try discriminate; eexists; reflexivity. Qed.
Lemma reject_one_number E name args k b : acceptsb ANumber args = false ->
  exists e, one_number E name args k b = Fail (bs name ++ bs " expects " ++ e) b.
Proof. destruct args as [|[] [|]]; try discriminate; eexists; reflexivity. Qed.
Lemma reject_opt_count E name args k b : acceptsb OptNumber args = false ->
  exists e, opt_count E name args k b = Fail (bs name ++ bs " expects " ++ e) b.
Proof. destruct args as [|[] [|]]; try discriminate; eexists; reflexivity. Qed.

(** an argument list outside the signature: an error, nothing else *)
Theorem wrong_arguments_are_rejected E name s args b :
  In (name, s) signatures -> ~ accepts s args -> (name = "concat"%string -> fits (texts args)) ->
  exists e, call E name args b = Fail (bs name ++ bs " expects " ++ e) b.
Proof.
  intros H Ha Hf. rewrite <- acceptsb_spec, not_true_iff_false in Ha. cbn [signatures In] in H.
  repeat (destruct H as [H|H]; [injection H as <- <-; call|]); [..|destruct H].
  46: { apply concat_rejects; [|now apply Hf]. rewrite <- not_true_iff_false in Ha. intros X. apply Ha.
        now apply (acceptsb_spec (AnyNumberOf KString)). }
  all: show_top; clear Hf;
    first [ apply reject_no_args; exact Ha | apply reject_one_string; exact Ha
          | apply reject_one_number; exact Ha | apply reject_opt_count; exact Ha | idtac ].
  all: destruct args as [|[] [|[] [|[] [|]]]]; try discriminate Ha; eexists; reflexivity.
Qed.

(** an argument list of the signature: never an arity or type error, only the errors
    that come from what the command is about *)
Lemma accept_no_args P name args k : acceptsb NoArgs args = true -> fails P k -> fails P (no_args name args k).
Proof. destruct args; [auto|discriminate]. Qed.
Lemma accept_one_string P name args k : acceptsb AString args = true ->
  (forall s, args = [VStr s] -> fails P (k s)) -> fails P (one_string name args k).
Proof. destruct args as [|[] [|]]; try discriminate; cbn; auto. Qed.
Lemma accept_one_number E P name args k : acceptsb ANumber args = true ->
  (forall n, fails P (k n)) -> fails P (one_number E name args k).
Proof. destruct args as [|[] [|]]; try discriminate; cbn; auto. Qed.
Lemma accept_opt_count E P name args k : acceptsb OptNumber args = true ->
  (forall n, fails P (k n)) -> fails P (opt_count E name args k).
Proof. destruct args as [|[] [|]]; try discriminate; cbn; auto. Qed.
Theorem accepted_arguments_are_not_rejected E name s args b e b' :
  In (name, s) signatures -> accepts s args -> call E name args b = Fail e b' ->
  expected_error E name args e.
Proof.
  intros H Ha He. rewrite <- acceptsb_spec in Ha.
  enough (fails (expected_error E name args) (call E name args)) as K by (eapply K; eauto). clear He.
  cbn [signatures In] in H.
  repeat (destruct H as [H|H]; [injection H as <- <-; call|]); [..|destruct H].
  46: { unfold b_concat. assert (G : forall acc i, fails (expected_error E "concat"%string args) (concat_loop args i acc)); [|apply G].
    revert Ha. generalize (expected_error E "concat"%string args) as P. intros P.
    induction args as [|[n|t|f|l] args IH]; intros Ha acc i; try discriminate Ha; cbn [concat_loop].
    - apply fails_ret.
    - apply fails_bind; [apply fails_alloc|]. intros a. apply IH, Ha. }
  all: show_top;
    first [ apply accept_no_args; [exact Ha|] | apply accept_one_string; [exact Ha|intros ? ?]
          | apply accept_one_number; [exact Ha|intros ?] | apply accept_opt_count; [exact Ha|intros ?]
          | destruct args as [|[] [|[] [|[] [|]]]]; try discriminate Ha ].
  all: cbv beta iota delta [slice_to slice_from buf_insert substring_of region_bounds];
    repeat lazymatch goal with
       | |- fails _ (match re_error ?E ?p with _ => _ end) => destruct (re_error E p) eqn:?
       | _ => nofail
       end.
  all: unfold expected_error; cbn [In searches]; first
    [ left; split; [tauto|reflexivity]
    | right; left; split; [tauto|]; do 3 eexists; split; [eassumption || reflexivity|]; split; [eassumption|reflexivity]
    | right; right; split; [reflexivity|]; first [left; reflexivity|right; reflexivity] ].
Qed.
(** so no error about the arguments *)
Theorem accepted_arguments_never_expects E name s args b rest b' :
  In (name, s) signatures -> accepts s args ->
  call E name args b <> Fail (bs name ++ bs " expects " ++ rest) b'.
Proof.
  intros H Ha He. pose proof (accepted_arguments_are_not_rejected E name s args b _ b' H Ha He) as X.
  destruct X as [[Hn Hx]|[[Hn (p & r & msg & _ & _ & Hx)]|[Hn Hx]]].
  - cbn [searches In] in Hn. repeat (destruct Hn as [<-|Hn]; [vm_compute in Hx; discriminate|]). destruct Hn.
  - cbn [In] in Hn. repeat (destruct Hn as [<-|Hn]; [cbn in Hx; discriminate|]). destruct Hn.
  - subst name. destruct Hx as [Hx|Hx]; vm_compute in Hx; discriminate.
Qed.
Example signatures_ex E b : exists e,
  call E "substring" [VStr (bs "a"); VStr (bs "b")] b = Fail (bs "substring" ++ bs " expects " ++ e) b.
Proof.
  eapply (wrong_arguments_are_rejected E "substring"%string (OneOf [[KString; KNumber]; [KString; KNumber; KNumber]])).
  - apply in_signatures. reflexivity.
  - rewrite <- acceptsb_spec. discriminate.
  - discriminate.
Qed.
Example signatures_ex2 E : exists e b',
  call E "replace-match" [VStr (bs "x")] (new_buffer []) = Fail e b' /\ expected_error E "replace-match" [VStr (bs "x")] e.
Proof. do 2 eexists. split; [reflexivity|]. right; right. split; [reflexivity|]. left. reflexivity. Qed.

(** ** C10 *)

Lemma eval_expr_ends E env : (forall n f args, env n = Some f -> ends (f args)) ->
  forall e, ends (eval_expr E env e).
Proof.
  intros Henv. induction e as [n|s|f|l IH] using value_ind'; try apply ends_ret; try apply ends_fail.
  destruct l as [|[n|s|f|l] args]; try apply ends_fail. rewrite eval_call.
  destruct (env n) as [fn|] eqn:D; [|apply ends_fail]. apply ends_bind.
  - inversion IH as [|? ? _ IHa]; subst. clear IH. induction IHa as [|a l Ha Hl IHl]; [apply ends_ret|].
    rewrite eval_list_cons. apply ends_bind; auto. intros v. apply ends_bind; auto. intros r. apply ends_ret.
  - intros vs. eapply Henv; eauto.
Qed.
(** no command loops, for any buffer, point, mark and arguments *)
Theorem every_command_terminates E n f args b : default_env E n = Some f -> f args b <> Diverge.
Proof. intros H. apply default_env_in in H. apply (builtin_ends E n f args H). Qed.
Theorem every_expression_terminates E e b : eval_expr E (default_env E) e b <> Diverge.
Proof. apply eval_expr_ends. intros n f args H b'. now apply (every_command_terminates E n). Qed.
(** no script loops *)
Theorem every_script_terminates E p b : eval E (default_env E) p b <> EvDiverge.
Proof.
  unfold eval, eval_with_trace. generalize (VStr []) as r, 0 as i. generalize p at 1 as q.
  intros q. revert b. induction p as [|e p IH]; intros b r i; cbn [eval_from]; [discriminate|].
  pose proof (every_expression_terminates E e b) as H.
  destruct (eval_expr E (default_env E) e b); [apply IH|discriminate..|congruence].
Qed.
(** this needs no restriction to good states: for instance with point far outside *)
Example terminates_ex E : eval E (default_env E) [VList [VSym (bs "forward-word"); VInt 3]]
  (mkBuffer (bs "abc") (-5) 1 [] 0 0) = EvPanic.
Proof. reflexivity. Qed.

(** ** Assumptions of every theorem above *)
Print Assumptions failing_command_changes_nothing.
Print Assumptions failing_call_changes_nothing.
Print Assumptions failing_instruction_changes_nothing.
Print Assumptions failing_nested_instruction_changes_nothing_refuted.
Print Assumptions queries_change_nothing.
Print Assumptions query_expressions_change_nothing.
Print Assumptions motions_searches_marks_keep_text.
Print Assumptions only_mark_setters_set_mark.
Print Assumptions only_searches_set_match.
Print Assumptions set_mark_keeps_point.
Print Assumptions groups_cover_all_commands.
Print Assumptions signatures_are_the_commands.
Print Assumptions signatures_unique.
Print Assumptions wrong_arguments_are_rejected.
Print Assumptions accepted_arguments_are_not_rejected.
Print Assumptions accepted_arguments_never_expects.
Print Assumptions every_command_terminates.
Print Assumptions every_expression_terminates.
Print Assumptions every_script_terminates.
