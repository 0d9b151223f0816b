(** C01, C02, C43, C46: the evaluator. *)
From Coq Require Import ZArith NArith List Bool Lia Strings.Byte ZifyBool.
From Verif Require Import Base Float Ext Utf8 Strconv Values Buffer Builtins Eval Spec
  Proofs_Base Proofs_Loops Proofs_Exec Proofs_Effects RefExt.
Import ListNotations.
Open Scope Z_scope.

(** ** C02 *)

Scheme evaluates_mut := Induction for evaluates Sort Prop
  with evaluates_all_mut := Induction for evaluates_all Sort Prop.
Combined Scheme evaluates_both from evaluates_mut, evaluates_all_mut.

Lemma evaluates_sound E env :
  (forall e b v b', evaluates env e b v b' -> eval_expr E env e b = Done v b') /\
  (forall es b vs b', evaluates_all env es b vs b' -> eval_list E env es b = Done vs b').
Proof.
  apply (evaluates_both env (fun e b v b' _ => eval_expr E env e b = Done v b')
                            (fun es b vs b' _ => eval_list E env es b = Done vs b')); intros; auto.
  - rewrite eval_call, e. now rewrite (bind_done _ _ _ _ _ H).
  - rewrite eval_list_cons, (bind_done _ _ _ _ _ H). now rewrite (bind_done _ _ _ _ _ H0).
Qed.
Lemma eval_list_done E env es : Forall (fun e => forall b v b', eval_expr E env e b = Done v b' -> evaluates env e b v b') es ->
  forall b vs b', eval_list E env es b = Done vs b' -> evaluates_all env es b vs b'.
Proof.
  induction 1 as [|e es He Hes IH]; intros b vs b' H.
  - injection H as <- <-. constructor.
  - rewrite eval_list_cons in H. unfold bind in H.
    destruct (eval_expr E env e b) as [v b1| | | |] eqn:E1; try discriminate.
    destruct (eval_list E env es b1) as [ws b2| | | |] eqn:E2; try discriminate.
    injection H as <- <-. econstructor; eauto.
Qed.
(** the evaluator computes exactly the specified relation *)
Theorem eval_expr_value E env e b v b' :
  eval_expr E env e b = Done v b' <-> evaluates env e b v b'.
Proof.
  split; [|apply evaluates_sound]. revert b v b'.
  induction e as [n|s|f|l IH] using value_ind'; intros b v b' H.
  - discriminate.
  - injection H as <- <-. constructor.
  - injection H as <- <-. constructor.
  - destruct l as [|[n|s|f|l] args]; try discriminate.
    rewrite eval_call in H. destruct (env n) as [fn|] eqn:D; [|discriminate].
    unfold bind in H. destruct (eval_list E env args b) as [vs b1| | | |] eqn:E1; try discriminate.
    econstructor; eauto. apply (eval_list_done E); auto. now inversion IH.
Qed.
Lemma evaluates_all_value E env es b vs b' :
  eval_list E env es b = Done vs b' <-> evaluates_all env es b vs b'.
Proof.
  split; [|apply evaluates_sound]. apply eval_list_done. apply Forall_forall. intros e _ *. apply eval_expr_value.
Qed.
Lemma eval_list_app E env es : forall es' b,
  eval_list E env (es ++ es') b = bind (eval_list E env es) (fun vs => bind (eval_list E env es') (fun ws => ret (vs ++ ws))) b.
Proof.
  induction es as [|e es IH]; intros es' b.
  - cbn [app]. unfold bind, ret. cbn. destruct (eval_list E env es' b); reflexivity.
  - cbn [app]. rewrite !eval_list_cons. rewrite bind_assoc. apply bind_ext. intros v b1.
    unfold bind at 1. rewrite IH. rewrite !bind_assoc. unfold bind, ret.
    destruct (eval_list E env es b1); auto. destruct (eval_list E env es' b0); reflexivity.
Qed.
Lemma eval_list_fail E env es :
  Forall (fun e => forall b msg b', eval_expr E env e b = Fail msg b' -> errs E env e b msg b') es ->
  forall b msg b', eval_list E env es b = Fail msg b' ->
  exists done arg rest vs b1, es = done ++ arg :: rest /\ evaluates_all env done b vs b1 /\ errs E env arg b1 msg b'.
Proof.
  induction 1 as [|e es He Hes IH]; intros b msg b' H; [discriminate|].
  rewrite eval_list_cons in H. unfold bind in H.
  destruct (eval_expr E env e b) as [v b1|m b1| | |] eqn:E1; try discriminate.
  - destruct (eval_list E env es b1) as [ws b2|m b2| | |] eqn:E2; try discriminate. injection H as -> ->.
    destruct (IH b1 msg b' E2) as (done & arg & rest & vs & b3 & -> & H1 & H2).
    exists (e :: done), arg, rest, (v :: vs), b3. split; [reflexivity|]. split; auto.
    econstructor; eauto. now apply (eval_expr_value E).
  - injection H as -> ->. exists [], e, es, [], b. split; [reflexivity|]. split; [constructor|auto].
Qed.
Theorem eval_expr_error E env e b msg b' :
  eval_expr E env e b = Fail msg b' <-> errs E env e b msg b'.
Proof.
  split.
  - revert b msg b'. induction e as [n|s|f|l IH] using value_ind'; intros b msg b' H.
    + injection H as <- <-. constructor.
    + discriminate.
    + discriminate.
    + destruct l as [|[n|s|f|l] args]; try (injection H as <- <-; constructor; congruence).
      rewrite eval_call in H. destruct (env n) as [fn|] eqn:D.
      2:{ injection H as <- <-. now constructor. }
      unfold bind in H. destruct (eval_list E env args b) as [vs b1|m b1| | |] eqn:E1; try discriminate.
      * eapply er_call; eauto. now apply (evaluates_all_value E).
      * injection H as -> ->. inversion IH as [|? ? _ IHa]; subst.
        destruct (eval_list_fail E env args IHa b msg b' E1) as (done & arg & rest & vs & b3 & -> & H1 & H2).
        eapply er_argument; eauto.
  - induction 1 as [n b|b|v l b Hv|n args b D|n fn done arg rest vs b b1 msg b2 D Hd Ha IH|n fn args vs b b1 msg b2 D Hd Hf].
    + reflexivity.
    + reflexivity.
    + destruct v; try reflexivity. now destruct (Hv name).
    + now rewrite eval_call, D.
    + rewrite eval_call, D. apply bind_fail. rewrite eval_list_app.
      apply (evaluates_all_value E) in Hd. rewrite (bind_done _ _ _ _ _ Hd). apply bind_fail.
      rewrite eval_list_cons. now apply bind_fail.
    + rewrite eval_call, D. apply (evaluates_all_value E) in Hd. now rewrite (bind_done _ _ _ _ _ Hd).
Qed.

(** literals and bare words *)
Theorem literals_evaluate_to_themselves E env b :
  (forall s, eval_expr E env (VStr s) b = Done (VStr s) b) /\
  (forall f, eval_expr E env (VNum f) b = Done (VNum f) b).
Proof. split; reflexivity. Qed.
(** an unquoted word anywhere in the arguments makes the call fail *)
Theorem bare_word_argument_fails E env n args b v b' w :
  In (VSym w) args -> eval_expr E env (VList (VSym n :: args)) b <> Done v b'.
Proof.
  intros Hin H. apply eval_expr_value in H. inversion H; subst.
  match goal with K : evaluates_all _ _ _ _ _ |- _ => clear - Hin K; induction K as [|? ? ? ? ? ? ? K1 K2 IH] end; [destruct Hin|].
  destruct Hin as [->|Hin]; auto. inversion K1.
Qed.
(** an unknown function is reported before any argument is evaluated *)
Theorem unknown_function_evaluates_nothing E env n args b : env n = None ->
  exists msg, eval_expr E env (VList (VSym n :: args)) b = Fail msg b.
Proof. intros H. rewrite eval_call, H. eexists. reflexivity. Qed.
Example nested_ex E : exists b',
  evaluates (default_env E) (VList [VSym (bs "insert"); VList [VSym (bs "upcase"); VStr (bs "ab")]])
    (new_buffer (bs "x")) (VStr []) b' /\ content b' = bs "ABx".
Proof.
  exists (mkBuffer (bs "ABx") 3 1 [] 0 0). split; [|reflexivity]. apply (eval_expr_value E). reflexivity.
Qed.
(** arguments see the effects of the arguments before them:
    (concat (insert "a") (buffer-substring 1 2)) on an empty buffer is "a" *)
Example left_to_right_ex E :
  eval_expr E (default_env E)
    (VList [VSym (bs "concat"); VList [VSym (bs "insert"); VStr (bs "a")];
            VList [VSym (bs "buffer-substring"); VInt 1; VInt 2]]) (new_buffer []) =
  Done (VStr (bs "a")) (mkBuffer (bs "a") 2 1 [] 0 0).
Proof. reflexivity. Qed.
Example error_ex E : errs E (default_env E)
   (VList [VSym (bs "insert"); VList [VSym (bs "insert"); VStr (bs "a")]; VSym (bs "t")]) (new_buffer [])
   (bs "unknown expression type") (mkBuffer (bs "a") 2 1 [] 0 0).
Proof. apply eval_expr_error. reflexivity. Qed.

(** ** C01 *)

Section From.
Context {T : Type} (E : Ext) (env : env) (cb : option (@callback T)).
Lemma eval_from_app prog p1 p2 : forall i r t b,
  eval_from E env cb prog i (p1 ++ p2) r t b =
  match eval_from E env cb prog i p1 r t b with
  | (EvDone v b1, t1) => eval_from E env cb prog (i + zlen p1) p2 v t1 b1
  | x => x
  end.
Proof.
  induction p1 as [|e p1 IH]; intros i r t b; cbn [app eval_from].
  - now rewrite Z.add_0_r.
  - destruct (eval_expr E env e b); auto. destruct (match cb with Some f => _ | None => _ end) as [t' b''].
    rewrite IH. rewrite zlen_cons. now replace (i + 1 + zlen p1) with (i + (1 + zlen p1)) by lia.
Qed.
End From.

(** the same result, in case of an error reported for the program [p] with the index
    moved by [d] *)
Definition relabel (p : list value) (d : Z) (r : eval_result) : eval_result :=
  match r with
  | EvError x b => EvError (mkExecError (x_error x) p (x_instruction x) (x_index x + d) (x_content x)
                     (x_point x) (x_mark x) (x_match x) (x_start x) (x_end x)) b
  | r => r
  end.
Lemma eval_from_relabel E env prog prog' d p : forall i r b,
  fst (eval_from E env (@None (@callback unit)) prog' (i + d) p r tt b) =
  relabel prog' d (fst (eval_from E env (@None (@callback unit)) prog i p r tt b)).
Proof.
  induction p as [|e p IH]; intros i r b; cbn [eval_from]; [reflexivity|].
  destruct (eval_expr E env e b); try reflexivity.
  replace (i + d + 1) with (i + 1 + d) by lia. apply IH.
Qed.
Lemma eval_from_result E env prog p i r r' b : p <> [] ->
  eval_from E env (@None (@callback unit)) prog i p r tt b = eval_from E env (@None (@callback unit)) prog i p r' tt b.
Proof. destruct p; [congruence|]. reflexivity. Qed.
Lemma tt_pair {A} (x : A * unit) : x = (fst x, tt).
Proof. now destruct x as [a []]. Qed.

(** running [p1 ++ p2] is running [p1] and then, if that succeeded, [p2] on what it left *)
Theorem eval_sequence E env p1 p2 b :
  eval E env (p1 ++ p2) b =
  match eval E env p1 b with
  | EvDone v b1 =>
    match relabel (p1 ++ p2) (zlen p1) (eval E env p2 b1) with
    | EvDone w b2 => EvDone (match p2 with [] => v | _ => w end) b2
    | r => r
    end
  | r => relabel (p1 ++ p2) 0 r
  end.
Proof.
  unfold eval, eval_with_trace. rewrite eval_from_app.
  rewrite (tt_pair (eval_from E env None (p1 ++ p2) 0 p1 (VStr []) tt b)). cbn [fst].
  rewrite <- (Z.add_0_l 0) at 1. rewrite (eval_from_relabel E env p1 (p1 ++ p2) 0 p1 0 (VStr []) b).
  destruct (fst (eval_from E env None p1 0 p1 (VStr []) tt b)) as [v b1|x b1| | |]; cbn [relabel fst]; auto.
  destruct p2 as [|e p2]; [reflexivity|].
  rewrite (eval_from_result E env _ _ _ v (VStr [])) by discriminate.
  rewrite <- (eval_from_relabel E env (e :: p2) (p1 ++ e :: p2) (zlen p1) (e :: p2) 0 (VStr []) b1).
  now destruct (fst (eval_from E env None (p1 ++ e :: p2) (0 + zlen p1) (e :: p2) (VStr []) tt b1)).
Qed.
Lemma eval_one E env i b :
  eval E env [i] b =
  match eval_expr E env i b with
  | Done v b' => EvDone v b'
  | Fail e b' => EvError (new_exec_error e [i] 0 i b') b'
  | Panic => EvPanic
  | OutOfMemory => EvOutOfMemory
  | Diverge => EvDiverge
  end.
Proof. unfold eval, eval_with_trace. cbn [eval_from]. now destruct (eval_expr E env i b). Qed.
Lemma eval_snoc E env p i b v b' :
  eval E env (p ++ [i]) b = EvDone v b' <->
  exists w b1, eval E env p b = EvDone w b1 /\ eval_expr E env i b1 = Done v b'.
Proof.
  rewrite eval_sequence. split.
  - destruct (eval E env p b) as [w b1|x b1| | |]; try discriminate. rewrite eval_one.
    destruct (eval_expr E env i b1) as [v1 b2| | | |] eqn:E1; try discriminate. cbn. intros H. injection H as -> ->. eauto.
  - intros (w & b1 & -> & H). now rewrite eval_one, H.
Qed.
(** success *)
Theorem eval_runs E env p b v b' : eval E env p b = EvDone v b' <-> runs env p b v b'.
Proof.
  revert v b'. induction p as [|i p IH] using rev_ind; intros v b'.
  - split; intros H; [injection H as <- <-; constructor|]. inversion H; [reflexivity|]. now destruct p.
  - rewrite eval_snoc. split.
    + intros (w & b1 & H1 & H2). apply IH in H1. apply eval_expr_value in H2. econstructor; eauto.
    + intros H. inversion H as [|p' i' ? w b1 ? ? H1 H2 E0]; subst; [now destruct p|].
      apply app_inj_tail in E0 as [-> ->]. exists w, b1. split; [now apply IH|now apply eval_expr_value].
Qed.
(** failure: which instruction, where, with which buffer; later instructions do not matter *)
Theorem eval_stops_at_first_error E env p b x b' :
  eval E env p b = EvError x b' <->
  exists p1 i p2 v b1, p = p1 ++ i :: p2 /\ runs env p1 b v b1 /\ errs E env i b1 (x_error x) b' /\
    x_program x = p /\ x_instruction x = i /\ x_index x = zlen p1 /\
    x_content x = content b' /\ x_point x = point b' /\ x_mark x = mark b' /\
    x_match x = last_match b' /\ x_start x = last_start b' /\ x_end x = last_end b'.
Proof.
  assert (G : forall p1 i p2 v b1 e, runs env p1 b v b1 -> errs E env i b1 e b' ->
     eval E env (p1 ++ i :: p2) b = EvError (new_exec_error e (p1 ++ i :: p2) (zlen p1) i b') b').
  { intros p1 i p2 v b1 e H1 H2. apply eval_runs with (E := E) in H1. apply eval_expr_error in H2.
    rewrite eval_sequence, H1. replace (i :: p2) with ([i] ++ p2) at 2 by reflexivity.
    rewrite eval_sequence, eval_one, H2. unfold new_exec_error. cbn -[zlen]. reflexivity. }
  split.
  - intros H. enough (exists p1 i p2 v b1 e, p = p1 ++ i :: p2 /\ runs env p1 b v b1 /\ errs E env i b1 e b').
    { destruct H0 as (p1 & i & p2 & v & b1 & e & -> & H1 & H2).
      rewrite (G _ _ p2 _ _ _ H1 H2) in H. injection H as <-. exists p1, i, p2, v, b1. unfold new_exec_error. cbn.
      split; [reflexivity|]. do 2 (split; [assumption|]). repeat split. }
    clear G. revert x b' H. induction p as [|i p IH] using rev_ind; intros x b' H; [discriminate|].
    rewrite eval_sequence in H. destruct (eval E env p b) as [v b1|y b1| | |] eqn:E1; try discriminate.
    + rewrite eval_one in H. destruct (eval_expr E env i b1) as [|e b2| | |] eqn:E2; try discriminate.
      cbn in H. injection H as _ <-. exists p, i, [], v, b1, e. split; [reflexivity|].
      split; [now apply (eval_runs E)|now apply eval_expr_error].
    + cbn in H. injection H as _ <-. destruct (IH y b1 eq_refl) as (p1 & j & p2 & v & b2 & e & -> & H1 & H2).
      exists p1, j, (p2 ++ [i]), v, b2, e. split; [now rewrite <- app_assoc|auto].
  - intros (p1 & i & p2 & v & b1 & -> & H1 & H2 & X). rewrite (G p1 i p2 v b1 _ H1 H2). destruct x. cbn in X.
    decompose [and] X. subst. reflexivity.
Qed.
Theorem instructions_after_error_do_not_matter E env p p2 p2' b x b' i p1 v b1 :
  p = p1 ++ i :: p2 -> eval E env p1 b = EvDone v b1 -> eval E env [i] b1 = EvError x b' ->
  exists y y', eval E env p b = EvError y b' /\ eval E env (p1 ++ i :: p2') b = EvError y' b' /\
    x_error y = x_error x /\ x_error y' = x_error x.
Proof.
  intros -> H1 H2.
  rewrite !eval_sequence, H1. replace (i :: p2) with ([i] ++ p2) by reflexivity.
  replace (i :: p2') with ([i] ++ p2') by reflexivity. rewrite !eval_sequence, H2. cbn.
  do 2 eexists. repeat split.
Qed.
Example eval_stops_ex E : exists x, eval E (default_env E)
    [VList [VSym (bs "insert"); VStr (bs "a")]; VList [VSym (bs "search-forward"); VStr (bs "zz")];
     VList [VSym (bs "insert"); VStr (bs "b")]] (new_buffer (bs "c")) =
  EvError x (mkBuffer (bs "ac") 2 1 [] 0 0) /\ x_index x = 1 /\ x_content x = bs "ac" /\ x_point x = 2 /\
  x_error x = bs "search failed".
Proof. eexists. split; [reflexivity|]. repeat split. Qed.

(** ** C43 *)

(** a callback that does not touch the buffer *)
Definition observes {T} (cb : @callback T) : Prop := forall t v b, snd (cb t v b) = b.
(** the callback that writes down what it is given *)
Definition recorder : @callback (list (value * buffer)) := fun t v b => (t ++ [(v, b)], b).

Theorem observing_does_not_change_the_result {T} E env p (cb : @callback T) t b : observes cb ->
  fst (eval_with_trace E env p (Some cb) t b) = eval E env p b.
Proof.
  intros Hc. unfold eval, eval_with_trace. generalize (VStr []) as r, 0 as i. generalize p at 1 3 as prog.
  intros prog. revert t b. induction p as [|e p IH]; intros t b r i; cbn [eval_from]; [reflexivity|].
  destruct (eval_expr E env e b) as [v b1| | | |]; try reflexivity.
  specialize (Hc t e b1). destruct (cb t e b1) as [t' b']. cbn in Hc. subst b'. apply IH.
Qed.
(** an observing callback is told nothing but what the recorder writes down, in that order *)
Theorem observer_sees_what_is_recorded {T} E env p (cb : @callback T) t b : observes cb ->
  snd (eval_with_trace E env p (Some cb) t b) =
  fold_left (fun t x => fst (cb t (fst x) (snd x))) (snd (eval_with_trace E env p (Some recorder) [] b)) t.
Proof.
  intros Hc. unfold eval_with_trace.
  change t with (fold_left (fun t x => fst (cb t (fst x) (snd x))) [] t) at 1.
  generalize (VStr []) as r, 0 as i, (@nil (value * buffer)) as l. generalize p at 1 3 as prog.
  intros prog. revert b. induction p as [|e p IH]; intros b r i l; cbn [eval_from]; [reflexivity|].
  destruct (eval_expr E env e b) as [v b1| | | |]; try reflexivity.
  unfold recorder at 1. specialize (Hc (fold_left (fun t x => fst (cb t (fst x) (snd x))) l t) e b1).
  destruct (cb (fold_left (fun t x => fst (cb t (fst x) (snd x))) l t) e b1) as [t' b'] eqn:Ec. cbn in Hc. subst b'.
  rewrite <- IH. f_equal. f_equal. rewrite fold_left_app. cbn. now rewrite Ec.
Qed.
Fixpoint trace_of (E : Ext) (env : env) (p : list value) (b : buffer) : list (value * buffer) :=
  match p with
  | [] => []
  | e :: p' => match eval_expr E env e b with Done _ b1 => (e, b1) :: trace_of E env p' b1 | _ => [] end
  end.
Lemma recorder_trace_of E env prog p : forall i r l b,
  snd (eval_from E env (Some recorder) prog i p r l b) = l ++ trace_of E env p b.
Proof.
  induction p as [|e p IH]; intros i r l b; cbn [eval_from trace_of]; [now rewrite app_nil_r|].
  destruct (eval_expr E env e b) as [v b1| | | |]; cbn [snd]; rewrite ?app_nil_r; auto.
  unfold recorder at 1. now rewrite IH, <- app_assoc.
Qed.
(** and that is: the instructions up to the first one that does not succeed, each with
    the buffer it left *)
Theorem trace_lists_successful_instructions E env p b :
  let trace := snd (eval_with_trace E env p (Some recorder) [] b) in
  exists rest, p = map fst trace ++ rest /\
    (forall l1 i bi l2, trace = l1 ++ (i, bi) :: l2 -> exists v, runs env (map fst l1 ++ [i]) b v bi) /\
    match rest with
    | [] => True
    | i :: _ => forall v b1 w b2, runs env (map fst trace) b v b1 -> ~ evaluates env i b1 w b2
    end.
Proof.
  cbv zeta. unfold eval_with_trace. rewrite recorder_trace_of. cbn [app].
  assert (G : forall q b0 v0 b, runs env q b0 v0 b ->
    exists rest, p = map fst (trace_of E env p b) ++ rest /\
    (forall l1 i bi l2, trace_of E env p b = l1 ++ (i, bi) :: l2 -> exists v, runs env (q ++ map fst l1 ++ [i]) b0 v bi) /\
    match rest with
    | [] => True
    | i :: _ => forall v b1 w b2, runs env (q ++ map fst (trace_of E env p b)) b0 v b1 -> ~ evaluates env i b1 w b2
    end); [|apply (G [] b (VStr []) b); constructor].
  induction p as [|e p IH]; intros q b0 v0 b' Hq.
  - exists []. split; [reflexivity|]. split; auto. intros [|? ?] ? ? ? H; discriminate.
  - cbn [trace_of]. destruct (eval_expr E env e b') as [v b1|m b1| | |] eqn:E1.
    + assert (Hq1 : runs env (q ++ [e]) b0 v b1) by (econstructor; eauto; now apply (eval_expr_value E)).
      destruct (IH (q ++ [e]) b0 v b1 Hq1) as (rest & H1 & H2 & H3).
      exists rest. split; [cbn; now f_equal|]. split.
      * intros [|x l1] i bi l2 H; cbn in H.
        -- injection H as <- <- <-. eauto.
        -- injection H as <- H. destruct (H2 l1 i bi l2 H) as [w Hw]. exists w. cbn. now rewrite <- app_assoc in Hw.
      * destruct rest; auto. intros v' b2 w b3 H. apply (H3 v' b2 w b3). now rewrite <- app_assoc.
    + exists (e :: p). split; [reflexivity|]. split; [intros [|? ?] ? ? ? H; discriminate|].
      cbn. rewrite app_nil_r. intros v b2 w b3 H1 H2. apply (eval_runs E) in H1, Hq. rewrite H1 in Hq.
      injection Hq as -> ->. apply (eval_expr_value E) in H2. congruence.
    + exists (e :: p). split; [reflexivity|]. split; [intros [|? ?] ? ? ? H; discriminate|].
      cbn. rewrite app_nil_r. intros v b2 w b3 H1 H2. apply (eval_runs E) in H1, Hq. rewrite H1 in Hq.
      injection Hq as -> ->. apply (eval_expr_value E) in H2. congruence.
    + exists (e :: p). split; [reflexivity|]. split; [intros [|? ?] ? ? ? H; discriminate|].
      cbn. rewrite app_nil_r. intros v b2 w b3 H1 H2. apply (eval_runs E) in H1, Hq. rewrite H1 in Hq.
      injection Hq as -> ->. apply (eval_expr_value E) in H2. congruence.
    + exists (e :: p). split; [reflexivity|]. split; [intros [|? ?] ? ? ? H; discriminate|].
      cbn. rewrite app_nil_r. intros v b2 w b3 H1 H2. apply (eval_runs E) in H1, Hq. rewrite H1 in Hq.
      injection Hq as -> ->. apply (eval_expr_value E) in H2. congruence.
Qed.
(** a callback that does modify the buffer does change the result *)
Theorem modifying_callback_changes_result E : exists p (cb : @callback unit) b,
  fst (eval_with_trace E (default_env E) p (Some cb) tt b) <> eval E (default_env E) p b.
Proof.
  exists [VList [VSym (bs "insert"); VStr (bs "a")]], (fun t _ b => (t, at_point b 1)), (new_buffer []).
  change (EvDone VEmpty (mkBuffer (bs "a") 1 1 [] 0 0) <> EvDone VEmpty (mkBuffer (bs "a") 2 1 [] 0 0)).
  discriminate.
Qed.
Example trace_ex E : snd (eval_with_trace E (default_env E)
    [VList [VSym (bs "insert"); VStr (bs "a")]; VList [VSym (bs "search-forward"); VStr (bs "zz")];
     VList [VSym (bs "insert"); VStr (bs "b")]] (Some recorder) [] (new_buffer (bs "c"))) =
  [(VList [VSym (bs "insert"); VStr (bs "a")], mkBuffer (bs "ac") 2 1 [] 0 0)] /\ observes recorder.
Proof. split; [reflexivity|]. intros t v b. reflexivity. Qed.

(** ** C46 *)

Theorem environments_differ_only_in_called_names_expr E env1 env2 n :
  (forall m, m <> n -> env1 m = env2 m) ->
  forall e, ~ called n e -> forall b, eval_expr E env1 e b = eval_expr E env2 e b.
Proof.
  intros Henv. induction e as [m|s|f|l IH] using value_ind'; intros Hc b; try reflexivity.
  destruct l as [|[m|s|f|l] args]; try reflexivity. rewrite !eval_call.
  rewrite <- Henv by (intros ->; apply Hc; constructor). destruct (env1 m) as [fn|]; [|reflexivity].
  inversion IH as [|? ? _ IHa]; subst. clear IH.
  assert (G : forall b, eval_list E env1 args b = eval_list E env2 args b).
  { assert (Hc' : forall a, In a args -> ~ called n a) by (intros a Ha X; apply Hc; econstructor; eauto). clear Hc.
    induction IHa as [|a l Ha Hl IHl]; intros b'; [reflexivity|]. rewrite !eval_list_cons. unfold bind.
    rewrite Ha by (apply Hc'; now left). destruct (eval_expr E env2 a b'); auto. rewrite IHl; auto.
    intros x Hx. apply Hc'. now right. }
  unfold bind. now rewrite G.
Qed.
Theorem environments_differ_only_in_called_names {T} E env1 env2 n p (cb : option (@callback T)) t b :
  (forall m, m <> n -> env1 m = env2 m) -> Forall (fun e => ~ called n e) p ->
  eval_with_trace E env1 p cb t b = eval_with_trace E env2 p cb t b.
Proof.
  intros Henv Hp. unfold eval_with_trace. generalize (VStr []) as r, 0 as i. generalize p at 1 3 as prog.
  intros prog. revert t b. induction Hp as [|e p He Hp IH]; intros t b r i; cbn [eval_from]; [reflexivity|].
  rewrite (environments_differ_only_in_called_names_expr E env1 env2 n Henv e He).
  destruct (eval_expr E env2 e b) as [v b1| | | |]; try reflexivity. destruct cb as [f|]; auto.
  destruct (f t e b1); auto.
Qed.
(** a name that is called does matter *)
Definition extend (env : env) (n : str) (f : builtin) : Eval.env := fun m => if str_eqb m n then Some f else env m.
Theorem extended_environment_calls_the_new_function E env n f args vs b b1 :
  evaluates_all (extend env n f) args b vs b1 ->
  eval_expr E (extend env n f) (VList (VSym n :: args)) b = f vs b1.
Proof.
  intros H. rewrite eval_call. unfold extend at 1. rewrite str_eqb_refl.
  apply (evaluates_all_value E) in H. now rewrite (bind_done _ _ _ _ _ H).
Qed.
Example environments_ex E b :
  eval_with_trace E (extend (default_env E) (bs "insert") (fun _ => fail (bs "no"))) [VList [VSym (bs "point")]]
    (@None (@callback unit)) tt b =
  eval_with_trace E (default_env E) [VList [VSym (bs "point")]] None tt b.
Proof.
  apply (environments_differ_only_in_called_names E _ _ (bs "insert")).
  - intros m Hm. unfold extend. destruct (str_eqb m (bs "insert")) eqn:X; auto. apply str_eqb_eq in X. congruence.
  - constructor; [|constructor]. intros H. inversion H; subst. destruct H2.
Qed.

(** ** Assumptions of every theorem above *)
Print Assumptions eval_expr_value.
Print Assumptions eval_expr_error.
Print Assumptions literals_evaluate_to_themselves.
Print Assumptions bare_word_argument_fails.
Print Assumptions unknown_function_evaluates_nothing.
Print Assumptions eval_sequence.
Print Assumptions eval_runs.
Print Assumptions eval_stops_at_first_error.
Print Assumptions instructions_after_error_do_not_matter.
Print Assumptions observing_does_not_change_the_result.
Print Assumptions observer_sees_what_is_recorded.
Print Assumptions trace_lists_successful_instructions.
Print Assumptions modifying_callback_changes_result.
Print Assumptions environments_differ_only_in_called_names_expr.
Print Assumptions environments_differ_only_in_called_names.
Print Assumptions extended_environment_calls_the_new_function.
