(** C09: point stays inside the buffer, and crashes are exactly characterised. *)
From Coq Require Import ZArith NArith List Bool Lia Strings.Byte ZifyBool.
From Verif Require Import Base Float Ext Utf8 Strconv Values Buffer Builtins Eval Spec
  Proofs_Base Proofs_Loops Proofs_Exec Proofs_Effects Proofs_Float Prop_Lines Proofs_Safe RefExt Proofs_Ref.
Import ListNotations.
Open Scope Z_scope.

Definition special : list String.string :=
  ["beginning-of-line"; "exchange-point-and-mark"; "backward-char"; "delete-char"]%string.
Definition memb (n : str) (l : list String.string) : bool := existsb (fun x => str_eqb (bs x) n) l.
Ltac show_body1 :=
  cbv beta iota delta [
    slice_to slice_from buf_insert no_args one_string one_number opt_count got wants
    b_backward_char b_backward_kill_word b_backward_word b_beginning_of_buffer b_beginning_of_line b_buffer_size b_buffer_substring b_capitalize b_concat b_current_column b_delete_backward_char b_delete_char b_delete_line b_delete_region b_downcase b_end_of_buffer b_end_of_line b_exchange_point_and_mark b_forward_char b_forward_word b_goto_char b_goto_line b_insert b_kill_line b_kill_word b_length b_line_number_at_pos b_looking_at b_looking_back b_mark b_mark_line b_mark_whole_buffer b_mark_word b_point b_point_max b_point_min b_re_search_backward b_re_search_forward b_region_beginning b_region_end b_replace_match b_replace_regexp_in_string b_replace_region b_search_backward b_search_forward b_set_mark b_set_mark_command b_string_match b_substring b_upcase substring_of ].
Ltac close := try side;
  repeat match goal with H : context [wrap ?z] |- _ => rewrite (wrap_id z) in H by arith end; try side.
Lemma safe_rest E n f args b : ext_ok E -> good b -> In (n, f) (default_functions E) ->
  memb n special = false -> wp (f args) b (fun _ => good).
Proof.
  intros HE Hg H Hn. each H; try discriminate Hn; clear Hn; show_body1.
  all: walk. all: close.
  all: subst y; destruct (line_offset_bound (content b) (y0 - 1));
    [pose proof (newlines_nonneg (content b)); rewrite split_length in *; lia|].
  all: close.
Qed.

Lemma count_cases E args : (exists n, count_arg E args n) \/
  forall nm k, exists e, forall b, opt_count E nm args k b = Fail e b.
Proof.
  destruct args as [|[n|s|f|l] [|? ?]].
  - left. exists 1. now left.
  - right. intros nm k. eexists. intros b. reflexivity.
  - right. intros nm k. eexists. intros b. reflexivity.
  - right. intros nm k. eexists. intros b. reflexivity.
  - right. intros nm k. eexists. intros b. reflexivity.
  - left. exists (f_to_int E f). right. exists f. split; auto. apply int_arg_exists.
  - right. intros nm k. eexists. intros b. reflexivity.
  - right. intros nm k. eexists. intros b. reflexivity.
  - right. intros nm k. eexists. intros b. reflexivity.
Qed.

(** ** C09 *)

(** every call that is not one of the risky ones: no crash, and the buffer stays good *)
Theorem calls_are_safe E name args b : ext_ok E -> good b -> ~ risky E name args b ->
  match call E name args b with
  | Done _ b' => good b'
  | Fail _ b' => b' = b
  | OutOfMemory => True
  | Panic | Diverge => False
  end.
Proof.
  intros HE Hg Hr.
  enough (H : wp (call E name args) b (fun _ => good)).
  { unfold wp in H. destruct (call E name args b) eqn:X; auto.
    unfold call in X. destruct (default_env E (bs name)) as [f|] eqn:D.
    - apply default_env_in in D. eapply builtin_clean; eauto.
    - now injection X as _ <-. }
  unfold call. destruct (default_env E (bs name)) as [f|] eqn:D; [|exact I].
  change (wp (f args) b (fun _ => good)).
  destruct (memb (bs name) special) eqn:Hm.
  2:{ apply default_env_in in D. apply (safe_rest E (bs name)); auto. }
  unfold memb in Hm. apply existsb_exists in Hm as (x & Hx & Hs). apply str_eqb_eq in Hs.
  assert (x = name) as ->.
  { revert Hs. clear. revert name. induction x as [|c x IH]; intros [|d y]; cbn; try discriminate; auto.
    intros H. injection H as H1 H2. f_equal; auto.
    apply (f_equal Ascii.ascii_of_byte) in H1. now rewrite !Ascii.ascii_of_byte_of_ascii in H1. }
  clear Hs. cbn [special In] in Hx.
  destruct Hx as [<-|[<-|[<-|[<-|[]]]]].
  - replace f with (b_beginning_of_line) by (assert (X : default_env E (bs "beginning-of-line") = Some (b_beginning_of_line)) by reflexivity; congruence). clear D.
    destruct args; [|exact I]. show_body1.
    assert (content b <> []) by (intros X; apply Hr; left; auto).
    assert (zlen (content b) <> 0) by (intros X; apply zlen_zero in X; auto). walk. all: close.
  - replace f with (b_exchange_point_and_mark) by (assert (X : default_env E (bs "exchange-point-and-mark") = Some (b_exchange_point_and_mark)) by reflexivity; congruence). clear D.
    destruct args; [|exact I]. show_body1.
    destruct (Z_le_dec 1 (mark b)); [destruct (Z_le_dec (mark b) (zlen (content b) + 1))|].
    2,3: exfalso; apply Hr; right; left; repeat split; auto; unfold valid_pos; lia.
    walk. all: close.
  - replace f with (b_backward_char E) by (assert (X : default_env E (bs "backward-char") = Some (b_backward_char E)) by reflexivity; congruence). clear D.
    destruct (count_cases E args) as [[n Hn]|X].
    2:{ cbv beta delta [b_backward_char]. match goal with |- wp (opt_count E ?nm _ ?k) _ _ => destruct (X nm k) as [e He] end.
        unfold wp. now rewrite He. }
    cbv beta delta [b_backward_char]. rewrite (opt_count_arg E _ args n) by auto. pose proof (count_arg_ok E args n Hn).
    assert (~ (zlen (content b) + 1 < point b - n <= max_int)).
    { intros X. apply Hr. right; right; left. eauto. }
    assert (wrap (point b - n) < 1 \/ 1 <= wrap (point b - n) <= zlen (content b) + 1).
    { destruct (wrap_cases (point b - n)) as [[? ->]|[[? ->]|[? ->]]]; arith. }
    walk. all: arith.
  - replace f with (b_delete_char E) by (assert (X : default_env E (bs "delete-char") = Some (b_delete_char E)) by reflexivity; congruence). clear D.
    destruct (count_cases E args) as [[n Hn]|X].
    2:{ cbv beta delta [b_delete_char]. match goal with |- wp (opt_count E ?nm _ ?k) _ _ => destruct (X nm k) as [e He] end.
        unfold wp. now rewrite He. }
    cbv beta delta [b_delete_char]. rewrite (opt_count_arg E _ args n) by auto. pose proof (count_arg_ok E args n Hn).
    destruct ((point b <? 1) || (zlen (content b) <? point b)) eqn:Ep.
    { walk; rewrite ?Ep; try congruence. all: close. }
    assert (0 <= point b - 1 + n <= max_int).
    { destruct (Z_le_dec 0 (point b - 1 + n)); [destruct (Z_le_dec (point b - 1 + n) max_int); auto|];
      exfalso; apply Hr; right; right; right; (split; [auto|]); (split; [arith|]); exists n; (split; [auto|]); lia. }
    cbv beta delta [slice_to slice_from]. walk. all: close.
Qed.
(** each risky call does crash or leave the range *)
Theorem risky_calls_are_not_safe E name args b : good b -> risky E name args b ->
  call E name args b = Panic \/
  exists v b', call E name args b = Done v b' /\ ~ valid_pos (content b') (point b').
Proof.
  intros Hg [(-> & -> & Hc)|[(-> & -> & Hm)|[(-> & n & Hn & Hb)|(-> & Hp & n & Hn & Hb)]]];
  destruct b as [c p mk lm ls le]; cbn [content point mark] in *.
  - subst c. right. assert (p = 1) as -> by arith. exists VEmpty, (mkBuffer [] 0 mk lm ls le). split; [reflexivity|].
    unfold valid_pos. cbn. lia.
  - right. call. exists VEmpty, (mkBuffer c mk p lm ls le). split; [reflexivity|]. exact Hm.
  - right. call. unfold b_backward_char. rewrite (opt_count_arg E _ args n) by auto.
    apply count_arg_ok in Hn. exe. unwrap. replace (p - n <? 1) with false by arith.
    do 2 eexists. split; [reflexivity|]. unfold valid_pos. cbn [content point]. lia.
  - left. call. unfold b_delete_char. rewrite (opt_count_arg E _ args n) by auto.
    apply count_arg_ok in Hn. exe. replace ((p <? 1) || (zlen c <? p)) with false by arith.
    assert (wrap (p - 1 + n) < 0) by (destruct (wrap_cases (p - 1 + n)) as [[? ->]|[[? ->]|[? ->]]]; arith).
    replace (zlen c <? wrap (p - 1 + n)) with false by arith.
    destruct (slice c 0 (p - 1)) eqn:S1; [|reflexivity].
    now rewrite (proj2 (slice_none c (wrap (p - 1 + n)) (zlen c))) by arith.
Qed.

(** whole programs *)
Definition ok_result (r : eval_result) : Prop :=
  match r with
  | EvDone _ b | EvError _ b => good b
  | EvOutOfMemory => True
  | EvPanic | EvDiverge => False
  end.
Definition ok_outcome {A} (o : outcome A) : Prop :=
  match o with
  | Done _ b | Fail _ b => good b
  | OutOfMemory => True
  | Panic | Diverge => False
  end.
Lemma ok_call E name args b : ext_ok E -> good b -> ~ risky E name args b -> ok_outcome (call E name args b).
Proof. intros HE Hg Hr. pose proof (calls_are_safe E name args b HE Hg Hr). destruct (call E name args b); cbn; auto. now subst. Qed.
Lemma ok_bind {A B} (m : M A) (k : A -> M B) b :
  ok_outcome (m b) -> (forall a b', m b = Done a b' -> good b' -> ok_outcome (k a b')) -> ok_outcome (bind m k b).
Proof. unfold bind. destruct (m b); intros H K; try exact H. now apply K. Qed.
Lemma ok_list E env args : Forall (fun e => forall b, good b -> ok_outcome (eval_expr E env e b)) args ->
  forall b, good b -> ok_outcome (eval_list E env args b).
Proof.
  induction 1 as [|e l He Hl IH]; intros b Hb; [exact Hb|]. rewrite eval_list_cons.
  apply ok_bind; auto. intros a b' _ Hb'. apply ok_bind; auto.
Qed.
Lemma ok_program E env p : Forall (fun e => forall b, good b -> ok_outcome (eval_expr E env e b)) p ->
  forall b, good b -> ok_result (eval E env p b).
Proof.
  intros Hp. unfold eval, eval_with_trace. generalize (VStr []) as r, 0 as i. generalize p at 1 as prog. intros prog.
  induction Hp as [|e p He Hp IH]; intros r i b Hb; cbn [eval_from fst]; [exact Hb|].
  specialize (He b Hb). destruct (eval_expr E env e b); cbn in *; auto.
Qed.

(** a program stopped before every risky call never crashes and never leaves the range *)
Theorem guarded_programs_are_safe E env p b : ext_ok E -> guards E env -> good b -> ok_result (eval E env p b).
Proof.
  intros HE Henv. apply ok_program. apply Forall_forall. intros e _. clear b.
  induction e as [n|s|f|l IH] using value_ind'; intros b Hb; try exact Hb.
  destruct l as [|[n|s|f|l] args]; try exact Hb. rewrite eval_call. destruct (env n) as [fn|] eqn:D; [|exact Hb].
  inversion IH as [|? ? _ IHa]; subst. apply ok_bind; [now apply ok_list|]. intros vs b1 _ Hb1.
  destruct (Henv n fn D) as (name & -> & H). destruct (H vs b1) as [[-> Hr]|[e ->]]; [|exact Hb1].
  now apply ok_call.
Qed.
(** the same for a whole text without the risky commands *)
Theorem harmless_programs_are_safe E p b : ext_ok E -> Forall (harmless E) p -> good b ->
  ok_result (eval E (default_env E) p b).
Proof.
  intros HE Hp. apply ok_program. eapply Forall_impl; [|exact Hp]. clear p Hp b.
  induction a as [n|s|f|l IH] using value_ind'; intros Hh b Hb; try exact Hb.
  inversion Hh as [| | |n args Hc Ha|l' Hl]; subst.
  2:{ destruct l as [|[n|s|f|l] args]; try exact Hb. now destruct (Hl n args). }
  rewrite eval_call. destruct (default_env E n) as [fn|] eqn:D; [|exact Hb].
  inversion IH as [|? ? _ IHa]; subst. apply ok_bind.
  { apply ok_list; auto. clear - IHa Ha. induction IHa as [|x l Hx Hl IHl]; constructor; inversion Ha; auto. }
  intros vs b1 Hvs Hb1.
  assert (exists name, n = bs name) as [name ->].
  { apply default_env_in in D. each D; eexists; reflexivity. }
  replace (fn vs b1) with (call E name vs b1) by (unfold call; now rewrite D).
  apply ok_call; auto.
  assert (L : forall k, count_arg E args k -> vs = args /\ b1 = b).
  { intros k [[-> _]|(f & -> & _)]; cbn in Hvs; injection Hvs as <- <-; auto. }
  assert (U : forall k k', count_arg E args k -> count_arg E args k' -> k = k').
  { intros k k' [[-> ->]|(f & -> & H1)] [[X ->]|(f' & X & H2)]; try discriminate; auto. injection X as <-.
    apply int_arg_to_int in H1, H2. congruence. }
  destruct Hc as [Hc|[(Hn & k & Hk & H0)|(Hn & k & Hk & H0)]].
  - intros [(-> & _)|[(-> & _)|[(-> & _)|(-> & _)]]]; (eapply Hc; [|reflexivity]); cbn; tauto.
  - destruct (L k Hk) as [-> ->]. intros [(-> & _)|[(-> & _)|[(-> & n & Hn' & Hr)|(-> & _)]]]; try discriminate Hn.
    rewrite (U n k) in Hr by auto. arith.
  - destruct (L k Hk) as [-> ->]. intros [(-> & _)|[(-> & _)|[(-> & _)|(-> & Hp & n & Hn' & Hr)]]]; try discriminate Hn.
    rewrite (U n k) in Hr by auto. arith.
Qed.
(** the unrestricted claim is false *)
Theorem no_script_crashes_refuted E : exists p s, eval E (default_env E) p (new_buffer s) = EvPanic.
Proof.
  exists [VList [VSym (bs "beginning-of-line")]; VList [VSym (bs "forward-word")]], []. reflexivity.
Qed.
Theorem negative_delete_char_crashes_refuted E : exists p s, eval E (default_env E) p (new_buffer s) = EvPanic.
Proof.
  exists [VList [VSym (bs "delete-char"); VInt (-1)]], (bs "abc"). reflexivity.
Qed.
Theorem stale_mark_crashes_refuted E : exists p s, eval E (default_env E) p (new_buffer s) = EvPanic.
Proof.
  exists [VList [VSym (bs "end-of-buffer")]; VList [VSym (bs "set-mark")]; VList [VSym (bs "beginning-of-buffer")];
          VList [VSym (bs "delete-char"); VInt 3]; VList [VSym (bs "exchange-point-and-mark")];
          VList [VSym (bs "kill-word")]], (bs "abc"). reflexivity.
Qed.
Example harmless_ex : ok_result (eval ref_ext (default_env ref_ext)
  [VList [VSym (bs "forward-word"); VNum (f_of_Z 2)]; VList [VSym (bs "backward-char"); VNum (f_of_Z 3)];
   VList [VSym (bs "kill-line")]]
  (new_buffer (bs "some text here"))).
Proof.
  apply harmless_programs_are_safe.
  - apply ref_ext_ok.
  - constructor; [|constructor; [|constructor; [|constructor]]]; (apply harmless_list; [|repeat constructor]).
    + left. intros s Hs. cbn [In] in Hs. intros X. repeat (destruct Hs as [<-|Hs]; [discriminate X|]). destruct Hs.
    + right. left. split; [reflexivity|]. exists 3. split; [|lia]. apply count_lit. lia.
    + left. intros s Hs. cbn [In] in Hs. intros X. repeat (destruct Hs as [<-|Hs]; [discriminate X|]). destruct Hs.
  - vm_compute. repeat split; discriminate.
Qed.

(** ** Assumptions of every theorem above *)
Print Assumptions calls_are_safe.
Print Assumptions risky_calls_are_not_safe.
Print Assumptions guarded_programs_are_safe.
Print Assumptions harmless_programs_are_safe.
Print Assumptions no_script_crashes_refuted.
Print Assumptions negative_delete_char_crashes_refuted.
Print Assumptions stale_mark_crashes_refuted.
