(** Proofs used for C89. *)
From Coq Require Import ZArith NArith List Bool Lia Strings.Byte ZifyBool.
From Verif Require Import Base Float Ext Utf8 Strconv Values Parser Buffer Builtins Eval Files Spec SpecText SpecNumber SpecJson SpecLines SpecManual SpecMeaning SpecRewrite
  Proofs_Base Proofs_Manual Proofs_Manual2 Proofs_Manual3 Proofs_Manual4 Proofs_Manual5 Proofs_Manual6 Prop_Calls Prop_Safe Prop_Manual Prop_Words.
Import ListNotations.
Open Scope Z_scope.

(** ** Runs that come to the same *)
Lemma alike_refl r : alike r r.
Proof. destruct r; constructor; auto. Qed.
Lemma alike_sym r r' : alike r r' -> alike r' r.
Proof. destruct 1; constructor; auto. Qed.
Lemma alike_trans r s t : alike r s -> alike s t -> alike r t.
Proof. destruct 1; inversion 1; subst; constructor; congruence. Qed.
Lemma from_alike E : forall rest p i v p' i' v' b,
  alike (fst (eval_from E (default_env E) (@None (@callback unit)) p i rest v tt b)) (fst (eval_from E (default_env E) (@None (@callback unit)) p' i' rest v' tt b)).
Proof.
  induction rest as [|e rest IH]; intros; cbn [eval_from]; [constructor|].
  destruct (eval_expr E (default_env E) e b); try apply IH; constructor. reflexivity.
Qed.
Lemma from_app E r : forall l p i v b,
  match fst (eval_from E (default_env E) (@None (@callback unit)) p i l v tt b) with
  | EvDone _ b' => alike (fst (eval_from E (default_env E) (@None (@callback unit)) p i (l ++ r) v tt b)) (eval E (default_env E) r b')
  | x => alike (fst (eval_from E (default_env E) (@None (@callback unit)) p i (l ++ r) v tt b)) x
  end.
Proof.
  induction l as [|e l IH]; intros; cbn [eval_from app fst].
  - apply from_alike.
  - destruct (eval_expr E (default_env E) e b); cbn [fst]; try apply IH; constructor. reflexivity.
Qed.
Lemma eval_app E l r b :
  match eval E (default_env E) l b with
  | EvDone _ b' => alike (eval E (default_env E) (l ++ r) b) (eval E (default_env E) r b')
  | x => alike (eval E (default_env E) (l ++ r) b) x
  end.
Proof.
  pose proof (from_app E r l l 0 (VStr []) b) as H. unfold eval, eval_with_trace.
  destruct (fst (eval_from E (default_env E) None l 0 l (VStr []) tt b)) as [v b'|x b'| | |]; (eapply alike_trans; [apply from_alike|exact H]).
Qed.

Lemma does_call E n args b : (exists s, In (n, s) signatures) -> args = [] \/ (exists s, args = [VStr s]) \/ (exists f, args = [VNum f]) ->
  eval_expr E (default_env E) (does n args) b = call E n args b.
Proof.
  intros (s & I) H. unfold does, call. assert (K : exists f, default_env E (bs n) = Some f).
  { cbn in I. repeat (destruct I as [I|I]; [injection I as <- <-; eexists; reflexivity|]). destruct I. }
  destruct K as (f & K). destruct H as [->|[(t & ->)|(t & ->)]]; cbn [eval_expr]; rewrite K; reflexivity.
Qed.
Lemma one_call E n args b : (exists s, In (n, s) signatures) -> args = [] \/ (exists s, args = [VStr s]) \/ (exists f, args = [VNum f]) ->
  match call E n args b with
  | Done v b' => exists v', eval E (default_env E) [does n args] b = EvDone v' b'
  | Fail e b' => exists x, eval E (default_env E) [does n args] b = EvError x b' /\ x_error x = e
  | Panic => eval E (default_env E) [does n args] b = EvPanic
  | OutOfMemory => eval E (default_env E) [does n args] b = EvOutOfMemory
  | Diverge => eval E (default_env E) [does n args] b = EvDiverge
  end.
Proof.
  intros I H. rewrite <- does_call by auto. unfold eval, eval_with_trace. cbn [eval_from].
  destruct (eval_expr E (default_env E) (does n args) b); cbn [fst]; eauto.
Qed.
Lemma two_calls E n args m args' b v b1 : (exists s, In (n, s) signatures) -> (exists s, In (m, s) signatures) ->
  args = [] \/ (exists s, args = [VStr s]) \/ (exists f, args = [VNum f]) -> args' = [] \/ (exists s, args' = [VStr s]) \/ (exists f, args' = [VNum f]) ->
  call E n args b = Done v b1 -> alike (eval E (default_env E) [does n args; does m args'] b) (eval E (default_env E) [does m args'] b1).
Proof.
  intros I J H K Q. pose proof (eval_app E [does n args] [does m args'] b) as A. pose proof (one_call E n args b I H) as O.
  rewrite Q in O. destruct O as (v' & O). rewrite O in A. exact A.
Qed.
Lemma same_call E n args m args' b b' : (exists s, In (n, s) signatures) -> (exists s, In (m, s) signatures) ->
  args = [] \/ (exists s, args = [VStr s]) \/ (exists f, args = [VNum f]) -> args' = [] \/ (exists s, args' = [VStr s]) \/ (exists f, args' = [VNum f]) ->
  call E n args b = call E m args' b' -> alike (eval E (default_env E) [does n args] b) (eval E (default_env E) [does m args'] b').
Proof.
  intros I J H K Q. pose proof (one_call E n args b I H) as A. pose proof (one_call E m args' b' J K) as B. rewrite Q in A.
  destruct (call E m args' b') as [v c|e c| | |].
  - destruct A as (? & ->), B as (? & ->). constructor.
  - destruct A as (? & -> & <-), B as (? & -> & ?). now constructor.
  - rewrite A, B. constructor.
  - rewrite A, B. constructor.
  - rewrite A, B. constructor.
Qed.
Lemma count_shape E args n : count_arg E args n -> args = [] \/ (exists s, args = [VStr s]) \/ (exists f, args = [VNum f]).
Proof. intros [[-> _]|(f & -> & _)]; eauto. Qed.
Ltac sig := eexists; cbn; repeat (left; reflexivity) || (repeat (first [left; reflexivity|right])).
Ltac shape := first [left; reflexivity|right; left; eexists; reflexivity|right; right; eexists; reflexivity|eapply count_shape; eassumption].

Lemma nothing_refused name msg : In name ["beginning-of-line"; "end-of-line"; "line-number-at-pos"; "current-column"]%string -> refused name [] msg -> False.
Proof.
  intros I R. inversion R; subst; try congruence; repeat (destruct I as [I|I]; [try discriminate I|]); try destruct I; subst;
    try match goal with H : 1 < zlen [] |- _ => cbn in H; lia end;
    try match goal with H : taking _ _ |- _ => cbn in H; repeat (destruct H as [H|H]; [discriminate H|]); destruct H end.
Qed.
Lemma line_moves E name b : ext_ok E -> machine b -> In name ["beginning-of-line"; "end-of-line"]%string ->
  exists p, call E name [] b = fine (at_point b p).
Proof.
  intros X M I. assert (N : exists s, In (name, s) signatures) by (destruct I as [<-|[<-|[]]]; sig).
  pose proof (proj1 (manual_exact E name [] b _ X M (fun s H => match H with end) N) eq_refl) as H.
  destruct I as [<-|[<-|[]]]; inversion H; subst; try (eexists; reflexivity);
    match goal with R : refused _ _ _ |- _ => exfalso; revert R; apply nothing_refused; cbn; tauto end.
Qed.
Lemma look_line E b : ext_ok E -> machine b -> exists v, call E "line-number-at-pos" [] b = Done v b.
Proof.
  intros X M. assert (N : exists s, In ("line-number-at-pos"%string, s) signatures) by sig.
  pose proof (proj1 (manual_exact E "line-number-at-pos"%string [] b _ X M (fun s H => match H with end) N) eq_refl) as H.
  inversion H; subst; try (eexists; reflexivity);
    match goal with R : refused _ _ _ |- _ => exfalso; revert R; apply nothing_refused; cbn; tauto end.
Qed.
Lemma look_column E b : ext_ok E -> machine b -> exists v, call E "current-column" [] b = Done v b.
Proof.
  intros X M. assert (N : exists s, In ("current-column"%string, s) signatures) by sig.
  pose proof (proj1 (manual_exact E "current-column"%string [] b _ X M (fun s H => match H with end) N) eq_refl) as H.
  inversion H; subst; try (eexists; reflexivity);
    match goal with R : refused _ _ _ |- _ => exfalso; revert R; apply nothing_refused; cbn; tauto end.
Qed.
Lemma look_looks E name b : ext_ok E -> machine b -> In name looks -> exists v, call E name [] b = Done v b.
Proof.
  intros X M I. unfold looks in I. cbn [In] in I.
  repeat (destruct I as [<-|I]; [first [eexists; reflexivity|apply look_line; assumption|apply look_column; assumption]|]). destruct I.
Qed.
Lemma move_moves E e b : ext_ok E -> machine b -> moves E e -> exists n args p,
  e = does n args /\ (exists s, In (n, s) signatures) /\ (args = [] \/ (exists s, args = [VStr s]) \/ (exists f, args = [VNum f])) /\
  call E n args b = fine (at_point b p).
Proof.
  intros X M [f|f|args n A|args n A|name I].
  - exists "goto-char"%string, [VNum f]. eexists. split; [reflexivity|]. split; [sig|]. split; [shape|]. apply s_goto_char; auto using int_arg_exists.
  - assert (K : exists p, call E "goto-line" [VNum f] b = fine (at_point b p)).
    { exists (wrap (1 + line_offset (split_byte nl (content b)) (Z.to_nat ((if f_to_int E f <? 1 then 1 else if zlen (split_byte nl (content b)) <? f_to_int E f then zlen (split_byte nl (content b)) else f_to_int E f) - 1)))).
      reflexivity. }
    destruct K as (p & K). exists "goto-line"%string, [VNum f], p. split; [reflexivity|]. split; [sig|]. split; [shape|exact K].
  - exists "forward-char"%string, args. eexists. split; [reflexivity|]. split; [sig|]. split; [shape|]. eapply s_forward_char; eauto using wrap_carry.
  - exists "backward-char"%string, args. eexists. split; [reflexivity|]. split; [sig|]. split; [shape|]. eapply s_backward_char; eauto using wrap_carry.
  - assert (K : exists p, call E name [] b = fine (at_point b p)).
    { destruct I as [<-|[<-|I]]; [eexists; reflexivity|eexists; reflexivity|now apply line_moves]. }
    destruct K as (p & K). exists name, [], p. split; auto. split; [|split; [now left|exact K]].
    repeat (destruct I as [<-|I]; [sig|]). destruct I.
Qed.
Lemma place_places E e b p : places e -> exists n args,
  e = does n args /\ (exists s, In (n, s) signatures) /\ (args = [] \/ (exists s, args = [VStr s]) \/ (exists f, args = [VNum f])) /\
  call E n args (at_point b p) = call E n args b.
Proof. intros [f|f| |]; eexists _, _; (split; [reflexivity|]); (split; [sig|]); (split; [shape|]); reflexivity. Qed.

Lemma carry_small z : int_ok z -> carry z z.
Proof. intros H. split; auto. exists 0. lia. Qed.
Lemma inside_between b : valid_pos (content b) (point b) -> exists u v, between b u v.
Proof. intros V. destruct (split_at (content b) (point b - 1)) as (u & v & C & P); [unfold valid_pos in V; lia|]. exists u, v. split; auto. lia. Qed.
Lemma insert_call E b s u v : machine b -> between b u v ->
  call E "insert" [VStr s] b = if max_alloc <? zlen (u ++ s ++ v) then OutOfMemory else fine (with_text b (u ++ s ++ v) (point b + zlen s)).
Proof.
  intros M B. apply (s_insert E b s u v _ M B). unfold becomes, fits. destruct (max_alloc <? zlen (u ++ s ++ v)) eqn:K; [right|left]; split; auto; lia.
Qed.
Lemma delete_call E b args n u g v : machine b -> count_arg E args n -> between b u (g ++ v) -> 0 <= n -> n <= 2 ^ 62 -> zlen g = Z.min n (zlen (g ++ v)) ->
  call E "delete-char" args b = fine (with_text b (u ++ v) (point b)).
Proof.
  intros M A B H L G. assert (F : fits (content b)) by apply M. pose proof B as [C P]. rewrite C in F. unfold fits in F. rewrite zlen_app in F.
  pose proof (zlen_nonneg u). pose proof (zlen_nonneg (g ++ v)). destruct (g ++ v) as [|x r] eqn:Q.
  - apply app_eq_nil in Q as [-> ->]. rewrite (s_delete_no_char E b args n M A).
    + destruct b as [c p mk lm ls le]. unfold with_text. cbn [content point mark last_match last_start last_end] in *. now rewrite C.
    + right. rewrite C, zlen_app. change (zlen []) with 0. lia.
  - rewrite <- Q in *. apply (s_delete_char E b args n u g v M A B); auto; [rewrite Q; discriminate|]. revert F L. change max_alloc with 281474976710656. change (2 ^ 62) with 4611686018427387904. ints. lia.
Qed.
