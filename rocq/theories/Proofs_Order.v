(** Lemmas for C92. *)
From Coq Require Import ZArith NArith List Bool Lia Strings.Byte Permutation.
From Verif Require Import Base Float Ext Utf8 Strconv Values Buffer Builtins Eval Parser Json Writer Files Cli SpecFiles
  Proofs_Base Proofs_Files.
Import ListNotations.
Open Scope Z_scope.

Lemma write_states_fs key c n : forall w w', w_fs w = w_fs w' -> w_fs (write_states key c n w) = w_fs (write_states key c n w').
Proof. induction n as [|n IH]; intros w w' H; cbn; [now rewrite H|]. rewrite (IH w w' H). reflexivity. Qed.
(** without faults it does not matter when a file is edited *)
Lemma edit_with_when os f exec w n m : no_faults os ->
  fst (edit_with os f exec (at_op n w)) = fst (edit_with os f exec (at_op m w)) /\
  w_fs (snd (edit_with os f exec (at_op n w))) = w_fs (snd (edit_with os f exec (at_op m w))).
Proof.
  intros NF. unfold edit_with, io_bind, read_file, io_try, os_read_file, io_res, io_fail. cbn [at_op w_fs w_ops].
  destruct (w_fs w (canon os f)) as [c|].
  - destruct (NF n) as (-> & _). destruct (NF m) as (-> & _). destruct (max_alloc <? zlen c); [now split|].
    destruct (exec c) as [out|e|k]; [|now split..].
    unfold write_file, io_try, os_write_file. cbn [tick w_ops at_op w_fs].
    destruct (NF (S n)) as (_ & -> & -> & _). destruct (NF (S m)) as (_ & -> & -> & _). split; [reflexivity|]. now apply write_states_fs.
  - now split.
Qed.

(** what editing a file right away would report *)
Definition alone os exec w f : edit_result := mkResult f (verdict (fst (edit_with os f exec (at_op 0 w)))).

Lemma loop_alone os exec files w rs w' : no_faults os -> NoDup (map (canon os) files) ->
  edit_loop (fun f => edit_with os f exec) files w = (Ok rs, w') ->
  rs = map (alone os exec w) files /\
  (forall f, In f files -> (forall c n, fst (edit_with os f exec (at_op n w)) <> Crash c) /\
     w_fs w' (canon os f) = w_fs (snd (edit_with os f exec (at_op 0 w))) (canon os f)) /\
  forall k, ~ In k (map (canon os) files) -> w_fs w' k = w_fs w k.
Proof.
  intros NF ND H. destruct (edit_loop_spec os exec files w _ w' ND H) as [[(rs' & R & M & F) K]|(c & f & n & R & _)]; [|discriminate].
  injection R as <-. split; [|split; auto].
  - rewrite <- M. clear -F NF. induction F as [|x l (n & A & _) _ IH]; [reflexivity|]. cbn [map]. f_equal; auto.
    destruct x as [g e]. unfold alone. cbn [r_file r_err] in *. f_equal. rewrite A. now destruct (edit_with_when os g exec w n 0 NF) as [-> _].
  - intros f I. rewrite <- M in I. apply in_map_iff in I as (x & <- & I). rewrite Forall_forall in F. destruct (F x I) as (n & _ & B & C). split.
    + intros c m. destruct (edit_with_when os (r_file x) exec w m n NF) as [-> _]. apply B.
    + rewrite C. now destruct (edit_with_when os (r_file x) exec w n 0 NF) as [_ ->].
Qed.

Lemma loop_order os exec files files' w rs w1 : no_faults os -> NoDup (map (canon os) files) -> Permutation files files' ->
  edit_loop (fun f => edit_with os f exec) files w = (Ok rs, w1) ->
  exists rs' w2, edit_loop (fun f => edit_with os f exec) files' w = (Ok rs', w2) /\ Permutation rs rs' /\ same (w_fs w1) (w_fs w2).
Proof.
  intros NF ND P H. assert (ND' : NoDup (map (canon os) files')). { eapply Permutation_NoDup; [|exact ND]. now apply Permutation_map. }
  destruct (loop_alone os exec files w rs w1 NF ND H) as (-> & A & K).
  destruct (edit_loop (fun f => edit_with os f exec) files' w) as [r w2] eqn:H'.
  destruct (edit_loop_spec os exec files' w r w2 ND' H') as [[(rs' & -> & _) _]|(c & f & n & _ & I & C)].
  - exists rs', w2. split; auto. destruct (loop_alone os exec files' w rs' w2 NF ND' H') as (-> & A' & K'). split; [now apply Permutation_map|].
    intros k. destruct (in_dec (list_eq_dec Byte.byte_eq_dec) k (map (canon os) files)) as [I|I].
    + apply in_map_iff in I as (f & <- & I). destruct (A f I) as [_ ->]. symmetry. apply A'. eapply Permutation_in; eauto.
    + rewrite K by auto. symmetry. apply K'. intros J. apply I. eapply Permutation_in; [|exact J]. apply Permutation_sym. now apply Permutation_map.
  - exfalso. apply (proj1 (A f (Permutation_in _ (Permutation_sym P) I)) c n C).
Qed.

(** a longer list of files is edited as its two parts *)
Lemma loop_app edit l l' : forall w rs w2, edit_loop edit (l ++ l') w = (Ok rs, w2) <->
  exists rs1 w1 rs2, edit_loop edit l w = (Ok rs1, w1) /\ edit_loop edit l' w1 = (Ok rs2, w2) /\ rs = rs1 ++ rs2.
Proof.
  induction l as [|f l IH]; intros w rs w2.
  - cbn [app edit_loop]. split; [intros H; exists [], w, rs; auto|]. intros (rs1 & w1 & rs2 & H & H' & ->). injection H as <- <-. exact H'.
  - cbn [app edit_loop]. unfold io_try. destruct (edit f w) as [q w0]. 
    assert (G : forall one, io_bind (edit_loop edit (l ++ l')) (fun rs => io_ret (one :: rs)) w0 = (Ok rs, w2) <->
      exists rs1 w1 rs2, io_bind (edit_loop edit l) (fun rs => io_ret (one :: rs)) w0 = (Ok rs1, w1) /\ edit_loop edit l' w1 = (Ok rs2, w2) /\ rs = rs1 ++ rs2).
    { intros one. unfold io_bind, io_ret. split.
      - destruct (edit_loop edit (l ++ l') w0) as [[t|e|c] w3] eqn:X; try discriminate. intros Y. injection Y as <- <-.
        apply IH in X as (rs1 & w1 & rs2 & A & B & ->). exists (one :: rs1), w1, rs2. rewrite A. auto.
      - intros (rs1 & w1 & rs2 & A & B & ->). destruct (edit_loop edit l w0) as [[t|e|c] w3] eqn:X; try discriminate. injection A as <- <-.
        rewrite (proj2 (IH w0 (t ++ rs2) w2)); [reflexivity|]. exists t, w3, rs2. auto. }
    destruct q as [u|e|c]; try apply G. split; [discriminate|]. intros (rs1 & w1 & rs2 & A & _). discriminate.
Qed.
