(** C89: scripts that may be written differently without doing anything else. *)
From Coq Require Import ZArith NArith List Bool Lia Strings.Byte ZifyBool.
From Verif Require Import Base Float Ext Utf8 Strconv Values Parser Buffer Builtins Eval Files Spec SpecText SpecNumber SpecJson SpecLines SpecManual SpecMeaning SpecRewrite
  Proofs_Base Proofs_Manual Proofs_Manual2 Proofs_Manual3 Proofs_Manual4 Proofs_Manual5 Proofs_Manual6 Proofs_Rewrite Prop_Calls Prop_Safe Prop_Manual Prop_Words RefExt Proofs_Ref.
Import ListNotations.
Open Scope Z_scope.

(** ** C89 *)

(** what comes to the same in the states in which it is reached may be replaced anywhere
    in a script *)
Theorem replace_anywhere E (P : buffer -> Prop) l p q r b :
  (forall b', P b' -> alike (eval E (default_env E) p b') (eval E (default_env E) q b')) ->
  (forall v b', eval E (default_env E) l b = EvDone v b' -> P b') ->
  alike (eval E (default_env E) (l ++ p ++ r) b) (eval E (default_env E) (l ++ q ++ r) b).
Proof.
  intros H L. pose proof (eval_app E l (p ++ r) b) as A. pose proof (eval_app E l (q ++ r) b) as B.
  destruct (eval E (default_env E) l b) as [v b'|x b'| | |]; try (eapply alike_trans; [exact A|apply alike_sym; exact B]).
  eapply alike_trans; [exact A|]. eapply alike_trans; [|apply alike_sym; exact B].
  pose proof (H b' (L v b' eq_refl)) as Q. pose proof (eval_app E p r b') as A'. pose proof (eval_app E q r b') as B'.
  inversion Q as [v1 v2 b1 Q1 Q2|x1 x2 b1 X Q1 Q2|Q1 Q2|Q1 Q2|Q1 Q2]; rewrite <- Q1 in A'; rewrite <- Q2 in B';
    (eapply alike_trans; [exact A'|]); (eapply alike_trans; [|apply alike_sym; exact B']); try apply alike_refl; now constructor.
Qed.

(** scripts whose programs come to the same make the same text of every text *)
Theorem same_output E s s' p p' input : SpecLines.script s p -> SpecLines.script s' p' ->
  alike (eval E (default_env E) p (new_buffer input)) (eval E (default_env E) p' (new_buffer input)) ->
  forall out, execute_script E input s = Ok out <-> execute_script E input s' = Ok out.
Proof.
  intros S S' A out. unfold execute_script. rewrite (proj2 (script_grammar s p) S), (proj2 (script_grammar s' p') S'). cbn [run_program].
  inversion A; subst; split; intros H'; try discriminate H'; exact H'.
Qed.

(** *** Moving *)

(** a movement right before point is put somewhere makes no difference *)
Theorem moving_before_placing E e e' b : ext_ok E -> machine b -> moves E e -> places e' ->
  alike (eval E (default_env E) [e; e'] b) (eval E (default_env E) [e'] b).
Proof.
  intros X M H K. destruct (move_moves E e b X M H) as (n & args & p & -> & I & S & Q).
  destruct (place_places E e' b p K) as (m & args' & -> & J & S' & Q').
  eapply alike_trans; [apply (two_calls E n args m args' b _ _ I J S S' Q)|]. now apply same_call.
Qed.
(** an instruction that only looks may be left out *)
Theorem looking_is_idle E name b : ext_ok E -> machine b -> In name looks ->
  alike (eval E (default_env E) [does name []] b) (eval E (default_env E) [] b).
Proof.
  intros X M I. destruct (look_looks E name b X M I) as (v & Q).
  assert (J : exists s, In (name, s) signatures) by (unfold looks in I; cbn [In] in I; repeat (destruct I as [<-|I]; [sig|]); destruct I).
  pose proof (one_call E name [] b J (or_introl eq_refl)) as O. rewrite Q in O. destruct O as (v' & ->). constructor.
Qed.
(** steps in the same direction add up *)
Theorem forward_adds_up E a c s m n b : inside b -> count_arg E a m -> count_arg E c n -> count_arg E s (m + n) -> 0 <= m -> 0 <= n -> m + n <= 2 ^ 62 ->
  alike (eval E (default_env E) [does "forward-char" a; does "forward-char" c] b) (eval E (default_env E) [does "forward-char" s] b).
Proof.
  intros [M V] A C S Hm Hn L. assert (F : fits (content b)) by apply M. unfold fits in F. change max_alloc with 281474976710656 in F.
  change (2 ^ 62) with 4611686018427387904 in L. unfold valid_pos in V. assert (J : exists s, In ("forward-char"%string, s) signatures) by sig.
  assert (Q1 := s_forward_char E b a m (point b + m) M A (carry_small (point b + m) ltac:(ints; lia))).
  assert (Q2 := s_forward_char E b s (m + n) (point b + (m + n)) M S (carry_small (point b + (m + n)) ltac:(ints; lia))).
  set (p := clamp 1 (zlen (content b) + 1) (point b + m)) in *. assert (P : p = Z.min (zlen (content b) + 1) (point b + m)) by (unfold p, clamp; lia).
  assert (Q3 := s_forward_char E (at_point b p) c n (p + n) (machine_at b p M ltac:(ints; lia)) C (carry_small (p + n) ltac:(ints; lia))).
  eapply alike_trans; [apply (two_calls E _ a _ c b _ _ J J (count_shape _ _ _ A) (count_shape _ _ _ C) Q1)|].
  apply same_call; auto; try (eapply count_shape; eassumption). rewrite Q2, Q3. unfold fine. f_equal. unfold at_point. cbn [content point mark last_match last_start last_end].
  f_equal. unfold clamp. lia.
Qed.
Theorem backward_adds_up E a c s m n b : inside b -> count_arg E a m -> count_arg E c n -> count_arg E s (m + n) -> 0 <= m -> 0 <= n ->
  alike (eval E (default_env E) [does "backward-char" a; does "backward-char" c] b) (eval E (default_env E) [does "backward-char" s] b).
Proof.
  intros [M V] A C S Hm Hn. assert (F : fits (content b)) by apply M. unfold fits in F. change max_alloc with 281474976710656 in F.
  pose proof (count_arg_ok _ _ _ S) as L. unfold valid_pos in V. assert (J : exists s, In ("backward-char"%string, s) signatures) by sig.
  assert (Q1 := s_backward_char E b a m (point b - m) M A (carry_small (point b - m) ltac:(ints; lia))).
  assert (Q2 := s_backward_char E b s (m + n) (point b - (m + n)) M S (carry_small (point b - (m + n)) ltac:(ints; lia))).
  set (p := Z.max 1 (point b - m)) in *.
  assert (Q3 := s_backward_char E (at_point b p) c n (p - n) (machine_at b p M ltac:(ints; lia)) C (carry_small (p - n) ltac:(ints; lia))).
  eapply alike_trans; [apply (two_calls E _ a _ c b _ _ J J (count_shape _ _ _ A) (count_shape _ _ _ C) Q1)|].
  apply same_call; auto; try (eapply count_shape; eassumption). rewrite Q2, Q3. unfold fine. f_equal. unfold at_point. cbn [content point mark last_match last_start last_end].
  f_equal. lia.
Qed.
(** going back is going forward by less than nothing *)
Theorem backward_is_forward E a c n b : inside b -> count_arg E a n -> count_arg E c (- n) -> 0 <= n ->
  alike (eval E (default_env E) [does "backward-char" a] b) (eval E (default_env E) [does "forward-char" c] b).
Proof.
  intros [M V] A C Hn. assert (F : fits (content b)) by apply M. unfold fits in F. change max_alloc with 281474976710656 in F.
  pose proof (count_arg_ok _ _ _ A) as L. unfold valid_pos in V.
  assert (Q1 := s_backward_char E b a n (point b - n) M A (carry_small (point b - n) ltac:(ints; lia))).
  assert (Q2 := s_forward_char E b c (- n) (point b + - n) M C (carry_small (point b + - n) ltac:(ints; lia))).
  apply same_call; [sig|sig|eapply count_shape; eassumption|eapply count_shape; eassumption|]. rewrite Q1, Q2. unfold fine, clamp. do 2 f_equal. lia.
Qed.

(** *** Mark *)
Theorem exchange_exchange E b :
  alike (eval E (default_env E) [does "exchange-point-and-mark" []; does "exchange-point-and-mark" []] b) (eval E (default_env E) [] b).
Proof. destruct b. constructor. Qed.
Theorem marking_marking E b : alike (eval E (default_env E) [does "set-mark" []; does "set-mark" []] b) (eval E (default_env E) [does "set-mark" []] b).
Proof. constructor. Qed.
Theorem marking_either_way E b : alike (eval E (default_env E) [does "set-mark-command" []] b) (eval E (default_env E) [does "set-mark" []] b).
Proof. constructor. Qed.
(** moving and marking before selecting everything makes no difference *)
Theorem select_all_forgets E e b : ext_ok E -> machine b -> moves E e \/ e = does "set-mark" [] \/ e = does "exchange-point-and-mark" [] ->
  alike (eval E (default_env E) [e; does "mark-whole-buffer" []] b) (eval E (default_env E) [does "mark-whole-buffer" []] b).
Proof.
  intros X M [H|[->| ->]]; try constructor. destruct (move_moves E e b X M H) as (n & args & p & -> & I & S & Q).
  assert (J : exists s, In ("mark-whole-buffer"%string, s) signatures) by sig.
  eapply alike_trans; [apply (two_calls E n args "mark-whole-buffer"%string [] b _ _ I J S (or_introl eq_refl) Q)|]. constructor.
Qed.

(** *** Editing *)

(** texts written one after the other are one text *)
Theorem insert_insert E s t b : inside b ->
  alike (eval E (default_env E) [does "insert" [VStr s]; does "insert" [VStr t]] b) (eval E (default_env E) [does "insert" [VStr (s ++ t)]] b).
Proof.
  intros [M V]. destruct (inside_between b V) as (u & v & B). assert (J : exists s, In ("insert"%string, s) signatures) by sig.
  pose proof (insert_call E b s u v M B) as Q1. pose proof (insert_call E b (s ++ t) u v M B) as Q2. destruct B as [C P].
  destruct (max_alloc <? zlen (u ++ s ++ v)) eqn:K.
  - pose proof (eval_app E [does "insert" [VStr s]] [does "insert" [VStr t]] b) as A. pose proof (one_call E "insert"%string [VStr s] b J ltac:(shape)) as O.
    rewrite Q1 in O. rewrite O in A. eapply alike_trans; [exact A|].
    replace (max_alloc <? zlen (u ++ (s ++ t) ++ v)) with true in Q2 by (symmetry; apply Z.ltb_lt; apply Z.ltb_lt in K; revert K; rewrite !zlen_app; pose proof (zlen_nonneg t); lia).
    pose proof (one_call E "insert"%string [VStr (s ++ t)] b J ltac:(shape)) as O2. rewrite Q2 in O2. rewrite O2. constructor.
  - eapply alike_trans; [apply (two_calls E _ [VStr s] _ [VStr t] b _ _ J J ltac:(shape) ltac:(shape) Q1)|].
    apply Z.ltb_ge in K. assert (F : fits (u ++ s ++ v)) by exact K.
    assert (M1 : machine (with_text b (u ++ s ++ v) (point b + zlen s))).
    { apply machine_text; auto. revert F. unfold fits. change max_alloc with 281474976710656. rewrite !zlen_app. pose proof (zlen_nonneg u). pose proof (zlen_nonneg s). pose proof (zlen_nonneg v). ints. lia. }
    pose proof (insert_call E _ t (u ++ s) v M1) as Q3. apply same_call; auto; try shape. rewrite Q2, Q3.
    + rewrite <- !app_assoc. unfold with_text. cbn [content point mark last_match last_start last_end]. rewrite (zlen_app s t), Z.add_assoc. reflexivity.
    + split; [cbn [with_text content]; now rewrite app_assoc|]. cbn [with_text point]. rewrite zlen_app. lia.
Qed.
Theorem insert_nothing E b : inside b -> alike (eval E (default_env E) [does "insert" [VStr []]] b) (eval E (default_env E) [] b).
Proof.
  intros [M V]. destruct (inside_between b V) as (u & v & B). pose proof (insert_call E b [] u v M B) as Q. destruct B as [C P]. cbn [app] in Q.
  assert (F : fits (content b)) by apply M. rewrite C in F. unfold fits in F. replace (max_alloc <? zlen (u ++ v)) with false in Q by lia.
  pose proof (one_call E "insert"%string [VStr []] b ltac:(sig) ltac:(shape)) as O. rewrite Q in O. destruct O as (w & ->).
  destruct b as [c p mk lm ls le]. unfold with_text. cbn [content point mark last_match last_start last_end] in *. rewrite <- C. change (zlen []) with 0. rewrite Z.add_0_r. constructor.
Qed.
(** replacing the region is deleting it and writing there *)
Theorem replacing_is_deleting_inserting E r b : selecting b ->
  alike (eval E (default_env E) [does "replace-region" [VStr r]] b) (eval E (default_env E) [does "delete-region" []; does "insert" [VStr r]] b).
Proof.
  intros ([M V] & V' & N). destruct (selected_ex b) as (u & t & v & S).
  assert (T : t <> []).
  { intros ->. destruct S as (a & z & A & Z1 & (u' & v' & C & L1 & L2) & _). change (zlen []) with 0 in L2. unfold valid_pos in *.
    pose proof (zlen_nonneg (content b)). destruct A as [[A _]|[_ ->]]; [ints; lia|]. destruct Z1 as [[A _]|[_ ->]]; [ints; lia|]. unfold clamp in *. lia. }
  pose proof (s_delete_region E b u t v M S T) as Q1. pose proof (region_machine _ _ _ _ M S) as C.
  assert (Q2 : call E "replace-region" [VStr r] b = if max_alloc <? zlen (u ++ r ++ v) then OutOfMemory else fine (with_text b (u ++ r ++ v) (zlen (u ++ r) + 1))).
  { apply (s_replace_region E b r u t v _ M S T). unfold becomes, fits. destruct (max_alloc <? zlen (u ++ r ++ v)) eqn:K; [right|left]; split; auto; lia. }
  assert (F : fits (content b)) by apply M. rewrite C in F. unfold fits in F. rewrite !zlen_app in F. pose proof (zlen_nonneg u). pose proof (zlen_nonneg t). pose proof (zlen_nonneg v).
  assert (M1 : machine (with_text b (u ++ v) (zlen u + 1))).
  { apply machine_text; auto; [unfold fits; rewrite zlen_app; lia|]. revert F. change max_alloc with 281474976710656. intros F. ints. lia. }
  apply alike_sym. eapply alike_trans; [apply (two_calls E "delete-region"%string [] "insert"%string [VStr r] b _ _ ltac:(sig) ltac:(sig) ltac:(shape) ltac:(shape) Q1)|].
  pose proof (insert_call E _ r u v M1) as Q3. apply same_call; [sig|sig|shape|shape|]. rewrite Q2, Q3; [|split; reflexivity].
  unfold with_text. cbn [content point mark last_match last_start last_end]. rewrite (zlen_app u r). replace (zlen u + 1 + zlen r) with (zlen u + zlen r + 1) by lia. reflexivity.
Qed.
(** deletions add up *)
Theorem delete_adds_up E a c s m n b : inside b -> count_arg E a m -> count_arg E c n -> count_arg E s (m + n) -> 0 <= m -> 0 <= n -> m + n <= 2 ^ 62 ->
  alike (eval E (default_env E) [does "delete-char" a; does "delete-char" c] b) (eval E (default_env E) [does "delete-char" s] b).
Proof.
  intros [M V] A C S Hm Hn L. destruct (inside_between b V) as (u & v & B). assert (J : exists s, In ("delete-char"%string, s) signatures) by sig.
  pose proof (zlen_nonneg v) as Lv. destruct (split_at v (Z.min m (zlen v)) ltac:(lia)) as (g1 & v1 & -> & L1). pose proof (zlen_nonneg v1) as Lv1.
  destruct (split_at v1 (Z.min n (zlen v1)) ltac:(lia)) as (g2 & v2 & -> & L2). pose proof (zlen_nonneg u) as Lu. pose proof (zlen_nonneg g1) as Lg. pose proof (zlen_nonneg g2) as Lg2. pose proof (zlen_nonneg v2) as Lv2.
  pose proof (delete_call E b a m u g1 (g2 ++ v2) M A B Hm ltac:(lia) ltac:(lia)) as Q1.
  assert (F : fits (content b)) by apply M. rewrite (proj1 B) in F. unfold fits in F. repeat rewrite zlen_app in F. repeat rewrite zlen_app in L1. repeat rewrite zlen_app in L2.
  assert (M1 : machine (with_text b (u ++ g2 ++ v2) (point b))).
  { apply machine_text; auto; [unfold fits; rewrite !zlen_app; lia|apply M]. }
  assert (Q2 := delete_call E _ c n u g2 v2 M1 C (conj eq_refl (proj2 B)) Hn ltac:(lia) ltac:(rewrite zlen_app; lia)).
  assert (Q3 := delete_call E b s (m + n) u (g1 ++ g2) v2 M S ltac:(now rewrite <- app_assoc) ltac:(lia) L ltac:(rewrite !zlen_app; lia)).
  eapply alike_trans; [apply (two_calls E _ a _ c b _ _ J J (count_shape _ _ _ A) (count_shape _ _ _ C) Q1)|].
  apply same_call; auto; try (eapply count_shape; eassumption). rewrite Q2, Q3. reflexivity.
Qed.

(** *** What may not be written differently *)

(** there and back is not staying, even inside the text *)
Theorem there_and_back_refuted E : exists b, inside b /\
  ~ alike (eval E (default_env E) [does "forward-char" []; does "backward-char" []] b) (eval E (default_env E) [] b).
Proof.
  exists (mkBuffer (bs "ab") 3 1 [] 0 0). split.
  - unfold inside, machine, fits, valid_pos, int_ok. vm_compute. repeat split; discriminate.
  - intros H. vm_compute in H. inversion H.
Qed.
(** without a region nothing is replaced, but writing still writes *)
Theorem replacing_nothing_refuted E : exists b r, inside b /\
  ~ alike (eval E (default_env E) [does "replace-region" [VStr r]] b) (eval E (default_env E) [does "delete-region" []; does "insert" [VStr r]] b).
Proof.
  exists (new_buffer (bs "ab")), (bs "x"). split.
  - unfold inside, machine, fits, valid_pos, int_ok. vm_compute. repeat split; discriminate.
  - intros H. vm_compute in H. inversion H.
Qed.
(** scripts can leave the text, and outside it two texts written one after the other are
    not one text *)
Theorem insert_insert_refuted : exists l s t,
  ~ alike (eval ref_ext (default_env ref_ext) (l ++ [does "insert" [VStr s]; does "insert" [VStr t]]) (new_buffer []))
          (eval ref_ext (default_env ref_ext) (l ++ [does "insert" [VStr (s ++ t)]]) (new_buffer [])).
Proof.
  exists [does "set-mark-command" [VInt (-2)]; does "exchange-point-and-mark" []], (bs "abcde"), (bs "X").
  intros H. vm_compute in H. inversion H.
Qed.

(** ** Witnesses *)
Definition long_text : str := bs "point; goto-char 5; goto-char 1; insert ""a""; insert ""b""".
Definition short_text : str := bs "goto-char 1; insert ""ab""".
Definition long_program : list value :=
  [does "point" []; does "goto-char" [VInt 5]; does "goto-char" [VInt 1]; does "insert" [VStr (bs "a")]; does "insert" [VStr (bs "b")]].
Definition short_program : list value := [does "goto-char" [VInt 1]; does "insert" [VStr (bs "ab")]].
(** five instructions and two, the same on every text *)
Example rewriting input out : fits input -> execute_script ref_ext input long_text = Ok out <-> execute_script ref_ext input short_text = Ok out.
Proof.
  intros F. apply (same_output ref_ext long_text short_text long_program short_program); try (apply script_grammar; vm_compute; reflexivity).
  pose proof (machine_begins input F) as M. set (b := new_buffer input) in *.
  eapply alike_trans; [|eapply alike_trans].
  - apply (replace_anywhere ref_ext machine [] [does "point" []] [] (tl long_program) b).
    + intros b' M'. apply (looking_is_idle ref_ext "point"%string b' ref_ext_ok M'). now left.
    + intros v b' Q. cbn in Q. injection Q as <- <-. exact M.
  - apply (replace_anywhere ref_ext machine [] [does "goto-char" [VInt 5]; does "goto-char" [VInt 1]] [does "goto-char" [VInt 1]] (tl (tl (tl long_program))) b).
    + intros b' M'. apply (moving_before_placing ref_ext _ _ b' ref_ext_ok M'); constructor.
    + intros v b' Q. cbn in Q. injection Q as <- <-. exact M.
  - apply (replace_anywhere ref_ext inside [does "goto-char" [VInt 1]] (tl (tl (tl long_program))) [does "insert" [VStr (bs "ab")]] [] b).
    + intros b' M'. apply (insert_insert ref_ext (bs "a") (bs "b") b' M').
    + intros v b' Q. pose proof (one_call ref_ext "goto-char"%string [VInt 1] b ltac:(sig) ltac:(shape)) as O.
      assert (K : call ref_ext "goto-char" [VInt 1] b = fine (at_point b 1)).
      { unfold VInt. erewrite s_goto_char; [|exact M|apply int_arg_exists].
        match goal with |- context [f_to_int ?e ?f] => let z := eval vm_compute in (f_to_int e f) in replace (f_to_int e f) with z by (vm_compute; reflexivity) end.
        unfold clamp. pose proof (zlen_nonneg (content b)). do 2 f_equal. lia. }
      rewrite K in O. destruct O as (w & O). rewrite O in Q. injection Q as _ <-.
      split; [apply machine_at; auto; ints; lia|]. pose proof (zlen_nonneg input). split; cbn [at_point point content]; [lia|]. change (content b) with input. lia.
Qed.
(** the states the theorems speak of: point inside, a region, and both at once with numbers *)
Example inside_witness : inside (mkBuffer (bs "abcd") 2 4 [] 0 0) /\ selecting (mkBuffer (bs "abcd") 2 4 [] 0 0) /\
  count_arg ref_ext [VInt 2] 2 /\ count_arg ref_ext [] 1 /\ count_arg ref_ext [VInt 3] (2 + 1) /\
  alike (eval ref_ext (default_env ref_ext) [does "replace-region" [VStr (bs "XY")]] (mkBuffer (bs "abcd") 2 4 [] 0 0)) (EvDone (VStr []) (mkBuffer (bs "aXYd") 4 4 [] 0 0)).
Proof.
  assert (I : inside (mkBuffer (bs "abcd") 2 4 [] 0 0)) by (unfold inside, machine, fits, valid_pos, int_ok; vm_compute; repeat split; discriminate).
  split; [exact I|]. split; [split; [exact I|split; [unfold valid_pos; vm_compute; split; discriminate|discriminate]]|].
  split; [right; eexists; split; [reflexivity|]; exact (int_arg_exists ref_ext _)|].
  split; [left; auto|]. split; [right; eexists; split; [reflexivity|]; exact (int_arg_exists ref_ext _)|]. vm_compute. constructor.
Qed.

(** ** Assumptions of every theorem above *)
Print Assumptions replace_anywhere.
Print Assumptions same_output.
Print Assumptions moving_before_placing.
Print Assumptions looking_is_idle.
Print Assumptions forward_adds_up.
Print Assumptions backward_adds_up.
Print Assumptions backward_is_forward.
Print Assumptions exchange_exchange.
Print Assumptions marking_marking.
Print Assumptions marking_either_way.
Print Assumptions select_all_forgets.
Print Assumptions insert_insert.
Print Assumptions insert_nothing.
Print Assumptions replacing_is_deleting_inserting.
Print Assumptions delete_adds_up.
Print Assumptions there_and_back_refuted.
Print Assumptions replacing_nothing_refuted.
Print Assumptions insert_insert_refuted.
