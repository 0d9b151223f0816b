(** C21-C23, C49: string functions and reported numbers. *)
From Coq Require Import ZArith NArith List Bool Lia Strings.Byte ZifyBool ZifyN.
From Verif Require Import Base Float Ext Utf8 Strconv Values Buffer Builtins Eval Spec
  Proofs_Base Proofs_Loops Proofs_Exec Proofs_Utf8 Proofs_Float Prop_Edit.
Import ListNotations.
Open Scope Z_scope.

(** ** C21 *)

(** the piece between two positions exists and is unique *)
Theorem piece_exists s a z : exists t, piece s a z t.
Proof.
  destruct (split_at2 s (clamp 1 (zlen s + 1) a - 1) (Z.max (clamp 1 (zlen s + 1) a) (clamp 1 (zlen s + 1) z) - 1))
    as (u & t & v & E & Hu & Ht); unfold clamp in *; try (zl; fail).
  exists t, u, v. unfold clamp. split; auto. lia.
Qed.
Theorem piece_unique s a z t t' : piece s a z t -> piece s a z t' -> t = t'.
Proof.
  intros (u & v & E & H1 & H2) (u' & v' & E' & H1' & H2'). rewrite E in E'.
  apply app_inv_len in E' as [-> E']; [|lia]. apply app_inv_len in E' as [-> _]; auto. lia.
Qed.

Lemma slice_piece s a z t i j : piece s a z t -> i = clamp 1 (zlen s + 1) a - 1 ->
  j = Z.max (clamp 1 (zlen s + 1) a) (clamp 1 (zlen s + 1) z) - 1 -> slice s i j = Some t.
Proof.
  intros (u & v & E & H1 & H2) -> ->. apply slice_some. exists u, v. split; auto. lia.
Qed.
Lemma piece_empty s a z t : piece s a z t -> clamp 1 (zlen s + 1) z <= clamp 1 (zlen s + 1) a -> t = [].
Proof. intros (u & v & E & H1 & H2) H. apply zlen_zero. lia. Qed.

Lemma substring_of_piece s a z t b :
  fits s -> int_ok a -> min_int < a -> (forall z', z = Some z' -> int_ok z' /\ min_int < z') ->
  piece s a (match z with Some z' => z' | None => zlen s + 1 end) t ->
  substring_of s a z b = Done (VStr t) b.
Proof.
  intros Hf Ha Ha' Hz Hp. unfold substring_of. rewrite (wrap_id (a - 1)) by (ints; lia).
  set (e := match z with None => zlen s | Some e => wrap (e - 1) end).
  assert (He : e = match z with Some z' => z' | None => zlen s + 1 end - 1).
  { unfold e. destruct z as [z'|]; [|lia]. destruct (Hz z' eq_refl). rewrite wrap_id by (ints; lia). lia. }
  set (z1 := match z with Some z' => z' | None => zlen s + 1 end) in *. clearbody e z1. subst e.
  pose proof (zlen_nonneg s).
  match goal with |- (if ?x then _ else _) _ = _ => destruct x eqn:E1 end.
  - apply piece_empty in Hp; [now subst|]. unfold clamp.
    destruct (a - 1 <? 0) eqn:?, (zlen s <? z1 - 1) eqn:?; lia.
  - unfold bind, slice_m. rewrite (slice_piece s a z1 t); auto.
    + unfold clamp. destruct (a - 1 <? 0) eqn:?; [lia|].
      destruct (zlen s <? z1 - 1) eqn:?; lia.
    + unfold clamp. destruct (a - 1 <? 0) eqn:?, (zlen s <? z1 - 1) eqn:?; lia.
Qed.

Theorem substring_takes E b s f a g z t :
  fits s -> int_arg E f a -> int_arg E g z -> min_int < a -> min_int < z -> piece s a z t ->
  call E "substring" [VStr s; VNum f; VNum g] b = Done (VStr t) b.
Proof.
  intros Hf Hfa Hgz Ha Hz Hp. call. unfold b_substring.
  rewrite (int_arg_to_int E f a), (int_arg_to_int E g z) by auto.
  apply substring_of_piece; auto; [now apply int_arg_ok in Hfa|]. intros z' X. injection X as <-. split; [now apply int_arg_ok in Hgz|auto].
Qed.
Theorem substring_to_end E b s f a t :
  fits s -> int_arg E f a -> min_int < a -> piece s a (zlen s + 1) t ->
  call E "substring" [VStr s; VNum f] b = Done (VStr t) b.
Proof.
  intros Hf Hfa Ha Hp. call. unfold b_substring. rewrite (int_arg_to_int E f a) by auto.
  apply substring_of_piece; auto; [now apply int_arg_ok in Hfa|]. discriminate.
Qed.
Theorem buffer_substring_takes E b f a g z t :
  fits (content b) -> int_arg E f a -> int_arg E g z -> min_int < a -> min_int < z ->
  piece (content b) a (if z =? -1 then zlen (content b) + 1 else z) t ->
  call E "buffer-substring" [VNum f; VNum g] b = Done (VStr t) b.
Proof.
  intros Hf Hfa Hgz Ha Hz Hp. call. unfold b_buffer_substring.
  rewrite (int_arg_to_int E f a), (int_arg_to_int E g z) by auto.
  unfold bind, get_content. set (z1 := if z =? -1 then zlen (content b) + 1 else z) in *.
  assert (min_int < z1 /\ int_ok z1) as [].
  { apply int_arg_ok in Hgz. unfold z1. pose proof (zlen_nonneg (content b)).
    destruct (z =? -1); ints; lia. }
  clearbody z1. apply int_arg_ok in Hfa. rewrite !wrap_id by (ints; lia). pose proof (zlen_nonneg (content b)).
  match goal with |- (if ?x then _ else _) _ = _ => destruct x eqn:E1 end.
  - apply piece_empty in Hp; [now subst|]. unfold clamp.
    destruct (a - 1 <? 0) eqn:?, (zlen (content b) <? z1 - 1) eqn:?; lia.
  - unfold slice_m. rewrite (slice_piece (content b) a z1 t); auto.
    + unfold clamp. destruct (a - 1 <? 0) eqn:?; [lia|].
      destruct (zlen (content b) <? z1 - 1) eqn:?; lia.
    + unfold clamp. destruct (a - 1 <? 0) eqn:?, (zlen (content b) <? z1 - 1) eqn:?; lia.
Qed.

(** Whatever the numbers are (also NaN, infinities, out of range), the result is a string. *)
Theorem substring_never_crashes E b s f g :
  (exists t, call E "substring" [VStr s; VNum f; VNum g] b = Done (VStr t) b) /\
  (exists t, call E "substring" [VStr s; VNum f] b = Done (VStr t) b).
Proof.
  assert (H : forall a z, exists t, substring_of s a z b = Done (VStr t) b).
  { intros a z. unfold substring_of. set (e := match z with None => _ | Some _ => _ end). clearbody e.
    match goal with |- exists _, (if ?x then _ else _) _ = _ => destruct x eqn:E1 end; [eexists; reflexivity|].
    unfold bind, slice_m. pose proof (zlen_nonneg s).
    edestruct (slice_ok s (if wrap (a - 1) <? 0 then 0 else wrap (a - 1)) (if zlen s <? e then zlen s else e)) as [t ->].
    - destruct (wrap (a - 1) <? 0) eqn:?; lia.
    - destruct (zlen s <? e) eqn:?; lia.
    - eexists; reflexivity. }
  split; call; apply H.
Qed.
Theorem buffer_substring_never_crashes E b f g :
  exists t, call E "buffer-substring" [VNum f; VNum g] b = Done (VStr t) b.
Proof.
  call. unfold b_buffer_substring, bind, get_content. pose proof (zlen_nonneg (content b)).
  match goal with |- exists _, (if ?x then _ else _) _ = _ => destruct x eqn:E1 end; [eexists; reflexivity|].
  unfold slice_m. match goal with |- context [slice ?s ?i ?j] =>
    destruct (slice_ok s i j) as [t ->]; [| |eexists; reflexivity] end.
  - split; [|lia]. match goal with |- context [if ?x then 0 else _] => destruct x eqn:? end; lia.
  - match goal with |- (if ?x then zlen _ else _) <= _ => destruct x eqn:? end; lia.
Qed.
(** The smallest 64-bit integer wraps around: as a start it selects nothing, as an end it
    selects through the end of the string. *)
Theorem substring_min_int_wraps E b f g :
  int_arg E f min_int -> int_arg E g 1 ->
  call E "substring" [VStr (bs "abc"); VNum f; VNum f] b = Done (VStr []) b /\
  call E "substring" [VStr (bs "abc"); VNum g; VNum f] b = Done (VStr (bs "abc")) b.
Proof.
  intros Hf Hg. call. unfold b_substring.
  rewrite (int_arg_to_int E f min_int), (int_arg_to_int E g 1) by auto. split; reflexivity.
Qed.

(** Adjacent pieces fit together. *)
Theorem pieces_concatenate s a m z t1 t2 :
  a <= m <= z -> piece s a m t1 -> piece s m z t2 -> piece s a z (t1 ++ t2).
Proof.
  intros H (u & v & E & H1 & H2) (u' & v' & E' & H1' & H2'). exists u, v'.
  rewrite E in E'. rewrite app_assoc in E'. unfold clamp in *. apply app_inv_len in E' as [E1 E2]; [|zl].
  subst u' v. rewrite E at 1. rewrite <- app_assoc. split; auto. zl.
Qed.
Theorem piece_whole s : piece s 1 (zlen s + 1) s.
Proof. exists [], []. rewrite app_nil_r. unfold clamp. pose proof (zlen_nonneg s). cbn [app]. split; auto. zl. Qed.
(** at command level: the two parts at any position, concatenated, are the whole buffer *)
Theorem buffer_substring_splits E b f g h m :
  fits (content b) -> int_arg E f 1 -> int_arg E g m -> int_arg E h (-1) -> 1 <= m <= zlen (content b) + 1 ->
  exists t1 t2, call E "buffer-substring" [VNum f; VNum g] b = Done (VStr t1) b /\
    call E "buffer-substring" [VNum g; VNum h] b = Done (VStr t2) b /\ t1 ++ t2 = content b.
Proof.
  intros Hf H1 Hm Hh R. destruct (piece_exists (content b) 1 m) as [t1 P1].
  destruct (piece_exists (content b) m (zlen (content b) + 1)) as [t2 P2]. exists t1, t2. split; [|split].
  - apply (buffer_substring_takes E b f 1 g m); auto; try (ints; lia).
    now replace (m =? -1) with false by lia.
  - apply (buffer_substring_takes E b g m h (-1)); auto; try (ints; lia).
  - apply (piece_unique (content b) 1 (zlen (content b) + 1)); [|apply piece_whole].
    apply (pieces_concatenate _ 1 m); auto.
Qed.

Lemma int_arg_lit E z : - 2 ^ 53 < z < 2 ^ 53 -> int_arg E (f_of_Z z) z.
Proof. apply f_of_Z_int_arg. Qed.
Example substring_ex E b :
  call E "substring" [VStr (bs "hello world"); VInt 7; VInt 100] b = Done (VStr (bs "world")) b.
Proof.
  apply (substring_takes E b (bs "hello world") (f_of_Z 7) 7 (f_of_Z 100) 100 (bs "world")); try reflexivity;
    try (apply int_arg_lit; lia); try (vm_compute; discriminate).
  exists (bs "hello "), []. split; [reflexivity|]. split; reflexivity.
Qed.
Example buffer_substring_ex E :
  exists t1 t2, call E "buffer-substring" [VInt 1; VInt 3] (new_buffer (bs "abcd")) = Done (VStr t1) (new_buffer (bs "abcd")) /\
    call E "buffer-substring" [VInt 3; VInt (-1)] (new_buffer (bs "abcd")) = Done (VStr t2) (new_buffer (bs "abcd")) /\
    t1 ++ t2 = bs "abcd".
Proof.
  apply (buffer_substring_splits E (new_buffer (bs "abcd")) (f_of_Z 1) (f_of_Z 3) (f_of_Z (-1)) 3);
    try (apply int_arg_lit; lia); vm_compute; intuition discriminate.
Qed.

(** ** C22 *)

Lemma concat_loop_spec b : forall ss i acc, fits (acc ++ concat ss) ->
  concat_loop (map VStr ss) i acc b = Done (VStr (acc ++ concat ss)) b.
Proof.
  induction ss as [|s ss IH]; intros i acc Hf; cbn [concat map concat_loop] in *.
  - now rewrite app_nil_r.
  - rewrite app_assoc in *. unfold bind, alloc. replace (max_alloc <? zlen (acc ++ s)) with false by (symmetry; ints; zl).
    now apply IH.
Qed.
Lemma concat_loop_oom b : forall ss i acc, fits acc -> ~ fits (acc ++ concat ss) ->
  concat_loop (map VStr ss) i acc b = OutOfMemory.
Proof.
  induction ss as [|s ss IH]; intros i acc Hf Hf'; cbn [concat map concat_loop] in *.
  - now rewrite app_nil_r in Hf'.
  - rewrite app_assoc in *. unfold bind, alloc. destruct (max_alloc <? zlen (acc ++ s)) eqn:L; auto.
    apply IH; auto. unfold fits. lia.
Qed.
Theorem concat_joins E b ss : fits (concat ss) ->
  call E "concat" (map VStr ss) b = Done (VStr (concat ss)) b.
Proof. intros H. call. now apply (concat_loop_spec b ss 0 []). Qed.
Theorem concat_too_long E b ss : ~ fits (concat ss) -> call E "concat" (map VStr ss) b = OutOfMemory.
Proof. intros H. call. apply (concat_loop_oom b ss 0 []); auto. vm_compute. discriminate. Qed.

Theorem length_counts E b s : fits s ->
  exists f, call E "length" [VStr s] b = Done (VNum f) b /\ exactly f (zlen s).
Proof.
  intros H. exists (f_of_Z (zlen s)). split; [now call|]. apply f_of_Z_exact. ints. pose proof (zlen_nonneg s). lia.
Qed.
(** the length of a concatenation is the sum of the lengths *)
Theorem length_of_concat E b ss : fits (concat ss) ->
  exists t f, call E "concat" (map VStr ss) b = Done (VStr t) b /\
    call E "length" [VStr t] b = Done (VNum f) b /\
    exactly f (fold_right Z.add 0 (map zlen ss)).
Proof.
  intros H. exists (concat ss). destruct (length_counts E b (concat ss) H) as (f & Hf & He). exists f.
  split; [now apply concat_joins|]. split; auto.
  replace (fold_right Z.add 0 (map zlen ss)) with (zlen (concat ss)); auto.
  clear. induction ss as [|s ss IH]; cbn; [reflexivity|]. rewrite zlen_app. lia.
Qed.
Theorem buffer_size_and_point_max E b : fits (content b) ->
  exists n m, call E "buffer-size" [] b = Done (VNum n) b /\ exactly n (zlen (content b)) /\
    call E "point-max" [] b = Done (VNum m) b /\ exactly m (zlen (content b) + 1).
Proof.
  intros H. exists (f_of_Z (zlen (content b))), (f_of_Z (zlen (content b) + 1)). pose proof (zlen_nonneg (content b)).
  split; [now call|]. split; [apply f_of_Z_exact; ints; lia|]. split; [now call|].
  apply f_of_Z_exact; ints; lia.
Qed.
(** buffer-size is the length of the substring from point-min to point-max *)
Theorem buffer_size_is_length_of_text E b : fits (content b) ->
  exists lo hi t n, call E "point-min" [] b = Done lo b /\ call E "point-max" [] b = Done hi b /\
    call E "buffer-substring" [lo; hi] b = Done (VStr t) b /\ t = content b /\
    call E "length" [VStr t] b = Done n b /\ call E "buffer-size" [] b = Done n b.
Proof.
  intros H. exists (VInt 1), (VInt (zlen (content b) + 1)), (content b), (VInt (zlen (content b))).
  pose proof (zlen_nonneg (content b)).
  split; [now call|]. split; [now call|]. split; [|split; [reflexivity|split; now call]].
  apply (buffer_substring_takes E b _ 1 _ (zlen (content b) + 1)); auto; try (apply f_of_Z_int_arg; ints; lia);
    try (ints; lia).
  replace (zlen (content b) + 1 =? -1) with false by lia. apply piece_whole.
Qed.
Example concat_ex E b :
  call E "concat" (map VStr [bs "ab"; []; bs "c"]) b = Done (VStr (bs "abc")) b.
Proof. apply (concat_joins E b [bs "ab"; []; bs "c"]). vm_compute. discriminate. Qed.

(** ** C23 *)

Lemma rune_upper_ascii E c : (byteN c < 128)%N ->
  exists d, rune_upper E (byteN c) = byteN d /\ (byteN d < 128)%N /\ upper_of c d.
Proof.
  intros H. unfold rune_upper. replace (byteN c <=? 127)%N with true by lia. exists (byte_of_N (if (97 <=? byteN c)%N && (byteN c <=? 122)%N then byteN c - 32 else byteN c)%N).
  revert H. destruct c; intros H; try (vm_compute in H; discriminate H);
    (split; [reflexivity|split; [reflexivity|]]);
    first [ left; vm_compute; tauto | right; split; [reflexivity | vm_compute; intuition discriminate] ].
Qed.
Lemma rune_lower_ascii E c : (byteN c < 128)%N ->
  exists d, rune_lower E (byteN c) = byteN d /\ (byteN d < 128)%N /\ lower_of c d.
Proof.
  intros H. unfold rune_lower. replace (byteN c <=? 127)%N with true by lia. exists (byte_of_N (if (65 <=? byteN c)%N && (byteN c <=? 90)%N then byteN c + 32 else byteN c)%N).
  revert H. destruct c; intros H; try (vm_compute in H; discriminate H);
    (split; [reflexivity|split; [reflexivity|]]);
    first [ left; vm_compute; tauto | right; split; [reflexivity | vm_compute; intuition discriminate] ].
Qed.

Lemma to_upper_ascii E s : ascii s -> Forall2 upper_of s (to_upper E s) /\ ascii (to_upper E s).
Proof.
  unfold to_upper. intros H. induction H as [|c s Hc _ [IH1 IH2]]; [split; constructor|].
  rewrite runes_ascii by auto. cbn [flat_map r_rune good_rune].
  destruct (rune_upper_ascii E c Hc) as (d & -> & Hd & U). rewrite encode_byte by auto.
  cbn [app]. split; constructor; auto.
Qed.
Lemma to_lower_ascii E s : ascii s -> Forall2 lower_of s (to_lower E s) /\ ascii (to_lower E s).
Proof.
  unfold to_lower. intros H. induction H as [|c s Hc _ [IH1 IH2]]; [split; constructor|].
  rewrite runes_ascii by auto. cbn [flat_map r_rune good_rune].
  destruct (rune_lower_ascii E c Hc) as (d & -> & Hd & U). rewrite encode_byte by auto.
  cbn [app]. split; constructor; auto.
Qed.
Lemma Forall2_zlen {A B} (R : A -> B -> Prop) l m : Forall2 R l m -> zlen m = zlen l.
Proof. intros H. induction H; auto. now rewrite !zlen_cons, IHForall2. Qed.
Lemma alloc_ok s b : fits s -> alloc s b = Done s b.
Proof. intros H. unfold alloc. now replace (max_alloc <? zlen s) with false by (ints; lia). Qed.

Theorem upcase_ascii E b s : ascii s -> fits s ->
  exists t, call E "upcase" [VStr s] b = Done (VStr t) b /\ Forall2 upper_of s t /\ zlen t = zlen s /\ ascii t.
Proof.
  intros H Hf. destruct (to_upper_ascii E s H) as [U A]. exists (to_upper E s). pose proof (Forall2_zlen _ _ _ U) as L.
  split; [|auto]. call. unfold b_upcase, one_string, bind. rewrite alloc_ok; [reflexivity|]. unfold fits in *. lia.
Qed.
Theorem downcase_ascii E b s : ascii s -> fits s ->
  exists t, call E "downcase" [VStr s] b = Done (VStr t) b /\ Forall2 lower_of s t /\ zlen t = zlen s /\ ascii t.
Proof.
  intros H Hf. destruct (to_lower_ascii E s H) as [U A]. exists (to_lower E s). pose proof (Forall2_zlen _ _ _ U) as L.
  split; [|auto]. call. unfold b_downcase, one_string, bind. rewrite alloc_ok; [reflexivity|]. unfold fits in *. lia.
Qed.
(** the byte mappings are functions, and idempotent *)
Ltac in_pairs H := repeat (destruct H as [H|H]; [injection H as <- <-|]); [..|destruct H].
Lemma upper_of_upper c d : upper_of c d -> forall e, upper_of d e -> e = d.
Proof.
  intros H e H'. destruct H' as [H'|[-> _]]; auto. exfalso.
  destruct H as [H|[-> N]].
  - unfold case_pairs in H. cbn in H. in_pairs H; cbn in H'; repeat (destruct H' as [H'|H']; [discriminate H'|]); destruct H'.
  - apply N. apply in_map_iff. now exists (c, e).
Qed.
Lemma lower_of_lower c d : lower_of c d -> forall e, lower_of d e -> e = d.
Proof.
  intros H e H'. destruct H' as [H'|[-> _]]; auto. exfalso.
  destruct H as [H|[-> N]].
  - unfold case_pairs in H. cbn in H. in_pairs H; cbn in H'; repeat (destruct H' as [H'|H']; [discriminate H'|]); destruct H'.
  - apply N. apply in_map_iff. now exists (e, c).
Qed.
Lemma Forall2_twice {A} (R : A -> A -> Prop) l m n :
  (forall c d, R c d -> forall e, R d e -> e = d) -> Forall2 R l m -> Forall2 R m n -> n = m.
Proof.
  intros HR H. revert n. induction H as [|c d l m Hc _ IH]; intros n H'; inversion H'; subst; auto.
  f_equal; eauto.
Qed.
Theorem case_conversion_idempotent E b s t : ascii s -> fits s ->
  (call E "upcase" [VStr s] b = Done (VStr t) b -> call E "upcase" [VStr t] b = Done (VStr t) b) /\
  (call E "downcase" [VStr s] b = Done (VStr t) b -> call E "downcase" [VStr t] b = Done (VStr t) b).
Proof.
  intros H Hf. split; intros C.
  - destruct (upcase_ascii E b s H Hf) as (t' & C1 & U & L & A). rewrite C1 in C. injection C as ->.
    destruct (upcase_ascii E b t A) as (t2 & C2 & U2 & _); [unfold fits in *; lia|].
    rewrite C2. now rewrite (Forall2_twice _ _ _ _ upper_of_upper U U2).
  - destruct (downcase_ascii E b s H Hf) as (t' & C1 & U & L & A). rewrite C1 in C. injection C as ->.
    destruct (downcase_ascii E b t A) as (t2 & C2 & U2 & _); [unfold fits in *; lia|].
    rewrite C2. now rewrite (Forall2_twice _ _ _ _ lower_of_lower U U2).
Qed.
Theorem capitalize_ascii E b c s : ascii (c :: s) -> fits (c :: s) ->
  exists d t, call E "capitalize" [VStr (c :: s)] b = Done (VStr (d :: t)) b /\ upper_of c d /\ Forall2 lower_of s t.
Proof.
  intros H Hf. inversion H as [|? ? Hc Hs]; subst. destruct (to_lower_ascii E s Hs) as [U A].
  destruct (rune_upper_ascii E c Hc) as (d & Ed & Hd & Ud). exists d, (to_lower E s).
  split; [|auto]. call. unfold b_capitalize, one_string. rewrite encode_byte by auto.
  assert (X : to_upper E [c] = [d]).
  { unfold to_upper. rewrite runes_ascii by auto. cbn [flat_map r_rune good_rune runes runes_fuel length].
    rewrite Ed, encode_byte by auto. reflexivity. }
  rewrite X. unfold bind. rewrite alloc_ok; [reflexivity|]. pose proof (Forall2_zlen _ _ _ U) as L.
  unfold fits in *. cbn [app]. rewrite zlen_cons in *. lia.
Qed.

(** On well-formed UTF-8 text the conversion maps rune by rune: ASCII letters by the table,
    everything else by the Unicode tables. *)
Definition rune_case (asc : byte -> byte -> Prop) (tbl : N -> N) (r r' : rune) : Prop :=
  (r < 128 /\ exists c d, byteN c = r /\ byteN d = r' /\ asc c d)%N \/ (128 <= r /\ r' = tbl r)%N.
Theorem upcase_utf8 E b rs : Forall valid rs ->
  exists rs', Forall2 (rune_case upper_of (uc_upper E)) rs rs' /\
    (fits (utf8 rs') -> call E "upcase" [VStr (utf8 rs)] b = Done (VStr (utf8 rs')) b).
Proof.
  intros V. exists (map (rune_upper E) rs). split.
  - clear V. induction rs as [|r rs IH]; cbn; constructor; auto. destruct (N.lt_ge_cases r 128) as [L|L].
    + left. split; auto. destruct (rune_upper_ascii E (byte_of_N r)) as (d & E1 & E2 & E3); rewrite ?byteN_of_N by lia; auto.
      exists (byte_of_N r), d. rewrite byteN_of_N in * by lia. auto.
    + right. split; auto. unfold rune_upper. now replace (r <=? 127)%N with false by lia.
  - intros Hf. call. unfold b_upcase, one_string, bind.
    replace (to_upper E (utf8 rs)) with (utf8 (map (rune_upper E) rs)); [now rewrite alloc_ok|].
    unfold to_upper. rewrite <- (app_nil_r (utf8 rs)), runes_utf8, runes_nil, app_nil_r by auto.
    unfold utf8. clear. induction rs as [|r rs IH]; auto. cbn [map flat_map]. rewrite IH. reflexivity.
Qed.
Theorem downcase_utf8 E b rs : Forall valid rs ->
  exists rs', Forall2 (rune_case lower_of (uc_lower E)) rs rs' /\
    (fits (utf8 rs') -> call E "downcase" [VStr (utf8 rs)] b = Done (VStr (utf8 rs')) b).
Proof.
  intros V. exists (map (rune_lower E) rs). split.
  - clear V. induction rs as [|r rs IH]; cbn; constructor; auto. destruct (N.lt_ge_cases r 128) as [L|L].
    + left. split; auto. destruct (rune_lower_ascii E (byte_of_N r)) as (d & E1 & E2 & E3); rewrite ?byteN_of_N by lia; auto.
      exists (byte_of_N r), d. rewrite byteN_of_N in * by lia. auto.
    + right. split; auto. unfold rune_lower. now replace (r <=? 127)%N with false by lia.
  - intros Hf. call. unfold b_downcase, one_string, bind.
    replace (to_lower E (utf8 rs)) with (utf8 (map (rune_lower E) rs)); [now rewrite alloc_ok|].
    unfold to_lower. rewrite <- (app_nil_r (utf8 rs)), runes_utf8, runes_nil, app_nil_r by auto.
    unfold utf8. clear. induction rs as [|r rs IH]; auto. cbn [map flat_map]. rewrite IH. reflexivity.
Qed.

(** capitalize splits a leading non-ASCII character: for no Unicode tables does it map the
    one-character text U+00E9 to a one-character text. *)
Lemma utf8_runes rs : length (runes (utf8 rs)) = length rs.
Proof.
  unfold utf8. induction rs as [|r rs IH]; auto. cbn [flat_map].
  assert (X : exists r', valid r' /\ encode_rune r = encode_rune r').
  { unfold valid. destruct (valid_rune r) eqn:V; [now exists r|]. exists rune_error. split; [reflexivity|].
    unfold encode_rune. now rewrite V. }
  destruct X as (r' & V & ->). rewrite runes_encode by auto. cbn. now rewrite IH.
Qed.
Theorem capitalize_maps_runes_refuted E b :
  ~ (exists r, call E "capitalize" [VStr (utf8 [233%N])] b = Done (VStr (utf8 [r])) b).
Proof.
  intros [r H]. rewrite call_capitalize in H.
  change (utf8 [233%N]) with [xc3; xa9] in H.
  assert (X : forall x, (if max_alloc <? zlen (utf8 x) then @OutOfMemory value else Done (VStr (utf8 x)) b)
                = Done (VStr (utf8 [r])) b -> length x = 1%nat).
  { intros x Hx. destruct (max_alloc <? zlen (utf8 x)); [discriminate|].
    assert (Hx' : utf8 x = utf8 [r]) by congruence.
    pose proof (utf8_runes x) as L1. pose proof (utf8_runes [r]) as L2. rewrite Hx' in L1.
    rewrite <- L1, L2. reflexivity. }
  assert (Y : b_capitalize E [VStr [xc3; xa9]] b
    = (if max_alloc <? zlen (utf8 [uc_upper E 195%N; uc_lower E rune_error]) then OutOfMemory
       else Done (VStr (utf8 [uc_upper E 195%N; uc_lower E rune_error])) b)).
  { unfold b_capitalize, one_string, bind, alloc, ret.
    replace (to_upper E (encode_rune (byteN xc3)) ++ to_lower E [xa9])
      with (utf8 [uc_upper E 195%N; uc_lower E rune_error]).
    - destruct (max_alloc <? _); reflexivity.
    - unfold to_upper, to_lower, utf8. cbn [flat_map].
      change (runes (encode_rune (byteN xc3))) with [good_rune 195%N]. change (runes [xa9]) with [bad_byte xa9].
      cbn [flat_map r_rune good_rune bad_byte]. now rewrite !app_nil_r. }
  rewrite Y in H. apply X in H. discriminate.
Qed.
Example upcase_ex E b : exists t, call E "upcase" [VStr (bs "Hello, World 1")] b = Done (VStr t) b /\
  Forall2 upper_of (bs "Hello, World 1") t /\ zlen t = 14 /\ ascii t.
Proof.
  apply (upcase_ascii E b (bs "Hello, World 1")); [|vm_compute; discriminate].
  unfold ascii. apply Forall_forall. intros c Hc. vm_compute in Hc.
  repeat (destruct Hc as [<-|Hc]; [reflexivity|]). destruct Hc.
Qed.

(** ** C49 *)

(** every position of a buffer is reported without rounding, and can be fed back *)
Theorem reported_numbers_exact E z : - 2 ^ 53 < z < 2 ^ 53 ->
  exists f, VInt z = VNum f /\ exactly f z /\ int_arg E f z.
Proof. intros H. exists (f_of_Z z). split; [reflexivity|]. split; [now apply f_of_Z_exact|now apply f_of_Z_int_arg]. Qed.
Theorem point_reported E b : good b ->
  exists f, call E "point" [] b = Done (VNum f) b /\ exactly f (point b).
Proof. intros H. exists (f_of_Z (point b)). split; [now call|]. apply f_of_Z_exact. ints. lia. Qed.

Definition sym (s : String.string) : value := VSym (bs s).
Arguments sym s%string_scope.
(** (goto-char (point)) changes nothing *)
Theorem goto_char_point E b : good b ->
  eval_expr E (default_env E) (VList [sym "goto-char"; VList [sym "point"]]) b = Done (VStr []) b.
Proof.
  intros H. transitivity (call E "goto-char" [VNum (f_of_Z (point b))] b); [reflexivity|].
  rewrite (goto_char_clamps E b (f_of_Z (point b)) (point b)).
  - destruct b as [c p m lm ls le]. unfold at_point. cbn. do 2 f_equal. ints. lia.
  - apply f_of_Z_int_arg. ints. lia.
  - apply H.
Qed.
(** (goto-char (point-max)) is end-of-buffer, (goto-char (point-min)) is beginning-of-buffer *)
Theorem goto_char_ends E b : fits (content b) ->
  eval_expr E (default_env E) (VList [sym "goto-char"; VList [sym "point-max"]]) b = call E "end-of-buffer" [] b /\
  eval_expr E (default_env E) (VList [sym "goto-char"; VList [sym "point-min"]]) b = call E "beginning-of-buffer" [] b.
Proof.
  intros H. pose proof (zlen_nonneg (content b)). split.
  - transitivity (call E "goto-char" [VNum (f_of_Z (zlen (content b) + 1))] b); [reflexivity|].
    rewrite (goto_char_clamps E b _ (zlen (content b) + 1)); auto.
    + call. destruct b as [c p m lm ls le]. cbn [content] in *. exe. unfold clamp. do 2 f_equal. lia.
    + apply f_of_Z_int_arg. ints. lia.
  - transitivity (call E "goto-char" [VNum (f_of_Z 1)] b); [reflexivity|].
    rewrite (goto_char_clamps E b _ 1); auto.
    + call. destruct b as [c p m lm ls le]. cbn [content] in *. exe. unfold clamp. do 2 f_equal. lia.
    + apply f_of_Z_int_arg. ints. lia.
Qed.
(** (buffer-substring (region-beginning) (region-end)) is the text that delete-region deletes *)
Theorem region_substring_is_deleted E b u t v : good b -> valid_pos (content b) (mark b) -> region b u t v ->
  eval_expr E (default_env E) (VList [sym "buffer-substring"; VList [sym "region-beginning"]; VList [sym "region-end"]]) b
    = Done (VStr t) b /\
  exists b', call E "delete-region" [] b = Done (VStr []) b' /\ content b' = u ++ v.
Proof.
  intros Hg Hm Hr. assert (ints_ok b) as Hi.
  { unfold ints_ok. pose proof (zlen_nonneg (content b)). ints. lia. }
  destruct (region_bounds_reported E b) as [R1 R2].
  split.
  - transitivity (call E "buffer-substring" [VInt (Z.min (mark b) (point b)); VInt (Z.max (mark b) (point b))] b).
    + rewrite call_buffer_substring. cbn. unfold b_region_beginning, b_region_end, no_args, get_mark, get_point, bind, ret.
      cbn. replace (if point b <? mark b then point b else mark b) with (Z.min (mark b) (point b)) by (destruct (point b <? mark b) eqn:?; lia).
      replace (if point b <? mark b then mark b else point b) with (Z.max (mark b) (point b)) by (destruct (point b <? mark b) eqn:?; lia).
      reflexivity.
    + apply (region_text E b u t v); auto; try (ints; lia).
      * apply f_of_Z_int_arg. ints. lia.
      * apply f_of_Z_int_arg. ints. lia.
  - eexists. split; [apply (delete_region_deletes E b u t v); auto|]. destruct t; [apply Hr|reflexivity].
Qed.

(** ** Assumptions of every theorem above *)
Print Assumptions piece_exists.
Print Assumptions piece_unique.
Print Assumptions substring_takes.
Print Assumptions substring_to_end.
Print Assumptions buffer_substring_takes.
Print Assumptions substring_never_crashes.
Print Assumptions buffer_substring_never_crashes.
Print Assumptions substring_min_int_wraps.
Print Assumptions pieces_concatenate.
Print Assumptions piece_whole.
Print Assumptions buffer_substring_splits.
Print Assumptions concat_joins.
Print Assumptions concat_too_long.
Print Assumptions length_counts.
Print Assumptions length_of_concat.
Print Assumptions buffer_size_and_point_max.
Print Assumptions buffer_size_is_length_of_text.
Print Assumptions upcase_ascii.
Print Assumptions downcase_ascii.
Print Assumptions case_conversion_idempotent.
Print Assumptions capitalize_ascii.
Print Assumptions upcase_utf8.
Print Assumptions downcase_utf8.
Print Assumptions capitalize_maps_runes_refuted.
Print Assumptions reported_numbers_exact.
Print Assumptions point_reported.
Print Assumptions goto_char_point.
Print Assumptions goto_char_ends.
Print Assumptions region_substring_is_deleted.
