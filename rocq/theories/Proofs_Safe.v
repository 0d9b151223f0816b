(** Weakest preconditions for the commands: no crash, and where point ends up. *)
From Coq Require Import ZArith NArith List Bool Lia Strings.Byte ZifyBool.
From Verif Require Import Base Float Ext Utf8 Strconv Values Buffer Builtins Eval Spec
  Proofs_Base Proofs_Loops Proofs_Exec Proofs_Effects Prop_Lines.
Import ListNotations.
Open Scope Z_scope.

(** [m] run from [b] does not crash and, when it succeeds, ends in [Q] *)
Definition wp {A} (m : M A) (b : buffer) (Q : A -> buffer -> Prop) : Prop :=
  match m b with
  | Done a b' => Q a b'
  | Fail _ _ => True
  | Panic => False
  | OutOfMemory => True
  | Diverge => False
  end.

Lemma wp_ret {A} (a : A) b (Q : A -> buffer -> Prop) : Q a b -> wp (ret a) b Q.
Proof. auto. Qed.
Lemma wp_fail {A} e b (Q : A -> buffer -> Prop) : wp (fail e) b Q.
Proof. exact I. Qed.
Lemma wp_bind {A B} (m : M A) (k : A -> M B) b Q : wp m b (fun a b' => wp (k a) b' Q) -> wp (bind m k) b Q.
Proof. unfold wp, bind. destruct (m b); auto. Qed.
Lemma wp_get_content b (Q : str -> buffer -> Prop) : Q (content b) b -> wp get_content b Q.
Proof. auto. Qed.
Lemma wp_get_point b (Q : Z -> buffer -> Prop) : Q (point b) b -> wp get_point b Q.
Proof. auto. Qed.
Lemma wp_get_mark b (Q : Z -> buffer -> Prop) : Q (mark b) b -> wp get_mark b Q.
Proof. auto. Qed.
Lemma wp_get_search b (Q : str * Z * Z -> buffer -> Prop) : Q (last_match b, last_start b, last_end b) b -> wp get_search b Q.
Proof. auto. Qed.
Lemma wp_set_point p b (Q : unit -> buffer -> Prop) : Q tt (at_point b p) -> wp (set_point p) b Q.
Proof. auto. Qed.
Lemma wp_set_mark p b (Q : unit -> buffer -> Prop) : Q tt (with_mark b p) -> wp (set_mark p) b Q.
Proof. auto. Qed.
Lemma wp_set_search m s e b (Q : unit -> buffer -> Prop) : Q tt (with_match b (point b) m s e) -> wp (set_search m s e) b Q.
Proof. auto. Qed.
Lemma wp_alloc s b (Q : str -> buffer -> Prop) : (fits s -> Q s b) -> wp (alloc s) b Q.
Proof. intros H. unfold wp, alloc. destruct (max_alloc <? zlen s) eqn:X; auto. apply H. unfold fits. lia. Qed.
Lemma wp_set_content s b (Q : unit -> buffer -> Prop) :
  (fits s -> Q tt (with_text b s (point b))) -> wp (set_content s) b Q.
Proof. intros H. unfold set_content. apply wp_bind, wp_alloc. exact H. Qed.
Lemma wp_slice s i j b (Q : str -> buffer -> Prop) : 0 <= i <= j -> j <= zlen s ->
  (forall t, zlen t = j - i -> Q t b) -> wp (slice_m s i j) b Q.
Proof.
  intros H1 H2 H. unfold wp, slice_m. destruct (slice_ok s i j H1 H2) as [t Ht]. rewrite Ht. apply H.
  apply slice_some in Ht as (u & v & _ & -> & ->). lia.
Qed.
Lemma wp_index s i b (Q : byte -> buffer -> Prop) : 0 <= i < zlen s -> (forall c, Q c b) -> wp (index_m s i) b Q.
Proof. intros H1 H. unfold wp, index_m. destruct (index_ok s i H1) as [c Hc]. rewrite Hc. apply H. Qed.
Lemma wp_scan_fwd c p pos b (Q : Z -> buffer -> Prop) : 0 <= pos ->
  (forall q, pos <= q <= Z.max pos (zlen c) -> Q q b) -> wp (scan_fwd (loop_fuel c) c p pos) b Q.
Proof.
  intros H1 H. unfold wp. destruct (Z_le_gt_dec (zlen c) pos).
  - rewrite scan_fwd_beyond by lia. apply H. lia.
  - destruct (split_at c pos) as (u & v & -> & ->); [lia|].
    destruct (scan_fwd_spec p u v b) as (v1 & v2 & -> & _ & _ & ->). apply H. zl.
Qed.
Lemma wp_scan_bwd c p pos b (Q : Z -> buffer -> Prop) : pos <= zlen c ->
  (forall q, Z.min 0 pos <= q <= pos -> Q q b) -> wp (scan_bwd (loop_fuel c) c p pos) b Q.
Proof.
  intros H1 H. unfold wp. destruct (Z_le_gt_dec pos 0).
  - rewrite scan_bwd_low by lia. apply H. lia.
  - destruct (split_at c pos) as (u & v & -> & ->); [lia|].
    destruct (scan_bwd_spec p u v b) as (v1 & v2 & -> & _ & _ & ->). apply H. zl.
Qed.
Lemma wp_fwd_words c n pos b (Q : Z -> buffer -> Prop) : 0 <= pos <= zlen c ->
  (forall q, pos <= q <= zlen c -> Q q b) -> wp (fwd_words (loop_fuel c) c n 0 pos) b Q.
Proof.
  intros H1 H. unfold wp. destruct (split_at c pos) as (u & v & -> & ->); [lia|].
  destruct (fwd_words_spec (loop_fuel (u ++ v)) u v n 0 b) as (m & r & -> & _ & ->); [rewrite loop_fuel_app; lia|lia|].
  apply H. zl.
Qed.
Lemma wp_bwd_words c n pos b (Q : Z -> buffer -> Prop) : 0 <= pos <= zlen c ->
  (forall q, 0 <= q <= pos -> Q q b) -> wp (bwd_words (loop_fuel c) c n 0 pos) b Q.
Proof.
  intros H1 H. unfold wp. destruct (split_at c pos) as (u & v & -> & ->); [lia|].
  destruct (bwd_words_spec (loop_fuel (u ++ v)) u v n 0 b) as (m & r & -> & _ & ->); [rewrite loop_fuel_app; lia|lia|].
  apply H. zl.
Qed.
Lemma wp_line_steps c n pos b (Q : Z -> buffer -> Prop) : 0 <= pos <= zlen c ->
  (forall q, pos <= q <= zlen c -> Q q b) -> wp (line_steps c n pos) b Q.
Proof.
  intros H1 H. unfold wp. destruct (split_at c pos) as (u & v & -> & ->); [lia|].
  destruct (line_steps_spec n u v b) as (m & r & -> & _ & ->). apply H. zl.
Qed.
Lemma wp_column c i col b (Q : Z -> buffer -> Prop) : i < zlen c ->
  (forall q, Q q b) -> wp (column_loop (loop_fuel c) c i col) b Q.
Proof.
  intros H1 H. assert (G : forall fuel i col, i < zlen c -> (Z.to_nat (i + 1) < fuel)%nat -> wp (column_loop fuel c i col) b Q).
  { clear i col H1. induction fuel as [|f IH]; intros i col H1 H2; [lia|]. cbn [column_loop].
    destruct (0 <=? i) eqn:Hi; [|apply wp_ret, H]. apply wp_bind, wp_index; [lia|]. intros ch.
    destruct (negb (is_nl ch)); [|apply wp_ret, H]. apply IH; lia. }
  apply G; auto. unfold loop_fuel, zlen in *. lia.
Qed.
Lemma wp_concat b (Q : value -> buffer -> Prop) : (forall v, Q v b) -> forall args i acc, wp (concat_loop args i acc) b Q.
Proof.
  intros H. induction args as [|[n|s|f|l] args IH]; intros i acc; cbn [concat_loop]; try apply wp_fail; [apply wp_ret, H|].
  apply wp_bind, wp_alloc. intros _. apply IH.
Qed.

(** the line starts are inside the text *)
Lemma line_offset_bound c n : 0 <= n < zlen (split_byte nl c) -> 0 <= line_offset (split_byte nl c) (Z.to_nat n) <= zlen c.
Proof.
  intros H. rewrite split_length in H.
  destruct (line_start_exists c n) as (u & v & E1 & E2 & <-); [lia|].
  rewrite (line_offset_spec c u v E1 E2). subst c. zl.
Qed.
Lemma str_index_bound s p : str_index s p <> -1 -> 0 <= str_index s p /\ str_index s p + zlen p <= zlen s.
Proof. intros H. destruct (str_index_spec s p) as [[O _]|[X _]]; [|congruence]. now apply occurs_bound in O. Qed.
Lemma str_last_index_bound s p : str_last_index s p <> -1 -> 0 <= str_last_index s p /\ str_last_index s p + zlen p <= zlen s.
Proof. intros H. destruct (str_last_index_spec s p) as [[O _]|[X _]]; [|congruence]. now apply occurs_bound in O. Qed.
Lemma re_find_bound E p s m0 m1 : ext_ok E -> re_find E p s = Some (m0, m1) -> 0 <= m0 <= m1 /\ m1 <= zlen s.
Proof. intros HE H. apply (ok_find E HE) in H. unfold match_ok in H. cbn in H. lia. Qed.
Lemma re_find_all_bound E p s m0 m1 l : ext_ok E -> rev (re_find_all E p s) = (m0, m1) :: l -> 0 <= m0 <= m1 /\ m1 <= zlen s.
Proof.
  intros HE H. assert (X : In (m0, m1) (re_find_all E p s)) by (apply in_rev; rewrite H; now left).
  apply (ok_find_all E HE) in X. unfold match_ok in X. cbn in X. lia.
Qed.

Lemma region_bounds_some c mk pt i j : fits c -> int_ok mk -> int_ok pt -> region_bounds c mk pt = Some (i, j) ->
  0 <= i < j /\ j <= zlen c.
Proof.
  intros Hf Hm Hp. unfold region_bounds. destruct (pt <? mk) eqn:E1.
  - generalize (wrap_ok (pt - 1)) (wrap_ok (mk - 1)). generalize (wrap (pt - 1)) (wrap (mk - 1)). intros x y _ _.
    destruct (x <? 0) eqn:E2, (zlen c <? y) eqn:E3;
      match goal with |- (if ?t then _ else _) = _ -> _ => destruct t eqn:E4 end; try discriminate;
      intros X; injection X as <- <-; zl.
  - generalize (wrap_ok (pt - 1)) (wrap_ok (mk - 1)). generalize (wrap (pt - 1)) (wrap (mk - 1)). intros x y _ _.
    destruct (y <? 0) eqn:E2, (zlen c <? x) eqn:E3;
      match goal with |- (if ?t then _ else _) = _ -> _ => destruct t eqn:E4 end; try discriminate;
      intros X; injection X as <- <-; zl.
Qed.

(** ** walking through a command *)
Ltac arith := ints; cbn [at_point with_text with_mark with_match content point mark] in *; lens; try lia.
(** [y = v] where [v] wraps or tests *)
Ltac tidy H :=
  repeat match type of H with
         | context [wrap ?z] => rewrite (wrap_id z) in H by arith
         end;
  repeat match type of H with
         | context [if ?c then _ else _] => destruct c eqn:?
         end.
Ltac side := repeat match goal with |- context [wrap ?z] => rewrite (wrap_id z) by arith end; solve [arith].
Ltac name_let v k :=
  let y := fresh "y" in let Hy := fresh "Hy" in
  assert (exists y, y = v) as [y Hy] by (eexists; reflexivity);
  lazymatch goal with |- wp _ ?b ?Q => change (wp (k v) b Q) end; rewrite <- Hy; tidy Hy.
Ltac walk1 := match goal with
  | |- wp (ret _) _ _ => apply wp_ret
  | |- wp (fail _) _ _ => apply wp_fail
  | |- wp (bind _ _) _ _ => apply wp_bind
  | |- wp get_content _ _ => apply wp_get_content
  | |- wp get_point _ _ => apply wp_get_point
  | |- wp get_mark _ _ => apply wp_get_mark
  | |- wp get_search _ _ => apply wp_get_search
  | |- wp (set_point _) _ _ => apply wp_set_point
  | |- wp (set_mark _) _ _ => apply wp_set_mark
  | |- wp (set_search _ _ _) _ _ => apply wp_set_search
  | |- wp (alloc _) _ _ => apply wp_alloc; intros ?
  | |- wp (set_content _) _ _ => apply wp_set_content; intros ?
  | |- wp (slice_m _ _ _) _ _ => apply wp_slice; [side|side|intros ? ?]
  | |- wp (index_m _ _) _ _ => apply wp_index; [side|intros ?]
  | |- wp (scan_fwd _ _ _ _) _ _ => apply wp_scan_fwd; [side|intros ? ?]
  | |- wp (scan_bwd _ _ _ _) _ _ => apply wp_scan_bwd; [side|intros ? ?]
  | |- wp (fwd_words _ _ _ _ _) _ _ => apply wp_fwd_words; [side|intros ? ?]
  | |- wp (bwd_words _ _ _ _ _) _ _ => apply wp_bwd_words; [side|intros ? ?]
  | |- wp (line_steps _ _ _) _ _ => apply wp_line_steps; [side|intros ? ?]
  | |- wp (column_loop _ _ _ _) _ _ => apply wp_column; [side|intros ?]
  | |- wp (concat_loop _ _ _) _ _ => apply wp_concat; intros ?
  | |- wp (let x := ?v in @?k x) _ _ => name_let v k
  | |- wp (match ?x with _ => _ end) _ _ => destruct x eqn:?
  end; cbv beta iota.
Ltac known := repeat match goal with
  | H : ?y = str_index ?s ?p, K : (?y =? -1) = false |- _ => rewrite H in K
  | H : ?y = str_last_index ?s ?p, K : (?y =? -1) = false |- _ => rewrite H in K
  | H : (str_index ?s ?p =? -1) = false |- _ => pose proof (str_index_bound s p ltac:(lia)); clear H
  | H : (str_last_index ?s ?p =? -1) = false |- _ => pose proof (str_last_index_bound s p ltac:(lia)); clear H
  | H : region_bounds ?c ?mk ?pt = Some (?i, ?j) |- _ =>
    pose proof (region_bounds_some c mk pt i j ltac:(arith) ltac:(arith) ltac:(arith) H); clear H
  | H : re_find ?E ?p ?s = Some (?a, ?b), HE : ext_ok ?E |- _ => pose proof (re_find_bound E p s a b HE H); clear H
  | H : rev (re_find_all ?E ?p ?s) = (?a, ?b) :: _, HE : ext_ok ?E |- _ => pose proof (re_find_all_bound E p s a b _ HE H); clear H
  | H : context [f_to_int ?E ?f] |- _ => lazymatch goal with K : int_ok (f_to_int E f) |- _ => fail | _ => pose proof (f_to_int_ok E f) end
  | |- context [f_to_int ?E ?f] => lazymatch goal with K : int_ok (f_to_int E f) |- _ => fail | _ => pose proof (f_to_int_ok E f) end
  end.
Ltac walk := repeat (known; walk1).

