(** Lemmas for C78, continued: looking around, editing and texts. *)
From Coq Require Import ZArith NArith QArith List Bool Lia Strings.Byte ZifyBool.
From Verif Require Import Proofs_Round.
From Verif Require Import Base Float Ext Utf8 Strconv Values Buffer Builtins Eval Spec SpecNumber SpecLines SpecManual
  Proofs_Base Proofs_Loops Proofs_Exec Proofs_Float Proofs_Numeral Proofs_Utf8  Proofs_Unique Proofs_Safe
  Prop_Edit Prop_Lines Prop_Strings Prop_Regexp Prop_Numbers Prop_Words Prop_Calls Parser Proofs_Words Proofs_Manual.
Import ListNotations.
Open Scope Z_scope.

(** ** Looking around *)
Lemma yes_if_iff P Q b o : (P <-> Q) -> yes_if P b o -> yes_if Q b o.
Proof. unfold yes_if. tauto. Qed.
Lemma s_looking_at E b re before after o : ext_ok E -> machine b -> between b before after -> after <> [] -> re_error E re = None ->
  yes_if (exists j, re_find E re after = Some (0, j)) b o -> call E "looking-at" [VStr re] b = o.
Proof.
  intros X M B N V Y. destruct (looking_at_answers E b re before after X (proj1 M) B N V) as [[C (t & v & R & _)]|[C R]];
    destruct Y as [[P ->]|[P ->]]; auto; exfalso.
  - apply P. eauto.
  - destruct P as [j P]. now apply (R j).
Qed.
Lemma s_looking_at_literal E b re before after msg o : machine b -> between b before after -> after <> [] -> re_error E re = Some msg ->
  yes_if (exists v, after = re ++ v) b o -> call E "looking-at" [VStr re] b = o.
Proof.
  intros M B N V Y. destruct (looking_at_literal E b re before after msg (proj1 M) B N V) as [[C R]|[C R]];
    destruct Y as [[P ->]|[P ->]]; auto; exfalso; auto.
Qed.
Lemma around_end b : machine b -> around b (content b) [] -> point b = zlen (content b) + 1 \/ early b \/ late b.
Proof. intros M [[C P]|(C & [[H _]|[H _]])]; auto. Qed.
Lemma s_looking_at_nothing E b re : machine b -> around b (content b) [] \/ early b -> call E "looking-at" [VStr re] b = Done (VSym (bs "nil")) b.
Proof.
  intros M H. assert (K : point b = zlen (content b) + 1 \/ early b \/ late b) by (destruct H; auto using around_end).
  clear H. destruct K as [H|[H|H]].
  - apply looking_at_end; auto. apply M.
  - at_early. ifs. reflexivity.
  - at_late. ifs. reflexivity.
Qed.
Lemma s_looking_back E b re before after o : ext_ok E -> machine b -> between b before after -> before <> [] -> re_error E re = None ->
  yes_if (exists i, re_find E re before = Some (i, zlen before)) b o -> call E "looking-back" [VStr re] b = o.
Proof.
  intros X M B N V Y. destruct (looking_back_answers E b re before after X (proj1 M) B N V) as [[C (t & v & _ & R)]|[C R]];
    destruct Y as [[P ->]|[P ->]]; auto; exfalso.
  - apply P. eauto.
  - destruct P as [j P]. now apply (R j).
Qed.
Lemma s_looking_back_literal E b re before after msg o : machine b -> between b before after -> before <> [] -> re_error E re = Some msg ->
  yes_if (exists u, before = u ++ re) b o -> call E "looking-back" [VStr re] b = o.
Proof.
  intros M B N V Y. destruct (looking_back_literal E b re before after msg (proj1 M) B N V) as [[C R]|[C R]];
    destruct Y as [[P ->]|[P ->]]; auto; exfalso; auto.
Qed.
Lemma s_looking_back_nothing E b re : machine b -> early b \/ point b = 1 -> call E "looking-back" [VStr re] b = Done (VSym (bs "nil")) b.
Proof.
  intros M [H|H]; [|now apply looking_back_start]. at_early. ifs. reflexivity.
Qed.
Lemma late_front b : machine b -> late b -> point b <> min_int -> wrap (point b - 1) = point b - 1.
Proof. intros (F & P & _) L N. apply wrap_id. facts. lia. Qed.
Lemma s_looking_back_late E b re msg : machine b -> late b -> point b <> min_int -> re_error E re = Some msg -> point b <= zlen re ->
  call E "looking-back" [VStr re] b = Done (VSym (bs "nil")) b.
Proof.
  intros M H N R Q. pose proof (late_front b M H N). at_late. rewrite R. pose proof (zlen_nonneg c). ifs. reflexivity.
Qed.
Lemma s_looking_back_crash E b re : machine b -> fits re -> late b -> re_error E re = None \/ point b = min_int \/ zlen re < point b ->
  call E "looking-back" [VStr re] b = Panic.
Proof.
  intros M F H R. destruct (re_error E re) as [msg|] eqn:X.
  - destruct R as [R|R]; [discriminate|].
    assert (zlen re <= wrap (point b - 1)).
    { destruct (Z.eq_dec (point b) min_int) as [Q|Q].
      - rewrite Q. change (wrap (min_int - 1)) with max_int. facts. lia.
      - rewrite late_front by auto. lia. }
    at_late. rewrite X. pose proof (zlen_nonneg c). ifs. rewrite slice_out by lia. reflexivity.
  - at_late. rewrite X. pose proof (zlen_nonneg c). ifs. rewrite slice_out by lia. reflexivity.
Qed.

(** ** Editing *)
Lemma becomes_fun b t p o : becomes b t p o -> (if max_alloc <? zlen t then OutOfMemory else fine (with_text b t p)) = o.
Proof. unfold becomes, fits. intros [[F ->]|[F ->]]; destruct (max_alloc <? zlen t) eqn:X; auto; lia. Qed.
Lemma gives_fun b t o : gives b t o -> (if max_alloc <? zlen t then OutOfMemory else Done (VStr t) b) = o.
Proof. unfold gives, fits. intros [[F ->]|[F ->]]; destruct (max_alloc <? zlen t) eqn:X; auto; lia. Qed.
Ltac memory := match goal with |- context [max_alloc <? ?x] => destruct (max_alloc <? x) eqn:?; [reflexivity|] end.

Lemma s_insert E b s before after o : machine b -> between b before after -> becomes b (before ++ s ++ after) (point b + zlen s) o ->
  call E "insert" [VStr s] b = o.
Proof.
  intros M B [[F ->]|[F ->]].
  - now apply insert_splices.
  - apply (insert_too_long E b s before after); auto. apply M.
Qed.
Lemma s_insert_front E b s p o : machine b -> point b < 1 -> carry (point b + zlen s) p -> becomes b (s ++ content b) p o ->
  call E "insert" [VStr s] b = o.
Proof.
  intros M L C X. apply becomes_fun in X. subst o. rewrite (carry_wrap _ _ C). call. destruct b as [c pt mk lm ls le]; fields. exe.
  replace (pt <=? 1) with true by lia. memory. reflexivity.
Qed.
Lemma s_insert_back E b s p o : machine b -> zlen (content b) + 1 < point b -> carry (point b + zlen s) p -> becomes b (content b ++ s) p o ->
  call E "insert" [VStr s] b = o.
Proof.
  intros M L C X. apply becomes_fun in X. subst o. rewrite (carry_wrap _ _ C). call. destruct b as [c pt mk lm ls le]; fields. exe.
  pose proof (zlen_nonneg c). ifs. memory. reflexivity.
Qed.
Lemma s_replace_match E b r u t v o : machine b -> last_match b <> [] -> content b = u ++ t ++ v -> t <> [] ->
  last_start b = zlen u + 1 -> last_end b = zlen (u ++ t) + 1 -> becomes b (u ++ r ++ v) (zlen (u ++ r) + 1) o ->
  call E "replace-match" [VStr r] b = o.
Proof.
  intros M N C T S1 S2 X. rewrite zlen_app in S2.
  destruct (Z_le_gt_dec (zlen (u ++ r ++ v)) max_alloc) as [F|F].
  - apply becomes_fun in X. subst o. rewrite (replace_match_replaces E b u t v r); auto; [|apply M].
    replace (max_alloc <? zlen (u ++ r ++ v)) with false by lia. rewrite zlen_app. reflexivity.
  - apply becomes_fun in X. subst o. destruct M as (FT & _). call. destruct b as [c pt mk lm ls le]. fields. exe. subst c ls le.
    destruct lm as [|l0 lm]; [congruence|]. replace (max_alloc <? zlen (u ++ r ++ v)) with true by lia.
    rewrite !wrap_id by (facts; zl). assert (0 < zlen t) by (destruct t; [congruence|zl]). ifs.
    rewrite (slice_pre u) by lia.
    assert (Q : slice (u ++ t ++ v) (zlen u + zlen t + 1 - 1) (zlen (u ++ t ++ v)) = Some v).
    { rewrite app_assoc. apply slice_suf; zl. }
    rewrite Q. replace (max_alloc <? zlen (u ++ r ++ v)) with true by lia. reflexivity.
Qed.
Lemma s_replace_lost_match E b r : machine b -> last_match b <> [] -> ~ (1 <= last_start b < last_end b /\ last_end b <= zlen (content b) + 1) ->
  call E "replace-match" [VStr r] b = Fail (bs "invalid search match positions") b.
Proof.
  intros (F & _ & _ & S1 & S2) N H. call. destruct b as [c pt mk lm ls le]. fields. exe.
  destruct lm as [|l0 lm]; [congruence|]. pose proof (zlen_nonneg c).
  assert (K : (wrap (ls - 1) <? 0) || (zlen c <? wrap (le - 1)) || (wrap (le - 1) <=? wrap (ls - 1)) = true); [|now rewrite K].
  assert (A : ls = min_int \/ wrap (ls - 1) = ls - 1).
  { destruct (Z.eq_dec ls min_int); [now left|right; apply wrap_id; facts; lia]. }
  assert (B : le = min_int \/ wrap (le - 1) = le - 1).
  { destruct (Z.eq_dec le min_int); [now left|right; apply wrap_id; facts; lia]. }
  assert (W : wrap (min_int - 1) = max_int) by reflexivity. pose proof (wrap_ok (le - 1)).
  destruct A as [A|A], B as [B|B]; subst; rewrite ?W, ?A, ?B in *; facts; lia.
Qed.

(** the text between two positions, as the commands cut it out *)
Lemma position_wrap s n p : fits s -> int_ok n -> position n p -> wrap (n - 1) = p - 1 \/ zlen s <= wrap (n - 1) /\ zlen s + 1 <= p.
Proof.
  intros F I [[-> ->]|[N ->]].
  - right. change (wrap (min_int - 1)) with max_int. facts. lia.
  - left. apply wrap_id. facts. lia.
Qed.
Definition low (i : Z) : Z := if i <? 0 then 0 else i.
Definition high (s : str) (j : Z) : Z := if zlen s <? j then zlen s else j.
Lemma cut s i j p q t : i = p - 1 \/ zlen s <= i /\ zlen s + 1 <= p -> j = q - 1 \/ zlen s <= j /\ zlen s + 1 <= q -> piece s p q t ->
  (high s j <= low i -> t = []) /\ (low i <= high s j -> slice s (low i) (high s j) = Some t) /\
  (low i < high s j -> t <> [] /\ low i = clamp 1 (zlen s + 1) p - 1).
Proof.
  intros I J P. pose proof (zlen_nonneg s).
  assert (A : low i = clamp 1 (zlen s + 1) p - 1 \/ zlen s <= low i /\ zlen s + 1 <= p).
  { unfold low, clamp. destruct (i <? 0) eqn:?; lia. }
  assert (B : high s j < 0 /\ q < 1 \/ high s j = clamp 1 (zlen s + 1) q - 1).
  { unfold high, clamp. destruct (zlen s <? j) eqn:?; lia. }
  assert (L : 0 <= low i) by (unfold low; destruct (i <? 0) eqn:?; lia).
  assert (Hh : high s j <= zlen s) by (unfold high; destruct (zlen s <? j) eqn:?; lia).
  split; [|split].
  - intros K. apply (piece_empty s p q); auto. unfold clamp in *. lia.
  - intros K. apply (slice_piece s p q); auto; unfold clamp in *; lia.
  - intros K. assert (low i = clamp 1 (zlen s + 1) p - 1) by (unfold clamp in *; lia). split; auto. intros ->.
    destruct P as (u & v & Q & P1 & P2). rewrite zlen_nil in P2. unfold clamp in *. lia.
Qed.
Lemma region_bounds_cut c mk pt : region_bounds c mk pt =
  let i := low (wrap (Z.min mk pt - 1)) in let j := high c (wrap (Z.max mk pt - 1)) in
  if j <=? i then None else Some (i, j).
Proof.
  unfold region_bounds, low, high. destruct (pt <? mk) eqn:X.
  - rewrite Z.min_r, Z.max_l by lia. reflexivity.
  - rewrite Z.min_l, Z.max_r by lia. reflexivity.
Qed.
Lemma min_max_ok m p : int_ok m -> int_ok p -> int_ok (Z.min m p) /\ int_ok (Z.max m p).
Proof. unfold int_ok. lia. Qed.
Lemma selected_bounds b u t v : machine b -> selected b u t v ->
  (t = [] -> region_bounds (content b) (mark b) (point b) = None) /\
  (t <> [] -> region_bounds (content b) (mark b) (point b) = Some (zlen u, zlen u + zlen t) /\
     slice (content b) 0 (zlen u) = Some u /\ slice (content b) (zlen u + zlen t) (zlen (content b)) = Some v).
Proof.
  intros (F & PO & MO & _) (a & z & A & Z1 & P & C & U). destruct (min_max_ok _ _ MO PO) as [I1 I2].
  pose proof (position_wrap _ _ _ F I1 A) as W1. pose proof (position_wrap _ _ _ F I2 Z1) as W2.
  rewrite region_bounds_cut. set (i := wrap (Z.min (mark b) (point b) - 1)) in *. set (j := wrap (Z.max (mark b) (point b) - 1)) in *.
  destruct (cut (content b) i j a z t W1 W2 P) as (K1 & K2 & K3). cbv zeta.
  destruct (high (content b) j <=? low i) eqn:X.
  - split; auto. intros T. exfalso. apply T. apply K1. lia.
  - destruct K3 as [K3 K4]; [lia|]. split; [congruence|]. intros _. specialize (U K3). specialize (K2 ltac:(lia)).
    apply slice_some in K2 as (u' & v' & C' & L1 & L2).
    assert (u' = u /\ v' = v) as [-> ->].
    { rewrite C in C'. apply app_inv_len in C' as [<- C']; [|lia]. apply app_inv_head in C'. auto. }
    split; [now rewrite L1, L2|]. rewrite C. split; [now apply slice_pre|]. rewrite app_assoc. apply slice_suf; zl.
Qed.
Lemma region_machine b u t v : machine b -> selected b u t v -> content b = u ++ t ++ v.
Proof. intros _ (a & z & _ & _ & _ & C & _). exact C. Qed.
Lemma s_delete_region E b u t v : machine b -> selected b u t v -> t <> [] -> call E "delete-region" [] b = fine (with_text b (u ++ v) (zlen u + 1)).
Proof.
  intros M R T. destruct (proj2 (selected_bounds b u t v M R) T) as (B & S1 & S2). pose proof (region_machine _ _ _ _ M R) as C.
  assert (F : zlen (u ++ v) <= max_alloc). { destruct M as (F & _). rewrite C in F. unfold fits in F. zl. }
  call. unfold b_delete_region, no_args, bind, get_mark, get_point, get_content. cbn iota. rewrite B. unfold slice_to, slice_from, slice_m, ret.
  rewrite S1, S2. unfold set_content, alloc, bind, set_point. replace (max_alloc <? zlen (u ++ v)) with false by lia. reflexivity.
Qed.
Lemma s_delete_nothing E b u v : machine b -> selected b u [] v -> call E "delete-region" [] b = fine b.
Proof.
  intros M R. pose proof (proj1 (selected_bounds b u [] v M R) eq_refl) as B.
  call. unfold b_delete_region, no_args, bind, get_mark, get_point, get_content. cbn iota. rewrite B. reflexivity.
Qed.
Lemma s_replace_region E b r u t v o : machine b -> selected b u t v -> t <> [] -> becomes b (u ++ r ++ v) (zlen (u ++ r) + 1) o ->
  call E "replace-region" [VStr r] b = o.
Proof.
  intros M R T X. destruct (proj2 (selected_bounds b u t v M R) T) as (B & S1 & S2). pose proof (region_machine _ _ _ _ M R) as C.
  apply becomes_fun in X. subst o.
  call. unfold b_replace_region, one_string, bind, get_mark, get_point, get_content. cbn iota. rewrite B. unfold slice_to, slice_from, slice_m, ret.
  rewrite S1, S2. unfold set_content, alloc, bind, set_point. memory. rewrite wrap_id; [rewrite zlen_app; reflexivity|facts; zl].
Qed.
Lemma s_replace_nothing E b r u v : machine b -> selected b u [] v -> call E "replace-region" [VStr r] b = fine b.
Proof.
  intros M R. pose proof (proj1 (selected_bounds b u [] v M R) eq_refl) as B.
  call. unfold b_replace_region, one_string, bind, get_mark, get_point, get_content. cbn iota. rewrite B. reflexivity.
Qed.

Lemma s_delete_char E b args n before gone rest : machine b -> count_arg E args n -> between b before (gone ++ rest) -> gone ++ rest <> [] ->
  0 <= n -> point b - 1 + n <= max_int -> zlen gone = Z.min n (zlen (gone ++ rest)) ->
  call E "delete-char" args b = fine (with_text b (before ++ rest) (point b)).
Proof.
  intros M A B N Z1 Z2 G. apply (delete_char_deletes E b args n before gone rest); auto; [|apply M].
  destruct B as [_ P]. pose proof (zlen_nonneg before). facts. lia.
Qed.
Lemma s_delete_char_doubles E b args n u w after o : machine b -> count_arg E args n -> between b (u ++ w) after -> after <> [] -> n < 0 ->
  zlen w = - n -> becomes b (u ++ w ++ w ++ after) (point b) o -> call E "delete-char" args b = o.
Proof.
  intros M A [C P] N Z1 W X. apply becomes_fun in X. subst o. destruct M as (F & _). open_cmd.
  destruct b as [c pt mk lm ls le]. fields. exe. subst c pt. assert (0 < zlen after) by (destruct after; [congruence|zl]).
  replace ((zlen (u ++ w) + 1 <? 1) || (zlen ((u ++ w) ++ after) <? zlen (u ++ w) + 1)) with false by zl.
  rewrite wrap_id by (facts; zl). replace (zlen ((u ++ w) ++ after) <? zlen (u ++ w) + 1 - 1 + n) with false by zl.
  rewrite (slice_pre (u ++ w)) by lia.
  assert (Q : slice ((u ++ w) ++ after) (zlen (u ++ w) + 1 - 1 + n) (zlen ((u ++ w) ++ after)) = Some (w ++ after)).
  { rewrite <- app_assoc. apply slice_suf; zl. }
  rewrite Q. rewrite <- app_assoc. memory. reflexivity.
Qed.
Lemma s_delete_char_crash E b args n before after : machine b -> count_arg E args n -> between b before after -> after <> [] ->
  point b - 1 + n < 0 \/ max_int < point b - 1 + n -> call E "delete-char" args b = Panic.
Proof.
  intros M A [C P] N X. destruct M as (F & _). open_cmd.
  destruct b as [c pt mk lm ls le]. fields. exe. subst c pt. assert (0 < zlen after) by (destruct after; [congruence|zl]).
  replace ((zlen before + 1 <? 1) || (zlen (before ++ after) <? zlen before + 1)) with false by zl.
  assert (W : wrap (zlen before + 1 - 1 + n) < 0).
  { destruct (wrap_cases (zlen before + 1 - 1 + n)) as [[Y Q]|[[Y Q]|[Y Q]]]; facts; zl. }
  replace (zlen (before ++ after) <? wrap (zlen before + 1 - 1 + n)) with false by zl.
  rewrite (slice_pre before) by lia. rewrite slice_out by lia. reflexivity.
Qed.
Lemma s_delete_no_char E b args n : machine b -> count_arg E args n -> point b < 1 \/ zlen (content b) < point b -> call E "delete-char" args b = fine b.
Proof.
  intros M A X. destruct M as (F & _). open_cmd. destruct b as [c pt mk lm ls le]. fields. exe. pose proof (zlen_nonneg c).
  replace ((pt <? 1) || (zlen c <? pt)) with true by lia. reflexivity.
Qed.
Lemma s_delete_backward_char E b args n rest gone after : machine b -> count_arg E args n -> between b (rest ++ gone) after -> 0 <= n ->
  zlen gone = Z.min n (zlen (rest ++ gone)) ->
  call E "delete-backward-char" args b = fine (with_text b (rest ++ after) (zlen rest + 1)).
Proof.
  intros M A B Z1 G. rewrite (delete_backward_char_deletes E b args n rest gone after); auto; [|apply M].
  destruct B as [_ P]. unfold fine. do 2 f_equal. zl.
Qed.
Lemma s_delete_backward_all E b args n before after : machine b -> count_arg E args n -> between b before after -> before <> [] ->
  max_int < zlen before - n -> call E "delete-backward-char" args b = fine (with_text b after 1).
Proof.
  intros M A [C P] N X. destruct M as (F & _). open_cmd. destruct b as [c pt mk lm ls le]. fields. exe. subst c pt.
  assert (0 < zlen before) by (destruct before; [congruence|zl]).
  rewrite (wrap_id (zlen before + 1 - 1)) by (facts; zl).
  destruct (wrap_cases (zlen before + 1 - 1 - n)) as [[Y Q]|[[Y Q]|[Y Q]]]; try (facts; zl; fail). rewrite Q.
  replace (zlen before + 1 - 1 - n - two64 <? 0) with true by (facts; zl). replace (zlen before + 1 - 1 <=? 0) with false by lia.
  rewrite slice_zero. rewrite (slice_suf before) by zl. cbn [app]. replace (max_alloc <? zlen after) with false by (facts; zl). reflexivity.
Qed.
Lemma s_delete_backward_stays E b args n before after : machine b -> count_arg E args n -> between b before after -> n < 0 ->
  zlen before - n <= max_int \/ before = [] -> call E "delete-backward-char" args b = fine b.
Proof.
  intros M A [C P] N X. destruct M as (F & _). open_cmd. destruct b as [c pt mk lm ls le]. fields. exe. subst c.
  rewrite (wrap_id (pt - 1)) by (facts; zl). destruct X as [X| ->].
  - rewrite wrap_id by (facts; zl). ifs. reflexivity.
  - change (zlen []) with 0 in P. subst pt. destruct (wrap (0 + 1 - 1 - n) <? 0) eqn:Y; [reflexivity|]. ifs. reflexivity.
Qed.
Lemma s_delete_backward_early E b args n : machine b -> count_arg E args n -> early b -> call E "delete-backward-char" args b = fine b.
Proof.
  intros M A H. at_early. destruct (wrap (pt - 1 - n) <? 0) eqn:Y; ifs; reflexivity.
Qed.
Lemma s_delete_backward_late E b args n e : machine b -> count_arg E args n -> late b -> carry (point b - 1) e -> n <= 0 -> e - n <= max_int ->
  call E "delete-backward-char" args b = fine b.
Proof.
  intros M A H C N X. apply carry_wrap in C. at_late. subst e. pose proof (zlen_nonneg c). rewrite (wrap_id (e0 - n)) by (facts; lia). ifs. reflexivity.
Qed.
Lemma s_delete_backward_crash E b args n e : machine b -> count_arg E args n -> late b -> carry (point b - 1) e -> 0 < n \/ max_int < e - n ->
  call E "delete-backward-char" args b = Panic.
Proof.
  intros M A H C N. apply carry_wrap in C. at_late. subst e. pose proof (zlen_nonneg c). 
  assert (G1 : (if wrap (e0 - n) <? 0 then 0 else wrap (e0 - n)) < e0).
  { destruct (wrap_cases (e0 - n)) as [[Y1 Y2]|[[Y1 Y2]|[Y1 Y2]]]; try (facts; lia); rewrite Y2;
      match goal with |- (if ?x then _ else _) < _ => destruct x eqn:? end; facts; lia. }
  assert (G2 : 0 <= (if wrap (e0 - n) <? 0 then 0 else wrap (e0 - n))).
  { destruct (wrap (e0 - n) <? 0) eqn:?; lia. }
  set (i := if wrap (e0 - n) <? 0 then 0 else wrap (e0 - n)) in *.
  replace (e0 <=? i) with false by lia. destruct (slice c 0 i); [|reflexivity]. rewrite slice_out by lia. reflexivity.
Qed.

Lemma s_kill_word_crash E b args n : machine b -> count_arg E args n -> early b \/ late b -> call E "kill-word" args b = Panic.
Proof.
  intros M A [H|H].
  - at_early. destruct (Z_lt_le_dec 0 n).
    + now rewrite fwd_words_crash by lia.
    + rewrite fwd_words_stay by lia. rewrite slice_out by lia. reflexivity.
  - at_late. rewrite fwd_words_stay by lia. rewrite slice_out by lia. reflexivity.
Qed.
Lemma s_backward_kill_word_crash E b args n : machine b -> count_arg E args n -> early b \/ late b -> call E "backward-kill-word" args b = Panic.
Proof.
  intros M A [H|H].
  - at_early. rewrite bwd_words_stay by lia. rewrite slice_out by lia. reflexivity.
  - at_late. destruct (Z_lt_le_dec 0 n).
    + now rewrite bwd_words_crash by lia.
    + rewrite bwd_words_stay by lia. rewrite slice_out by lia. reflexivity.
Qed.
Lemma s_delete_line_crash E b args n : machine b -> count_arg E args n -> early b \/ late b -> call E "delete-line" args b = Panic.
Proof.
  intros M A [H|H].
  - at_early. rewrite scan_bwd_low by lia. destruct (Z_lt_le_dec 0 n).
    + now rewrite line_steps_crash by lia.
    + rewrite line_steps_nonpos by auto. unfold ret. rewrite slice_out by lia. reflexivity.
  - at_late. now rewrite scan_bwd_beyond by lia.
Qed.
Lemma s_kill_lines E b args n before after moved rest : machine b -> count_arg E args n -> n <> 1 -> between b before after -> after <> [] ->
  passes_lines (Z.to_nat n) after moved rest -> call E "kill-line" args b = fine (with_text b (before ++ rest) (point b)).
Proof.
  intros M [[_ ->]|(f & -> & A)] N B X P; [congruence|]. apply (kill_line_many E b f n before after moved rest); auto. apply M.
Qed.
Lemma s_kill_no_line E b args n : machine b -> count_arg E args n -> around b (content b) [] \/ early b -> call E "kill-line" args b = fine b.
Proof.
  intros M A H. assert (K : point b = zlen (content b) + 1 \/ early b \/ late b) by (destruct H; auto using around_end).
  clear H. destruct K as [H|[H|H]].
  - apply (kill_line_at_end E b args n); auto. apply M.
  - at_early. ifs. reflexivity.
  - at_late. ifs. reflexivity.
Qed.

(** ** Texts *)
Lemma s_concat E b ss o : gives b (concat ss) o -> call E "concat" (map VStr ss) b = o.
Proof. intros [[F ->]|[F ->]]; [now apply concat_joins|now apply concat_too_long]. Qed.
Lemma concat_loop_stops ss v rest i acc b : fits (acc ++ concat ss) -> ~ has_kind KString v ->
  concat_loop (map VStr ss ++ v :: rest) i acc b
  = Fail (bs "concat expects string arguments, got non-string at position " ++ itoa (i + zlen ss + 1)) b.
Proof.
  intros F V. revert i acc F. induction ss as [|s ss IH]; intros i acc F; cbn [map app concat].
  - rewrite zlen_nil, Z.add_0_r. destruct v; cbn in V; try reflexivity. tauto.
  - cbn [concat_loop]. unfold bind, alloc. cbn [concat] in F. rewrite app_assoc in F.
    replace (max_alloc <? zlen (acc ++ s)) with false by (unfold fits in F; zl). rewrite IH by auto.
    rewrite zlen_cons. replace (i + 1 + zlen ss + 1) with (i + (1 + zlen ss) + 1) by lia. reflexivity.
Qed.
Lemma s_concat_kind E ss v rest k b : fits (concat ss) -> ~ has_kind KString v -> int_text k (zlen ss + 1) ->
  call E "concat" (map VStr ss ++ v :: rest) b = Fail (bs "concat expects string arguments, got non-string at position " ++ k) b.
Proof.
  intros F V T. rewrite (int_text_itoa _ _ T). call. unfold b_concat. rewrite concat_loop_stops by auto. reflexivity.
Qed.
Lemma concat_loop_fills ss tail i acc b : fits acc -> ~ fits (acc ++ concat ss) -> concat_loop (map VStr ss ++ tail) i acc b = OutOfMemory.
Proof.
  revert i acc. induction ss as [|s ss IH]; intros i acc F N; cbn [map app concat] in *.
  - rewrite app_nil_r in N. contradiction.
  - cbn [concat_loop]. unfold bind, alloc. destruct (max_alloc <? zlen (acc ++ s)) eqn:X; [reflexivity|].
    apply IH; [unfold fits; lia|]. now rewrite <- app_assoc.
Qed.
Lemma s_concat_kind_memory E ss v rest b : ~ fits (concat ss) -> ~ has_kind KString v ->
  call E "concat" (map VStr ss ++ v :: rest) b = OutOfMemory.
Proof. intros F V. call. unfold b_concat. apply concat_loop_fills; [unfold fits; rewrite zlen_nil; facts; lia|auto]. Qed.

Lemma substring_cut s n m p q t b : fits s -> int_ok n -> int_ok m -> position n p -> position m q -> piece s p q t ->
  substring_of s n (Some m) b = Done (VStr t) b.
Proof.
  intros F N M P Q T. pose proof (position_wrap s n p F N P) as W1. pose proof (position_wrap s m q F M Q) as W2.
  destruct (cut s _ _ p q t W1 W2 T) as (K1 & K2 & _). unfold substring_of. cbv zeta.
  change (if zlen s <? wrap (m - 1) then zlen s else wrap (m - 1)) with (high s (wrap (m - 1))).
  change (if wrap (n - 1) <? 0 then 0 else wrap (n - 1)) with (low (wrap (n - 1))).
  destruct (high s (wrap (m - 1)) <? low (wrap (n - 1))) eqn:X.
  - rewrite K1 by lia. reflexivity.
  - unfold bind, slice_m. rewrite K2 by lia. reflexivity.
Qed.
Lemma s_substring E s f g n m a z t b : fits s -> int_arg E f n -> int_arg E g m -> position n a -> position m z -> piece s a z t ->
  call E "substring" [VStr s; VNum f; VNum g] b = Done (VStr t) b.
Proof.
  intros F A B P Q T. call. unfold b_substring. rewrite (int_arg_to_int E f n), (int_arg_to_int E g m) by auto.
  apply int_arg_ok in A, B. now apply (substring_cut s n m a z t).
Qed.
Lemma s_substring_rest E s f n a t b : fits s -> int_arg E f n -> position n a -> piece s a (zlen s + 1) t ->
  call E "substring" [VStr s; VNum f] b = Done (VStr t) b.
Proof.
  intros F A P T. call. unfold b_substring. rewrite (int_arg_to_int E f n) by auto. apply int_arg_ok in A.
  assert (I : int_ok (zlen s + 1)) by (pose proof (zlen_nonneg s); facts; lia).
  rewrite <- (substring_cut s n (zlen s + 1) a (zlen s + 1) t b F A I P); auto.
  - unfold substring_of. rewrite Z.add_simpl_r, (wrap_id (zlen s)) by (pose proof (zlen_nonneg s); facts; lia). reflexivity.
  - right. split; auto. pose proof (zlen_nonneg s). facts. lia.
Qed.
Lemma s_buffer_substring E f g n m a z t b : machine b -> int_arg E f n -> int_arg E g m -> position n a ->
  m = -1 /\ z = zlen (content b) + 1 \/ m <> -1 /\ position m z -> piece (content b) a z t ->
  call E "buffer-substring" [VNum f; VNum g] b = Done (VStr t) b.
Proof.
  intros (F & _) A B P Q T. call. unfold b_buffer_substring. rewrite (int_arg_to_int E f n), (int_arg_to_int E g m) by auto.
  unfold bind, get_content. cbv zeta. pose proof (zlen_nonneg (content b)) as L.
  set (m' := if m =? -1 then zlen (content b) + 1 else m).
  assert (int_ok m' /\ position m' z) as [M' Q'].
  { unfold m'. destruct Q as [[-> ->]|[N Q]].
    - cbn [Z.eqb Pos.eqb]. split; [facts; lia|]. right. split; auto. facts. lia.
    - replace (m =? -1) with false by lia. split; auto. now apply int_arg_ok in B. }
  apply int_arg_ok in A. pose proof (position_wrap _ n a F A P) as W1. pose proof (position_wrap _ m' z F M' Q') as W2.
  destruct (cut (content b) _ _ a z t W1 W2 T) as (K1 & K2 & _). clearbody m'.
  change (if zlen (content b) <? wrap (m' - 1) then zlen (content b) else wrap (m' - 1)) with (high (content b) (wrap (m' - 1))).
  change (if wrap (n - 1) <? 0 then 0 else wrap (n - 1)) with (low (wrap (n - 1))).
  destruct (high (content b) (wrap (m' - 1)) <=? low (wrap (n - 1))) eqn:X.
  - rewrite K1 by lia. reflexivity.
  - unfold slice_m. rewrite K2 by lia. reflexivity.
Qed.
Lemma s_string_match E re s i j b v : ext_ok E -> fits s -> re_error E re = None -> re_find E re s = Some (i, j) -> number i v ->
  call E "string-match" [VStr re; VStr s] b = Done v b.
Proof.
  intros X F V R N. pose proof (string_match_answers E b re s X F V) as K. rewrite R in K. destruct K as (f & _ & _ & I1 & I2).
  assert (v = VInt i) as -> by (apply number_VInt; auto; apply small_abs; unfold fits in F; lia).
  call. unfold b_string_match. rewrite V, R. reflexivity.
Qed.
Lemma s_string_match_none E re s b : re_error E re = None -> re_find E re s = None ->
  call E "string-match" [VStr re; VStr s] b = Done (VSym (bs "nil")) b.
Proof. intros V R. call. unfold b_string_match. rewrite V, R. reflexivity. Qed.
Lemma index_first s re u v : s = u ++ re ++ v -> (forall i, 0 <= i < zlen u -> ~ occurs_at s re i) -> str_index s re = zlen u.
Proof.
  intros C O. assert (X : occurs_at s re (zlen u)) by (exists u, v; auto). pose proof (zlen_nonneg u).
  destruct (str_index_spec s re) as [[Y L]|[_ L]]; [|now destruct (L _ X)].
  destruct (Ztrichotomy (str_index s re) (zlen u)) as [Z1|[Z1|Z1]]; auto; exfalso.
  - apply (O (str_index s re)); auto. split; auto. destruct Y as (a & b & _ & ->). apply zlen_nonneg.
  - apply (L (zlen u)); auto. lia.
Qed.
Lemma index_none s re : (forall i, ~ occurs_at s re i) -> str_index s re = -1.
Proof. intros O. destruct (str_index_spec s re) as [[Y _]|[X _]]; auto. now apply O in Y. Qed.
Lemma s_string_match_literal E re s msg u v b x : fits s -> re_error E re = Some msg -> s = u ++ re ++ v ->
  (forall i, 0 <= i < zlen u -> ~ occurs_at s re i) -> number (zlen u) x -> call E "string-match" [VStr re; VStr s] b = Done x b.
Proof.
  intros F V C O N. assert (x = VInt (zlen u)) as ->.
  { apply number_VInt; auto. apply small_abs. subst s. unfold fits in F. zl. }
  call. unfold b_string_match. rewrite V. rewrite (index_first s re u v) by auto. pose proof (zlen_nonneg u). ifs. reflexivity.
Qed.
Lemma s_string_match_literal_none E re s msg b : re_error E re = Some msg -> (forall i, ~ occurs_at s re i) ->
  call E "string-match" [VStr re; VStr s] b = Done (VSym (bs "nil")) b.
Proof.
  intros V O. call. unfold b_string_match. rewrite V. now rewrite (index_none s re) by auto.
Qed.

(** case *)
Lemma upper_fun c d e : upper_of c d -> upper_of c e -> d = e.
Proof.
  intros [A|[-> A]] [B|[-> B]]; auto.
  - unfold case_pairs in *. cbn in A, B.
    repeat match type of A with _ \/ _ => destruct A as [A|A] end; try easy; injection A as <- <-;
    repeat match type of B with _ \/ _ => destruct B as [B|B] end; try easy; congruence.
  - exfalso. apply B. apply in_map_iff. exists (c, d). auto.
  - exfalso. apply A. apply in_map_iff. exists (c, e). auto.
Qed.
Lemma lower_fun c d e : lower_of c d -> lower_of c e -> d = e.
Proof.
  intros [A|[-> A]] [B|[-> B]]; auto.
  - unfold case_pairs in *. cbn in A, B.
    repeat match type of A with _ \/ _ => destruct A as [A|A] end; try easy; injection A as <- <-;
    repeat match type of B with _ \/ _ => destruct B as [B|B] end; try easy; congruence.
  - exfalso. apply B. apply in_map_iff. exists (d, c). auto.
  - exfalso. apply A. apply in_map_iff. exists (e, c). auto.
Qed.
Lemma case_upper E r r' : case_of upper_of (uc_upper E) r r' <-> r' = rune_upper E r.
Proof.
  assert (X : case_of upper_of (uc_upper E) r (rune_upper E r)).
  { destruct (N.lt_ge_cases r 128) as [L|L].
    - left. split; auto. destruct (rune_upper_ascii E (byte_of_N r)) as (d & E1 & E2 & E3); rewrite ?byteN_of_N by lia; auto.
      exists (byte_of_N r), d. rewrite byteN_of_N in * by lia. auto.
    - right. split; auto. unfold rune_upper. now replace (r <=? 127)%N with false by lia. }
  split; [intros Y|now intros ->]. destruct X as [(A & c & d & C & D & U)|[A B]], Y as [(A' & c' & d' & C' & D' & U')|[A' B']]; try lia.
  rewrite <- D, <- D'. f_equal. assert (c = c') as -> by (apply byteN_inj; congruence). now apply (upper_fun c').
Qed.
Lemma case_lower E r r' : case_of lower_of (uc_lower E) r r' <-> r' = rune_lower E r.
Proof.
  assert (X : case_of lower_of (uc_lower E) r (rune_lower E r)).
  { destruct (N.lt_ge_cases r 128) as [L|L].
    - left. split; auto. destruct (rune_lower_ascii E (byte_of_N r)) as (d & E1 & E2 & E3); rewrite ?byteN_of_N by lia; auto.
      exists (byte_of_N r), d. rewrite byteN_of_N in * by lia. auto.
    - right. split; auto. unfold rune_lower. now replace (r <=? 127)%N with false by lia. }
  split; [intros Y|now intros ->]. destruct X as [(A & c & d & C & D & U)|[A B]], Y as [(A' & c' & d' & C' & D' & U')|[A' B']]; try lia.
  rewrite <- D, <- D'. f_equal. assert (c = c') as -> by (apply byteN_inj; congruence). now apply (lower_fun c').
Qed.
Lemma Forall2_map_iff {A B} (R : A -> B -> Prop) f : (forall x y, R x y <-> y = f x) -> forall l m, Forall2 R l m <-> m = map f l.
Proof.
  intros H l m. split.
  - induction 1 as [|x y l m X _ IH]; auto. apply H in X. cbn. congruence.
  - intros ->. induction l as [|x l IH]; constructor; auto. now apply H.
Qed.
Lemma to_upper_text E s l l' : chars s l -> Forall2 (case_of upper_of (uc_upper E)) l l' -> to_upper E s = SpecLines.text l'.
Proof.
  intros C F. apply chars_iff in C as <-. apply (Forall2_map_iff _ _ (case_upper E)) in F as ->.
  unfold to_upper, SpecLines.text, rune_list. rewrite map_map, !flat_map_concat_map, map_map. reflexivity.
Qed.
Lemma to_lower_text E s l l' : chars s l -> Forall2 (case_of lower_of (uc_lower E)) l l' -> to_lower E s = SpecLines.text l'.
Proof.
  intros C F. apply chars_iff in C as <-. apply (Forall2_map_iff _ _ (case_lower E)) in F as ->.
  unfold to_lower, SpecLines.text, rune_list. rewrite map_map, !flat_map_concat_map, map_map. reflexivity.
Qed.
Lemma s_upcase E s l l' b o : chars s l -> Forall2 (case_of upper_of (uc_upper E)) l l' -> gives b (SpecLines.text l') o ->
  call E "upcase" [VStr s] b = o.
Proof.
  intros C F X. apply gives_fun in X. subst o. call. unfold b_upcase, one_string, bind. rewrite (to_upper_text E s l l') by auto. unfold alloc. memory. reflexivity.
Qed.
Lemma s_downcase E s l l' b o : chars s l -> Forall2 (case_of lower_of (uc_lower E)) l l' -> gives b (SpecLines.text l') o ->
  call E "downcase" [VStr s] b = o.
Proof.
  intros C F X. apply gives_fun in X. subst o. call. unfold b_downcase, one_string, bind. rewrite (to_lower_text E s l l') by auto. unfold alloc. memory. reflexivity.
Qed.
Lemma byte_valid c : valid_rune (byteN c) = true.
Proof. pose proof (to_N_bounded c). unfold valid_rune, byteN. lia. Qed.
Lemma s_capitalize E c s r l l' b o : case_of upper_of (uc_upper E) (byteN c) r -> chars s l ->
  Forall2 (case_of lower_of (uc_lower E)) l l' -> gives b (SpecLines.text (r :: l')) o -> call E "capitalize" [VStr (c :: s)] b = o.
Proof.
  intros R C F X. apply gives_fun in X. subst o. call. unfold b_capitalize, one_string, bind.
  rewrite (to_lower_text E s l l') by auto. rewrite (to_upper_text E _ [byteN c] [r]).
  - unfold SpecLines.text. cbn [flat_map]. rewrite app_nil_r. unfold alloc. memory. reflexivity.
  - rewrite <- (app_nil_r (encode_rune (byteN c))). apply chars_good; [apply byte_valid|constructor].
  - constructor; auto.
Qed.
