(** Cutting well-formed UTF-8 between characters. *)
From Coq Require Import ZArith NArith List Bool Lia Strings.Byte ZifyBool ZifyN ZifyNat.
From Verif Require Import Base Float Ext Utf8 Strconv Values Buffer Builtins Eval Spec SpecText SpecBytes
  Proofs_Base Proofs_Utf8 Proofs_Loops.
Import ListNotations.
Open Scope Z_scope.

Lemma text_nil : utf8_text []. Proof. exists []. now split. Qed.
Lemma text_app s t : utf8_text s -> utf8_text t -> utf8_text (s ++ t).
Proof. intros (rs & V & ->) (rs' & V' & ->). exists (rs ++ rs'). rewrite flat_map_app. split; auto. apply Forall_app. now split. Qed.
Lemma text_rune r : utf8_text (encode_rune r).
Proof.
  exists [if valid_rune r then r else rune_error]. cbn [flat_map]. rewrite app_nil_r. split.
  - constructor; [|constructor]. destruct (valid_rune r) eqn:V; auto.
  - unfold encode_rune at 1. unfold encode_rune. f_equal. destruct (valid_rune r) eqn:V; [now rewrite V|reflexivity].
Qed.
Lemma text_mapped (g : rune -> rune) l : utf8_text (flat_map (fun ra : rune_at => encode_rune (g (r_rune ra))) l).
Proof. induction l as [|ra l IH]; [apply text_nil|]. cbn [flat_map]. apply text_app; [apply text_rune|exact IH]. Qed.

(** the first byte of a character is no continuation byte, all others are *)
Lemma encode_shape r : exists c t, encode_rune r = c :: t /\ cont c = false /\ Forall (fun d => cont d = true) t /\
  ((byteN c < 128)%N -> t = []).
Proof.
  unfold encode_rune. set (q := if valid_rune r then r else rune_error).
  assert (V : valid_rune q = true) by (unfold q; destruct (valid_rune r) eqn:X; [exact X|reflexivity]). clearbody q.
  unfold valid_rune in V. unfold encode_valid, cont.
  destruct (q <=? 127)%N eqn:H1; [|destruct (q <=? 2047)%N eqn:H2; [|destruct (q <=? 65535)%N eqn:H3]];
    do 2 eexists; (split; [reflexivity|]); (split; [bytes; lia|]); (split; [repeat constructor; bytes; lia|]);
    (rewrite byteN_of_N by lia; intros; try reflexivity; exfalso; lia).
Qed.
Lemma cut_prefix {A} (u v a r : list A) : u ++ v = a ++ r -> (length a <= length u)%nat -> exists u', u = a ++ u' /\ r = u' ++ v.
Proof.
  revert a. induction u as [|x u IH]; intros [|y a] H L; cbn in *; try lia.
  - exists []. auto.
  - exists (x :: u). auto.
  - injection H as -> H. destruct (IH a H) as (u' & -> & ->); [lia|]. now exists u'.
Qed.
Definition starts_char (v : str) : Prop := forall c t, v = c :: t -> cont c = false.
Lemma text_starts v : utf8_text v -> starts_char v.
Proof.
  intros ([|r rs] & _ & ->) c t E; [discriminate|]. cbn [flat_map] in E. destruct (encode_shape r) as (d & t' & Er & C & _). rewrite Er in E. injection E as <- _. exact C.
Qed.
Lemma cut u v : utf8_text (u ++ v) -> starts_char v -> utf8_text u /\ utf8_text v.
Proof.
  intros (rs & V & E) S. revert u E. induction V as [|r rs Vr Vs IH]; intros u E.
  - apply app_eq_nil in E as [-> ->]. split; apply text_nil.
  - cbn [flat_map] in E. destruct (le_lt_dec (length (encode_rune r)) (length u)) as [L|L].
    + destruct (cut_prefix _ _ _ _ E L) as (u' & -> & E'). destruct (IH u') as [H1 H2]; auto. split; auto. apply text_app; auto. apply text_rune.
    + destruct u as [|x u].
      * split; [apply text_nil|]. cbn [app] in E. rewrite E. apply text_app; [apply text_rune|]. now exists rs.
      * exfalso. destruct (encode_shape r) as (c & t & Er & _ & Ct & _). rewrite Er in *. cbn in E, L. injection E as <- E.
        symmetry in E. apply cut_prefix in E as (u' & -> & E'); [|lia]. destruct u' as [|d u']; [rewrite app_nil_r in L; lia|].
        apply Forall_app in Ct as [_ Ct]. inversion Ct as [|? ? Cd _]; subst. rewrite (S d (u' ++ flat_map encode_rune rs)) in Cd; [discriminate|reflexivity].
Qed.
Lemma low_not_cont c : (byteN c < 128)%N -> cont c = false.
Proof. unfold cont. lia. Qed.
Lemma cut_before u c v : utf8_text (u ++ c :: v) -> (byteN c < 128)%N -> utf8_text u /\ utf8_text (c :: v).
Proof. intros H L. apply cut; auto. intros d t E. injection E as <- _. now apply low_not_cont. Qed.
Lemma text_tail c v : utf8_text (c :: v) -> (byteN c < 128)%N -> utf8_text v.
Proof.
  intros ([|r rs] & V & E) L; [discriminate|]. cbn [flat_map] in E. destruct (encode_shape r) as (d & t & Er & _ & _ & N).
  rewrite Er in E. injection E as <- E. rewrite (N L) in E. cbn in E. exists rs. inversion V. auto.
Qed.
Lemma cut_after u c v : utf8_text ((u ++ [c]) ++ v) -> (byteN c < 128)%N -> utf8_text (u ++ [c]) /\ utf8_text v.
Proof.
  intros H L. rewrite <- app_assoc in H. cbn [app] in H. destruct (cut_before u c v H L) as [H1 H2]. pose proof (text_tail c v H2 L).
  split; auto. apply text_app; auto. rewrite <- (encode_byte c L). apply text_rune.
Qed.
Lemma cancel p v : utf8_text p -> utf8_text (p ++ v) -> utf8_text v.
Proof.
  intros (rs & V & ->) H. induction V as [|r rs Vr _ IH]; auto. apply IH. cbn [flat_map] in H. rewrite <- app_assoc in H.
  destruct H as ([|r' rs'] & V' & E).
  - exfalso. apply app_eq_nil in E as [E _]. now apply encode_nonempty in E.
  - cbn [flat_map] in E. inversion V' as [|? ? Vr' Vrs']; subst. pose proof (decode_encode r (flat_map encode_rune rs ++ v) Vr) as D.
    rewrite E, (decode_encode r' _ Vr') in D. injection D as <- _. apply app_inv_head in E. exists rs'. auto.
Qed.
Lemma cut_at u p v : utf8_text (u ++ p ++ v) -> utf8_text p -> p <> [] -> utf8_text u /\ utf8_text v.
Proof.
  intros H Hp N. destruct (cut u (p ++ v) H) as [H1 H2].
  - intros c t E. apply (text_starts p Hp c (tl p)). destruct p; [congruence|]. cbn in E |- *. congruence.
  - split; auto. now apply (cancel p).
Qed.

(** positions *)
Lemma pos_text s p : char_pos s p -> utf8_text s.
Proof. intros (u & v & -> & U & V & _). now apply text_app. Qed.
Lemma pos_at s u v p : s = u ++ v -> p = zlen u + 1 -> utf8_text u -> utf8_text v -> char_pos s p.
Proof. intros -> -> U V. exists u, v. auto. Qed.
Lemma same_cut {A} (u v u' v' : list A) : u ++ v = u' ++ v' -> length u = length u' -> u = u' /\ v = v'.
Proof. revert u'. induction u as [|x u IH]; intros [|y u'] E L; cbn in *; try discriminate; auto. injection E as -> E. destruct (IH u' E) as [-> ->]; [lia|]. auto. Qed.
Lemma pos_cut s u v p : char_pos s p -> s = u ++ v -> p = zlen u + 1 -> utf8_text u /\ utf8_text v.
Proof.
  intros (u' & v' & -> & U & V & ->) E L. destruct (same_cut _ _ _ _ E) as [-> ->]; [unfold zlen in L; lia|]. auto.
Qed.
Lemma pos_between s p q : char_pos s p -> char_pos s q -> p <= q ->
  exists u t v, s = u ++ t ++ v /\ utf8_text u /\ utf8_text t /\ utf8_text v /\ p = zlen u + 1 /\ q = zlen u + zlen t + 1.
Proof.
  intros (u & v & -> & U & V & ->) (u' & v' & E & U' & V' & ->) L.
  symmetry in E. apply cut_prefix in E as (t & -> & ->); [|unfold zlen in *; lia]. exists u, t, v'. rewrite zlen_app in *.
  split; auto. split; auto. split; [now apply (cancel u)|]. repeat split; auto; lia.
Qed.
Lemma pos_inside u v q : utf8_text u -> char_pos v q -> char_pos (u ++ v) (zlen u + q).
Proof. intros U (a & z & -> & A & Z & ->). exists (u ++ a), z. rewrite app_assoc, zlen_app. split; auto. split; [now apply text_app|]. split; auto. lia. Qed.
Lemma pos_inside_l u v q : utf8_text v -> char_pos u q -> char_pos (u ++ v) q.
Proof. intros V (a & z & -> & A & Z & ->). exists a, (z ++ v). rewrite app_assoc. split; auto. split; auto. split; [now apply text_app|auto]. Qed.

(** lines and words end between characters *)
Lemma word_low c : word_byte c -> (byteN c < 128)%N.
Proof.
  intros I. assert (H : forallb (fun c => (byteN c <? 128)%N) (bs "abcdefghijklmnopqrstuvwxyzABCDEFGHIJKLMNOPQRSTUVWXYZ0123456789") = true) by reflexivity.
  rewrite forallb_forall in H. specialize (H c I). lia.
Qed.
Lemma lines_cut u v : utf8_text (u ++ v) -> whole_lines u -> utf8_text u /\ utf8_text v.
Proof.
  intros H [->|(t & ->)]; [split; auto; apply text_nil|]. now apply cut_after.
Qed.
Lemma last_case {A} (s : list A) : s = [] \/ exists t c, s = t ++ [c].
Proof. induction s as [|c s _] using rev_ind; [now left|right; eauto]. Qed.
Definition ends_low (s : str) : Prop := exists t c, s = t ++ [c] /\ (byteN c < 128)%N.
Lemma ends_low_app s t : ends_low t -> ends_low (s ++ t).
Proof. intros (t' & c & -> & L). exists (s ++ t'), c. rewrite app_assoc. auto. Qed.
Lemma passes_words_end n s moved rest : passes_words n s moved rest -> moved = [] \/ rest = [] \/ ends_low moved.
Proof.
  induction 1 as [s|n|n gap word rest moved rest' G W NE _ P IH]; auto.
  right. destruct IH as [->|[->|IH]]; auto; [|right; now do 2 apply ends_low_app].
  rewrite app_nil_r. apply passes_words_app in P. cbn in P. subst rest'.
  destruct NE as [NE|[-> _]]; [|now left]. right. apply ends_low_app.
  destruct (last_case word) as [->|(t & c & ->)]; [congruence|]. exists t, c. split; auto. apply Forall_app in W as [_ W]. inversion W. now apply word_low.
Qed.
Lemma passes_lines_end n s moved rest : passes_lines n s moved rest -> moved = [] \/ rest = [] \/ ends_low moved.
Proof.
  induction 1 as [s|n s|n line rest moved rest' NL P IH]; auto.
  right. destruct IH as [->|[->|IH]]; auto; right.
  - exists line, nl. split; auto. reflexivity.
  - replace (line ++ nl :: moved) with ((line ++ [nl]) ++ moved) by now rewrite <- app_assoc. now apply ends_low_app.
Qed.
Lemma moved_cut m r : utf8_text (m ++ r) -> m = [] \/ r = [] \/ ends_low m -> utf8_text m /\ utf8_text r.
Proof.
  intros H [->|[->|(t & c & -> & L)]].
  - split; auto. apply text_nil.
  - rewrite app_nil_r in H. split; auto. apply text_nil.
  - now apply cut_after.
Qed.
Lemma back_cut n s rest moved : utf8_text s -> passes_words_back n s rest moved -> s = rest ++ moved /\ utf8_text rest /\ utf8_text moved.
Proof.
  intros H P. unfold passes_words_back in P. pose proof (passes_words_app _ _ _ _ P) as E.
  apply (f_equal (@rev byte)) in E. rewrite rev_involutive, rev_app_distr, !rev_involutive in E. subst s. split; auto.
  destruct (passes_words_end _ _ _ _ P) as [X|[X|(t & c & X & L)]]; apply (f_equal (@rev byte)) in X; rewrite rev_involutive in X.
  - cbn in X. subst. rewrite app_nil_r in H. split; auto. apply text_nil.
  - cbn in X. subst. split; auto. apply text_nil.
  - rewrite rev_app_distr in X. cbn in X. subst. now apply cut_before.
Qed.
Lemma first_newline s : exists line rest, s = line ++ rest /\ no_newline line /\ (rest = [] \/ starts_with_newline rest).
Proof.
  induction s as [|c s IH]; [|destruct IH as (l & r & -> & N & R)]; [exists [], []; repeat split; [now intros []|now left]|].
  destruct (Byte.byte_eq_dec c nl) as [->|X].
  - exists [], (nl :: l ++ r). repeat split; [now intros []|]. right. eexists. reflexivity.
  - exists (c :: l), r. repeat split; auto. intros [E|I]; [congruence|now apply N].
Qed.
Lemma last_newline s : exists u line, s = u ++ line /\ whole_lines u /\ no_newline line.
Proof.
  induction s as [|c s IH] using rev_ind; [|destruct IH as (u & l & -> & W & N)]; [exists [], []; repeat split; [now left|now intros []]|].
  destruct (Byte.byte_eq_dec c nl) as [->|X].
  - exists ((u ++ l) ++ [nl]), []. rewrite app_nil_r. repeat split; [right; now exists (u ++ l)|now intros []].
  - exists u, (l ++ [c]). rewrite app_assoc. repeat split; auto. intros I. apply in_app_or in I as [I|[E|[]]]; [now apply N|congruence].
Qed.
Lemma word_dec c : {word_byte c} + {~ word_byte c}.
Proof. apply in_dec, Byte.byte_eq_dec. Qed.
Lemma first_word s : exists w v, s = w ++ v /\ all_word w /\ (forall c t, v = c :: t -> ~ word_byte c).
Proof.
  induction s as [|c s IH]; [|destruct IH as (w & v & -> & W & N)]; [exists [], []; repeat split; auto; [constructor|discriminate]|].
  destruct (word_dec c).
  - exists (c :: w), v. repeat split; auto. now constructor.
  - exists [], (c :: w ++ v). repeat split; auto; [constructor|]. intros d t E. injection E as <- _. auto.
Qed.
Lemma last_word s : exists u w, s = u ++ w /\ all_word w /\ (forall t c, u = t ++ [c] -> ~ word_byte c).
Proof.
  induction s as [|c s IH] using rev_ind; [|destruct IH as (u & w & -> & W & N)]; [exists [], []; repeat split; auto; [constructor|intros [|] c E; discriminate]|].
  destruct (word_dec c).
  - exists u, (w ++ [c]). rewrite app_assoc. repeat split; auto. apply Forall_app. split; auto.
  - exists ((u ++ w) ++ [c]), []. rewrite app_nil_r. repeat split; auto; [constructor|]. intros t d E. apply app_inj_tail in E as [_ <-]. auto.
Qed.
