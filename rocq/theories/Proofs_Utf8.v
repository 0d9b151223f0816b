(** UTF-8: encoding and decoding are inverse. *)
From Coq Require Import ZArith NArith List Bool Lia Strings.Byte ZifyBool ZifyN ZifyNat.
From Verif Require Import Base Utf8 Proofs_Base.
Import ListNotations.
Open Scope N_scope.
Ltac Zify.zify_post_hook ::= Z.div_mod_to_equations.

Lemma byteN_lt b : byteN b < 256.
Proof. unfold byteN. pose proof (Byte.to_N_bounded b). lia. Qed.
Lemma byteN_of_N n : n < 256 -> byteN (byte_of_N n) = n.
Proof.
  intros H. unfold byteN, byte_of_N. destruct (Byte.of_N n) as [b|] eqn:E.
  - now apply Byte.to_of_N.
  - apply Byte.of_N_None_iff in E. lia.
Qed.
Lemma byte_of_byteN b : byte_of_N (byteN b) = b.
Proof. unfold byteN, byte_of_N. now rewrite Byte.of_to_N. Qed.
Lemma byteN_inj a b : byteN a = byteN b -> a = b.
Proof. intros H. rewrite <- (byte_of_byteN a), <- (byte_of_byteN b). now rewrite H. Qed.
Lemma byte_of_N_inj_l n b : n = byteN b -> byte_of_N n = b.
Proof. intros ->. apply byte_of_byteN. Qed.

Definition valid (r : rune) : Prop := valid_rune r = true.

Ltac bytes := repeat match goal with
  | |- context [byteN (byte_of_N ?n)] => rewrite (byteN_of_N n) by lia
  end.
Ltac tests := repeat match goal with
  | |- context [if ?c then _ else _] =>
    first [ replace c with true by (symmetry; lia) | replace c with false by (symmetry; lia) ]
  end.

Lemma decode_encode r t : valid r ->
  decode_rune (encode_rune r ++ t) = Some (r, length (encode_rune r)).
Proof.
  unfold valid. intros H. unfold encode_rune. rewrite H. unfold valid_rune in H. unfold encode_valid.
  destruct (r <=? 127) eqn:H1; [|destruct (r <=? 2047) eqn:H2; [|destruct (r <=? 65535) eqn:H3]];
    cbn [app decode_rune length]; unfold cont; bytes;
    repeat match goal with |- context [if ?n =? ?k then _ else _] => destruct (n =? k) eqn:? end;
    tests; try (exfalso; lia); do 2 f_equal; lia.
Qed.

Lemma encode_nonempty r : encode_rune r <> [].
Proof.
  unfold encode_rune, encode_valid. destruct (if valid_rune r then r else rune_error) as [|p];
    repeat match goal with |- context [if ?c then _ else _] => destruct c end; discriminate.
Qed.

(** a decoded rune is either an invalid byte or the well-formed encoding it came from *)
Lemma decode_spec s r w : decode_rune s = Some (r, w) ->
  (r = rune_error /\ w = 1%nat /\ exists b t, s = b :: t /\ 128 <= byteN b) \/
  (valid r /\ exists t, s = encode_rune r ++ t /\ w = length (encode_rune r)).
Proof.
  destruct s as [|b0 t]; [discriminate|]. cbn [decode_rune]. pose proof (byteN_lt b0) as L0.
  set (Q := _ \/ _).
  assert (bad : 128 <= byteN b0 -> Some (rune_error, 1%nat) = Some (r, w) -> Q).
  { intros H E. injection E as <- <-. left. eauto 8. }
  assert (ok : forall r' l t', valid r' -> Some (r', length (l : str)) = Some (r, w) -> b0 :: t = l ++ t' ->
                 l = encode_rune r' -> Q).
  { intros r' l t' V E E' ->. injection E as <- <-. right. split; auto. eauto. }
  clearbody Q.
  destruct (byteN b0 <=? 127) eqn:H1.
  { intros E. apply (ok (byteN b0) [b0] t); auto; unfold valid, encode_rune, encode_valid, valid_rune.
    - lia. - tests. now rewrite byte_of_byteN. }
  destruct ((194 <=? byteN b0) && (byteN b0 <=? 223)) eqn:H2.
  { destruct t as [|b1 t]; [apply bad; lia|]. unfold cont. pose proof (byteN_lt b1).
    destruct ((128 <=? byteN b1) && (byteN b1 <=? 191)) eqn:C1; [|apply bad; lia].
    intros E. eapply (ok _ [b0; b1] t); eauto; unfold valid, encode_rune, encode_valid, valid_rune.
    - lia.
    - tests. symmetry. repeat f_equal; apply byte_of_N_inj_l; lia. }
  destruct ((224 <=? byteN b0) && (byteN b0 <=? 239)) eqn:H3.
  { destruct t as [|b1 [|b2 t]]; try (apply bad; lia). cbv zeta. unfold cont.
    pose proof (byteN_lt b1). pose proof (byteN_lt b2).
    destruct ((_ <=? byteN b1) && _ && _) eqn:C1; [|apply bad; lia].
    intros E. assert (128 <= byteN b1 <= 191 /\ (byteN b0 = 224 -> 160 <= byteN b1)
      /\ (byteN b0 = 237 -> byteN b1 <= 159) /\ 128 <= byteN b2 <= 191) as (A1 & A2 & A3 & A4).
    { destruct (byteN b0 =? 224) eqn:?, (byteN b0 =? 237) eqn:?; lia. }
    clear C1 bad. eapply (ok _ [b0; b1; b2] t); eauto; unfold valid, encode_rune, encode_valid, valid_rune.
    - lia.
    - tests. symmetry. repeat f_equal; apply byte_of_N_inj_l; lia. }
  destruct ((240 <=? byteN b0) && (byteN b0 <=? 244)) eqn:H4; [|apply bad; lia].
  destruct t as [|b1 [|b2 [|b3 t]]]; try (apply bad; lia). cbv zeta. unfold cont.
  pose proof (byteN_lt b1). pose proof (byteN_lt b2). pose proof (byteN_lt b3).
  destruct ((_ <=? byteN b1) && _ && _ && _) eqn:C1; [|apply bad; lia].
  intros E. assert (128 <= byteN b1 <= 191 /\ (byteN b0 = 240 -> 144 <= byteN b1)
    /\ (byteN b0 = 244 -> byteN b1 <= 143) /\ 128 <= byteN b2 <= 191 /\ 128 <= byteN b3 <= 191) as (A1 & A2 & A3 & A4 & A5).
  { destruct (byteN b0 =? 240) eqn:?, (byteN b0 =? 244) eqn:?; lia. }
  clear C1 bad. eapply (ok _ [b0; b1; b2; b3] t); eauto; unfold valid, encode_rune, encode_valid, valid_rune.
  - lia.
  - tests. symmetry. repeat f_equal; apply byte_of_N_inj_l; lia.
Qed.

(** ** ranging over a string *)
Lemma decode_width s r w : decode_rune s = Some (r, w) -> (1 <= w <= length s)%nat.
Proof.
  intros H. destruct (decode_spec s r w H) as [(-> & -> & b & t & -> & _)|(V & t & -> & ->)].
  - cbn. lia.
  - rewrite app_length. pose proof (encode_nonempty r). destruct (encode_rune r); [congruence|cbn; lia].
Qed.
Lemma decode_none s : decode_rune s = None -> s = [].
Proof.
  destruct s as [|b t]; auto. cbn [decode_rune].
  repeat match goal with
         | |- context [if ?c then _ else _] => destruct c
         | |- context [match ?l with [] => _ | _ :: _ => _ end] => destruct l
         end; discriminate.
Qed.

Lemma runes_fuel_enough s : forall n m, (length s <= n)%nat -> (length s <= m)%nat ->
  runes_fuel n s = runes_fuel m s.
Proof.
  intros n. revert s. induction n as [|n IH]; intros s m Hn Hm.
  - destruct s; cbn in Hn; [|lia]. destruct m; reflexivity.
  - destruct m as [|m].
    + destruct s; cbn in Hm; [|lia]. reflexivity.
    + destruct s as [|b t]; [reflexivity|]. cbn [runes_fuel]. unfold decode_one.
      destruct (decode_rune (b :: t)) as [[r w]|] eqn:D.
      * apply decode_width in D. f_equal. apply IH; rewrite skipn_length; cbn [length] in *; lia.
      * now apply decode_none in D.
Qed.
Lemma runes_nil : runes [] = [].
Proof. reflexivity. Qed.
Lemma runes_step s r w : decode_rune s = Some (r, w) ->
  runes s = {| r_rune := r; r_bytes := firstn w s; r_bad := (r =? rune_error) && Nat.eqb w 1 |}
            :: runes (skipn w s).
Proof.
  intros D. pose proof (decode_width _ _ _ D). unfold runes. destruct s as [|b t]; [discriminate|].
  cbn [length runes_fuel]. unfold decode_one. rewrite D. f_equal.
  apply runes_fuel_enough; rewrite skipn_length; cbn [length] in *; lia.
Qed.

Definition good_rune (r : rune) : rune_at := {| r_rune := r; r_bytes := encode_rune r; r_bad := false |}.
Definition bad_byte (b : byte) : rune_at := {| r_rune := rune_error; r_bytes := [b]; r_bad := true |}.

Lemma firstn_app_exact {A} (l m : list A) : firstn (length l) (l ++ m) = l.
Proof. rewrite firstn_app, Nat.sub_diag, firstn_all. apply app_nil_r. Qed.
Lemma skipn_app_exact {A} (l m : list A) : skipn (length l) (l ++ m) = m.
Proof. rewrite skipn_app, Nat.sub_diag, skipn_all. reflexivity. Qed.

Lemma encode_len r : valid r -> (length (encode_rune r) = 1)%nat -> r <= 127.
Proof.
  unfold valid, encode_rune. intros ->. unfold encode_valid.
  destruct (r <=? 127) eqn:H; [lia|]. destruct (r <=? 2047); [discriminate|]. destruct (r <=? 65535); discriminate.
Qed.
Lemma runes_encode r t : valid r -> runes (encode_rune r ++ t) = good_rune r :: runes t.
Proof.
  intros V. rewrite (runes_step _ r (length (encode_rune r))) by now apply decode_encode.
  rewrite firstn_app_exact, skipn_app_exact. unfold good_rune. f_equal. f_equal.
  destruct (Nat.eqb (length (encode_rune r)) 1) eqn:L; [|apply andb_false_r].
  apply Nat.eqb_eq in L. apply encode_len in L; auto. unfold rune_error. lia.
Qed.

(** induction along the runes of a string *)
Lemma runes_ind (P : str -> Prop) :
  P [] ->
  (forall r t, valid r -> P t -> P (encode_rune r ++ t)) ->
  (forall b t, 128 <= byteN b -> decode_rune (b :: t) = Some (rune_error, 1%nat) -> P t -> P (b :: t)) ->
  forall s, P s.
Proof.
  intros H0 H1 H2 s. remember (length s) as n eqn:L. assert (length s <= n)%nat as L' by lia. clear L.
  revert s L'. induction n as [|n IH]; intros s L.
  - destruct s; [auto|cbn in L; lia].
  - destruct (decode_rune s) as [[r w]|] eqn:D.
    + pose proof (decode_width _ _ _ D).
      destruct (decode_spec s r w D) as [(-> & -> & b & t & -> & Hb)|(V & t & -> & ->)].
      * apply H2; auto. apply IH. cbn in *. lia.
      * apply H1; auto. apply IH. rewrite app_length in L. lia.
    + apply decode_none in D. now subst.
Qed.
Lemma runes_bad b t : decode_rune (b :: t) = Some (rune_error, 1%nat) -> runes (b :: t) = bad_byte b :: runes t.
Proof. intros D. now rewrite (runes_step _ _ _ D). Qed.

(** the runes of a string hold all its bytes *)
Lemma runes_bytes s : flat_map r_bytes (runes s) = s.
Proof.
  induction s as [|r t V IH|b t _ D IH] using runes_ind; auto.
  - rewrite runes_encode by auto. cbn. now rewrite IH.
  - rewrite runes_bad by auto. cbn. now rewrite IH.
Qed.

(** well-formed text: the encoding of a list of runes *)
Definition utf8 (rs : list rune) : str := flat_map encode_rune rs.
Lemma runes_utf8 rs t : Forall valid rs -> runes (utf8 rs ++ t) = map good_rune rs ++ runes t.
Proof.
  intros H. induction H as [|r rs V _ IH]; auto. cbn [utf8 flat_map map app]. fold (utf8 rs).
  rewrite <- app_assoc, runes_encode by auto. now f_equal.
Qed.

(** ASCII *)
Lemma encode_ascii r : r < 128 -> encode_rune r = [byte_of_N r].
Proof. intros H. unfold encode_rune, encode_valid, valid_rune. tests. reflexivity. Qed.
Lemma encode_byte b : byteN b < 128 -> encode_rune (byteN b) = [b].
Proof. intros H. rewrite encode_ascii by auto. now rewrite byte_of_byteN. Qed.
Lemma valid_ascii r : r < 128 -> valid r.
Proof. unfold valid, valid_rune. lia. Qed.
Lemma runes_ascii b t : byteN b < 128 -> runes (b :: t) = good_rune (byteN b) :: runes t.
Proof.
  intros H. pose proof (runes_encode (byteN b) t (valid_ascii _ H)) as X. now rewrite encode_byte in X.
Qed.
