(** The example engine meets the assumptions made about Go's. *)
From Coq Require Import ZArith NArith List Bool Lia Strings.Byte ZifyBool.
From Verif Require Import Base Float Ext RefExt Spec Proofs_Base.
Import ListNotations.
Open Scope Z_scope.

Lemma lit_find_ok p s m : lit_find p s = Some m -> match_ok s m /\ occurs_at s p (fst m).
Proof.
  unfold lit_find, match_ok. destruct (str_index_spec s p) as [[H _]|[-> H]]; [|discriminate].
  pose proof (occurs_bound _ _ _ H). destruct (str_index s p <? 0) eqn:L; [discriminate|].
  intros E. injection E as <-. cbn [fst snd]. pose proof (zlen_nonneg p). split; [lia|auto].
Qed.
Lemma lit_all_ok p : forall fuel s off m, In m (lit_all fuel p s off) ->
  off <= fst m /\ fst m <= snd m /\ snd m <= off + zlen s.
Proof.
  induction fuel as [|fuel IH]; intros s off m H; [destruct H|]. cbn [lit_all] in H.
  destruct (lit_find p s) as [[i j]|] eqn:F; [|destruct H].
  apply lit_find_ok in F as [(F1 & F2 & F3) _]. cbn [fst snd] in *. destruct H as [<-|H]; [cbn; lia|].
  destruct ((j =? 0) && (zlen s =? 0)) eqn:J; [destruct H|]. apply IH in H. rewrite zlen_skipn in H.
  pose proof (zlen_nonneg s). destruct (j =? 0) eqn:J0; lia.
Qed.
Theorem ref_ext_ok : ext_ok ref_ext.
Proof.
  split; cbn [ref_ext re_find re_find_all].
  - intros p s m H. now apply lit_find_ok in H.
  - intros p s m H. apply lit_all_ok in H. unfold match_ok. lia.
  - intros p s. unfold lit_find_all. cbn [lit_all]. destruct (lit_find p s) as [[i j]|]; split; congruence.
  - intros p s [i j] H. unfold lit_find_all. cbn [lit_all]. rewrite H. eexists. reflexivity.
Qed.
