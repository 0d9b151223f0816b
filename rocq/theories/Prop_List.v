(** C70: the methods of List neither change a list nor, Rest apart, share storage. *)
From Coq Require Import ZArith List Bool Lia ZifyBool ZifyNat Strings.Byte.
From Verif Require Import Base Lists.
Import ListNotations.
Open Scope Z_scope.

(** ** C70 *)
(** a slice that lies within its array *)
Definition slice_ok {A} (h : heap A) (s : slice) : Prop :=
  (s_arr s < length (h_arrays h))%nat /\
  (s_off s + s_len s <= length (nth (s_arr s) (h_arrays h) []))%nat.
(** Go's memory safety: every list holds such a slice *)
Definition sound {A} (h : heap A) : Prop := Forall (slice_ok h) (h_lists h).
(** the list exists *)
Definition live {A} (h : heap A) (p : nat) : Prop := (p < length (h_lists h))%nat.
(** what a caller can pass *)
Definition legal {A} (h : heap A) (c : call A) : Prop :=
  match c with
  | CNew s => slice_ok h s
  | CRest p | CAppend p _ => live h p
  | _ => True
  end.
Fixpoint legal_all {A} (cs : list (call A)) (h : heap A) : Prop :=
  match cs with
  | [] => True
  | c :: cs' => legal h c /\ legal_all cs' (snd (perform c h))
  end.

Section Facts.
Variable A : Type.
Implicit Types h : heap A.

Lemma field_ok h p : sound h -> live h p -> slice_ok h (field h p).
Proof. intros S0 L. apply (proj1 (Forall_forall _ _) S0), nth_In, L. Qed.
Lemma view_length h s : slice_ok h s -> length (view h s) = s_len s.
Proof. intros [_ B]. unfold view. rewrite firstn_length, skipn_length. lia. Qed.
Lemma elements_length h p : sound h -> live h p -> length (elements h p) = s_len (field h p).
Proof. intros. apply view_length, field_ok; auto. Qed.
Lemma set_nth_length {B} (x : B) : forall l n, length (set_nth n x l) = length l.
Proof. induction l as [|y l IH]; intros [|n]; cbn; auto. Qed.
Lemma set_nth_here {B} (x d : B) : forall l n, (n < length l)%nat -> nth n (set_nth n x l) d = x.
Proof. induction l as [|y l IH]; intros [|n] L; cbn in *; try lia; auto. apply IH. lia. Qed.
Lemma set_nth_other {B} (x d : B) : forall l n m, n <> m -> nth m (set_nth n x l) d = nth m l d.
Proof. induction l as [|y l IH]; intros [|n] [|m] N; cbn; auto; try lia. Qed.
Lemma set_nth_last {B} (x y : B) l : set_nth (length l) x (l ++ [y]) = l ++ [x].
Proof. induction l as [|z l IH]; cbn; [auto|now rewrite IH]. Qed.
Lemma set_nth_skipn {B} (x : B) : forall k l n, skipn k (set_nth (k + n) x l) = set_nth n x (skipn k l).
Proof. induction k as [|k IH]; intros [|y l] n; cbn; auto. now destruct n. Qed.
Lemma set_nth_firstn {B} (x : B) : forall k l n, firstn k (set_nth n x l) = set_nth n x (firstn k l).
Proof. induction k as [|k IH]; intros [|y l] [|n]; cbn; auto. now rewrite IH. Qed.

(** a heap that only grew *)
Definition grew h h' : Prop :=
  (exists a, h_arrays h' = h_arrays h ++ a) /\ (exists l, h_lists h' = h_lists h ++ l).
Lemma grew_view h h' s : grew h h' -> slice_ok h s -> view h' s = view h s.
Proof. intros [[a Ha] _] [B _]. unfold view. rewrite Ha, app_nth1 by exact B. reflexivity. Qed.
Lemma grew_ok h h' s : grew h h' -> slice_ok h s -> slice_ok h' s.
Proof.
  intros [[a Ha] _] [B C]. unfold slice_ok. rewrite Ha, app_length, app_nth1 by exact B. split; [lia|exact C].
Qed.
Lemma grew_field h h' p : grew h h' -> live h p -> field h' p = field h p.
Proof. intros [_ [l Hl]] L. unfold field. now rewrite Hl, app_nth1 by exact L. Qed.
Lemma grew_elements h h' p : sound h -> grew h h' -> live h p -> elements h' p = elements h p.
Proof. intros S0 G L. unfold elements. rewrite (grew_field _ _ _ G L). apply grew_view; [exact G|apply field_ok; auto]. Qed.
Lemma grew_refl h : grew h h.
Proof. split; exists []; now rewrite app_nil_r. Qed.
Lemma grew_trans h1 h2 h3 : grew h1 h2 -> grew h2 h3 -> grew h1 h3.
Proof.
  intros [[a Ha] [l Hl]] [[b Hb] [m Hm]]. split.
  - exists (a ++ b). now rewrite Hb, Ha, app_assoc.
  - exists (l ++ m). now rewrite Hm, Hl, app_assoc.
Qed.
Lemma grew_live h h' p : grew h h' -> live h p -> live h' p.
Proof. intros [_ [l Hl]] L. unfold live in *. rewrite Hl, app_length. lia. Qed.

Lemma alloc_grew s h : grew h (snd (alloc_list s h)).
Proof. split; [exists []; cbn; now rewrite app_nil_r|now exists [s]]. Qed.
Lemma alloc_sound s h : sound h -> slice_ok h s -> sound (snd (alloc_list s h)).
Proof. intros S0 O. unfold sound. cbn. apply Forall_app. split; [exact S0|auto]. Qed.
Lemma alloc_field s h : field (snd (alloc_list s h)) (fst (alloc_list s h)) = s.
Proof. unfold field. cbn. rewrite app_nth2, Nat.sub_diag by lia. reflexivity. Qed.

Definition with_array (a : list (option A)) h : nat * heap A :=
  let (s, h1) := alloc_array a h in alloc_list s h1.
Lemma array_grew a h : grew h (snd (with_array a h)).
Proof. split; [now exists [a]|eexists; reflexivity]. Qed.
Lemma array_sound a h : sound h -> sound (snd (with_array a h)).
Proof.
  intros S0. apply alloc_sound.
  - eapply Forall_impl; [|exact S0]. intros s O. refine (grew_ok h (mkHeap (h_arrays h ++ [a]) (h_lists h)) s _ O).
    split; [now exists [a]|exists []; cbn; now rewrite app_nil_r].
  - cbn. split; cbn; rewrite ?app_length, ?app_nth2, ?Nat.sub_diag by lia; cbn; lia.
Qed.
Lemma array_elements a h : elements (snd (with_array a h)) (fst (with_array a h)) = a.
Proof.
  unfold elements, with_array. cbn [alloc_array]. rewrite alloc_field. unfold view. cbn.
  rewrite app_nth2, Nat.sub_diag by lia. apply firstn_all.
Qed.
Lemma array_field a h : field (snd (with_array a h)) (fst (with_array a h)) = mkSlice (length (h_arrays h)) 0 (length a).
Proof. apply alloc_field. Qed.

Lemma append_array p x h : sound h -> live h p -> list_append p x h = with_array (elements h p ++ [x]) h.
Proof.
  intros S0 L. unfold list_append, with_array. rewrite (elements_length _ _ S0 L).
  replace (skipn (s_len (field h p)) (repeat None (s_len (field h p) + 1))) with [@None A].
  - rewrite <- (elements_length _ _ S0 L), set_nth_last. reflexivity.
  - induction (s_len (field h p)); cbn; auto.
Qed.

Lemma perform_grew c h : sound h -> legal h c -> grew h (snd (perform c h)) /\ sound (snd (perform c h)).
Proof.
  intros S0 L. destruct c as [s|xs| |p|p x]; cbn [perform legal] in *.
  - split; [apply alloc_grew|now apply alloc_sound].
  - split; [apply (array_grew xs)|now apply (array_sound xs)].
  - split; [apply (array_grew [])|now apply (array_sound [])].
  - unfold list_rest. destruct (Nat.leb_spec (s_len (field h p)) 1).
    + split; [apply (array_grew [])|now apply (array_sound [])].
    + split; [apply alloc_grew|]. apply alloc_sound; [exact S0|].
      destruct (field_ok _ _ S0 L) as [B C]. split; cbn; [exact B|lia].
  - rewrite append_array by auto. split; [apply array_grew|now apply array_sound].
Qed.
Lemma perform_all_grew cs : forall h, sound h -> legal_all cs h ->
  grew h (perform_all cs h) /\ sound (perform_all cs h).
Proof.
  induction cs as [|c cs IH]; intros h S0 L; cbn; [split; [apply grew_refl|exact S0]|].
  destruct L as [L1 L2]. destruct (perform_grew c h S0 L1) as [G S1]. destruct (IH _ S1 L2) as [G2 S2].
  split; [eapply grew_trans; eauto|exact S2].
Qed.

(** *** What the methods answer *)
Theorem list_methods h p : sound h -> live h p ->
  list_len h p = Z.of_nat (length (elements h p)) /\
  (list_is_empty h p = true <-> elements h p = []) /\
  list_first h p = hd None (elements h p) /\
  (forall i, list_get h p (Z.of_nat i) = nth i (elements h p) None) /\
  (forall i, i < 0 -> list_get h p i = None).
Proof.
  intros S0 L. pose proof (elements_length _ _ S0 L) as N.
  assert (G : forall i, (i < s_len (field h p))%nat -> index h (field h p) i = nth i (elements h p) None).
  { intros i I. unfold index, elements, view. generalize (nth (s_arr (field h p)) (h_arrays h) []). intros a.
    revert i I. generalize (s_len (field h p)) (s_off (field h p)). intros n k i I.
    transitivity (nth i (skipn k a) None).
    - clear. revert a. induction k as [|k IH]; intros [|x a]; cbn; auto. now destruct i.
    - generalize (skipn k a). clear a k. intros a. revert n i I.
      induction a as [|x a IH]; intros [|n] [|i] I; cbn; auto; try lia. apply IH. lia. }
  unfold list_len, list_is_empty, list_first, list_get. rewrite <- N. repeat split.
  - intros E. apply length_zero_iff_nil. lia.
  - intros E. now rewrite E.
  - destruct (elements h p) as [|x l] eqn:E; [reflexivity|]. cbn [length Nat.eqb hd]. rewrite G by (cbn in N; lia). reflexivity.
  - intros i. destruct (_ || _) eqn:B.
    + rewrite nth_overflow; [reflexivity|lia].
    + rewrite Nat2Z.id. apply G. lia.
  - intros i I. destruct (Z.ltb_spec i 0); [reflexivity|lia].
Qed.

(** *** What they make *)
Theorem list_made h : sound h ->
  (forall xs, let (p', h') := new_list_of xs h in elements h' p' = xs) /\
  (let (p', h') := new_empty_list h in elements h' p' = []) /\
  (forall s, slice_ok h s -> let (p', h') := new_list s h in elements h' p' = view h s) /\
  (forall p, live h p -> let (p', h') := list_rest p h in elements h' p' = tl (elements h p)) /\
  (forall p x, live h p -> let (p', h') := list_append p x h in elements h' p' = elements h p ++ [x]).
Proof.
  intros S0. split; [|split; [|split; [|split]]].
  - intros xs. apply (array_elements xs h).
  - apply (array_elements [] h).
  - intros s O. change (view (snd (alloc_list s h)) (field (snd (alloc_list s h)) (fst (alloc_list s h))) = view h s).
    now rewrite alloc_field.
  - intros p L. pose proof (elements_length _ _ S0 L) as N. destruct (list_rest p h) as [p' h'] eqn:R.
    unfold list_rest in R. destruct (Nat.leb_spec (s_len (field h p)) 1) as [B|B].
    + replace (tl (elements h p)) with (@nil (option A)).
      * injection R as <- <-. apply (array_elements [] h).
      * destruct (elements h p) as [|x [|y l]]; auto. cbn in N. lia.
    + assert (F : field h' p' = mkSlice (s_arr (field h p)) (s_off (field h p) + 1) (s_len (field h p) - 1)).
      { change h' with (snd (p', h')). change p' with (fst (p', h')) at 2. rewrite <- R. apply alloc_field. }
      assert (H : h_arrays h' = h_arrays h) by (injection R as _ <-; reflexivity).
      unfold elements, view. rewrite F, H. cbn.
      destruct (s_len (field h p)) as [|n]; [lia|]. rewrite Nat.add_1_r. cbn. rewrite Nat.sub_0_r.
      generalize (nth (s_arr (field h p)) (h_arrays h) []). generalize (s_off (field h p)). clear. intros k a. revert a.
      induction k as [|k IH]; intros [|x a]; cbn; auto using firstn_nil.
  - intros p x L. rewrite append_array by auto. pose proof (array_elements (elements h p ++ [x]) h) as X.
    now destruct (with_array _ h).
Qed.

(** *** No call changes a list *)
Theorem lists_never_change h cs p : sound h -> legal_all cs h -> live h p ->
  elements (perform_all cs h) p = elements h p.
Proof. intros S0 L P. apply grew_elements; auto. now apply perform_all_grew. Qed.

(** *** Storage *)
Lemma assign_field h p i x q : field (assign p i x h) q = field h q.
Proof. reflexivity. Qed.
Lemma assign_elements h p i x q :
  s_arr (field h p) <> s_arr (field h q) -> elements (assign p i x h) q = elements h q.
Proof. intros N. unfold elements, view. rewrite assign_field. unfold assign. cbn. now rewrite set_nth_other. Qed.
Lemma fresh_array a h q : sound h -> live h q ->
  s_arr (field (snd (with_array a h)) (fst (with_array a h))) <> s_arr (field (snd (with_array a h)) q).
Proof.
  intros S0 L. rewrite array_field, (grew_field _ _ _ (array_grew a h) L). cbn.
  destruct (field_ok _ _ S0 L) as [B _]. lia.
Qed.

(** assigning to an element of the result of Append touches no list that was there before, and
    assigning to one of those does not touch the result *)
Theorem append_copies h p x : sound h -> live h p ->
  let (p', h') := list_append p x h in
  forall q i y, live h q ->
    elements (assign p' i y h') q = elements h q /\
    elements (assign q i y h') p' = elements h p ++ [x].
Proof.
  intros S0 L. rewrite append_array by auto. intros q i y Q.
  pose proof (fresh_array (elements h p ++ [x]) h q S0 Q) as F.
  split; cbn [fst snd with_array alloc_array alloc_list] in *.
  - rewrite assign_elements by exact F. apply grew_elements; auto. apply array_grew.
  - rewrite assign_elements by (apply not_eq_sym, F). apply (array_elements (elements h p ++ [x]) h).
Qed.

(** Rest of two or more elements is the same storage one further on; of fewer it is new *)
Theorem rest_shares h p i y : sound h -> live h p -> (S i < length (elements h p))%nat ->
  let (p', h') := list_rest p h in
  elements (assign p' i y h') p = set_nth (S i) y (elements h p).
Proof.
  intros S0 L I. pose proof (elements_length _ _ S0 L) as N. pose proof (field_ok _ _ S0 L) as [B C].
  unfold list_rest. destruct (Nat.leb_spec (s_len (field h p)) 1) as [X|_]; [lia|].
  set (s := mkSlice _ _ _). cbn [alloc_list].
  assert (F : field (mkHeap (h_arrays h) (h_lists h ++ [s])) (length (h_lists h)) = s) by apply (alloc_field s h).
  assert (P : field (mkHeap (h_arrays h) (h_lists h ++ [s])) p = field h p) by (apply (grew_field h _ p (alloc_grew s h) L)).
  unfold elements, view. rewrite assign_field, P. unfold assign. rewrite F. cbn [h_arrays s_arr s_off s].
  rewrite set_nth_here by exact B. rewrite <- Nat.add_assoc, set_nth_skipn, set_nth_firstn. reflexivity.
Qed.
Theorem rest_of_short_copies h p : sound h -> live h p -> (length (elements h p) <= 1)%nat ->
  let (p', h') := list_rest p h in
  elements h' p' = [] /\ forall q i y, live h q -> elements (assign p' i y h') q = elements h q.
Proof.
  intros S0 L I. pose proof (elements_length _ _ S0 L) as N.
  unfold list_rest. destruct (Nat.leb_spec (s_len (field h p)) 1) as [_|X]; [|lia].
  change (new_empty_list h) with (with_array [] h).
  pose proof (array_elements [] h) as E. pose proof (fun q => fresh_array [] h q S0) as F. pose proof (array_grew [] h) as G.
  destruct (with_array [] h) as [p' h']. cbn [fst snd] in *. split; [exact E|]. intros q i y Q.
  rewrite assign_elements by auto. now apply grew_elements.
Qed.
(** NewList keeps the slice it is called with: two lists made from one slice are one storage *)
Theorem new_list_shares h s i y : sound h -> slice_ok h s -> (i < s_len s)%nat ->
  let (p, h1) := new_list s h in
  let (q, h2) := new_list s h1 in
  elements (assign p i y h2) q = set_nth i y (view h s).
Proof.
  intros S0 [B C] I. unfold new_list, alloc_list. cbn.
  assert (F : forall k, (k = 0 \/ k = 1)%nat ->
    field (mkHeap (h_arrays h) ((h_lists h ++ [s]) ++ [s])) (length (h_lists h) + k) = s).
  { intros k K. unfold field. cbn. rewrite <- app_assoc, app_nth2, Nat.add_comm, Nat.add_sub by lia.
    destruct K; subst; reflexivity. }
  rewrite app_length. cbn [length]. unfold elements, view. rewrite assign_field, (F 1%nat) by auto.
  unfold assign. rewrite <- (Nat.add_0_r (length (h_lists h))), (F 0%nat) by auto. cbn [h_arrays].
  rewrite set_nth_here by exact B. now rewrite set_nth_skipn, set_nth_firstn.
Qed.
End Facts.

(** the comment on Rest promises a new list *)
Theorem rest_is_new_refuted : ~ forall (h : heap Z) p, sound h -> live h p ->
  let (p', h') := list_rest p h in
  forall q i y, live h q -> elements (assign p' i y h') q = elements h q.
Proof.
  intros H. specialize (H (mkHeap [[Some 1; Some 2]] [mkSlice 0 0 2]) 0%nat).
  cbn in H. specialize (H ltac:(repeat constructor) ltac:(cbv; lia) 0%nat 0%nat (Some 9) ltac:(cbv; lia)). discriminate H.
Qed.

(** *** Examples *)
Definition demo_heap : heap Z := mkHeap [[Some 1; Some 2; Some 3]; [None]] [mkSlice 0 0 3; mkSlice 1 0 1].
Example demo_sound : sound demo_heap /\ live demo_heap 0 /\ live demo_heap 1.
Proof. split; [repeat constructor; cbn; lia|split; cbv; lia]. Qed.
Example demo_methods :
  list_len demo_heap 0 = 3 /\ list_first demo_heap 0 = Some 1 /\ list_get demo_heap 0 2 = Some 3 /\
  list_get demo_heap 0 3 = None /\ list_get demo_heap 0 (-1) = None /\ list_is_empty demo_heap 0 = false.
Proof. repeat split. Qed.
(** appending twice to the same list: the second result does not clobber the first *)
Example demo_append :
  let (p1, h1) := list_append 0 (Some 4) demo_heap in
  let (p2, h2) := list_append 0 (Some 5) h1 in
  elements h2 p1 = [Some 1; Some 2; Some 3; Some 4] /\ elements h2 p2 = [Some 1; Some 2; Some 3; Some 5].
Proof. split; reflexivity. Qed.
Example demo_calls : legal_all [CRest 0; CAppend 2 (Some 7); CEmpty; CNew (mkSlice 0 1 1)] demo_heap /\
  map (elements (perform_all [CRest 0; CAppend 2 (Some 7); CEmpty; CNew (mkSlice 0 1 1)] demo_heap)) [0; 1; 2; 3; 4; 5]%nat =
  [[Some 1; Some 2; Some 3]; [None]; [Some 2; Some 3]; [Some 2; Some 3; Some 7]; []; [Some 2]].
Proof. split; [|reflexivity]. cbn. unfold live, slice_ok. cbn. repeat split; lia. Qed.
Example demo_rest : let (p', h') := list_rest 0 demo_heap in
  elements (assign p' 1 (Some 9) h') 0 = [Some 1; Some 2; Some 9].
Proof. reflexivity. Qed.

(** ** Assumptions of every theorem above *)
Print Assumptions list_methods.
Print Assumptions list_made.
Print Assumptions lists_never_change.
Print Assumptions append_copies.
Print Assumptions rest_shares.
Print Assumptions rest_of_short_copies.
Print Assumptions new_list_shares.
Print Assumptions rest_is_new_refuted.
