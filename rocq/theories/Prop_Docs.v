(** C44, C50, C51: the documentation registry, its listings, the documentation tool, and the
    documentation itself. *)
From Coq Require Import ZArith NArith List Bool Lia Permutation Sorted ZifyBool ZifyN Strings.Byte.
From Verif Require Import Base Float Ext Utf8 Strconv Values Buffer Builtins Eval Parser Json Writer Files Tools Docs DocsData Spec SpecFiles SpecDocs RefExt
  Proofs_Base Proofs_Utf8 Proofs_Files Prop_Calls Prop_Tools.
Import ListNotations.
Open Scope Z_scope.

Lemma str_ltb_before a : forall b, str_ltb a b = true <-> before a b.
Proof.
  induction a as [|x a IH]; intros [|y b]; cbn [str_ltb].
  - split; [discriminate|inversion 1].
  - split; [intros _; constructor|reflexivity].
  - split; [discriminate|inversion 1].
  - destruct (byteN x <? byteN y)%N eqn:L; [split; [intros _; constructor; lia|reflexivity]|].
    destruct (byteN y <? byteN x)%N eqn:G.
    + split; [discriminate|]. inversion 1; subst; lia.
    + assert (x = y) as -> by (apply byteN_inj; lia). rewrite IH. split; [now constructor|]. inversion 1; subst; auto. lia.
Qed.
Lemma before_trans a : forall b c, before a b -> before b c -> before a c.
Proof.
  induction a as [|x a IH]; intros b c A B.
  - inversion A; subst. inversion B; subst; constructor.
  - inversion A as [|? d ? t L|? ? t A']; subst; inversion B as [|? d' ? t' L'|? ? t' B']; subst; try (constructor; lia); try (constructor 2; auto; fail).
    apply bf_same. eapply IH; eauto.
Qed.
Lemma before_irrefl a : ~ before a a.
Proof. induction a as [|x a IH]; inversion 1; subst; [lia|auto]. Qed.
Lemma before_total a : forall b, before a b \/ a = b \/ before b a.
Proof.
  induction a as [|x a IH]; intros [|y b]; [auto|left; constructor|right; right; constructor|].
  destruct (N.lt_trichotomy (byteN x) (byteN y)) as [L|[L|L]]; [left; now constructor|apply byteN_inj in L as <-|right; right; now constructor].
  destruct (IH b) as [H|[<-|H]]; [left; now constructor|auto|right; right; now constructor].
Qed.

Section Sorting.
Context {A : Type} (key : A -> str).
Definition rel (x y : A) : Prop := before (key x) (key y).
Lemma insert_perm x l : Permutation (x :: l) (insert_sorted key x l).
Proof.
  induction l as [|y l IH]; cbn [insert_sorted]; [reflexivity|]. destruct (str_ltb (key y) (key x)); [|reflexivity].
  rewrite perm_swap. now constructor.
Qed.
Lemma sort_perm l : Permutation l (sort_by key l).
Proof. induction l as [|x l IH]; cbn [sort_by]; [reflexivity|]. rewrite <- insert_perm. now constructor. Qed.
Lemma insert_ssorted x l : StronglySorted rel l -> ~ In (key x) (map key l) -> StronglySorted rel (insert_sorted key x l).
Proof.
  induction 1 as [|y l S IH F]; intros N; cbn [insert_sorted]; [repeat constructor|].
  destruct (str_ltb (key y) (key x)) eqn:L.
  - apply str_ltb_before in L. constructor; [apply IH; cbn in N; tauto|]. apply Forall_forall. intros z Z.
    apply (Permutation_in z (Permutation_sym (insert_perm x l))) in Z as [<-|Z]; [exact L|]. rewrite Forall_forall in F. now apply F.
  - assert (X : before (key x) (key y)).
    { destruct (before_total (key y) (key x)) as [X|[X|X]]; [apply str_ltb_before in X; congruence|cbn in N; tauto|auto]. }
    constructor; [now constructor|]. constructor; auto. eapply Forall_impl; [|exact F]. intros z Z. unfold rel in *. eapply before_trans; eauto.
Qed.
Lemma sort_ssorted l : NoDup (map key l) -> StronglySorted rel (sort_by key l).
Proof.
  induction l as [|x l IH]; cbn [sort_by map]; intros N; [constructor|]. inversion N as [|? ? N1 N2]; subst. apply insert_ssorted; auto.
  intros I. apply N1. apply in_map_iff in I as (z & <- & I). apply in_map. eapply Permutation_in; [apply Permutation_sym, sort_perm|exact I].
Qed.
Lemma ssorted_unique l : forall l', StronglySorted rel l -> StronglySorted rel l' -> Permutation l l' -> l = l'.
Proof.
  induction l as [|x l IH]; intros l' S S' P; [now apply Permutation_nil in P|].
  destruct l' as [|y l']; [now apply Permutation_sym, Permutation_nil in P|]. inversion S as [|? ? S1 F1]; inversion S' as [|? ? S2 F2]; subst.
  assert (x = y).
  { assert (I1 : In x (y :: l')) by (eapply Permutation_in; [exact P|now left]). assert (I2 : In y (x :: l)) by (eapply Permutation_in; [apply Permutation_sym, P|now left]).
    destruct I1 as [->|I1]; auto. destruct I2 as [->|I2]; auto. rewrite Forall_forall in F1, F2. specialize (F1 y I2). specialize (F2 x I1).
    exfalso. apply (before_irrefl (key x)). eapply before_trans; eauto. }
  subst y. f_equal. apply IH; auto. now apply Permutation_cons_inv in P.
Qed.
End Sorting.

(** ** C44 *)
(** the listing of everything is the one sorted list with the registry's entries: it does not
    depend on the order of iteration, nor on the sorting algorithm *)
Theorem all_docs_is_sorted_registry r order : a_map r -> Permutation r order -> Permutation r (all_docs order) /\ by_name (all_docs order).
Proof.
  intros M P. split; [rewrite P; apply sort_perm|]. apply (sort_ssorted d_name). eapply Permutation_NoDup; [apply Permutation_map, P|exact M].
Qed.
Theorem all_docs_unique r l : a_map r -> Permutation r l -> by_name l -> l = all_docs r.
Proof.
  intros M P S. destruct (all_docs_is_sorted_registry r r M (Permutation_refl r)) as [P2 S2].
  apply (ssorted_unique d_name); auto. now rewrite <- P.
Qed.
Theorem all_docs_order r order : a_map r -> Permutation r order -> all_docs order = all_docs r.
Proof. intros M P. destruct (all_docs_is_sorted_registry r order M P). now apply all_docs_unique. Qed.
Lemma filter_perm {A} (f : A -> bool) l l' : Permutation l l' -> Permutation (filter f l) (filter f l').
Proof.
  induction 1 as [|x l l' _ IH|x y l|l1 l2 l3 _ IH1 _ IH2]; cbn [filter]; [constructor|destruct (f x); [now constructor|exact IH]| |now rewrite IH1].
  destruct (f x), (f y); try reflexivity. apply perm_swap.
Qed.
Lemma filter_map_nodup {A B} (f : A -> bool) (g : A -> B) l : NoDup (map g l) -> NoDup (map g (filter f l)).
Proof.
  induction l as [|x l IH]; cbn [filter map]; intros N; [constructor|]. inversion N as [|? ? N1 N2]; subst. destruct (f x); auto. cbn. constructor; auto.
  intros I. apply N1. apply in_map_iff in I as (z & <- & I). apply filter_In in I as [I _]. now apply in_map.
Qed.
Theorem category_listing r order cat : a_map r -> Permutation r order ->
  by_name (docs_in_category order cat) /\ (forall d, In d (docs_in_category order cat) <-> In d r /\ d_category d = cat) /\
  docs_in_category order cat = docs_in_category r cat.
Proof.
  intros M P. assert (M' : a_map order) by (eapply Permutation_NoDup; [apply Permutation_map, P|exact M]).
  set (f := fun d => str_eqb (d_category d) cat).
  assert (S : forall r, a_map r -> by_name (docs_in_category r cat)) by (intros q Q; apply (sort_ssorted d_name); now apply filter_map_nodup).
  split; [auto|]. split.
  - intros d. unfold docs_in_category. fold f. split.
    + intros I. apply (Permutation_in d (Permutation_sym (sort_perm d_name _))) in I. apply filter_In in I as [I F]. split; [now apply (Permutation_in d (Permutation_sym P))|now apply str_eqb_eq].
    + intros [I F]. apply (Permutation_in d (sort_perm d_name _)). apply filter_In. split; [now apply (Permutation_in d P)|now apply str_eqb_eq].
  - apply (ssorted_unique d_name); [now apply S|now apply S|]. unfold docs_in_category. rewrite <- !sort_perm. apply filter_perm. now symmetry.
Qed.
Lemma category_set_spec order : forall seen, NoDup seen -> Forall (fun c => c <> []) seen ->
  NoDup (category_set order seen) /\ Forall (fun c => c <> []) (category_set order seen) /\
  forall c, In c (category_set order seen) <-> In c seen \/ c <> [] /\ exists d, In d order /\ d_category d = c.
Proof.
  induction order as [|d order IH]; intros seen N F; cbn [category_set].
  - split; auto. split; auto. intros c. split; [auto|]. intros [I|(_ & d & [] & _)]; auto.
  - destruct (match d_category d with [] => true | _ => existsb (str_eqb (d_category d)) seen end) eqn:K.
    + replace (match d_category d with [] => true | _ :: _ => _ end) with true by (rewrite <- K; destruct (d_category d); reflexivity).
      destruct (IH seen N F) as (A & B & C). split; auto. split; auto. intros c. rewrite C. split; [intros [I|(X & e & I & Y)]; [auto|right; split; auto; exists e; split; [now right|auto]]|].
      intros [I|(X & e & [<-|I] & Y)]; [auto| |right; split; auto; exists e; auto].
      left. destruct (d_category d) as [|x l] eqn:Dc; [congruence|]. apply existsb_exists in K as (z & I & Z). apply str_eqb_eq in Z. congruence.
    + replace (match d_category d with [] => true | _ :: _ => _ end) with false by (rewrite <- K; destruct (d_category d); reflexivity).
      assert (Ne : d_category d <> []) by (intros X; rewrite X in K; discriminate).
      assert (Ni : ~ In (d_category d) seen).
      { intros I. destruct (d_category d) as [|x l] eqn:Dc; [congruence|]. assert (Y : existsb (str_eqb (x :: l)) seen = true) by (apply existsb_exists; exists (x :: l); split; auto; apply str_eqb_refl). congruence. }
      destruct (IH (d_category d :: seen)) as (A & B & C); [now constructor|now constructor|]. split; auto. split; auto. intros c. rewrite C. cbn [In]. split.
      * intros [[<-|I]|(X & e & I & Y)]; [right; split; auto; exists d; auto|auto|right; split; auto; exists e; auto].
      * intros [I|(X & e & [<-|I] & Y)]; [auto|auto|right; split; auto; exists e; auto].
Qed.
(** the categories: each non-empty one once, in increasing order, whatever the two orders of iteration *)
Theorem categories_listing r order shuffle : Permutation r order -> some_order shuffle ->
  StronglySorted before (get_categories shuffle order) /\
  (forall c, In c (get_categories shuffle order) <-> c <> [] /\ exists d, In d r /\ d_category d = c) /\
  get_categories shuffle order = get_categories (fun l => l) r.
Proof.
  assert (G : forall order shuffle, some_order shuffle -> StronglySorted before (get_categories shuffle order) /\
    forall c, In c (get_categories shuffle order) <-> c <> [] /\ exists d, In d order /\ d_category d = c).
  { intros ord sh Sh. destruct (category_set_spec ord [] ltac:(constructor) ltac:(constructor)) as (A & B & C). unfold get_categories. split.
    - apply (sort_ssorted (fun s : str => s)). rewrite map_id. eapply Permutation_NoDup; [apply Sh|exact A].
    - intros c. assert (P : Permutation (category_set ord []) (sort_by (fun s => s) (sh (category_set ord [])))) by (rewrite <- sort_perm; apply Sh).
      split.
      + intros I. apply (Permutation_in c (Permutation_sym P)) in I. apply C in I as [[]|I]; exact I.
      + intros I. apply (Permutation_in c P). apply C. now right. }
  intros P Sh. destruct (G order shuffle Sh) as [A B]. destruct (G r (fun l => l) (fun l => Permutation_refl l)) as [A' B'].
  assert (B2 : forall c, In c (get_categories shuffle order) <-> c <> [] /\ exists d, In d r /\ d_category d = c).
  { intros c. rewrite B. split; intros (X & d & I & Y); split; auto; exists d; split; auto; [now apply (Permutation_in d (Permutation_sym P))|now apply (Permutation_in d P)]. }
  split; auto. split; auto. apply (ssorted_unique (fun s : str => s)); auto.
  apply NoDup_Permutation; [| |intros c; now rewrite B2, B'].
  - clear - A. induction A as [|x l S IH F]; constructor; auto. intros I. rewrite Forall_forall in F. apply (before_irrefl x). auto.
  - clear - A'. induction A' as [|x l S IH F]; constructor; auto. intros I. rewrite Forall_forall in F. apply (before_irrefl x). auto.
Qed.
Definition demo_doc (n c : str) : function_doc := mkDoc n (bs "sum") [] [] [] [] c.
Definition demo_registry : registry := [demo_doc (bs "b") (bs "x"); demo_doc (bs "ab") (bs "y"); demo_doc (bs "a") (bs "x"); demo_doc (bs "c") []].
Example listings_witness : a_map demo_registry /\ map d_name (all_docs demo_registry) = [bs "a"; bs "ab"; bs "b"; bs "c"] /\
  map d_name (docs_in_category demo_registry (bs "x")) = [bs "a"; bs "b"] /\ get_categories (@rev str) demo_registry = [bs "x"; bs "y"].
Proof. split; [|vm_compute; repeat split; reflexivity]. repeat constructor; cbn; intros H; repeat destruct H as [H|H]; discriminate || exact H. Qed.
(** the verbose listing is not determined by the registry *)
Theorem verbose_listing_order_refuted : exists o1 o2 r, possible o1 /\ possible o2 /\ a_map r /\
  doc_handler o1 r [] [] true <> doc_handler o2 r [] [] true.
Proof.
  exists (mkOrders (fun r => r) (fun c => c) (fun g => g)), (mkOrders (fun r => r) (fun c => c) (@rev _)), demo_registry.
  assert (I : forall A, some_order (fun l : list A => l)) by (intros A l; reflexivity).
  split; [repeat split; apply I|]. split; [split; [apply I|split; [apply I|]]; intros l; apply Permutation_rev|]. split; [apply listings_witness|]. vm_compute. discriminate.
Qed.
(** everything else the tool says is *)
Theorem tool_answer_determined o1 o2 r name cat : possible o1 -> possible o2 -> a_map r ->
  doc_handler o1 r name cat false = doc_handler o2 r name cat false.
Proof.
  intros (P1 & Q1 & _) (P2 & Q2 & _) M. unfold doc_handler, suggestions.
  rewrite !(all_docs_order r (o_registry _ r)) by auto.
  destruct (category_listing r (o_registry o1 r) cat M (P1 r)) as (_ & _ & ->). destruct (category_listing r (o_registry o2 r) cat M (P2 r)) as (_ & _ & ->).
  destruct (categories_listing r (o_registry o1 r) (o_categories o1) (P1 r) Q1) as (_ & _ & ->).
  destruct (categories_listing r (o_registry o2 r) (o_categories o2) (P2 r) Q2) as (_ & _ & ->). reflexivity.
Qed.
Theorem command_answer_determined title o1 o2 r args cat : possible o1 -> possible o2 -> a_map r ->
  run_doc title o1 r args cat false = run_doc title o2 r args cat false.
Proof.
  intros (P1 & Q1 & _) (P2 & Q2 & _) M. unfold run_doc. rewrite !(all_docs_order r (o_registry _ r)) by auto.
  destruct (category_listing r (o_registry o1 r) cat M (P1 r)) as (_ & _ & ->). destruct (category_listing r (o_registry o2 r) cat M (P2 r)) as (_ & _ & ->). reflexivity.
Qed.

(** ** C50 *)
Lemma get_doc_spec r name d : a_map r -> get_doc r name = Some d <-> In d r /\ d_name d = name.
Proof.
  unfold get_doc, a_map. induction r as [|x r IH]; cbn [find map In]; intros M.
  - split; [discriminate|]. intros [[] _].
  - inversion M as [|? ? N M']; subst. destruct (str_eqb (d_name x) name) eqn:Q.
    + apply str_eqb_eq in Q. split; [intros H; injection H as <-; auto|]. intros [[->|I] X]; [reflexivity|]. exfalso. apply N. rewrite Q, <- X. now apply in_map.
    + rewrite IH by auto. split; [intros [I X]; auto|]. intros [[->|I] X]; [rewrite X, str_eqb_refl in Q; discriminate|auto].
Qed.
(** registering replaces an entry of the same name and leaves the others *)
Theorem register_and_look_up r d name : a_map r -> a_map (register r d) /\
  get_doc (register r d) name = if str_eqb name (d_name d) then Some d else get_doc r name.
Proof.
  intros M. assert (M' : a_map (register r d)).
  { unfold a_map, register. cbn [map]. constructor.
    - intros I. apply in_map_iff in I as (x & X & I). apply filter_In in I as [_ I]. rewrite X, str_eqb_refl in I. discriminate.
    - now apply filter_map_nodup. }
  split; auto. destruct (str_eqb name (d_name d)) eqn:Q.
  - apply str_eqb_eq in Q. apply get_doc_spec; auto. split; [now left|auto].
  - assert (K : forall x, get_doc (register r d) name = Some x <-> get_doc r name = Some x).
    { intros x. rewrite !get_doc_spec by auto. unfold register. cbn [In]. rewrite filter_In. split.
      - intros [[->|[I _]] X]; [rewrite X, str_eqb_refl in Q; discriminate|auto].
      - intros [I X]. split; auto. right. split; auto. apply negb_true_iff. rewrite X. exact Q. }
    destruct (get_doc r name) as [x|]; [now apply K|]. destruct (get_doc (register r d) name) as [y|]; auto. destruct (K y) as [X _]. now rewrite X.
Qed.
Example register_witness : let r := register (register [] (demo_doc (bs "a") (bs "x"))) (demo_doc (bs "a") (bs "y")) in
  option_map d_category (get_doc r (bs "a")) = Some (bs "y") /\ doc_count r = 1.
Proof. split; reflexivity. Qed.
(** a name is answered with a text exactly when it is documented *)
Theorem tool_finds_documented o r name verbose : a_map r -> name <> [] ->
  (exists t, doc_handler o r name [] verbose = ToolText t) <-> exists d, In d r /\ d_name d = name.
Proof.
  intros M N. unfold doc_handler. replace (nonnil name) with true by (destruct name; [congruence|reflexivity]). cbn [nonnil andb].
  destruct (get_doc r name) as [d|] eqn:G.
  - apply get_doc_spec in G; auto. split; [intros _; eauto|intros _; eexists; reflexivity].
  - split; [intros [t H]; discriminate|]. intros (d & H). apply get_doc_spec in H; auto. congruence.
Qed.
(** otherwise with at most three suggestions, all of them documented and similar *)
Theorem tool_suggests_similar o r name verbose : possible o -> a_map r -> name <> [] -> (forall d, In d r -> d_name d <> name) ->
  exists s, (length s <= 3)%nat /\ (forall n, In n s -> (exists d, In d r /\ d_name d = n) /\ (within name n \/ within n name)) /\
    ((exists d, In d r /\ (within name (d_name d) \/ within (d_name d) name)) -> s <> []) /\
    doc_handler o r name [] verbose = ToolError (bs "Function '" ++ name ++ bs "' not found" ++
      (if s then [] else bs ". Did you mean: " ++ join (bs ", ") s)).
Proof.
  intros (P & _) M N U. unfold doc_handler. replace (nonnil name) with true by (destruct name; [congruence|reflexivity]). cbn [nonnil andb].
  destruct (get_doc r name) as [d|] eqn:G; [apply get_doc_spec in G as [I X]; auto; destruct (U d I X)|].
  exists (suggestions (o_registry o r) name). set (s := suggestions _ _).
  assert (Ok : forall d, In d (filter (fun d => str_contains (d_name d) name || str_contains name (d_name d)) (all_docs (o_registry o r))) <->
    In d r /\ (within name (d_name d) \/ within (d_name d) name)).
  { intros d. rewrite filter_In, orb_true_iff, !contains_occurs. unfold within.
    assert (K : In d (all_docs (o_registry o r)) <-> In d r).
    { split; intros I; [apply (Permutation_in d (Permutation_sym (P r))), (Permutation_in d (Permutation_sym (sort_perm d_name _))), I
        |apply (Permutation_in d (sort_perm d_name _)), (Permutation_in d (P r)), I]. }
    rewrite K. reflexivity. }
  split; [unfold s, suggestions; apply firstn_le_length|]. split.
  { intros n I. assert (I2 : In n (map d_name (filter (fun d => str_contains (d_name d) name || str_contains name (d_name d)) (all_docs (o_registry o r))))).
    { unfold s, suggestions in I. rewrite <- (firstn_skipn 3). apply in_or_app. now left. }
    apply in_map_iff in I2 as (d & <- & I2). apply Ok in I2 as [I2 S]. eauto. }
  split.
  { intros (d & I & S). unfold s, suggestions. assert (I2 := proj2 (Ok d) (conj I S)). destruct (filter _ _); [destruct I2|discriminate]. }
  unfold when. destruct s; reflexivity.
Qed.
Example suggestions_witness : doc_handler (mkOrders (@rev _) (@rev _) (@rev _)) registered (bs "search") [] false =
  ToolError (bs "Function 'search' not found. Did you mean: re-search-backward, re-search-forward, search-backward").
Proof. vm_compute. reflexivity. Qed.
(** a category is answered with a text exactly when some function is in it *)
Theorem tool_lists_category o r cat verbose : possible o -> a_map r -> cat <> [] ->
  (exists t, doc_handler o r [] cat verbose = ToolText t) <-> exists d, In d r /\ d_category d = cat.
Proof.
  intros (P & _) M N. unfold doc_handler. cbn [nonnil andb]. replace (nonnil cat) with true by (destruct cat; [congruence|reflexivity]).
  destruct (category_listing r (o_registry o r) cat M (P r)) as (_ & K & _).
  destruct (docs_in_category (o_registry o r) cat) as [|x l] eqn:D.
  - split; [intros [t H]; discriminate|]. intros (d & H). apply K in H as [].
  - split; [intros _; exists x; apply K; now left|intros _; eexists; reflexivity].
Qed.
Theorem tool_name_or_category o r name cat verbose : name <> [] -> cat <> [] -> exists m, doc_handler o r name cat verbose = ToolError m.
Proof. unfold doc_handler. destruct name, cat; try congruence. eexists. reflexivity. Qed.
(** the command and the tool know the same functions and categories *)
Theorem command_agrees_with_tool title o r name cat verbose : possible o -> a_map r ->
  (name <> [] -> (exists t, run_doc title o r [name] cat verbose = Ok t) <-> exists t, doc_handler o r name [] verbose = ToolText t) /\
  (cat <> [] -> (exists t, run_doc title o r [] cat verbose = Ok t) <-> exists t, doc_handler o r [] cat verbose = ToolText t).
Proof.
  intros P M. split; intros N.
  - rewrite tool_finds_documented by auto. unfold run_doc. destruct (get_doc r name) as [d|] eqn:G.
    + apply get_doc_spec in G; auto. split; [intros _; eauto|intros _; eexists; reflexivity].
    + split; [intros [t H]; discriminate|]. intros (d & H). apply get_doc_spec in H; auto. congruence.
  - unfold run_doc, doc_handler. replace (nonnil cat) with true by (destruct cat; [congruence|reflexivity]). cbn [nonnil andb].
    destruct (docs_in_category (o_registry o r) cat); cbn [nonnil negb]; split; intros [t H]; try discriminate; eexists; reflexivity.
Qed.

(** ** C51 *)
Fixpoint distinct (l : list str) : bool := match l with [] => true | x :: l' => negb (existsb (str_eqb x) l') && distinct l' end.
Lemma in_strs x l : existsb (str_eqb x) l = true <-> In x l.
Proof. rewrite existsb_exists. split; [intros (y & I & Y); apply str_eqb_eq in Y; now subst|intros I; exists x; split; [auto|apply str_eqb_refl]]. Qed.
Lemma distinct_nodup l : distinct l = true -> NoDup l.
Proof.
  induction l as [|x l IH]; cbn [distinct]; intros H; constructor; apply andb_prop in H as [H1 H2]; auto.
  rewrite <- in_strs. destruct (existsb _ l); [discriminate|congruence].
Qed.
(** exactly the commands of the default environment are documented, each once *)
Theorem documentation_complete E : a_map registered /\ forall n, default_env E n <> None <-> exists d, In d registered /\ d_name d = n.
Proof.
  split; [apply distinct_nodup; vm_compute; reflexivity|]. intros n. rewrite signatures_are_the_commands.
  assert (A : forall x, In x signatures -> In (bs (fst x)) (map d_name registered)).
  { intros x I. apply in_strs. revert x I. apply (proj1 (forallb_forall _ _)). vm_compute. reflexivity. }
  assert (B : forall d, In d registered -> In (d_name d) (map (fun x => bs (fst x)) signatures)).
  { intros d I. apply in_strs. revert d I. apply (proj1 (forallb_forall _ _)). vm_compute. reflexivity. }
  split.
  - intros (name & s & -> & I). apply A in I. apply in_map_iff in I as (d & X & I). exists d. auto.
  - intros (d & I & <-). apply B in I. apply in_map_iff in I as ([name s] & X & I). exists name, s. auto.
Qed.
(** cross references lead somewhere; no entry lacks a summary, a description, a category or an
    example *)
Theorem documentation_well_formed d : In d registered ->
  (forall n, In n (d_see d) -> exists e, In e registered /\ d_name e = n /\ e <> d) /\
  d_summary d <> [] /\ d_desc d <> [] /\ d_category d <> [] /\ d_examples d <> [].
Proof.
  assert (A : forall d, In d registered -> forallb (fun n => existsb (str_eqb n) (map d_name registered) && negb (str_eqb n (d_name d))) (d_see d) &&
    nonnil (d_summary d) && nonnil (d_desc d) && nonnil (d_category d) && nonnil (d_examples d) = true).
  { apply (proj1 (forallb_forall _ _)). vm_compute. reflexivity. }
  intros I. specialize (A d I). repeat (apply andb_prop in A as [A ?X]). split.
  - intros n N. rewrite forallb_forall in A. specialize (A n N). apply andb_prop in A as [A1 A2]. apply in_strs, in_map_iff in A1 as (e & <- & Ie).
    exists e. split; auto. split; auto. intros ->. rewrite str_eqb_refl in A2. discriminate.
  - repeat split; intros Y; match goal with X : nonnil ?l = true |- _ => rewrite Y in X; discriminate X end.
Qed.
(** the shapes of argument lists a list of parameters allows *)
Definition kind_of (p : param_doc) : option kind :=
  if str_eqb (p_type p) (bs "string") then Some KString else if str_eqb (p_type p) (bs "number") then Some KNumber else None.
Fixpoint shapes (ps : list param_doc) : list (list kind) :=
  match ps with
  | [] => [[]]
  | p :: ps' => (if p_optional p && existsb (fun k => negb (nonnil k)) (shapes ps') then [[]] else []) ++
                match kind_of p with Some k => map (cons k) (shapes ps') | None => [] end
  end.
Lemma kind_of_spec p v : type_is (p_type p) v <-> exists k, kind_of p = Some k /\ has_kind k v.
Proof.
  unfold kind_of, type_is. destruct (str_eqb (p_type p) (bs "string")) eqn:A.
  - apply str_eqb_eq in A. rewrite A. split.
    + intros [[_ [s ->]]|[H _]]; [exists KString; split; [reflexivity|exact I]|discriminate].
    + intros (k & H & K). injection H as <-. destruct v; try destruct K. left. eauto.
  - destruct (str_eqb (p_type p) (bs "number")) eqn:B.
    + apply str_eqb_eq in B. rewrite B. split.
      * intros [[H _]|[_ [f ->]]]; [discriminate|exists KNumber; split; [reflexivity|exact I]].
      * intros (k & H & K). injection H as <-. destruct v; try destruct K. right. eauto.
    + split; [|intros (k & H & _); discriminate]. intros [[H _]|[H _]]; rewrite H, str_eqb_refl in *; discriminate.
Qed.
Lemma shapes_spec ps : forall args, matches ps args <-> exists ks, In ks (shapes ps) /\ Forall2 has_kind ks args.
Proof.
  induction ps as [|p ps IH]; intros args; cbn [shapes].
  - split.
    + inversion 1; subst. exists []. split; [now left|constructor].
    + intros (ks & [<-|[]] & F). inversion F; subst. constructor.
  - assert (Nil : existsb (fun k => negb (nonnil k)) (shapes ps) = true <-> matches ps []).
    { rewrite IH, existsb_exists. split; intros (k & Ik & K).
      - destruct k; [|discriminate]. exists []. split; auto.
      - inversion K; subst. exists []. split; auto. }
    split.
    + inversion 1 as [|? ? O M|? ? v vs T M]; subst.
      * exists []. split; [|constructor]. apply in_or_app. left. apply Nil in M. rewrite O, M. now left.
      * apply IH in M as (ks & Ik & F). apply kind_of_spec in T as (k & K & V). rewrite K. exists (k :: ks). split; [|now constructor].
        apply in_or_app. right. now apply in_map.
    + intros (ks & Ik & F). apply in_app_or in Ik as [Ik|Ik].
      * destruct (p_optional p && _) eqn:O; [|destruct Ik]. destruct Ik as [<-|[]]. inversion F; subst. apply andb_prop in O as [O1 O2]. apply mt_skip; auto. now apply Nil.
      * destruct (kind_of p) as [k|] eqn:K; [|destruct Ik]. apply in_map_iff in Ik as (ks' & <- & Ik). inversion F as [|? v ? vs V F']; subst.
        apply mt_take; [apply kind_of_spec; eauto|]. apply IH. eauto.
Qed.
Definition kind_eqb (a b : kind) : bool := match a, b with KString, KString | KNumber, KNumber => true | _, _ => false end.
Fixpoint list_eqb {A} (eqb : A -> A -> bool) (l l' : list A) : bool :=
  match l, l' with [], [] => true | x :: l, y :: l' => eqb x y && list_eqb eqb l l' | _, _ => false end.
Lemma list_eqb_eq {A} (eqb : A -> A -> bool) : (forall x y, eqb x y = true -> x = y) -> forall l l', list_eqb eqb l l' = true -> l = l'.
Proof. intros H. induction l as [|x l IH]; destruct l' as [|y l']; cbn; try congruence. intros X. apply andb_prop in X as [X Y]. apply H in X. apply IH in Y. congruence. Qed.
Definition agrees (d : function_doc) (x : String.string * signature) : bool :=
  str_eqb (d_name d) (bs (fst x)) &&
  match snd x with OneOf ss => list_eqb (list_eqb kind_eqb) (shapes (d_params d)) ss | _ => false end.
(** the documented parameters of every command but concat are exactly its signature *)
Theorem documented_signatures d : In d registered -> d_name d <> bs "concat" ->
  exists name s, d_name d = bs name /\ In (name, s) signatures /\ forall args, matches (d_params d) args <-> accepts s args.
Proof.
  assert (A : forall d, In d registered -> str_eqb (d_name d) (bs "concat") || existsb (agrees d) signatures = true).
  { apply (proj1 (forallb_forall _ _)). vm_compute. reflexivity. }
  intros I N. specialize (A d I). apply orb_prop in A as [A|A]; [apply str_eqb_eq in A; congruence|].
  apply existsb_exists in A as ([name s] & Is & A). unfold agrees in A. cbn [fst snd] in A. apply andb_prop in A as [A B].
  apply str_eqb_eq in A. exists name, s. split; auto. split; auto. intros args. destruct s as [ss|k]; [|discriminate].
  apply list_eqb_eq in B; [|intros x y; apply list_eqb_eq; intros [] []; cbn; congruence]. subst ss. cbn [accepts]. apply shapes_spec.
Qed.
(** so a call that does not fit the documentation is rejected, without effect *)
Theorem undocumented_arguments_rejected E d args b : In d registered -> d_name d <> bs "concat" -> ~ matches (d_params d) args ->
  exists f e, default_env E (d_name d) = Some f /\ f args b = Fail (d_name d ++ bs " expects " ++ e) b.
Proof.
  intros I N M. destruct (documented_signatures d I N) as (name & s & X & Is & A). rewrite A in M.
  destruct (wrong_arguments_are_rejected E name s args b Is M) as (e & H); [intros ->; congruence|].
  unfold call in H. rewrite <- X in H. destruct (default_env E (d_name d)) as [f|] eqn:D; [eauto|].
  exfalso. apply (f_equal (fun o => match o with Fail (c :: _) _ => Some c | _ => None end)) in H. cbn in H.
  assert (K : default_env E (d_name d) <> None) by (apply signatures_are_the_commands; eauto). congruence.
Qed.
(** and one that does is not rejected for its arguments *)
Theorem documented_arguments_accepted E d args b f e b' : In d registered -> d_name d <> bs "concat" -> matches (d_params d) args ->
  default_env E (d_name d) = Some f -> f args b = Fail e b' -> exists name, d_name d = bs name /\ expected_error E name args e.
Proof.
  intros I N M D H. destruct (documented_signatures d I N) as (name & s & X & Is & A). rewrite A in M. exists name. split; auto.
  apply (accepted_arguments_are_not_rejected E name s args b e b' Is M). unfold call. now rewrite <- X, D.
Qed.
Example documented_witness : In doc_substring registered /\ matches (d_params doc_substring) [VStr (bs "abc"); VInt 1] /\
  ~ matches (d_params doc_substring) [VStr (bs "abc")].
Proof.
  split; [apply (nth_error_In _ 48); reflexivity|]. split.
  - repeat (constructor; [first [left; split; [reflexivity|eexists; reflexivity]|right; split; [reflexivity|eexists; reflexivity]]|]). apply mt_skip; [reflexivity|constructor].
  - rewrite shapes_spec. intros (ks & I & F). vm_compute in I. destruct I as [<-|[<-|[]]]; inversion F as [|? ? ? ? _ F']; inversion F'.
Qed.
(** concat is documented as taking one string; it takes any number of them *)
Theorem concat_documentation_refuted : exists d args, In d registered /\ ~ matches (d_params d) args /\
  forall E b, exists f v, default_env E (d_name d) = Some f /\ f args b = Done v b.
Proof.
  exists doc_concat, [VStr (bs "a"); VStr (bs "b")]. split; [apply (nth_error_In _ 8); reflexivity|]. split.
  - rewrite shapes_spec. intros (ks & I & F). vm_compute in I. destruct I as [<-|[]]. inversion F as [|? ? ? ? _ F']; inversion F'.
  - intros E b. exists b_concat. exists (VStr (bs "ab")). split; reflexivity.
Qed.

(** ** Assumptions of every theorem above *)
Print Assumptions all_docs_is_sorted_registry.
Print Assumptions all_docs_unique.
Print Assumptions all_docs_order.
Print Assumptions category_listing.
Print Assumptions categories_listing.
Print Assumptions verbose_listing_order_refuted.
Print Assumptions tool_answer_determined.
Print Assumptions command_answer_determined.
Print Assumptions register_and_look_up.
Print Assumptions tool_finds_documented.
Print Assumptions tool_suggests_similar.
Print Assumptions tool_lists_category.
Print Assumptions tool_name_or_category.
Print Assumptions command_agrees_with_tool.
Print Assumptions documentation_complete.
Print Assumptions documentation_well_formed.
Print Assumptions documented_signatures.
Print Assumptions undocumented_arguments_rejected.
Print Assumptions documented_arguments_accepted.
Print Assumptions concat_documentation_refuted.
