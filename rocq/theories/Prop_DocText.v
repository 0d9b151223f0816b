(** C57: what the pages and listings of the documentation show. *)
From Coq Require Import ZArith NArith List Bool Lia Permutation Sorted ZifyBool ZifyN Strings.Byte.
From Verif Require Import Base Float Ext Utf8 Strconv Values Buffer Builtins Eval Parser Json Writer Files Tools Docs DocsData Spec SpecFiles SpecDocs RefExt
  Proofs_Base Proofs_Utf8 Proofs_Token Proofs_Lines Prop_Docs.
Import ListNotations.
Open Scope Z_scope.

(** ** C57 *)
Lemma within_refl x : within x x. Proof. exists [], []. now rewrite app_nil_r. Qed.
Lemma within_left x a b : within x a -> within x (a ++ b).
Proof. intros (p & q & ->). exists p, (q ++ b). now rewrite !app_assoc. Qed.
Lemma within_right x a b : within x b -> within x (a ++ b).
Proof. intros (p & q & ->). exists (a ++ p), q. now rewrite !app_assoc. Qed.
Lemma within_cons x c b : within x b -> within x (c :: b).
Proof. apply (within_right x [c]). Qed.
Lemma within_head x a b : within x (a ++ x ++ b). Proof. now exists a, b. Qed.
Lemma within_flat {A} x (f : A -> str) l y : In y l -> within x (f y) -> within x (flat_map f l).
Proof.
  induction l as [|z l IH]; [intros []|]. intros [->|I] W; cbn [flat_map]; [now apply within_left|apply within_right; auto].
Qed.
Lemma within_join x sep l y : In y l -> within x y -> within x (join sep l).
Proof.
  induction l as [|z l IH]; [intros []|]. intros I W. destruct l as [|z' l]; [destruct I as [->|[]]; exact W|].
  change (join sep (z :: z' :: l)) with (z ++ sep ++ join sep (z' :: l)). destruct I as [->|I]; [now apply within_left|].
  apply within_right, within_right. auto.
Qed.
Lemma within_nil s : within [] s. Proof. now exists [], s. Qed.
Lemma within_when x b s : b = true -> within x s -> within x (when b s).
Proof. intros ->. auto. Qed.
Lemma nonnil_true {A} (l : list A) : l <> [] -> nonnil l = true. Proof. destruct l; [congruence|reflexivity]. Qed.
Lemma in_nonnil {A} (x : A) l : In x l -> nonnil l = true. Proof. destruct l; [intros []|reflexivity]. Qed.

(** trimming text that starts with a visible character removes white space at its end *)
Definition blank_byte (b : byte) : Prop := (128 <= byteN b)%N \/ (is_space (byteN b) = true /\ (byteN b < 128)%N).
Lemma drop_space_split l : exists ws, l = ws ++ drop_space l /\ Forall (fun ra => is_space (r_rune ra) = true) ws.
Proof.
  induction l as [|ra l (ws & E & F)]; [exists []; split; constructor|]. cbn [drop_space]. destruct (is_space (r_rune ra)) eqn:S.
  - exists (ra :: ws). split; [cbn; now f_equal|]. constructor; auto.
  - exists []. split; constructor.
Qed.
Lemma trim_trimmed c t : (33 <= byteN c <= 126)%N -> trimmed_to (c :: t) (trim_space (c :: t)).
Proof.
  intros C. unfold trim_space. rewrite runes_ascii by lia. cbn [drop_space r_rune good_rune].
  replace (is_space (byteN c)) with false by (unfold is_space; lia).
  set (l := good_rune (byteN c) :: runes t). destruct (drop_space_split (rev l)) as (ws & E & F).
  assert (L : l = rev (drop_space (rev l)) ++ rev ws) by (rewrite <- rev_app_distr, <- E; now rewrite rev_involutive).
  set (kept := rev (drop_space (rev l))) in *.
  assert (X : c :: t = flat_map r_bytes kept ++ flat_map r_bytes (rev ws)).
  { rewrite <- flat_map_app, <- L. unfold l. rewrite <- (runes_ascii c t) by lia. now rewrite runes_bytes. }
  exists (flat_map r_bytes (rev ws)). split; [exact X|]. rewrite X. intros x (a & z & -> & Z) (p & q & W).
  assert (B : Forall blank_byte (flat_map r_bytes (rev ws))).
  { apply Forall_forall. intros b I. apply in_flat_map in I as (ra & I & Ib). apply in_rev in I.
    rewrite Forall_forall in F. specialize (F ra I).
    assert (R : rune_form ra).
    { assert (Fl : Forall rune_form l) by (unfold l; rewrite <- (runes_ascii c t) by lia; apply runes_form).
      rewrite Forall_forall in Fl. apply Fl. rewrite L. apply in_or_app. right. now apply -> in_rev. }
    destruct R as [(r & V & ->)|(b' & _ & ->)]; [|discriminate F]. cbn [r_rune r_bytes good_rune] in F, Ib.
    destruct (encode_bytes r b V Ib) as [[Er Hr]|H]; [right; rewrite Er; auto|now left]. }
  replace (p ++ (a ++ [z]) ++ q) with ((p ++ a ++ [z]) ++ q) in W by now rewrite <- !app_assoc.
  symmetry in W. apply app_eq_app in W as (u & [[W1 W2]|[W1 W2]]).
  - destruct u as [|y u _] using rev_ind.
    + rewrite app_nil_r in W1. exists p, []. rewrite app_nil_r. now symmetry.
    + assert (z = y). { rewrite !app_assoc in W1. apply app_inj_tail in W1 as [_ W1]. exact W1. } subst y. exfalso.
      assert (H : blank_byte z). { rewrite Forall_forall in B. apply B. rewrite W2. apply in_or_app. left. apply in_or_app. right. now left. }
      destruct H as [H|[H _]]; [lia|]. unfold is_space in H. lia.
  - exists p, u. rewrite W1. now rewrite <- !app_assoc.
Qed.

Lemma trim_heading full : firstn 1 full = bs "#" -> trimmed_to full (trim_space full).
Proof. destruct full as [|c t]; [discriminate|]. intros [= ->]. apply trim_trimmed. cbn. lia. Qed.

(** the page of the tool shows everything, labelled, except (at the very end of the page) white
    space *)
Theorem tool_page_complete o r d verbose : a_map r -> In d r -> d_name d <> [] ->
  exists t, doc_handler o r (d_name d) [] verbose = ToolText t /\
    forall x, tool_shows d x -> visible_end x -> within x t.
Proof.
  intros M I N. unfold doc_handler. rewrite (nonnil_true _ N). cbn [nonnil andb].
  replace (get_doc r (d_name d)) with (Some d) by (symmetry; apply get_doc_spec; auto).
  eexists. split; [reflexivity|]. intros x S V. unfold format_doc.
  match goal with |- within _ (trim_space ?f) => set (full := f) end.
  destruct (trim_trimmed "#"%byte (tl full)) as (w & _ & T); [cbn; lia|]. change ("#"%byte :: tl full) with full in T.
  apply T; [exact V|]. clear T w V. unfold full. clear full.
  destruct S as [|Hs| |p Ip|p Ip Hp|e Ie|e Ie|Hc|Hs].
  - rewrite app_assoc. apply within_left, within_refl.
  - do 3 apply within_right. apply within_left, within_when; [now apply nonnil_true|]. rewrite !app_assoc. apply within_left. rewrite <- app_assoc. apply within_refl.
  - destruct (d_desc d) eqn:D; [apply within_nil|]. rewrite <- D. do 4 apply within_right. apply within_left, within_when; [now rewrite D|]. apply within_left, within_refl.
  - do 5 apply within_right. apply within_left, within_when; [eapply in_nonnil; eauto|]. do 2 apply within_right. apply within_left.
    eapply within_flat; [exact Ip|]. unfold param_line. rewrite !app_assoc. do 2 apply within_left. apply within_refl.
  - do 5 apply within_right. apply within_left, within_when; [eapply in_nonnil; eauto|]. do 2 apply within_right. apply within_left.
    eapply within_flat; [exact Ip|]. unfold param_line. rewrite (nonnil_true _ Hp). cbn [when].
    change (bs "): ") with (bs ")" ++ bs ": "). rewrite !app_assoc. apply within_left. apply within_refl.
  - destruct (e_desc e) eqn:D; [apply within_nil|]. rewrite <- D.
    do 6 apply within_right. apply within_left, within_when; [eapply in_nonnil; eauto|]. do 2 apply within_right.
    eapply within_flat; [exact Ie|]. unfold example_block. apply within_left, within_when; [now rewrite D|]. apply within_left, within_refl.
  - do 6 apply within_right. apply within_left, within_when; [eapply in_nonnil; eauto|]. do 2 apply within_right.
    eapply within_flat; [exact Ie|]. unfold example_block. apply within_right. exists [], [nl; nl]. cbn [app].
    rewrite <- !app_assoc. cbn [app]. rewrite <- ?app_assoc. reflexivity.
  - do 7 apply within_right. apply within_left, within_when; [now apply nonnil_true|]. rewrite app_assoc. apply within_left, within_refl.
  - do 8 apply within_right. apply within_when; [now apply nonnil_true|]. rewrite app_assoc. apply within_left, within_refl.
Qed.
(** the page of the command shows everything, including which parameters are optional and what
    the examples result in *)
Theorem command_page_complete title o r d cat verbose : a_map r -> In d r ->
  exists t, run_doc title o r [d_name d] cat verbose = Ok t /\ forall x, command_shows d x -> within x t.
Proof.
  intros M I. unfold run_doc. replace (get_doc r (d_name d)) with (Some d) by (symmetry; apply get_doc_spec; auto).
  eexists. split; [reflexivity|]. intros x S. unfold cli_doc. destruct S as [| | |p Ip|e x Ie Ix|Hc|n Hn].
  - rewrite app_assoc. apply within_left, within_refl.
  - do 3 apply within_right. rewrite !app_assoc. do 6 apply within_left. rewrite <- app_assoc. apply within_refl.
  - destruct (d_desc d) eqn:D; [apply within_nil|]. rewrite <- D. do 7 apply within_right. apply within_left, within_when; [now rewrite D|]. do 2 apply within_right. apply within_left, within_refl.
  - do 8 apply within_right. apply within_left, within_when; [eapply in_nonnil; eauto|]. do 2 apply within_right. apply within_left.
    eapply within_flat; [exact Ip|]. unfold cli_param_line. destruct (p_optional p); cbn [when].
    + change (bs " (optional): ") with (bs " (optional)" ++ bs ": "). rewrite !app_assoc. apply within_left, within_refl.
    + rewrite app_nil_l. rewrite !app_assoc. apply within_left, within_refl.
  - do 9 apply within_right. apply within_left, within_when; [eapply in_nonnil; eauto|]. do 2 apply within_right. apply within_left.
    eapply within_join; [apply in_map; exact Ie|]. unfold cli_example. destruct Ix as [<-|[<-|[<-|[<-|[]]]]].
    + apply within_right, within_left, within_refl.
    + destruct (e_buffer e) eqn:B; [apply within_nil|]. rewrite <- B. do 3 apply within_right. apply within_left, within_when; [now rewrite B|].
      apply within_right, within_cons, within_right, within_cons, within_left, within_refl.
    + do 4 apply within_right. apply within_right, within_cons, within_right, within_cons, within_left, within_refl.
    + do 4 apply within_right. apply within_right, within_cons, within_right, within_cons, within_right, within_cons, within_right, within_right.
      apply within_right, within_cons, within_left, within_refl.
  - do 10 apply within_right. apply within_left, within_when; [now apply nonnil_true|]. rewrite !app_assoc. apply within_left, within_refl.
  - do 11 apply within_right. apply within_when; [eapply in_nonnil; eauto|]. do 2 apply within_right. apply within_left.
    eapply within_flat; [exact Hn|]. rewrite app_assoc. apply within_left, within_refl.
Qed.
Example page_witness : In doc_substring registered /\ d_name doc_substring = bs "substring" /\
  (exists p, In p (d_params doc_substring) /\ p_optional p = true /\
    tool_shows doc_substring (bs "- **" ++ p_name p ++ bs "** (" ++ p_type p ++ bs ")") /\
    visible_end (bs "- **" ++ p_name p ++ bs "** (" ++ p_type p ++ bs ")") /\
    command_shows doc_substring (bs "- **" ++ p_name p ++ bs "** (" ++ p_type p ++ bs ")" ++ bs " (optional): " ++ p_desc p)).
Proof.
  split; [apply (nth_error_In _ 48); reflexivity|]. split; [reflexivity|].
  set (p := nth 2 (d_params doc_substring) (mkParam [] [] [] false)). exists p.
  assert (I : In p (d_params doc_substring)) by (apply nth_In; cbn; lia). split; [exact I|]. split; [reflexivity|].
  split; [now constructor|]. split; [|apply (cs_param doc_substring p I)].
  eexists _, ")"%byte. split; [rewrite !app_assoc; reflexivity|cbn; lia].
Qed.
(** what the tool shows does not tell which parameters can be left out, nor what the examples
    result in *)
Theorem tool_page_exact_refuted : exists d d', d_params d <> d_params d' /\ map e_output (d_examples d) <> map e_output (d_examples d') /\
  (exists args, matches (d_params d) args /\ ~ matches (d_params d') args) /\
  forall o verbose, doc_handler o [d] (d_name d) [] verbose = doc_handler o [d'] (d_name d') [] verbose.
Proof.
  exists (mkDoc (bs "f") [] [] [mkParam (bs "n") (bs "number") [] true] [mkExample [] (bs "f") [] (bs "1")] [] []).
  exists (mkDoc (bs "f") [] [] [mkParam (bs "n") (bs "number") [] false] [mkExample [] (bs "f") [] (bs "2")] [] []).
  split; [discriminate|]. split; [discriminate|]. split; [|reflexivity].
  exists []. split; [now repeat constructor|]. inversion 1. discriminate.
Qed.

(** ** C58 *)
Section Groups.
Variable nm : function_doc -> str.
Fixpoint add (d : function_doc) (g : list (str * list function_doc)) : list (str * list function_doc) :=
  match g with
  | [] => [(nm d, [d])]
  | (c, ds) :: g' => if str_eqb c (nm d) then (c, ds ++ [d]) :: g' else (c, ds) :: add d g'
  end.
Lemma add_names d g : forall c, In c (map fst (add d g)) <-> c = nm d \/ In c (map fst g).
Proof.
  induction g as [|[c ds] g IH]; intros x; cbn [add map fst In]; [intuition congruence|].
  destruct (str_eqb c (nm d)) eqn:E; cbn [map fst In].
  - apply str_eqb_eq in E. intuition congruence.
  - rewrite IH. intuition congruence.
Qed.
Lemma add_perm d g : Permutation (concat (map snd g) ++ [d]) (concat (map snd (add d g))).
Proof.
  induction g as [|[c ds] g IH]; cbn [add map snd concat]; [cbn; reflexivity|].
  destruct (str_eqb c (nm d)); cbn [map snd concat].
  - rewrite <- !app_assoc. apply Permutation_app_head. cbn [app]. symmetry. apply Permutation_cons_append.
  - rewrite <- app_assoc. now apply Permutation_app_head.
Qed.
Lemma add_nodup d g : NoDup (map fst g) -> NoDup (map fst (add d g)).
Proof.
  induction g as [|[c ds] g IH]; cbn [add map fst]; intros N; [repeat constructor; intros []|]. inversion N as [|? ? N1 N2]; subst.
  destruct (str_eqb c (nm d)) eqn:E; cbn [map fst]; [exact N|]. constructor; auto. rewrite add_names. intros [->|I]; [|auto].
  rewrite str_eqb_refl in E. discriminate.
Qed.
Definition good_group (done : list function_doc) (c : str * list function_doc) : Prop :=
  snd c = filter (fun d => str_eqb (nm d) (fst c)) done /\ snd c <> [].
Lemma fold_groups docs : forall done g, NoDup (map fst g) -> Permutation done (concat (map snd g)) -> Forall (good_group done) g ->
  let g' := fold_left (fun g d => add d g) docs g in
  NoDup (map fst g') /\ Permutation (done ++ docs) (concat (map snd g')) /\ Forall (good_group (done ++ docs)) g'.
Proof.
  induction docs as [|d docs IH]; intros done g N P F; cbn [fold_left]; [rewrite app_nil_r; auto|].
  replace (done ++ d :: docs) with ((done ++ [d]) ++ docs) by now rewrite <- app_assoc.
  apply IH; [now apply add_nodup| |].
  - rewrite <- add_perm. now apply Permutation_app_tail.
  - assert (K : forall c, In c (map nm done) -> In c (map fst g)).
    { intros c I. apply in_map_iff in I as (x & <- & I). apply (Permutation_in x P) in I. apply in_concat in I as (l & Il & Ix).
      apply in_map_iff in Il as (y & <- & Iy). rewrite Forall_forall in F. destruct (F y Iy) as [Fy _]. rewrite Fy in Ix.
      apply filter_In in Ix as [_ Ix]. apply str_eqb_eq in Ix. rewrite Ix. now apply in_map. }
    clear IH P. revert N F K. generalize done. clear done. intros done N F K.
    assert (G : forall g, NoDup (map fst g) -> Forall (good_group done) g ->
      (~ In (nm d) (map fst g) -> filter (fun x => str_eqb (nm x) (nm d)) done = []) -> Forall (good_group (done ++ [d])) (add d g)).
    { clear. induction g as [|[c ds] g IH]; intros N F K; cbn [add].
      - repeat constructor; cbn [fst snd]; [|discriminate]. rewrite filter_app, K by auto. cbn [filter app]. now rewrite str_eqb_refl.
      - inversion F as [|? ? [F1 F2] F3]; inversion N as [|? ? N1 N2]; subst. cbn [fst snd] in *. destruct (str_eqb c (nm d)) eqn:E.
        + apply str_eqb_eq in E. subst c. constructor.
          * split; cbn [fst snd]; [|destruct ds; discriminate]. rewrite filter_app, <- F1. cbn [filter]. now rewrite str_eqb_refl.
          * apply Forall_forall. intros y I. rewrite Forall_forall in F3. destruct (F3 y I) as [A B]. split; auto.
            rewrite filter_app, <- A. cbn [filter]. destruct (str_eqb (nm d) (fst y)) eqn:E; [|now rewrite app_nil_r].
            apply str_eqb_eq in E. exfalso. apply N1. rewrite E. now apply in_map.
        + constructor.
          * split; cbn [fst snd]; [|exact F2]. rewrite filter_app, <- F1. cbn [filter]. destruct (str_eqb (nm d) c) eqn:E'; [|now rewrite app_nil_r].
            apply str_eqb_eq in E'. subst c. rewrite str_eqb_refl in E. discriminate.
          * apply IH; auto. intros H. apply K. cbn [map fst In]. intros [->|I]; [|auto]. rewrite str_eqb_refl in E. discriminate. }
    apply G; auto. intros H. destruct (filter (fun x => str_eqb (nm x) (nm d)) done) as [|y l] eqn:Q; [reflexivity|].
    exfalso. apply H, K. assert (Iy : In y (filter (fun x => str_eqb (nm x) (nm d)) done)) by (rewrite Q; now left).
    apply filter_In in Iy as [Iy E]. apply str_eqb_eq in E. rewrite <- E. now apply in_map.
Qed.
Lemma filter_sorted (f : function_doc -> bool) l : by_name l -> by_name (filter f l).
Proof.
  induction 1 as [|x l S IH F]; cbn [filter]; [constructor|]. destruct (f x); [|exact IH]. constructor; auto.
  apply Forall_forall. intros y I. apply filter_In in I as [I _]. rewrite Forall_forall in F. auto.
Qed.
Lemma groups_grouped none docs order : (forall d, nm d = if d_category d then none else d_category d) -> some_order order -> by_name docs ->
  grouped none docs (order (fold_left (fun g d => add d g) docs [])).
Proof.
  intros Hn O S. destruct (fold_groups docs [] []) as (N & P & F); [constructor|constructor|constructor|]. cbn [app] in P, F.
  set (g := fold_left _ docs []) in *. specialize (O g). split; [|split].
  - rewrite P. clear -O. induction O as [|x l l' _ IH|x y l|l1 l2 l3 _ IH1 _ IH2]; cbn [map concat]; [constructor|now apply Permutation_app_head| |now rewrite IH1].
    rewrite !app_assoc. apply Permutation_app_tail, Permutation_app_comm.
  - eapply Permutation_NoDup; [apply Permutation_map, O|exact N].
  - apply Forall_forall. intros c I. apply (Permutation_in c (Permutation_sym O)) in I. rewrite Forall_forall in F. destruct (F c I) as [A B].
    split; [exact B|]. rewrite A. split; [now apply filter_sorted|]. apply Forall_forall. intros d Id. apply filter_In in Id as [_ E].
    apply str_eqb_eq in E. now rewrite <- E, Hn.
Qed.
End Groups.
(** the verbose listings: every function once, with its summary, under its category, in order of
    name within the category; the header counts them *)
Theorem tool_verbose_listing o r : possible o -> a_map r -> r <> [] ->
  exists g t, doc_handler o r [] [] true = ToolText t /\ grouped (bs "Uncategorized") (all_docs r) g /\
    trimmed_to (bs "# All functions" ++ [nl; nl] ++ bs "Found " ++ itoa (zlen r) ++ bs " function(s):" ++ [nl; nl] ++
      flat_map (fun c => bs "## " ++ fst c ++ [nl; nl] ++
        flat_map (fun d => bs "- **" ++ d_name d ++ bs "**" ++ (if d_summary d then [] else bs ": " ++ d_summary d) ++ [nl]) (snd c) ++ [nl]) g) t.
Proof.
  intros (P & _ & O) M N. destruct (all_docs_is_sorted_registry r r M (Permutation_refl r)) as [P2 S2].
  unfold doc_handler. cbn [nonnil andb]. rewrite (all_docs_order r (o_registry o r)) by auto.
  exists (o_groups o (group_docs (all_docs r))).
  assert (L : zlen r = zlen (all_docs r)) by (unfold zlen; now rewrite (Permutation_length P2)).
  destruct (all_docs r) as [|x l] eqn:D; [apply Permutation_sym, Permutation_nil in P2; congruence|]. rewrite <- D in *.
  eexists. split; [reflexivity|]. split.
  - apply (groups_grouped group_name); auto. intros d. unfold group_name. destruct (d_category d); reflexivity.
  - unfold format_list. rewrite L. match goal with |- trimmed_to ?full (trim_space ?f) => replace f with full end; [apply trim_heading; reflexivity|].
    change (bs "# All functions") with (bs "# " ++ bs "All functions"). rewrite <- app_assoc. do 7 f_equal.
    apply flat_map_ext. intros c. do 3 f_equal. f_equal. apply flat_map_ext. intros d. unfold verbose_line. destruct (d_summary d); reflexivity.
Qed.
Theorem command_verbose_listing title o r : possible o -> a_map r -> r <> [] ->
  exists g, run_doc title o r [] [] true = Ok (bs "Available functions (" ++ itoa (zlen r) ++ bs " total):" ++ [nl; nl] ++
      flat_map (fun c => bs "## " ++ title (fst c) ++ [nl; nl] ++
        flat_map (fun d => bs "- **" ++ d_name d ++ bs "**: " ++ d_summary d ++ [nl]) (snd c) ++ [nl]) g) /\
    grouped (bs "other") (all_docs r) g.
Proof.
  intros (P & _ & O) M N. destruct (all_docs_is_sorted_registry r r M (Permutation_refl r)) as [P2 S2].
  unfold run_doc. cbn [nonnil andb]. rewrite (all_docs_order r (o_registry o r)) by auto.
  exists (o_groups o (fold_left (fun g d => cli_add_group d g) (all_docs r) [])).
  assert (L : zlen r = zlen (all_docs r)) by (unfold zlen; now rewrite (Permutation_length P2)).
  rewrite L. destruct (all_docs r) as [|x l] eqn:D; [apply Permutation_sym, Permutation_nil in P2; congruence|]. rewrite <- D in *.
  replace (nonnil (all_docs r)) with true by now rewrite D. cbn [negb andb].
  split; [now rewrite <- !app_assoc|]. apply (groups_grouped cli_group_name); auto.
  intros d. unfold cli_group_name. destruct (d_category d); reflexivity.
Qed.
(** the short listings: every function once, in order of name *)
Theorem tool_short_listing o r : possible o -> a_map r -> r <> [] ->
  exists t, doc_handler o r [] [] false = ToolText t /\
    trimmed_to (bs "# All functions" ++ [nl; nl] ++ bs "Found " ++ itoa (zlen r) ++ bs " function(s):" ++ [nl; nl] ++
      flat_map (fun d => bs "- " ++ d_name d ++ [nl]) (all_docs r)) t.
Proof.
  intros (P & _ & O) M N. destruct (all_docs_is_sorted_registry r r M (Permutation_refl r)) as [P2 S2].
  unfold doc_handler. cbn [nonnil andb]. rewrite (all_docs_order r (o_registry o r)) by auto.
  assert (L : zlen r = zlen (all_docs r)) by (unfold zlen; now rewrite (Permutation_length P2)).
  destruct (all_docs r) as [|x l] eqn:D; [apply Permutation_sym, Permutation_nil in P2; congruence|]. rewrite <- D in *.
  eexists. split; [reflexivity|]. unfold format_list. rewrite L.
  match goal with |- trimmed_to ?full (trim_space ?f) => change f with full end. apply trim_heading. reflexivity.
Qed.
Theorem command_short_listing title o r : possible o -> a_map r -> r <> [] ->
  exists help, run_doc title o r [] [] false = Ok (bs "Available functions (" ++ itoa (zlen r) ++ bs " total):" ++ [nl; nl] ++
    flat_map (fun d => bs "  " ++ d_name d ++ [nl]) (all_docs r) ++ help).
Proof.
  intros (P & _ & O) M N. destruct (all_docs_is_sorted_registry r r M (Permutation_refl r)) as [P2 S2].
  unfold run_doc. cbn [nonnil andb]. rewrite (all_docs_order r (o_registry o r)) by auto.
  assert (L : zlen r = zlen (all_docs r)) by (unfold zlen; now rewrite (Permutation_length P2)).
  rewrite L. destruct (all_docs r) as [|x l] eqn:D; [apply Permutation_sym, Permutation_nil in P2; congruence|]. rewrite <- D in *.
  replace (nonnil (all_docs r)) with true by now rewrite D. cbn [negb andb]. eexists. rewrite <- !app_assoc. reflexivity.
Qed.
Example verbose_listing_witness : let o := mkOrders (fun r => r) (fun c => c) (@rev _) in possible o /\ a_map demo_registry /\ demo_registry <> [] /\
  map (fun c => (fst c, map d_name (snd c))) (o_groups o (group_docs (all_docs demo_registry))) =
    [(bs "Uncategorized", [bs "c"]); (bs "y", [bs "ab"]); (bs "x", [bs "a"; bs "b"])].
Proof.
  split; [|split; [apply listings_witness|split; [discriminate|vm_compute; reflexivity]]].
  split; [intros l; reflexivity|]. split; [intros l; reflexivity|]. intros l. apply Permutation_rev.
Qed.
(** the registered documentation *)
Theorem all_registered_listed o : possible o -> exists g, grouped (bs "Uncategorized") (all_docs registered) g /\
  exists t, doc_handler o registered [] [] true = ToolText t /\
    forall d, In d registered -> within (bs "- **" ++ d_name d ++ bs "**: " ++ d_summary d) t.
Proof.
  intros O. destruct (documentation_complete ref_ext) as [M _]. destruct (tool_verbose_listing o registered O M) as (g & t & H & G & w & _ & T); [discriminate|].
  exists g. split; [exact G|]. exists t. split; [exact H|]. intros d I. apply T.
  - assert (V : forall d, In d registered -> forallb (fun c => (33 <=? byteN c)%N && (byteN c <=? 126)%N) (firstn 1 (rev (d_summary d))) && nonnil (d_summary d) = true).
    { apply (proj1 (forallb_forall _ _)). vm_compute. reflexivity. }
    specialize (V d I). apply andb_prop in V as [V1 V2]. destruct (d_summary d) as [|c s _] using rev_ind; [discriminate|].
    rewrite rev_app_distr in V1. cbn in V1. exists (bs "- **" ++ d_name d ++ bs "**: " ++ s), c. split; [now rewrite <- !app_assoc|]. lia.
  - do 6 apply within_right. destruct G as (P & _ & _). destruct (all_docs_is_sorted_registry registered registered M (Permutation_refl _)) as [P2 _].
    assert (I2 : In d (concat (map snd g))) by (eapply Permutation_in; [exact P|]; eapply Permutation_in; [exact P2|exact I]).
    apply in_concat in I2 as (l & Il & Id). apply in_map_iff in Il as (c & <- & Ic).
    eapply within_flat; [exact Ic|]. do 3 apply within_right. apply within_left. eapply within_flat; [exact Id|].
    destruct (d_summary d) eqn:D; [|rewrite <- D].
    + exfalso. destruct (documentation_well_formed d I) as (_ & Hs & _). congruence.
    + change (bs "**: ") with (bs "**" ++ bs ": "). rewrite !app_assoc. apply within_left, within_refl.
Qed.

(** ** Assumptions of every theorem above *)
Print Assumptions tool_page_complete.
Print Assumptions command_page_complete.
Print Assumptions tool_page_exact_refuted.
Print Assumptions tool_verbose_listing.
Print Assumptions command_verbose_listing.
Print Assumptions tool_short_listing.
Print Assumptions command_short_listing.
Print Assumptions all_registered_listed.
