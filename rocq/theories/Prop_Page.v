(** C77: the exact answers of the documentation tool and the documentation command. *)
From Coq Require Import ZArith NArith List Bool Lia Permutation Sorted ZifyBool ZifyN Strings.Byte.
From Verif Require Import Base Float Ext Utf8 Strconv Values Buffer Builtins Eval Parser Json Writer Files Tools Docs DocsData
  Spec SpecFiles SpecLines SpecDocs SpecPage RefExt
  Proofs_Base Proofs_Utf8 Proofs_Token Proofs_Lines Proofs_Words Prop_Tools Prop_Docs Prop_DocText.
Import ListNotations.
Open Scope Z_scope.

(** ** Lines as text *)
Definition lt (ls : list str) : str := flat_map (fun l => l ++ [nl]) ls.
Lemma lt_app a b : lt (a ++ b) = lt a ++ lt b. Proof. apply flat_map_app. Qed.
Lemma lt_cons l ls : lt (l :: ls) = l ++ nl :: lt ls.
Proof. unfold lt. cbn [flat_map]. now rewrite <- app_assoc. Qed.
Lemma in_lines_lt ls t : in_lines ls t <-> t = lt ls.
Proof.
  split; [induction 1 as [|l ls t _ ->]; [reflexivity|now rewrite lt_cons]|]. intros ->.
  induction ls as [|l ls IH]; [constructor|]. rewrite lt_cons. now constructor.
Qed.
Lemma lt_map {A} (f : A -> str) l : lt (map f l) = flat_map (fun x => f x ++ [nl]) l.
Proof. unfold lt. induction l as [|x l IH]; [reflexivity|]. cbn [map flat_map]. now rewrite IH. Qed.
Lemma if_any_lt {A} (x : list A) ls a : if_any x ls a -> lt a = when (nonnil x) (lt ls).
Proof. intros [->|N]; [reflexivity|]. now rewrite (nonnil_true _ N). Qed.
Lemma if_any_ex {A} (x : list A) ls : exists a, if_any x ls a.
Proof. destruct x as [|y x]; [exists []; now constructor|exists ls; constructor; discriminate]. Qed.
Lemma each_lt {A} (R : A -> list str -> Prop) f l a : (forall x a, R x a -> lt a = f x) -> about_each R l a -> lt a = flat_map f l.
Proof. intros H. induction 1 as [|x l a b X _ IH]; [reflexivity|]. rewrite lt_app, IH, (H _ _ X). reflexivity. Qed.
Lemma each_ex {A} (R : A -> list str -> Prop) l : (forall x, exists a, R x a) -> exists a, about_each R l a.
Proof.
  intros H. induction l as [|x l [b IH]]; [exists []; constructor|]. destruct (H x) as [a X]. exists (a ++ b). now constructor.
Qed.
Ltac norm := repeat rewrite ?lt_app, ?lt_cons, <- ?app_assoc; cbn [lt flat_map app]; repeat rewrite <- ?app_assoc; cbn [app]; rewrite ?app_nil_r.

(** ** White space at the end *)
Lemma decode_app_lead s c t : cont c = false -> s <> [] -> decode_rune (s ++ c :: t) = decode_rune s.
Proof.
  intros K N. assert (C : (byteN c < 128 \/ 191 < byteN c)%N) by (unfold cont in K; lia). destruct s as [|b0 s]; [congruence|]. cbn [app decode_rune].
  destruct (byteN b0 <=? 127)%N; [reflexivity|].
  destruct ((194 <=? byteN b0) && (byteN b0 <=? 223))%N.
  { destruct s as [|b1 s]; cbn [app]; [now rewrite K|reflexivity]. }
  destruct ((224 <=? byteN b0) && (byteN b0 <=? 239))%N.
  { destruct s as [|b1 [|b2 s]]; cbn [app]; [| |reflexivity].
    - destruct t as [|b2 t]; [reflexivity|]. cbv zeta.
      replace (_ && (byteN c <=? _) && _)%N with false; [reflexivity|]. symmetry. destruct (byteN b0 =? 224)%N; destruct (byteN b0 =? 237)%N; lia.
    - rewrite K. now rewrite andb_false_r. }
  destruct ((240 <=? byteN b0) && (byteN b0 <=? 244))%N; [|reflexivity].
  destruct s as [|b1 [|b2 [|b3 s]]]; cbn [app]; [| | |reflexivity].
  - destruct t as [|b2 [|b3 t]]; [reflexivity..|]. cbv zeta.
    replace (_ && (byteN c <=? _) && _ && _)%N with false; [reflexivity|]. symmetry. destruct (byteN b0 =? 240)%N; destruct (byteN b0 =? 244)%N; lia.
  - destruct t as [|b3 t]; [reflexivity|]. rewrite K. now rewrite andb_false_r.
  - rewrite K. now rewrite andb_false_r.
Qed.
Lemma runes_app_lead s c t : cont c = false -> runes (s ++ c :: t) = runes s ++ runes (c :: t).
Proof.
  intros C. remember (length s) as n eqn:L. assert (length s <= n)%nat as L' by lia. clear L. revert s L'.
  induction n as [|n IH]; intros s L; destruct s as [|b s]; try (cbn in L; lia); try reflexivity.
  destruct (decode_rune (b :: s)) as [[r w]|] eqn:D; [|now apply decode_none in D].
  pose proof (decode_width _ _ _ D) as Wd. pose proof D as D'. rewrite <- (decode_app_lead (b :: s) c t) in D' by (auto; discriminate).
  rewrite (runes_step _ _ _ D), (runes_step _ _ _ D'). cbn [app]. change (b :: s ++ c :: t) with ((b :: s) ++ c :: t).
  rewrite firstn_app, skipn_app. replace (w - length (b :: s))%nat with 0%nat by lia. rewrite firstn_O, app_nil_r, skipn_O.
  f_equal. apply IH. rewrite skipn_length. lia.
Qed.
Lemma white_valid r : In r white_space -> valid r.
Proof. assert (H : Forall valid white_space) by (repeat constructor). rewrite Forall_forall in H. apply H. Qed.
Lemma white_lead r : In r white_space -> exists c t, encode_rune r = c :: t /\ cont c = false.
Proof.
  assert (H : Forall (fun r => exists c t, encode_rune r = c :: t /\ cont c = false) white_space).
  { repeat (constructor; [eexists _, _; split; [vm_compute; reflexivity|reflexivity]|]). constructor. }
  rewrite Forall_forall in H. apply H.
Qed.
Lemma runes_white ws : Forall (fun r => In r white_space) ws -> forall s, runes (s ++ flat_map encode_rune ws) = runes s ++ map good_rune ws.
Proof.
  induction 1 as [|r ws W _ IH]; intros s; cbn [flat_map map]; [now rewrite !app_nil_r|].
  destruct (white_lead r W) as (c & t & Q & C). rewrite Q. cbn [app]. rewrite runes_app_lead by exact C.
  f_equal. change (c :: t ++ flat_map encode_rune ws) with ((c :: t) ++ flat_map encode_rune ws). rewrite <- Q.
  rewrite runes_encode by now apply white_valid. f_equal. apply (IH []).
Qed.
Lemma cut_off_iff c t u : is_space (byteN c) = false -> (byteN c < 128)%N -> cut_off (c :: t) u <-> u = trim_space (c :: t).
Proof.
  intros S C. unfold trim_space. rewrite runes_ascii by exact C. cbn [drop_space r_rune good_rune]. rewrite S.
  rewrite <- runes_ascii by exact C. split.
  - intros [(ws & W & ->) V]. rewrite (runes_white ws W), rev_app_distr.
    assert (D : forall ws l, Forall (fun r => In r white_space) ws -> drop_space (rev (map good_rune ws) ++ l) = drop_space l).
    { clear. intros ws l W. rewrite <- map_rev. apply Forall_rev in W. induction W as [|r w W _ IH]; [reflexivity|].
      cbn [map app drop_space r_rune good_rune]. apply white_in in W. now rewrite W. }
    rewrite D by exact W. destruct (rev (runes u)) as [|ra l] eqn:R.
    + rewrite <- (runes_bytes u), <- (rev_involutive (runes u)), R. reflexivity.
    + cbn [drop_space]. destruct (is_space (r_rune ra)) eqn:X.
      * exfalso. assert (R2 : runes u = rev l ++ [ra]) by (rewrite <- (rev_involutive (runes u)), R; reflexivity).
        assert (F : rune_form ra) by (pose proof (runes_form u) as F; rewrite Forall_forall in F; apply F; rewrite R2; apply in_or_app; right; now left).
        destruct F as [(r & Vr & ->)|(b & _ & ->)]; [|discriminate X]. cbn in X. apply white_in in X.
        apply (V (flat_map r_bytes (rev l)) r X). rewrite <- (runes_bytes u), R2, flat_map_app. cbn [flat_map r_bytes good_rune]. now rewrite app_nil_r.
      * rewrite <- R, rev_involutive. now rewrite runes_bytes.
  - intros ->. set (l := runes (c :: t)). destruct (drop_space_split (rev l)) as (ws & Q & F).
    assert (L : l = rev (drop_space (rev l)) ++ rev ws) by (rewrite <- rev_app_distr, <- Q; now rewrite rev_involutive).
    assert (G : exists rs, Forall (fun r => In r white_space) rs /\ rev ws = map good_rune rs).
    { assert (Fl : Forall rune_form (rev ws)) by (eapply Forall_app; rewrite <- L; apply runes_form).
      apply Forall_rev in F. revert Fl F. generalize (rev ws). clear. induction l as [|ra l IH]; intros Fl F; [exists []; split; constructor|].
      inversion Fl as [|? ? A B]; inversion F as [|? ? A' B']; subst. destruct (IH B B') as (rs & W & ->).
      destruct A as [(r & Vr & ->)|(b & _ & ->)]; [|discriminate A']. exists (r :: rs). split; [constructor; [now apply white_in|auto]|reflexivity]. }
    destruct G as (rs & W & Qr). set (kept := rev (drop_space (rev l))) in *.
    assert (Full : c :: t = flat_map r_bytes kept ++ flat_map encode_rune rs).
    { change (flat_map encode_rune rs) with (utf8 rs). rewrite <- good_bytes, <- Qr, <- flat_map_app, <- L. unfold l. now rewrite runes_bytes. }
    split; [exists rs; auto|]. intros v r Wr X.
    assert (Rv : runes (flat_map r_bytes kept) = kept).
    { apply (app_inv_tail (map good_rune rs)). rewrite <- (runes_white rs W), <- Full, <- Qr. exact L. }
      rewrite X in Rv. assert (Rw := runes_white [r] ltac:(constructor; [exact Wr|constructor]) v). cbn [flat_map map] in Rw. rewrite app_nil_r in Rw.
      rewrite Rw in Rv. assert (Y : drop_space (rev l) = good_rune r :: rev (runes v)).
      { rewrite <- (rev_involutive (drop_space (rev l))). fold kept. rewrite <- Rv, rev_app_distr. reflexivity. }
      clear -Y Wr. induction (rev l) as [|ra m IH]; [discriminate|]. cbn [drop_space] in Y. destruct (is_space (r_rune ra)) eqn:S; [auto|].
      injection Y as -> _. cbn in S. apply white_in in Wr. congruence.
Qed.

(** ** Pages *)
Lemma tool_param_lt p a : tool_param p a -> lt a = param_line p.
Proof.
  unfold param_line. intros [->|N]; [|rewrite (nonnil_true _ N)]; unfold param_head; norm; reflexivity.
Qed.
Lemma tool_param_ex p : exists a, tool_param p a.
Proof. destruct (p_desc p) eqn:D; eexists; [apply tp_bare|apply tp_described]; rewrite D; [reflexivity|discriminate]. Qed.
Lemma tool_example_lt e a : tool_example e a -> lt a = example_block e.
Proof. intros [l H]. apply if_any_lt in H. unfold example_block. norm. rewrite H. unfold empty_line, fence. norm. reflexivity. Qed.
Lemma tool_example_ex e : exists a, tool_example e a.
Proof. destruct (if_any_ex (e_desc e) [e_desc e; empty_line]) as [l H]. eexists. constructor. exact H. Qed.
(** what [format_doc] trims *)
Definition page_text (d : function_doc) : str :=
    bs "# " ++ d_name d ++ [nl; nl] ++
    when (nonnil (d_summary d)) (bs "**" ++ d_summary d ++ bs "**" ++ [nl; nl]) ++
    when (nonnil (d_desc d)) (d_desc d ++ [nl; nl]) ++
    when (nonnil (d_params d)) (bs "## Parameters" ++ [nl; nl] ++ flat_map param_line (d_params d) ++ [nl]) ++
    when (nonnil (d_examples d)) (bs "## Examples" ++ [nl; nl] ++ flat_map example_block (d_examples d)) ++
    when (nonnil (d_category d)) (bs "**Category:** " ++ d_category d ++ [nl; nl]) ++
    when (nonnil (d_see d)) (bs "**See also:** " ++ join (bs ", ") (d_see d) ++ [nl]).
Lemma tool_page_lt d ls : tool_page d ls -> lt ls = page_text d.
Proof.
  intros [summary desc ps params es examples category see H1 H2 H3 H4 H5 H6 H7 H8].
  apply if_any_lt in H1, H2, H4, H6, H7, H8. apply (each_lt _ param_line) in H3; [|apply tool_param_lt].
  apply (each_lt _ example_block) in H5; [|apply tool_example_lt].
  rewrite !lt_app, H1, H2, H4, H6, H7, H8, !lt_app, H3, H5. unfold page_text, empty_line. norm. reflexivity.
Qed.
Lemma tool_page_ex d : exists ls, tool_page d ls.
Proof.
  destruct (each_ex tool_param (d_params d) tool_param_ex) as [ps P]. destruct (each_ex tool_example (d_examples d) tool_example_ex) as [es X].
  destruct (if_any_ex (d_summary d) [bs "**" ++ d_summary d ++ bs "**"; empty_line]) as [l1 H1].
  destruct (if_any_ex (d_desc d) [d_desc d; empty_line]) as [l2 H2].
  destruct (if_any_ex (d_params d) ([bs "## Parameters"; empty_line] ++ ps ++ [empty_line])) as [l3 H3].
  destruct (if_any_ex (d_examples d) ([bs "## Examples"; empty_line] ++ es)) as [l4 H4].
  destruct (if_any_ex (d_category d) [bs "**Category:** " ++ d_category d; empty_line]) as [l5 H5].
  destruct (if_any_ex (d_see d) [bs "**See also:** " ++ join (bs ", ") (d_see d)]) as [l6 H6].
  eexists. econstructor; eassumption.
Qed.

Lemma command_param_lt p a : command_param p a -> lt a = cli_param_line p.
Proof. unfold cli_param_line. intros [H|H]; rewrite H; unfold param_head; norm; reflexivity. Qed.
Lemma command_param_ex p : exists a, command_param p a.
Proof. destruct (p_optional p) eqn:D; eexists; [apply cp_optional|apply cp_needed]; exact D. Qed.
Lemma command_example_lt e a : command_example e a -> lt a = cli_example e.
Proof.
  intros [l H]. apply if_any_lt in H. unfold cli_example. rewrite !lt_app, H. unfold empty_line, fence. norm. reflexivity.
Qed.
Lemma command_example_ex e : exists a, command_example e a.
Proof. destruct (if_any_ex (e_buffer e) [bs "**Initial buffer:**"; fence; e_buffer e; fence; empty_line]) as [l H]. eexists. constructor. exact H. Qed.
Lemma command_examples_lt es a : command_examples es a -> lt a = join [nl] (map cli_example es).
Proof.
  induction 1 as [|e l H|e es l l' H N _ IH]; [reflexivity|now apply command_example_lt|].
  rewrite !lt_app, (command_example_lt _ _ H), IH. destruct es as [|e' es]; [congruence|]. reflexivity.
Qed.
Lemma command_examples_ex es : exists a, command_examples es a.
Proof.
  induction es as [|e es [b IH]]; [exists []; constructor|]. destruct (command_example_ex e) as [a H].
  destruct es as [|e' es]; [exists a; now constructor|]. eexists. apply ces_more; [exact H|discriminate|exact IH].
Qed.
Lemma command_page_lt d ls : command_page d ls -> lt ls = cli_doc d.
Proof.
  intros [desc ps params es examples category see H2 H3 H4 H5 H6 H7 H8].
  apply if_any_lt in H2, H4, H6, H7, H8. apply (each_lt _ cli_param_line) in H3; [|apply command_param_lt].
  apply command_examples_lt in H5.
  rewrite !lt_app, H2, H4, H6, H7, H8, !lt_app, H3, H5, lt_map. unfold cli_doc, empty_line. norm. 
  replace (flat_map (fun x => "-"%byte :: " "%byte :: x ++ [nl]) (d_see d)) with (flat_map (fun n => bs "- " ++ n ++ [nl]) (d_see d)) by reflexivity.
  reflexivity.
Qed.
Lemma command_page_ex d : exists ls, command_page d ls.
Proof.
  destruct (each_ex command_param (d_params d) command_param_ex) as [ps P]. destruct (command_examples_ex (d_examples d)) as [es X].
  destruct (if_any_ex (d_desc d) [bs "## Description"; empty_line; d_desc d; empty_line]) as [l2 H2].
  destruct (if_any_ex (d_params d) ([bs "## Parameters"; empty_line] ++ ps ++ [empty_line])) as [l3 H3].
  destruct (if_any_ex (d_examples d) ([bs "## Examples"; empty_line] ++ es ++ [empty_line])) as [l4 H4].
  destruct (if_any_ex (d_category d) [bs "## Category"; empty_line; d_category d; empty_line]) as [l5 H5].
  destruct (if_any_ex (d_see d) ([bs "## See Also"; empty_line] ++ map (fun n => bs "- " ++ n) (d_see d) ++ [empty_line])) as [l6 H6].
  eexists. econstructor; eassumption.
Qed.

(** ** Listings *)
Lemma sorted_nodup docs : by_name docs -> NoDup docs.
Proof.
  induction 1 as [|x l _ IH F]; constructor; auto. intros I. rewrite Forall_forall in F. now apply (before_irrefl (d_name x)), F.
Qed.
Lemma sorted_same l l' : by_name l -> by_name l' -> (forall d, In d l <-> In d l') -> l = l'.
Proof.
  intros S S' I. apply (ssorted_unique d_name); auto. apply NoDup_Permutation; auto using sorted_nodup.
Qed.
Lemma selects_unique r P l l' : selects r P l -> selects r P l' -> l = l'.
Proof. intros [S I] [S' I']. apply sorted_same; auto. intros d. now rewrite I, I'. Qed.
Lemma grouped_perm none docs g g' : grouped none docs g -> grouped none docs g' -> Permutation g g'.
Proof.
  intros G G'. pose (key := fun d => if d_category d then none else d_category d).
  assert (Sub : forall g g', grouped none docs g -> grouped none docs g' -> forall x, In x g -> In x g').
  { clear. intros g g' (P & N & F) (P' & N' & F') [c ds] I. rewrite Forall_forall in F, F'.
    assert (Mem : forall g, Permutation docs (concat (map snd g)) -> NoDup (map fst g) ->
        (forall c, In c g -> snd c <> [] /\ by_name (snd c) /\ Forall (fun d => fst c = (if d_category d then none else d_category d)) (snd c)) ->
        forall x, In x g -> forall d, In d (snd x) <-> In d docs /\ fst x = if d_category d then none else d_category d).
    { clear. intros g P N F x I d. split.
      - intros D. split; [apply (Permutation_in d (Permutation_sym P)), in_concat; exists (snd x); split; [now apply in_map|exact D]|].
        destruct (F x I) as (_ & _ & K). rewrite Forall_forall in K. now apply K.
      - intros [D K]. apply (Permutation_in d P), in_concat in D as (l & L & D). apply in_map_iff in L as (y & <- & Y).
        destruct (F y Y) as (_ & _ & Ky). rewrite Forall_forall in Ky. specialize (Ky d D).
        assert (x = y); [|now subst]. assert (Q : fst x = fst y) by congruence.
        clear -N I Y Q. induction g as [|z g IH]; [destruct I|]. cbn [map] in N. inversion N as [|? ? N1 N2]; subst.
        destruct I as [->|I], Y as [->|Y]; auto; exfalso; apply N1; [rewrite Q|rewrite <- Q]; now apply in_map. }
    destruct (F _ I) as (Ne & S & K). cbn [fst snd] in *. destruct ds as [|d ds]; [congruence|].
    assert (D : In d docs /\ c = if d_category d then none else d_category d) by (apply (Mem g P N F (c, d :: ds) I d); now left).
    destruct D as [D Kd]. apply (Permutation_in d P'), in_concat in D as (l & L & D). apply in_map_iff in L as ([c' ds'] & <- & Y).
    cbn [snd] in D. destruct (F' _ Y) as (_ & S' & K'). cbn [fst snd] in *. rewrite Forall_forall in K'. specialize (K' d D).
    assert (c' = c) by congruence. subst c'. assert (ds' = d :: ds); [|now subst].
    apply sorted_same; auto. intros x. pose proof (Mem g' P' N' F' _ Y x) as A. pose proof (Mem g P N F _ I x) as B. cbn [fst snd] in A, B. rewrite A, B, Kd. reflexivity. }
  apply NoDup_Permutation; [destruct G as (_ & N & _)|destruct G' as (_ & N & _)|split; now apply Sub]; eapply NoDup_map_inv; exact N.
Qed.
Lemma doc_dec (a b : str * list function_doc) : {a = b} + {a <> b}.
Proof.
  assert (D : forall x y : str, {x = y} + {x <> y}) by (apply list_eq_dec, Byte.byte_eq_dec).
  repeat decide equality.
Qed.
(** an order of iteration that turns [g] into [g'] *)
Definition reorder (g g' : list (str * list function_doc)) (l : list (str * list function_doc)) :=
  if list_eq_dec doc_dec l g then g' else l.
Lemma reorder_order g g' : Permutation g g' -> some_order (reorder g g').
Proof. intros P l. unfold reorder. destruct (list_eq_dec doc_dec l g) as [->|]; auto. Qed.
Lemma reorder_self g g' : reorder g g' g = g'.
Proof. unfold reorder. destruct (list_eq_dec doc_dec g g); congruence. Qed.

Lemma tool_entry_lt d a : tool_entry d a -> lt a = verbose_line d.
Proof.
  unfold verbose_line. intros [H|H]; [rewrite H|destruct (d_summary d) eqn:D; [congruence|]]; norm; reflexivity.
Qed.
Lemma tool_entry_ex d : exists a, tool_entry d a.
Proof. destruct (d_summary d) eqn:D; eexists; [apply ten_bare|apply ten_summary]; rewrite D; [reflexivity|discriminate]. Qed.
Definition group_text (g : str * list function_doc) : str := bs "## " ++ fst g ++ [nl; nl] ++ flat_map verbose_line (snd g) ++ [nl].
Lemma tool_group_lt c a : tool_group c a -> lt a = group_text c.
Proof. intros [l H]. apply (each_lt _ verbose_line) in H; [|apply tool_entry_lt]. rewrite !lt_app, H. unfold group_text, empty_line. norm. reflexivity. Qed.
Lemma tool_group_ex c : exists a, tool_group c a.
Proof. destruct (each_ex tool_entry (snd c) tool_entry_ex) as [l H]. eexists. constructor. exact H. Qed.
Lemma tool_grouped order docs : some_order order -> by_name docs -> grouped (bs "Uncategorized") docs (order (group_docs docs)).
Proof. intros O S. apply (groups_grouped group_name); auto. intros d. unfold group_name. destruct (d_category d); reflexivity. Qed.
Lemma tool_listing_sound og heading docs verbose : some_order og -> by_name docs ->
  exists ls, tool_listing heading docs verbose ls /\ format_list og docs heading verbose = trim_space (lt ls).
Proof.
  intros O S. destruct verbose.
  - destruct (each_ex tool_group (og (group_docs docs)) tool_group_ex) as [l H]. eexists. split; [eapply tl_verbose; [now apply tool_grouped|exact H]|].
    apply (each_lt _ group_text) in H; [|apply tool_group_lt]. rewrite lt_app, H. unfold format_list, empty_line. f_equal. norm. reflexivity.
  - eexists. split; [apply tl_short|]. unfold format_list, empty_line. f_equal. rewrite lt_app, lt_map. norm. reflexivity.
Qed.
Lemma tool_listing_reached heading docs verbose ls : by_name docs -> tool_listing heading docs verbose ls ->
  exists og, some_order og /\ format_list og docs heading verbose = trim_space (lt ls).
Proof.
  intros S [|g l G H].
  - exists (fun l => l). split; [intros l; reflexivity|]. unfold format_list, empty_line. f_equal. rewrite lt_app, lt_map. norm. reflexivity.
  - exists (reorder (group_docs docs) g). split.
    + apply reorder_order. eapply grouped_perm; [|exact G]. apply (tool_grouped (fun l => l)); auto. intros l'; reflexivity.
    + apply (each_lt _ group_text) in H; [|apply tool_group_lt]. rewrite lt_app, H. unfold format_list, empty_line. rewrite reorder_self. f_equal. norm. reflexivity.
Qed.
Lemma listing_hash heading docs verbose ls : tool_listing heading docs verbose ls -> exists t, lt ls = "#"%byte :: t.
Proof. intros [|g l _ _]; eexists; rewrite lt_app; norm; reflexivity. Qed.
Lemma hash_cut full t u : full = "#"%byte :: t -> cut_off full u <-> u = trim_space full.
Proof. intros ->. now apply cut_off_iff. Qed.

Definition cli_group_text (title : str -> str) (g : str * list function_doc) : str :=
  bs "## " ++ title (fst g) ++ [nl; nl] ++ flat_map (fun d => bs "- **" ++ d_name d ++ bs "**: " ++ d_summary d ++ [nl]) (snd g) ++ [nl].
Lemma command_group_lt title c a : command_group title c a -> lt a = cli_group_text title c.
Proof.
  intros []. rewrite !lt_app, lt_map. unfold cli_group_text, empty_line. norm. do 4 f_equal. f_equal.
  apply flat_map_ext. intros d. norm. reflexivity.
Qed.
Lemma command_group_ex title c : exists a, command_group title c a.
Proof. eexists. constructor. Qed.
Definition cli_groups (docs : list function_doc) := fold_left (fun g d => cli_add_group d g) docs [].
Lemma cli_grouped order docs : some_order order -> by_name docs -> grouped (bs "other") docs (order (cli_groups docs)).
Proof. intros O S. apply (groups_grouped cli_group_name); auto. intros d. unfold cli_group_name. destruct (d_category d); reflexivity. Qed.
Definition cli_list (title : str -> str) og (docs : list function_doc) (verbose : bool) : str :=
  if verbose then flat_map (cli_group_text title) (og (cli_groups docs))
  else flat_map (fun d => bs "  " ++ d_name d ++ [nl]) docs ++
         nl :: bs "Use 'texted doc <function-name>' for detailed documentation." ++
         nl :: bs "Use 'texted doc --verbose' to see function summaries." ++ [nl].
Lemma command_listing_sound title og heading docs verbose : some_order og -> by_name docs ->
  exists ls, command_listing title heading docs verbose ls /\ heading ++ [nl; nl] ++ cli_list title og docs verbose = lt ls.
Proof.
  intros O S. destruct verbose.
  - destruct (each_ex (command_group title) (og (cli_groups docs)) (command_group_ex title)) as [l H]. eexists.
    split; [eapply cl_verbose; [now apply cli_grouped|exact H]|].
    apply (each_lt _ (cli_group_text title)) in H; [|apply command_group_lt]. rewrite lt_app, H. unfold cli_list, empty_line. norm. reflexivity.
  - eexists. split; [apply cl_short|]. unfold cli_list, empty_line. rewrite !lt_app, lt_map. norm. reflexivity.
Qed.
Lemma command_listing_reached title heading docs verbose ls : by_name docs -> command_listing title heading docs verbose ls ->
  exists og, some_order og /\ heading ++ [nl; nl] ++ cli_list title og docs verbose = lt ls.
Proof.
  intros S H. inversion H as [Q1 Q2|g l G K Q1 Q2]; subst.
  - destruct (command_listing_sound title (fun l => l) heading docs false) as (ls & L & Q); [intros l; reflexivity|exact S|].
    inversion L; subst. exists (fun l => l). split; [intros l; reflexivity|exact Q].
  - exists (reorder (cli_groups docs) g). split.
    + apply reorder_order. eapply grouped_perm; [|exact G]. apply (cli_grouped (fun l => l)); auto. intros l'; reflexivity.
    + apply (each_lt _ (cli_group_text title)) in K; [|apply command_group_lt]. rewrite lt_app, K. unfold cli_list, empty_line. rewrite reorder_self. norm. reflexivity.
Qed.

(** ** C77 *)
Lemma all_selects r : a_map r -> selects r (fun _ => True) (all_docs r).
Proof.
  intros M. destruct (all_docs_is_sorted_registry r r M (Permutation_refl r)) as [P S]. split; auto. intros d.
  split; [intros I; split; auto; now apply (Permutation_in d (Permutation_sym P))|intros [I _]; now apply (Permutation_in d P)].
Qed.
Lemma category_selects r cat : a_map r -> selects r (fun d => d_category d = cat) (docs_in_category r cat).
Proof. intros M. destruct (category_listing r r cat M (Permutation_refl r)) as (S & I & _). split; auto. Qed.
Lemma similar_selects r name : a_map r ->
  selects r (similar name) (filter (fun d => str_contains (d_name d) name || str_contains name (d_name d)) (all_docs r)).
Proof.
  intros M. destruct (all_selects r M) as [S I]. split; [now apply filter_sorted|]. intros d. rewrite filter_In, I, orb_true_iff, !contains_occurs.
  unfold similar, within. tauto.
Qed.
Lemma three_first {A} (l : list A) : first_three l (firstn 3 l).
Proof.
  exists (skipn 3 l). split; [now rewrite firstn_skipn|]. rewrite firstn_length. destruct (Nat.leb 3 (length l)) eqn:L.
  - left. apply PeanoNat.Nat.leb_le in L. lia.
  - apply PeanoNat.Nat.leb_gt in L. right. split; [apply skipn_all2; lia|lia].
Qed.
Lemma first_three_unique {A} (l s : list A) : first_three l s -> s = firstn 3 l.
Proof.
  intros (rest & -> & [L|[-> L]]).
  - rewrite firstn_app, L. rewrite <- L at 1. rewrite firstn_all. cbn. now rewrite app_nil_r.
  - rewrite app_nil_r. now rewrite firstn_all2.
Qed.
Lemma proposing_iff intro l h : proposing intro l h <-> h = when (nonnil l) (intro ++ join (bs ", ") l).
Proof.
  split; [intros [|k N]; [reflexivity|now rewrite (nonnil_true _ N)]|]. intros ->. destruct l; [constructor|constructor; discriminate].
Qed.
Lemma categories_unique r l l' : categories r l -> categories r l' -> l = l'.
Proof.
  intros [S I] [S' I']. apply (ssorted_unique (fun s => s)); [exact S|exact S'|].
  assert (N : forall l, StronglySorted before l -> NoDup l).
  { clear. induction 1 as [|x l _ IH F]; constructor; auto. intros I. rewrite Forall_forall in F. now apply (before_irrefl x), F. }
  apply NoDup_Permutation; auto. intros c. now rewrite I, I'.
Qed.
Lemma get_doc_none r name : (forall d, In d r -> d_name d <> name) -> get_doc r name = None.
Proof.
  intros H. destruct (get_doc r name) as [d|] eqn:G; [|reflexivity]. exfalso. unfold get_doc in G. apply find_some in G as [I Q].
  apply str_eqb_eq in Q. now apply (H d).
Qed.
Lemma docs_none r cat : a_map r -> (forall d, In d r -> d_category d <> cat) -> docs_in_category r cat = [].
Proof.
  intros M H. destruct (category_selects r cat M) as [_ I]. destruct (docs_in_category r cat) as [|d l]; [reflexivity|].
  exfalso. destruct (proj1 (I d) (or_introl eq_refl)) as [Id Q]. now apply (H d).
Qed.
Definition no_order : map_orders := mkOrders (fun r => r) (fun l => l) (fun g => g).
Lemma no_order_possible : possible no_order.
Proof. split; [|split]; intros l; reflexivity. Qed.
Definition some_groups og : map_orders := mkOrders (fun r => r) (fun l => l) og.
Lemma some_groups_possible og : some_order og -> possible (some_groups og).
Proof. intros O. split; [|split]; try exact O; intros l; reflexivity. Qed.

(** the answers of the tool are exactly these *)
Theorem tool_answers_told r name cat verbose a : a_map r ->
  (exists o, possible o /\ doc_handler o r name cat verbose = a) <-> tool_answers r name cat verbose a.
Proof.
  intros M. split.
  - intros (o & (P & Pc & O) & <-). unfold doc_handler.
    destruct name as [|n0 name]; cbn [nonnil andb]; [destruct cat as [|c0 cat]; cbn [nonnil]|].
    + rewrite (all_docs_order r (o_registry o r)) by auto. pose proof (all_selects r M) as A. destruct (all_docs r) as [|x l] eqn:D.
      * apply ta_nothing; auto. destruct r as [|y r]; [reflexivity|]. destruct A as [_ A]. destruct (proj2 (A y)); split; [now left|exact I].
      * destruct (tool_listing_sound (o_groups o) (bs "All functions") (x :: l) verbose O (proj1 A)) as (ls & L & Q).
        destruct (listing_hash _ _ _ _ L) as [t H]. rewrite Q. apply (ta_all r [] [] verbose (x :: l) ls (lt ls)); auto.
        -- intros ->. destruct A as [_ A]. destruct (proj1 (A x)) as [[] _]. now left.
        -- now apply in_lines_lt.
        -- now apply (hash_cut _ t).
    + destruct (category_listing r (o_registry o r) (c0 :: cat) M (P r)) as (_ & _ & ->). pose proof (category_selects r (c0 :: cat) M) as A.
      destruct (docs_in_category r (c0 :: cat)) as [|x l] eqn:D.
      * destruct (categories_listing r (o_registry o r) (o_categories o) (P r) Pc) as (S1 & S2 & _).
        eapply ta_no_category; [reflexivity|discriminate| |split; [exact S1|exact S2]|now apply proposing_iff].
        intros d I Q. destruct A as [_ A]. destruct (proj2 (A d)); auto.
      * destruct (tool_listing_sound (o_groups o) (bs "Functions in category '" ++ (c0 :: cat) ++ bs "'") (x :: l) verbose O (proj1 A)) as (ls & L & Q).
        destruct (listing_hash _ _ _ _ L) as [t H]. rewrite Q.
        apply (ta_category r [] (c0 :: cat) verbose (x :: l) ls (lt ls)); auto; try discriminate; [now apply in_lines_lt|now apply (hash_cut _ t)].
    + destruct cat as [|c0 cat]; cbn [nonnil]; [|apply ta_both; discriminate]. destruct (get_doc r (n0 :: name)) as [d|] eqn:G.
      * apply get_doc_spec in G as [I Q]; auto. destruct (tool_page_ex d) as [ls L]. pose proof (tool_page_lt _ _ L) as T.
        apply (ta_page r _ [] verbose d ls (lt ls)); auto; try discriminate; [now apply in_lines_lt|].
        rewrite T. apply (hash_cut _ (tl (page_text d))); reflexivity.
      * eapply ta_unknown; [discriminate|reflexivity| |apply similar_selects; exact M|apply three_first|].
        -- intros d I Q. pose proof (proj2 (get_doc_spec r (n0 :: name) d M) (conj I Q)). congruence.
        -- apply proposing_iff. unfold suggestions. rewrite (all_docs_order r (o_registry o r)) by auto. reflexivity.
  - intros H. destruct H as [N C|d ls full t N C I Q L F T|docs s hint N C U S F Pr|l hint N C U S Pr|docs ls full t N C Ne S L F T|N C R|docs ls full t N C R S L F T].
    + exists no_order. split; [apply no_order_possible|]. unfold doc_handler. now rewrite (nonnil_true _ N), (nonnil_true _ C).
    + subst cat. exists no_order. split; [apply no_order_possible|]. unfold doc_handler. rewrite (nonnil_true _ N). cbn [nonnil andb].
      replace (get_doc r name) with (Some d) by (symmetry; apply get_doc_spec; auto). apply in_lines_lt in F. rewrite (tool_page_lt _ _ L) in F. subst full.
      apply (hash_cut _ (tl (page_text d))) in T; [|reflexivity]. now subst t.
    + subst cat. exists no_order. split; [apply no_order_possible|]. unfold doc_handler. rewrite (nonnil_true _ N). cbn [nonnil andb].
      rewrite (get_doc_none r name U). apply proposing_iff in Pr. apply first_three_unique in F.
      rewrite (selects_unique _ _ _ _ S (similar_selects r name M)) in F. subst hint s. reflexivity.
    + subst name. exists no_order. split; [apply no_order_possible|]. unfold doc_handler. rewrite (nonnil_true _ C). cbn [nonnil andb].
      change (o_registry no_order r) with r. rewrite (docs_none r cat M U). apply proposing_iff in Pr.
      destruct (categories_listing r r (fun l => l) (Permutation_refl r)) as (S1 & S2 & _); [intros k; reflexivity|].
      rewrite (categories_unique r l _ S (conj S1 S2)) in Pr. now subst hint.
    + subst name. destruct (tool_listing_reached _ _ _ _ (proj1 S) L) as (og & O & Q). exists (some_groups og). split; [now apply some_groups_possible|].
      unfold doc_handler. rewrite (nonnil_true _ C). cbn [nonnil andb]. change (o_registry (some_groups og) r) with r.
      rewrite <- (selects_unique _ _ _ _ S (category_selects r cat M)). destruct docs as [|x l]; [congruence|].
      change (o_groups (some_groups og)) with og. rewrite Q. apply in_lines_lt in F. subst full. destruct (listing_hash _ _ _ _ L) as [u H].
      apply (hash_cut _ u) in T; [|exact H]. now subst t.
    + subst. exists no_order. split; [apply no_order_possible|reflexivity].
    + subst name cat. destruct (tool_listing_reached _ _ _ _ (proj1 S) L) as (og & O & Q). exists (some_groups og). split; [now apply some_groups_possible|].
      unfold doc_handler. cbn [nonnil andb]. change (o_registry (some_groups og) r) with r.
      rewrite <- (selects_unique _ _ _ _ S (all_selects r M)). destruct docs as [|x l].
      * exfalso. destruct r as [|y r]; [congruence|]. destruct S as [_ S]. destruct (proj2 (S y)); split; [now left|exact I].
      * change (o_groups (some_groups og)) with og. rewrite Q. apply in_lines_lt in F. subst full. destruct (listing_hash _ _ _ _ L) as [u H].
        apply (hash_cut _ u) in T; [|exact H]. now subst t.
Qed.
(** so are those of the command *)
Theorem command_answers_told title r args cat verbose a : a_map r ->
  (exists o, possible o /\ run_doc title o r args cat verbose = a) <-> command_answers title r cat verbose args a.
Proof.
  intros M.
  split.
  - intros (o & (P & Pc & O) & <-). unfold run_doc. destruct args as [|name [|b args]]; [| |apply ca_many].
    + destruct cat as [|c0 cat]; cbn [nonnil andb negb].
      * rewrite (all_docs_order r (o_registry o r)) by auto. pose proof (all_selects r M) as A. destruct (all_docs r) as [|x l] eqn:D; cbn [nonnil negb andb].
        -- apply ca_nothing; auto; [|now apply in_lines_lt]. destruct r as [|y r]; [reflexivity|]. destruct A as [_ A]. destruct (proj2 (A y)); split; [now left|exact I].
        -- destruct (command_listing_sound title (o_groups o) (bs "Available functions (" ++ itoa (zlen (x :: l)) ++ bs " total):") (x :: l) verbose O (proj1 A)) as (ls & L & Q).
           apply (ca_all title r [] verbose (x :: l) ls); auto.
           ++ intros ->. destruct A as [_ A]. destruct (proj1 (A x)) as [[] _]. now left.
           ++ apply in_lines_lt. rewrite <- Q, <- !app_assoc. reflexivity.
      * destruct (category_listing r (o_registry o r) (c0 :: cat) M (P r)) as (_ & _ & ->). pose proof (category_selects r (c0 :: cat) M) as A.
        destruct (docs_in_category r (c0 :: cat)) as [|x l] eqn:D; cbn [nonnil negb andb].
        -- apply ca_no_category; [discriminate|]. intros d I Q. destruct A as [_ A]. destruct (proj2 (A d)); auto.
        -- destruct (command_listing_sound title (o_groups o) (bs "Functions in category '" ++ (c0 :: cat) ++ bs "':") (x :: l) verbose O (proj1 A)) as (ls & L & Q).
           apply (ca_category title r (c0 :: cat) verbose (x :: l) ls); auto; try discriminate. apply in_lines_lt. rewrite <- Q, <- !app_assoc. reflexivity.
    + destruct (get_doc r name) as [d|] eqn:G.
      * apply get_doc_spec in G as [I <-]; auto. destruct (command_page_ex d) as [ls L]. pose proof (command_page_lt _ _ L) as T.
        apply (ca_page title r cat verbose d ls); auto. now apply in_lines_lt.
      * apply ca_unknown. intros d I Q. pose proof (proj2 (get_doc_spec r name d M) (conj I Q)). congruence.
  - intros H. destruct H as [x y l|d ls t I L F|name U|C U|docs ls t C Ne S L F|t C R F|docs ls t C R S L F].
    + exists no_order. split; [apply no_order_possible|reflexivity].
    + exists no_order. split; [apply no_order_possible|]. unfold run_doc.
      replace (get_doc r (d_name d)) with (Some d) by (symmetry; apply get_doc_spec; auto). apply in_lines_lt in F. now rewrite (command_page_lt _ _ L) in F; subst t.
    + exists no_order. split; [apply no_order_possible|]. unfold run_doc. now rewrite (get_doc_none r name U).
    + exists no_order. split; [apply no_order_possible|]. unfold run_doc. rewrite (nonnil_true _ C). change (o_registry no_order r) with r.
      now rewrite (docs_none r cat M U).
    + destruct (command_listing_reached _ _ _ _ _ (proj1 S) L) as (og & O & Q). exists (some_groups og). split; [now apply some_groups_possible|].
      unfold run_doc. rewrite (nonnil_true _ C). change (o_registry (some_groups og) r) with r.
      rewrite <- (selects_unique _ _ _ _ S (category_selects r cat M)). destruct docs as [|x l]; [congruence|]. cbn [nonnil negb andb].
      change (o_groups (some_groups og)) with og. apply in_lines_lt in F. subst t. rewrite <- Q. f_equal. rewrite <- !app_assoc. reflexivity.
    + subst. exists no_order. split; [apply no_order_possible|]. apply in_lines_lt in F. now subst t.
    + subst cat. destruct (command_listing_reached _ _ _ _ _ (proj1 S) L) as (og & O & Q). exists (some_groups og). split; [now apply some_groups_possible|].
      unfold run_doc. cbn [nonnil andb]. change (o_registry (some_groups og) r) with r.
      rewrite <- (selects_unique _ _ _ _ S (all_selects r M)). destruct docs as [|x l].
      * exfalso. destruct r as [|y r]; [congruence|]. destruct S as [_ S]. destruct (proj2 (S y)); split; [now left|exact I].
      * cbn [nonnil negb andb]. change (o_groups (some_groups og)) with og. apply in_lines_lt in F. subst t. rewrite <- Q. f_equal. rewrite <- !app_assoc. reflexivity.
Qed.
Definition greet_doc : function_doc := mkDoc (bs "greet") (bs "Say hello") (bs "Inserts a greeting.")
  [mkParam (bs "who") (bs "string") (bs "Whom to greet") false; mkParam (bs "n") (bs "number") [] true]
  [mkExample (bs "Once") (bs "greet ""Jo""") [] (bs "Hello Jo"); mkExample [] (bs "greet ""Jo"" 2") (bs "x") (bs "Hello Jo")]
  [bs "insert"; bs "shout"] (bs "editing").
Definition shout_doc : function_doc := mkDoc (bs "shout") [] [] [] [] [] [].
Example answers_case : let r := [shout_doc; greet_doc] in a_map r /\
  tool_answers r (bs "greet") [] false (ToolText (bs "# greet

**Say hello**

Inserts a greeting.

## Parameters

- **who** (string): Whom to greet
- **n** (number)

## Examples

Once

```
greet ""Jo""
```

```
greet ""Jo"" 2
```

**Category:** editing

**See also:** insert, shout")) /\
  tool_answers r (bs "great") [] false (ToolError (bs "Function 'great' not found")) /\
  tool_answers r (bs "shouting") [] false (ToolError (bs "Function 'shouting' not found. Did you mean: shout")) /\
  tool_answers r [] (bs "none") true (ToolError (bs "No functions found in category 'none'. Available categories: editing")) /\
  tool_answers r [] [] true (ToolText (bs "# All functions

Found 2 function(s):

## Uncategorized

- **shout**

## editing

- **greet**: Say hello")) /\
  command_answers (fun s => s) r [] false [bs "greet"] (Ok (bs "# greet

**Say hello**

## Description

Inserts a greeting.

## Parameters

- **who** (string): Whom to greet
- **n** (number) (optional): 

## Examples

### Once

**Command:**
```
greet ""Jo""
```

**Result:**
Hello Jo

### 

**Initial buffer:**
```
x
```

**Command:**
```
greet ""Jo"" 2
```

**Result:**
Hello Jo

## Category

editing

## See Also

- insert
- shout

")) /\
  command_answers (fun s => s) r (bs "editing") false [] (Ok (bs "Functions in category 'editing':

  greet

Use 'texted doc <function-name>' for detailed documentation.
Use 'texted doc --verbose' to see function summaries.
")).
Proof.
  set (o := mkOrders (fun r => r) (fun l => l) (@rev _)).
  assert (O : possible o) by (split; [|split]; intros l; try reflexivity; apply Permutation_rev).
  assert (M : a_map [shout_doc; greet_doc]) by (repeat constructor; cbn; intuition discriminate).
  split; [exact M|]. repeat split;
    ((apply tool_answers_told; [exact M|]) || (apply command_answers_told; [exact M|])); exists o; (split; [exact O|vm_compute; reflexivity]).
Qed.

(** ** Assumptions of every theorem above *)
Print Assumptions tool_answers_told.
Print Assumptions command_answers_told.
