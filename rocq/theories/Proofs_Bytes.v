(** Which bytes a command can put into the buffer or return. *)
From Coq Require Import ZArith NArith List Bool Lia Strings.Byte ZifyBool.
From Verif Require Import Base Float Ext Utf8 Strconv Values Buffer Builtins Eval Spec SpecBytes
  Proofs_Base Proofs_Utf8 Prop_Eval.
Import ListNotations.
Open Scope Z_scope.

Section Bytes.
Variable P : byte -> Prop.
Definition only (s : str) : Prop := Forall P s.
Definition vin (v : value) : Prop := forall s, literal s v -> only s.
(** started with only such bytes, [m] leaves only such bytes, with results in [Q] *)
Definition keeps {A} (m : M A) (Q : A -> Prop) : Prop := forall b, only (content b) ->
  match m b with
  | Done a b' => only (content b') /\ Q a
  | Fail _ b' => only (content b')
  | _ => True
  end.

Lemma keeps_ret {A} (a : A) (Q : A -> Prop) : Q a -> keeps (ret a) Q.
Proof. intros H b I. now split. Qed.
Lemma keeps_fail {A} e (Q : A -> Prop) : keeps (fail e) Q.
Proof. intros b I. exact I. Qed.
Lemma keeps_panic {A} (Q : A -> Prop) : keeps panic Q.
Proof. now intros b I. Qed.
Lemma keeps_diverge {A} (Q : A -> Prop) : keeps diverge Q.
Proof. now intros b I. Qed.
Lemma keeps_bind {A B} (m : M A) (k : A -> M B) Q R : keeps m Q -> (forall a, Q a -> keeps (k a) R) -> keeps (bind m k) R.
Proof. intros H K b I. specialize (H b I). unfold bind. destruct (m b); auto. destruct H as [H1 H2]. now apply K. Qed.
Lemma keeps_get_content : keeps get_content only.
Proof. intros b I. now split. Qed.
Lemma keeps_get_point : keeps get_point (fun _ => True).
Proof. intros b I. now split. Qed.
Lemma keeps_get_mark : keeps get_mark (fun _ => True).
Proof. intros b I. now split. Qed.
Lemma keeps_get_search : keeps get_search (fun _ => True).
Proof. intros b I. now split. Qed.
Lemma keeps_set_point p : keeps (set_point p) (fun _ => True).
Proof. intros b I. now split. Qed.
Lemma keeps_set_mark p : keeps (set_mark p) (fun _ => True).
Proof. intros b I. now split. Qed.
Lemma keeps_set_search m s e : keeps (set_search m s e) (fun _ => True).
Proof. intros b I. now split. Qed.
Lemma keeps_alloc s : only s -> keeps (alloc s) only.
Proof. intros H b I. unfold alloc. destruct (max_alloc <? zlen s); auto. Qed.
Lemma keeps_set_content s : only s -> keeps (set_content s) (fun _ => True).
Proof. intros H. unfold set_content. apply (keeps_bind _ _ only); [now apply keeps_alloc|]. intros a K b I. now split. Qed.
Lemma only_app s t : only s -> only t -> only (s ++ t).
Proof. intros H K. apply Forall_app. now split. Qed.
Lemma keeps_slice s i j : only s -> keeps (slice_m s i j) only.
Proof.
  intros H. unfold slice_m. destruct (slice s i j) eqn:X; [|apply keeps_panic]. apply keeps_ret.
  apply slice_some in X as (u & v & -> & _ & _). apply Forall_app in H as [_ H]. now apply Forall_app in H.
Qed.
Lemma keeps_index s i : keeps (index_m s i) (fun _ => True).
Proof. unfold index_m. destruct (index s i); [now apply keeps_ret|apply keeps_panic]. Qed.
Lemma keeps_scan_fwd n c p pos : keeps (scan_fwd n c p pos) (fun _ => True).
Proof.
  revert pos. induction n as [|n IH]; intros pos; [apply keeps_diverge|]. cbn [scan_fwd].
  destruct (pos <? zlen c); [|now apply keeps_ret]. apply (keeps_bind _ _ _ _ (keeps_index _ _)). intros ch _.
  destruct (p ch); auto. now apply keeps_ret.
Qed.
Lemma keeps_scan_bwd n c p pos : keeps (scan_bwd n c p pos) (fun _ => True).
Proof.
  revert pos. induction n as [|n IH]; intros pos; [apply keeps_diverge|]. cbn [scan_bwd].
  destruct (0 <? pos); [|now apply keeps_ret]. apply (keeps_bind _ _ _ _ (keeps_index _ _)). intros ch _.
  destruct (p ch); auto. now apply keeps_ret.
Qed.
Lemma keeps_column n c i col : keeps (column_loop n c i col) (fun _ => True).
Proof.
  revert i col. induction n as [|n IH]; intros i col; [apply keeps_diverge|]. cbn [column_loop].
  destruct (0 <=? i); [|now apply keeps_ret]. apply (keeps_bind _ _ _ _ (keeps_index _ _)). intros ch _.
  destruct (negb (is_nl ch)); auto. now apply keeps_ret.
Qed.
Lemma keeps_fwd_words n c count i pos : keeps (fwd_words n c count i pos) (fun _ => True).
Proof.
  revert i pos. induction n as [|n IH]; intros i pos; [apply keeps_diverge|]. cbn [fwd_words].
  destruct ((i <? count) && (pos <? zlen c)); [|now apply keeps_ret].
  apply (keeps_bind _ _ _ _ (keeps_scan_fwd _ _ _ _)). intros p1 _.
  apply (keeps_bind _ _ _ _ (keeps_scan_fwd _ _ _ _)). intros p2 _. apply IH.
Qed.
Lemma keeps_bwd_words n c count i pos : keeps (bwd_words n c count i pos) (fun _ => True).
Proof.
  revert i pos. induction n as [|n IH]; intros i pos; [apply keeps_diverge|]. cbn [bwd_words].
  destruct ((i <? count) && (0 <? pos)); [|now apply keeps_ret].
  apply (keeps_bind _ _ _ _ (keeps_scan_bwd _ _ _ _)). intros p1 _.
  apply (keeps_bind _ _ _ _ (keeps_scan_bwd _ _ _ _)). intros p2 _. apply IH.
Qed.
Lemma keeps_line_step c pos : keeps (line_step c pos) (fun _ => True).
Proof.
  unfold line_step. apply (keeps_bind _ _ _ _ (keeps_scan_fwd _ _ _ _)). intros q _.
  destruct (q <? zlen c); [|now apply keeps_ret]. apply (keeps_bind _ _ _ _ (keeps_index _ _)). intros ch _. now apply keeps_ret.
Qed.
Lemma keeps_line_steps c n pos : keeps (line_steps c n pos) (fun _ => True).
Proof.
  unfold line_steps. destruct n as [|n|n]; try (now apply keeps_ret). cbn [Z.iter].
  apply Pos.iter_invariant; [|now apply keeps_ret]. intros m H. apply (keeps_bind _ _ _ _ H). intros q _. apply keeps_line_step.
Qed.

(** values *)
Lemma vin_str s : vin (VStr s) <-> only s.
Proof. split; intros H; [apply H; constructor|]. intros t L. inversion L; subst. exact H. Qed.
Lemma vin_num f : vin (VNum f).
Proof. intros t L. inversion L. Qed.
Lemma vin_int z : vin (VInt z).
Proof. intros t L. inversion L. Qed.
Lemma vin_sym n : vin (VSym n).
Proof. intros t L. inversion L. Qed.
Lemma vin_list l : vin (VList l) <-> Forall vin l.
Proof.
  split; intros H.
  - apply Forall_forall. intros v I s L. apply H. now apply lit_inside with v.
  - intros s L. inversion L as [|l' a I L']; subst. rewrite Forall_forall in H. now apply (H a I).
Qed.
Lemma vin_empty : vin VEmpty. Proof. apply vin_str. constructor. Qed.
Lemma vin_t : vin VT. Proof. intros s L. inversion L. Qed.
Lemma vin_nil : vin VNil. Proof. intros s L. inversion L. Qed.
Lemma keeps_concat args i acc : Forall vin args -> only acc -> keeps (concat_loop args i acc) vin.
Proof.
  intros H. revert i acc. induction H as [|v args V _ IH]; intros i acc O; cbn [concat_loop]; [apply keeps_ret; now apply vin_str|].
  destruct v; try apply keeps_fail. apply (keeps_bind _ _ only); [|intros a Ha; now apply IH].
  apply keeps_alloc, only_app; auto. now apply vin_str.
Qed.

Ltac prim := first
  [ apply keeps_get_content | apply keeps_get_point | apply keeps_get_mark | apply keeps_get_search
  | apply keeps_set_point | apply keeps_set_mark | apply keeps_set_search | apply keeps_index
  | apply keeps_scan_fwd | apply keeps_scan_bwd | apply keeps_column | apply keeps_fwd_words | apply keeps_bwd_words
  | apply keeps_line_steps | apply keeps_slice; assumption
  | apply keeps_alloc; repeat apply only_app; assumption
  | apply keeps_set_content; repeat apply only_app; assumption ].
Ltac args := repeat match goal with
  | H : Forall vin (_ :: _) |- _ => inversion H; subst; clear H
  | H : Forall vin [] |- _ => clear H
  | H : vin (VStr _) |- _ => apply vin_str in H
  end.
Ltac step := match goal with
  | |- keeps (ret _) _ => apply keeps_ret; first [apply vin_empty|apply vin_int|apply vin_t|apply vin_nil|apply vin_str; assumption|exact I]
  | |- keeps (fail _) _ => apply keeps_fail
  | |- keeps (got _ _ _) _ => apply keeps_fail
  | |- keeps (wants _ _) _ => apply keeps_fail
  | |- keeps (bind _ _) _ => eapply keeps_bind; [first [prim|match goal with |- keeps (if ?c then _ else _) _ => destruct c; prim end]|intros ? ?]
  | |- keeps (let x := ?v in @?k x) ?Q => let y := fresh "y" in generalize v; intros y; change (keeps (k y) Q)
  | |- keeps (match ?x with _ => _ end) _ => destruct x; args
  end; cbv beta iota.
Ltac start := unfold no_args, one_string, one_number, opt_count, slice_to, slice_from, substring_of; cbv beta iota.

Lemma keeps_buf_insert s : only s -> keeps (buf_insert s) (fun _ => True).
Proof.
  intros H. unfold buf_insert, slice_to, slice_from.
  eapply keeps_bind; [prim|]. intros c Hc. eapply keeps_bind; [prim|]. intros p _. apply (keeps_bind _ _ (fun _ => True)); [|intros; prim].
  repeat step; prim.
Qed.

(** the functions that change letters or substitute matches are treated separately *)
Definition rewriting : list String.string := ["upcase"; "downcase"; "capitalize"; "replace-regexp-in-string"]%string.
Definition keeps_bytes (f : builtin) : Prop := forall vs, Forall vin vs -> keeps (f vs) vin.
Lemma plain_keeps E : Forall (fun nf => (forall r, In r rewriting -> fst nf <> bs r) -> keeps_bytes (snd nf)) (default_functions E).
Proof.
  unfold default_functions. repeat constructor; cbn [fst snd]; intros N vs A;
  try (exfalso; eapply N; [|reflexivity]; cbn; tauto); clear N;
  try solve [match goal with |- keeps (?f _) _ => unfold f | |- keeps (?f _ _) _ => unfold f end; start; repeat step].
  - unfold b_insert. start. repeat step. eapply keeps_bind; [apply keeps_buf_insert; assumption|]. intros _ _. step.
  - now apply keeps_concat; [|constructor].
Qed.

(** expressions and programs whose functions keep the bytes *)
Lemma eval_keeps E env e : (forall n fn, called n e -> env n = Some fn -> keeps_bytes fn) -> vin e -> keeps (eval_expr E env e) vin.
Proof.
  induction e as [n|s|f|l IH] using value_ind'; intros F V; cbn [eval_expr]; try (now apply keeps_ret); try apply keeps_fail.
  destruct l as [|[n|s|f|l'] args]; try apply keeps_fail. destruct (env n) as [fn|] eqn:L; [|apply keeps_fail].
  apply vin_list in V. inversion V as [|? ? _ Va]; subst. inversion IH as [|? ? _ IHa]; subst.
  eapply (keeps_bind _ _ (Forall vin)); [|intros vs Hvs; apply (F n fn); auto; constructor].
  assert (Fa : forall a, In a args -> forall n fn, called n a -> env n = Some fn -> keeps_bytes fn)
    by (intros a Ia n' fn' C; apply F; now apply called_inside with a).
  clear F L V IH. induction args as [|a args IHl]; [apply keeps_ret; constructor|].
  inversion Va; inversion IHa; subst. eapply keeps_bind; [match goal with H : _ -> _ -> keeps _ _ |- _ => apply H end; auto; apply Fa; now left|].
  intros v Hv. eapply keeps_bind; [apply IHl; auto; intros a' I'; apply Fa; now right|]. intros vs Hvs. apply keeps_ret. now constructor.
Qed.
Lemma from_keeps E env (whole rest : list value) : Forall vin rest ->
  (forall e n fn, In e rest -> called n e -> env n = Some fn -> keeps_bytes fn) ->
  forall i v b, vin v -> only (content b) ->
  match fst (eval_from E env (@None (@callback unit)) whole i rest v tt b) with
  | EvDone w b' => vin w /\ only (content b')
  | EvError _ b' => only (content b')
  | _ => True
  end.
Proof.
  induction 1 as [|e rest V _ IH]; intros F i v b Hv Hb; cbn [eval_from fst]; [now split|].
  pose proof (eval_keeps E env e (fun n fn => F e n fn (or_introl eq_refl)) V b Hb) as K.
  destruct (eval_expr E env e b) as [w b'|m b'| | |]; cbn [fst]; auto.
  destruct K as [K1 K2]. apply IH; auto. intros e' n fn I'. apply F. now right.
Qed.
End Bytes.

Lemma lookup_in {A} (l : list (str * A)) n x : lookup l n = Some x -> In (n, x) l.
Proof.
  induction l as [|[k y] l IH]; cbn [lookup]; [discriminate|]. destruct (str_eqb n k) eqn:X; intros H; [|right; auto].
  apply str_eqb_eq in X. injection H as ->. subst. now left.
Qed.
Lemma program_keeps P E program b :
  (forall e s, In e program -> literal s e -> only P s) -> only P (content b) ->
  (forall r fn, In r rewriting -> default_env E (bs r) = Some fn -> (exists e, In e program /\ called (bs r) e) -> keeps_bytes P fn) ->
  match eval E (default_env E) program b with
  | EvDone w b' => vin P w /\ only P (content b')
  | EvError _ b' => only P (content b')
  | _ => True
  end.
Proof.
  intros L B R. unfold eval, eval_with_trace. apply from_keeps; auto.
  - apply Forall_forall. intros e I s S. now apply (L e).
  - intros e n fn I C F. destruct (in_dec (list_eq_dec Byte.byte_eq_dec) n (map bs rewriting)) as [Y|N].
    + apply in_map_iff in Y as (r & <- & Ir). apply (R r); auto. now exists e.
    + apply lookup_in in F. pose proof (plain_keeps P E) as K. rewrite Forall_forall in K. apply (K (n, fn)); auto.
      intros r Ir X. apply N. cbn in X. subst. now apply in_map.
  - apply vin_str. constructor.
Qed.

(** substitution *)
Lemma replace_keeps P E : replaces_with_parts E -> keeps_bytes P (b_replace_regexp_in_string E).
Proof.
  intros R vs A. unfold b_replace_regexp_in_string.
  destruct vs as [|v1 vs]; [apply keeps_fail|]. destruct vs as [|v2 vs]; [destruct v1; apply keeps_fail|].
  destruct vs as [|v3 vs]; [destruct v1, v2; apply keeps_fail|].
  destruct vs as [|v4 vs]; [|destruct v1, v2, v3; apply keeps_fail].
  inversion A as [|? ? A1 A']; subst. inversion A' as [|? ? A2 A'']; subst. inversion A'' as [|? ? A3 _]; subst.
  destruct v1 as [|p| |]; try apply keeps_fail. destruct v2 as [|r| |]; try apply keeps_fail. destruct v3 as [|s| |]; try apply keeps_fail.
  apply vin_str in A2, A3. destruct (re_error E p); [apply keeps_fail|].
  eapply keeps_bind; [apply keeps_alloc|intros t Ht; apply keeps_ret; now apply vin_str].
  apply Forall_forall. intros c I. apply R in I. unfold only in *. rewrite Forall_forall in A2, A3. destruct I; auto.
Qed.

(** letters *)
Lemma case_keeps P (f : str -> str) name : (forall s, only P s -> only P (f s)) ->
  keeps_bytes P (fun vs => one_string name vs (fun s => t <- alloc (f s) ;; ret (VStr t))).
Proof.
  intros F vs A. unfold one_string. destruct vs as [|v [|]]; try apply keeps_fail; [|destruct v; apply keeps_fail].
  destruct v as [|s| |]; try apply keeps_fail. inversion A as [|? ? A1 _]; subst. apply vin_str in A1.
  eapply keeps_bind; [apply keeps_alloc, F, A1|]. intros t Ht. apply keeps_ret. now apply vin_str.
Qed.
Lemma capitalize_keeps P E : (forall s, only P s -> only P (to_lower E s)) ->
  (forall c, P c -> only P (to_upper E (encode_rune (byteN c)))) -> keeps_bytes P (b_capitalize E).
Proof.
  intros F G vs A. unfold b_capitalize, one_string. destruct vs as [|v [|]]; try apply keeps_fail; [|destruct v; apply keeps_fail].
  destruct v as [|s| |]; try apply keeps_fail. inversion A as [|? ? A1 _]; subst. apply vin_str in A1.
  destruct s as [|c s]; [apply keeps_ret, vin_empty|]. inversion A1 as [|? ? Pc Ps]; subst.
  eapply keeps_bind; [apply keeps_alloc|intros t Ht; apply keeps_ret; now apply vin_str].
  apply only_app; [now apply G|now apply F].
Qed.

(** a byte below 128 in the text is a rune of it, and the other way round *)
Open Scope N_scope.
Lemma encode_low r c : In c (encode_rune r) -> byteN c < 128 -> r = byteN c.
Proof.
  intros I L. unfold encode_rune in I. destruct (valid_rune r) eqn:V.
  - unfold valid_rune in V. unfold encode_valid in I.
    destruct (r <=? 127) eqn:H1; [|destruct (r <=? 2047) eqn:H2; [|destruct (r <=? 65535) eqn:H3]]; cbn [In] in I;
    repeat match goal with H : _ \/ _ |- _ => destruct H end; try contradiction; subst c; rewrite byteN_of_N in * by lia; lia.
  - exfalso. unfold rune_error in I. cbn in I. repeat match goal with H : _ \/ _ |- _ => destruct H end; try contradiction; subst c; cbn in L; lia.
Qed.
Lemma runes_low s ra : In ra (runes s) -> r_rune ra < 128 -> exists c, In c s /\ byteN c = r_rune ra.
Proof.
  induction s as [|r t V IH|b t Hb D IH] using runes_ind; intros I L.
  - destruct I.
  - rewrite runes_encode in I by auto. destruct I as [<-|I].
    + cbn in L |- *. exists (byte_of_N r). rewrite encode_ascii, byteN_of_N by lia. split; [now left|reflexivity].
    + destruct (IH I L) as (c & Ic & E). exists c. split; auto. apply in_or_app. now right.
  - rewrite runes_bad in I by auto. destruct I as [<-|I].
    + cbn in L. unfold rune_error in L. lia.
    + destruct (IH I L) as (c & Ic & E). exists c. split; auto. now right.
Qed.
Lemma mapped_low (g : rune -> rune) s c : In c (flat_map (fun ra => encode_rune (g (r_rune ra))) (runes s)) -> byteN c < 128 ->
  exists ra, In ra (runes s) /\ g (r_rune ra) = byteN c.
Proof. intros I L. apply in_flat_map in I as (ra & I & J). exists ra. split; auto. now apply encode_low. Qed.
Lemma upper_keeps_signs E s c : case_tables E -> byteN c < 128 -> ~ letter (byteN c) -> In c (to_upper E s) -> In c s.
Proof.
  intros T L N I. apply mapped_low in I as (ra & I & G); auto. unfold rune_upper in G.
  destruct (r_rune ra <=? 127) eqn:H.
  - destruct (runes_low s ra I) as (d & Id & Ed); [lia|].
    replace c with d; auto. apply byteN_inj. unfold letter in N. destruct ((97 <=? r_rune ra) && (r_rune ra <=? 122)) eqn:X; lia.
  - destruct (T (r_rune ra)) as [T1 _]; [lia|]. rewrite G in T1. destruct T1; [lia|contradiction].
Qed.
Lemma lower_keeps_signs E s c : case_tables E -> byteN c < 128 -> ~ letter (byteN c) -> In c (to_lower E s) -> In c s.
Proof.
  intros T L N I. apply mapped_low in I as (ra & I & G); auto. unfold rune_lower in G.
  destruct (r_rune ra <=? 127) eqn:H.
  - destruct (runes_low s ra I) as (d & Id & Ed); [lia|].
    replace c with d; auto. apply byteN_inj. unfold letter in N. destruct ((65 <=? r_rune ra) && (r_rune ra <=? 90)) eqn:X; lia.
  - destruct (T (r_rune ra)) as [_ T1]; [lia|]. rewrite G in T1. destruct T1; [lia|contradiction].
Qed.

(** ASCII text *)
Lemma runes_of_ascii s : ascii s -> Forall (fun ra => r_rune ra < 128) (runes s).
Proof.
  induction 1 as [|c s H _ IH]; [constructor|]. rewrite runes_ascii by auto. constructor; auto.
Qed.
Lemma mapped_ascii (g : rune -> rune) s : ascii s -> (forall r, r < 128 -> g r < 128) ->
  ascii (flat_map (fun ra => encode_rune (g (r_rune ra))) (runes s)).
Proof.
  intros A G. apply runes_of_ascii in A. induction A as [|ra l H _ IH]; [constructor|]. cbn [flat_map].
  rewrite encode_ascii by auto. cbn [app]. constructor; auto. specialize (G _ H). rewrite byteN_of_N by lia. auto.
Qed.
Lemma upper_ascii_text E s : ascii s -> ascii (to_upper E s).
Proof. intros A. apply mapped_ascii; auto. intros r H. unfold rune_upper. destruct (r <=? 127) eqn:X; [|lia]. destruct ((97 <=? r) && (r <=? 122)); lia. Qed.
Lemma lower_ascii_text E s : ascii s -> ascii (to_lower E s).
Proof. intros A. apply mapped_ascii; auto. intros r H. unfold rune_lower. destruct (r <=? 127) eqn:X; [|lia]. destruct ((65 <=? r) && (r <=? 90)) eqn:Y; lia. Qed.
