(** C62: which texts are JSON scripts. *)
From Coq Require Import ZArith NArith List Bool Lia Strings.Byte.
From Verif Require Import Base Float Ext Utf8 Strconv Values Parser Json SpecJson Proofs_Base Proofs_Grammar.
Import ListNotations.
Open Scope Z_scope.

(** ** C62 *)

(** ParseJSONString accepts exactly the grammar of SpecJson and yields exactly the program it denotes *)
Theorem json_script_grammar s p : parse_json_string s = POk p <-> json_script s p.
Proof. split; [apply script_sound|apply script_complete]. Qed.
(** so does ParseJSONReader, for sequences of values *)
Theorem json_values_grammar s p : parse_json_reader s = POk p <-> json_values s p.
Proof. apply reader_iff. Qed.
(** every other text is rejected with an error: the parsers always answer *)
Theorem json_script_rejected s : (forall p, ~ json_script s p) <-> exists e, parse_json_string s = PErr e.
Proof.
  split.
  - intros N. pose proof (script_fuel s). destruct (parse_json_string s) as [p|e|] eqn:P; [|eauto|congruence]. apply script_sound in P. now apply N in P.
  - intros [e E] p G. apply script_complete in G. congruence.
Qed.
Theorem json_values_rejected s : (forall p, ~ json_values s p) <-> exists e, parse_json_reader s = PErr e.
Proof.
  split.
  - intros N. pose proof (reader_fuel s). destruct (parse_json_reader s) as [p|e|] eqn:P; [|eauto|congruence]. apply reader_iff in P. now apply N in P.
  - intros [e E] p G. apply reader_iff in G. congruence.
Qed.
(** the grammar is unambiguous *)
Theorem json_script_one_meaning s p q : json_script s p -> json_script s q -> p = q.
Proof. intros A B. apply script_complete in A, B. congruence. Qed.
Theorem json_values_one_meaning s p q : json_values s p -> json_values s q -> p = q.
Proof. intros A B. apply reader_iff in A, B. congruence. Qed.
Theorem json_body_one_meaning t a b : body t a -> body t b -> a = b.
Proof.
  intros A B. pose proof (string_complete _ _ A (S (length t)) [] ltac:(lia)) as X. rewrite (string_complete _ _ B (S (length t)) [] ltac:(lia)) in X. congruence.
Qed.
(** a script that is a non-empty array holds at least one instruction, each a list *)
Theorem json_script_lists s p : json_script s p -> Forall (fun v => exists l, v = VList l) p.
Proof. intros [? ? ? ?|? ? ? ? ? ?|? ? ? ? ? ? ? ? H]; [constructor|constructor|exact H]. Qed.
(** one script read by both: the array of instructions, against the instructions one after the other *)
Theorem json_script_is_no_stream s p : json_script s p -> p <> [] -> ~ exists q, json_values s q.
Proof.
  intros G Ne [q V]. inversion G as [| |w1 items w2 p' B1 B2 N J L]; subst; try congruence. clear G.
  assert (E : exists w t rest v r, white w /\ w1 ++ "["%byte :: items ++ "]"%byte :: w2 = w ++ t ++ rest /\ json_top t rest v /\ q = v :: r).
  { inversion V as [w W|w t rest v r W T R X]; subst; [|exists w, t, rest, v, r; auto]. exfalso.
    unfold white in W. rewrite Forall_app in W. destruct W as [_ W]. inversion W as [|? ? I _]. cbn in I. intuition discriminate. }
  destruct E as (w & t & rest & v & r & W & E & T & ->).
  assert (A : exists k, json_arg 10000 t (VList k) /\ v = VList k).
  { inversion T as [t' r' l A|t' r' s B|t' r' f Nt P Q]; subst; [eauto|..]; exfalso.
    - assert (Hd : exists u, skip_ws (w1 ++ "["%byte :: items ++ "]"%byte :: w2) = "["%byte :: u) by (rewrite skip_white by auto; cbn; eauto).
      destruct Hd as [u Hd]. rewrite E, skip_white in Hd by auto. discriminate.
    - assert (Hd : exists u, skip_ws (w1 ++ "["%byte :: items ++ "]"%byte :: w2) = "["%byte :: u) by (rewrite skip_white by auto; cbn; eauto).
      destruct Hd as [u Hd]. rewrite E, skip_white in Hd by auto.
      apply number_complete, Proofs_Json.number_head in Nt as (c & x & -> & [->|D]); [discriminate|]. cbn in Hd.
      destruct c; try discriminate D; discriminate Hd. }
  destruct A as (k & A & ->). clear T.
  (* the first value of the array is an array, so t would begin with two opening brackets *)
  assert (F : exists w' u, white w' /\ items = w' ++ "["%byte :: u).
  { inversion J as [|? w' t0 v0 w0 rest0 vs B0 A0 B0' As]; subst. inversion L as [|? ? [l0 ->] _]; subst.
    inversion A0; subst; eexists w', _; split; auto; cbn [app]; reflexivity. }
  destruct F as (w' & u & W' & ->).
  inversion A as [| |? w0 D0 W0 Et Ev|? w0 t0 name w3 args vs D0 W0 Bd W3 As Et Ev]; subst t.
  - assert (X : skip_ws (skipn 1 (skip_ws (w1 ++ "["%byte :: (w' ++ "["%byte :: u) ++ "]"%byte :: w2))) = "["%byte :: u ++ "]"%byte :: w2).
    { rewrite skip_white by auto. cbn [skip_ws]. change (json_ws "[") with false. cbn [skipn]. rewrite <- app_assoc, skip_white by auto. reflexivity. }
    rewrite E, skip_white in X by auto. cbn [app skip_ws] in X. change (json_ws "[") with false in X. cbn [skipn] in X. rewrite <- app_assoc, skip_white in X by auto. discriminate.
  - assert (X : skip_ws (skipn 1 (skip_ws (w1 ++ "["%byte :: (w' ++ "["%byte :: u) ++ "]"%byte :: w2))) = "["%byte :: u ++ "]"%byte :: w2).
    { rewrite skip_white by auto. cbn [skip_ws]. change (json_ws "[") with false. cbn [skipn]. rewrite <- app_assoc, skip_white by auto. reflexivity. }
    rewrite E, skip_white in X by auto. cbn [app skip_ws] in X. change (json_ws "[") with false in X. cbn [skipn] in X. rewrite <- app_assoc, skip_white in X by auto. discriminate.
Qed.

(** *** Concrete cases *)
(** a script with escapes, a surrogate pair, a nested call and white space, derived in the grammar itself *)
Example grammar_script : json_script (bs "[ [""insert"",""\u0041\ud83d\ude00\n""] ]")
  [VList [VSym (bs "insert"); VStr ("A"%byte :: encode_rune 128512%N ++ [x0a])]].
Proof.
  assert (Hex : forall a b c d na nb nc nd, hex_value a na -> hex_value b nb -> hex_value c nc -> hex_value d nd ->
    hex4 [a; b; c; d] (4096 * na + 256 * nb + 16 * nc + nd)%N) by (intros; repeat eexists; eauto).
  apply (js_calls [] (bs " [""insert"",""\u0041\ud83d\ude00\n""] ") [] [_]); [constructor..|discriminate| |repeat constructor; eauto].
  apply (jas_more 9999 [x20] (bs "[""insert"",""\u0041\ud83d\ude00\n""]") _ [x20] [] []); [repeat constructor| |repeat constructor|constructor].
  apply (ja_call 9999 [] (bs "insert") (bs "insert") [] (bs ",""\u0041\ud83d\ude00\n""") [_]); [lia|constructor| |constructor|].
  { repeat (apply body_ascii; [split; [discriminate|reflexivity]|discriminate|discriminate|]). constructor. }
  apply (jas_more _ [] (bs """\u0041\ud83d\ude00\n""") _ [] [] []); [constructor| |constructor|constructor].
  apply (ja_string _ (bs "\u0041\ud83d\ude00\n")).
  apply (body_u (bs "0041") 65 (bs "\ud83d\ude00\n") (encode_rune 128512%N ++ [x0a])).
  { apply (Hex _ _ _ _ 0%N 0%N 4%N 1%N); left; reflexivity. } { unfold high_surrogate; lia. } { unfold low_surrogate; lia. }
  apply (body_pair (bs "d83d") 55357 (bs "de00") 56832 (bs "\n") [x0a]).
  { apply (Hex _ _ _ _ 13%N 8%N 3%N 13%N); left; reflexivity. } { apply (Hex _ _ _ _ 13%N 14%N 0%N 0%N); left; reflexivity. }
  { unfold high_surrogate; lia. } { unfold low_surrogate; lia. }
  apply (body_letter "n" x0a [] []); [cbn; tauto|constructor].
Qed.
(** what is not in the grammar: a number out of range, an unescaped newline, a trailing comma,
    an object, a boolean, an instruction that is no array *)
Example grammar_rejects :
  Forall (fun s => forall p, ~ json_script s p)
    [bs "[[""goto-char"",1e999]]"; bs "[[""insert"",""" ++ [x0a] ++ bs """]]"; bs "[[""insert"",""x""],]"; bs "[{}]"; bs "[[""f"",true]]"; bs "[""f""]"; bs "[[1]]"; []].
Proof. repeat constructor; apply json_script_rejected; eexists; vm_compute; reflexivity. Qed.
(** streams: a number ends where it cannot go on *)
Example values_adjacent : json_values (bs "0[""f""]-2""g""1") [VNum (f_of_Z 0); VList [VSym (bs "f")]; VNum (f_of_Z (-2)); VSym (bs "g"); VNum (f_of_Z 1)].
Proof. apply json_values_grammar. vm_compute. reflexivity. Qed.
Example lone_surrogates : body (bs "\ud83dx\udc00\ud83d\u0041") (encode_rune rune_error ++ bs "x" ++ encode_rune rune_error ++ encode_rune rune_error ++ bs "A").
Proof.
  destruct (string_sound 100 (bs "\ud83dx\udc00\ud83d\u0041""") (encode_rune rune_error ++ bs "x" ++ encode_rune rune_error ++ encode_rune rune_error ++ bs "A") []) as (t & E & B); [vm_compute; reflexivity|].
  change (bs "\ud83dx\udc00\ud83d\u0041""") with (bs "\ud83dx\udc00\ud83d\u0041" ++ [dquote]) in E. apply app_inj_tail in E as [<- _]. exact B.
Qed.

(** ** Assumptions of every theorem above *)
Print Assumptions json_script_grammar.
Print Assumptions json_values_grammar.
Print Assumptions json_script_rejected.
Print Assumptions json_values_rejected.
Print Assumptions json_script_one_meaning.
Print Assumptions json_values_one_meaning.
Print Assumptions json_body_one_meaning.
Print Assumptions json_script_lists.
Print Assumptions json_script_is_no_stream.
