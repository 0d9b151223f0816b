(** Which bytes can be in the result of a program. *)
From Coq Require Import ZArith NArith List Bool Lia Strings.Byte.
From Verif Require Import Base Float Ext Utf8 Strconv Values Buffer Builtins Eval Spec SpecBytes RefExt RefRegex
  Proofs_Base Proofs_Utf8 Proofs_Bytes.
Import ListNotations.
Open Scope Z_scope.

(** ** C59 *)

Lemma firstn_In {A} n (s : list A) c : In c (firstn n s) -> In c s.
Proof. intros I. rewrite <- (firstn_skipn n s). apply in_or_app. now left. Qed.
Lemma skipn_In {A} n (s : list A) c : In c (skipn n s) -> In c s.
Proof. intros I. rewrite <- (firstn_skipn n s). apply in_or_app. now right. Qed.
(** the reference engines meet the assumption *)
Lemma lit_replace_parts ms : forall s r off c, In c (lit_replace ms s r off) -> In c s \/ In c r.
Proof.
  induction ms as [|[i j] ms IH]; cbn [lit_replace]; intros s r off c I; [now left|].
  apply in_app_or in I as [I|I]; [left; now apply firstn_In in I|]. apply in_app_or in I as [I|I]; [now right|].
  apply IH in I as [I|I]; [|now right]. left. now apply skipn_In in I.
Qed.
Lemma rx_replace_parts ms : forall s r off c, In c (rx_replace ms s r off) -> In c s \/ In c r.
Proof.
  induction ms as [|[i j] ms IH]; cbn [rx_replace]; intros s r off c I; [now left|].
  apply in_app_or in I as [I|I]; [left; now apply firstn_In in I|]. apply in_app_or in I as [I|I]; [now right|].
  apply IH in I as [I|I]; [|now right]. left. now apply skipn_In in I.
Qed.
Lemma ref_parts : replaces_with_parts ref_ext. Proof. intros p s r c. apply lit_replace_parts. Qed.
Lemma rx_parts : replaces_with_parts rx_ext. Proof. intros p s r c. apply rx_replace_parts. Qed.
Lemma ref_cases : case_tables ref_ext. Proof. intros r H. cbn. lia. Qed.

(** A program that calls none of the three case functions leaves no byte in the buffer, and
    none in its result, that was not in the buffer or in a string of the program. *)
Theorem no_foreign_bytes E program b : replaces_with_parts E ->
  (forall e n, In e program -> called (bs n) e -> ~ In n ["upcase"; "downcase"; "capitalize"]%string) ->
  match eval E (default_env E) program b with
  | EvDone v b' =>
    (forall c, In c (content b') -> available program b c) /\
    (forall s c, literal s v -> In c s -> available program b c)
  | EvError _ b' => forall c, In c (content b') -> available program b c
  | _ => True
  end.
Proof.
  intros R N. pose proof (program_keeps (available program b) E program b) as K.
  assert (X1 : forall e s, In e program -> literal s e -> only (available program b) s).
  { intros e s I L. apply Forall_forall. intros c C. right. exists e, s. auto. }
  assert (X2 : only (available program b) (content b)).
  { apply Forall_forall. intros c C. now left. }
  assert (X3 : forall r fn, In r rewriting -> default_env E (bs r) = Some fn -> (exists e, In e program /\ called (bs r) e) ->
    keeps_bytes (available program b) fn).
  { intros r fn [<-|[<-|[<-|[<-|[]]]]] F (e & I & C); try (exfalso; refine (N e _ I C _); cbn; tauto).
    change (Some (b_replace_regexp_in_string E) = Some fn) in F; injection F as <-. now apply replace_keeps. }
  specialize (K X1 X2 X3). clear X1 X2 X3. unfold vin, only in K.
  destruct (eval E (default_env E) program b) as [v b'|x b'| | |]; auto.
  - destruct K as [K1 K2].
    split; [now apply Forall_forall|]. intros s c L I. specialize (K1 s L). rewrite Forall_forall in K1. auto.
  - now apply Forall_forall.
Qed.

(** The functions that change case do introduce bytes: letters of the other case, and for a
    byte that is not well-formed UTF-8 the three bytes of U+FFFD. *)
Theorem case_functions_add_bytes_refuted : exists program c v b',
  eval ref_ext (default_env ref_ext) program (new_buffer []) = EvDone v b' /\
  In c (content b') /\ (128 <= byteN c)%N /\ ~ available program (new_buffer []) c.
Proof.
  exists [VList [VSym (bs "insert"); VList [VSym (bs "downcase"); VStr [xff]]]], xbf. eexists. eexists.
  split; [vm_compute; reflexivity|]. split; [cbn; auto|]. split; [cbn; lia|].
  intros [[]|(e & s & [<-|[]] & L & I)].
  inversion L as [|l a Ia La]; subst. cbn in Ia. destruct Ia as [<-|[<-|[]]]; [inversion La|].
  inversion La as [|l a Ia La']; subst. cbn in Ia. destruct Ia as [<-|[<-|[]]]; [inversion La'|].
  inversion La'; subst. destruct I as [I|[]]. discriminate.
Qed.

(** Whatever functions are called: an ASCII character that is not a letter (a line break, a
    digit, a quotation mark, a bracket ...) is never introduced. *)
Theorem no_foreign_signs E program b c : replaces_with_parts E -> case_tables E ->
  (byteN c < 128)%N -> ~ letter (byteN c) ->
  match eval E (default_env E) program b with
  | EvDone v b' =>
    (In c (content b') -> available program b c) /\ (forall s, literal s v -> In c s -> available program b c)
  | EvError _ b' => In c (content b') -> available program b c
  | _ => True
  end.
Proof.
  intros R T L N. pose proof (program_keeps (fun d => d = c -> available program b c) E program b) as K.
  assert (U : forall t, (In c t -> available program b c) <-> only (fun d => d = c -> available program b c) t).
  { intros t. unfold only. rewrite Forall_forall. split; [intros H d I ->; auto|eauto]. }
  assert (X1 : forall e s, In e program -> literal s e -> only (fun d => d = c -> available program b c) s).
  { intros e s I S. apply U. intros C. right. exists e, s. auto. }
  assert (X2 : only (fun d => d = c -> available program b c) (content b)).
  { apply U. intros C. now left. }
  assert (Up : forall s, only (fun d => d = c -> available program b c) s -> only (fun d => d = c -> available program b c) (to_upper E s)).
  { intros s H. apply U. intros I. apply U in H; auto. now apply (upper_keeps_signs E). }
  assert (Lo : forall s, only (fun d => d = c -> available program b c) s -> only (fun d => d = c -> available program b c) (to_lower E s)).
  { intros s H. apply U. intros I. apply U in H; auto. now apply (lower_keeps_signs E). }
  assert (X3 : forall r fn, In r rewriting -> default_env E (bs r) = Some fn -> (exists e, In e program /\ called (bs r) e) ->
    keeps_bytes (fun d => d = c -> available program b c) fn).
  { intros r fn [<-|[<-|[<-|[<-|[]]]]] F _.
    - change (Some (b_upcase E) = Some fn) in F; injection F as <-. now apply (case_keeps _ (to_upper E) "upcase"%string).
    - change (Some (b_downcase E) = Some fn) in F; injection F as <-. now apply (case_keeps _ (to_lower E) "downcase"%string).
    - change (Some (b_capitalize E) = Some fn) in F; injection F as <-. apply capitalize_keeps; auto.
      intros d Hd. apply U. intros I. apply (upper_keeps_signs E) in I; auto. apply encode_low in I; auto.
      apply byteN_inj in I. auto.
    - change (Some (b_replace_regexp_in_string E) = Some fn) in F; injection F as <-. now apply replace_keeps. }
  specialize (K X1 X2 X3). unfold vin in K.
  destruct (eval E (default_env E) program b) as [v b'|x b'| | |]; auto.
  - destruct K as [K1 K2]. split; [now apply U|]. intros s S. apply U. now apply K1.
  - now apply U.
Qed.

(** in particular, a one-line buffer stays on one line *)
Theorem one_line_stays E program b v b' : replaces_with_parts E -> case_tables E ->
  (forall e s, In e program -> literal s e -> no_newline s) -> no_newline (content b) ->
  eval E (default_env E) program b = EvDone v b' -> no_newline (content b').
Proof.
  intros R T L N H I. assert (A : (byteN nl < 128)%N) by reflexivity.
  assert (X : ~ letter (byteN nl)) by (unfold letter; cbn; lia).
  pose proof (no_foreign_signs E program b nl R T A X) as K. rewrite H in K. destruct K as [K _].
  destruct (K I) as [J|(e & s & Ie & Ls & J)]; [now apply N|now apply (L e s)].
Qed.

(** ASCII in, ASCII out *)
Theorem ascii_stays_ascii E program b : replaces_with_parts E ->
  (forall e s, In e program -> literal s e -> ascii s) -> ascii (content b) ->
  match eval E (default_env E) program b with
  | EvDone v b' => ascii (content b') /\ (forall s, literal s v -> ascii s)
  | EvError _ b' => ascii (content b')
  | _ => True
  end.
Proof.
  intros R L A. pose proof (program_keeps (fun c => (byteN c < 128)%N) E program b L A) as K.
  assert (X3 : forall r fn, In r rewriting -> default_env E (bs r) = Some fn -> (exists e, In e program /\ called (bs r) e) ->
    keeps_bytes (fun c => (byteN c < 128)%N) fn).
  { intros r fn [<-|[<-|[<-|[<-|[]]]]] F _.
    - change (Some (b_upcase E) = Some fn) in F; injection F as <-. apply (case_keeps _ (to_upper E) "upcase"%string). apply upper_ascii_text.
    - change (Some (b_downcase E) = Some fn) in F; injection F as <-. apply (case_keeps _ (to_lower E) "downcase"%string). apply lower_ascii_text.
    - change (Some (b_capitalize E) = Some fn) in F; injection F as <-. apply capitalize_keeps; [apply lower_ascii_text|].
      intros d Hd. apply upper_ascii_text. rewrite encode_byte by auto. now constructor.
    - change (Some (b_replace_regexp_in_string E) = Some fn) in F; injection F as <-. now apply replace_keeps. }
  specialize (K X3). destruct (eval E (default_env E) program b) as [v b'|x b'| | |]; auto. now destruct K.
Qed.

Fixpoint strings (v : value) : list str :=
  match v with VStr s => [s] | VList l => flat_map strings l | _ => [] end.
Fixpoint names (v : value) : list str :=
  match v with VSym n => [n] | VList l => flat_map names l | _ => [] end.
Lemma strings_literal s v : literal s v -> In s (strings v).
Proof. induction 1 as [|l a I _ IH]; [now left|]. cbn [strings]. apply in_flat_map. now exists a. Qed.
Lemma names_called n v : called n v -> In n (names v).
Proof.
  induction 1 as [args|h args a I _ IH]; cbn [names flat_map]; [now left|]. apply in_or_app. right. apply in_flat_map. now exists a.
Qed.
(** a program meeting the conditions of the theorems above that edits, duplicates and replaces *)
Definition shuffle : list value :=
  [VList [VSym (bs "search-forward"); VStr (bs "b")];
   VList [VSym (bs "replace-match"); VList [VSym (bs "replace-regexp-in-string"); VStr (bs "x"); VStr (bs "yy"); VStr (bs "zxz")]];
   VList [VSym (bs "insert"); VList [VSym (bs "buffer-substring"); VNum (f_of_Z 1); VNum (f_of_Z (-1))]]].
Example shuffle_witness :
  match eval ref_ext (default_env ref_ext) shuffle (new_buffer (bs "abc")) with
  | EvDone _ b' => content b' = bs "azyyzazyyzcc"
  | _ => False
  end /\ ascii (content (new_buffer (bs "abc"))) /\
  (forall e s, In e shuffle -> literal s e -> ascii s /\ no_newline s) /\
  (forall e n, In e shuffle -> called (bs n) e -> ~ In n ["upcase"; "downcase"; "capitalize"]%string).
Proof.
  split; [vm_compute; reflexivity|]. split; [repeat constructor|].
  assert (G : forall v, In v shuffle -> Forall (fun s => ascii s /\ no_newline s) (strings v) /\ Forall (fun n => n <> bs "upcase" /\ n <> bs "downcase" /\ n <> bs "capitalize") (names v)).
  { intros v I. unfold shuffle in I. cbn [In] in I. intuition (subst v; cbn [strings names flat_map app]).
    all: repeat constructor; try (now intros X; cbn in X; repeat match goal with H : _ \/ _ |- _ => destruct H end; discriminate + contradiction); discriminate. }
  split.
  - intros e s I L. apply G in I as [I _]. rewrite Forall_forall in I. apply I. now apply strings_literal.
  - intros e n I C. apply G in I as [_ I]. rewrite Forall_forall in I. specialize (I (bs n) (names_called _ _ C)).
    destruct I as (I1 & I2 & I3). intros [<-|[<-|[<-|[]]]]; auto.
Qed.

(** ** Assumptions of every theorem above *)
Print Assumptions no_foreign_bytes.
Print Assumptions case_functions_add_bytes_refuted.
Print Assumptions no_foreign_signs.
Print Assumptions one_line_stays.
Print Assumptions ascii_stays_ascii.
