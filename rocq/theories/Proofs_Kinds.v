(** Lemmas for C87. *)
From Coq Require Import ZArith NArith QArith List Bool Lia Strings.Byte ZifyBool.
From Verif Require Import Base Float Ext Utf8 Strconv Values Buffer Builtins Eval Files Tools Spec SpecText SpecNumber SpecJson SpecLines SpecManual SpecMeaning SpecKinds
  Proofs_Base Proofs_Json Proofs_Effects Proofs_Meaning Proofs_Meaning2 Proofs_Program Prop_Calls Prop_Manual Prop_Meaning.
Import ListNotations.
Open Scope Z_scope.

Scheme checked_mut := Minimality for checked Sort Prop with all_checked_mut := Minimality for all_checked Sort Prop.
Combined Scheme checked_both from checked_mut, all_checked_mut.

Lemma bs_inj a b : bs a = bs b -> a = b.
Proof.
  revert b. induction a as [|c a IH]; intros [|d b] H; try discriminate; auto. cbn in H. injection H as H1 H2. f_equal; auto.
  apply (f_equal Ascii.ascii_of_byte) in H1. now rewrite !Ascii.ascii_of_byte_of_ascii in H1.
Qed.

(** ** Kinds *)
Lemma yields_total name : exists k, yields name k.
Proof.
  destruct (in_dec String.string_dec name counting); [eexists; now apply yi_number|].
  destruct (in_dec String.string_dec name asking); [eexists; now apply yi_answer|eexists; now apply yi_text].
Qed.
Lemma counting_asking name : In name counting -> In name asking -> False.
Proof. intros A B. cbn in A. repeat (destruct A as [<-|A]; [cbn in B; repeat (destruct B as [B|B]; [discriminate|]); exact B|]). exact A. Qed.
Lemma yields_one name k k' : yields name k -> yields name k' -> k = k'.
Proof. intros [? A|? A|? A B] H; inversion H as [? C|? C|? C D]; subst; auto; exfalso; try contradiction; eapply counting_asking; eassumption. Qed.

Lemma number_kind z v : number z v -> has_kind KNumber v. Proof. now intros (f & -> & _). Qed.
Lemma call_kind E name args b v b' k : ext_ok E -> machine b -> held args -> (exists s, In (name, s) signatures) ->
  call E name args b = Done v b' -> yields name k -> of_kind k v.
Proof.
  intros X M A N C Y. apply manual_exact in C; auto. clear M A N X.
  assert (T : forall w, v = VStr w -> ~ In name counting -> ~ In name asking -> of_kind k v).
  { intros w -> H1 H2. destruct Y; try contradiction; exact I. }
  assert (U : forall z, number z v -> In name counting -> of_kind k v).
  { intros z H H1. apply number_kind in H. destruct Y; [exact H|now right; right|contradiction]. }
  assert (W : (v = VSym (bs "t") \/ v = VSym (bs "nil") \/ has_kind KNumber v) -> In name asking -> of_kind k v).
  { intros H H1. destruct Y; [exfalso; eapply counting_asking; eassumption|exact H|contradiction]. }
  clear Y. remember (Done v b') as o eqn:O.
  destruct C; unfold becomes, gives, yes_if in *; unfold fine in *;
    repeat match goal with H : _ \/ ?o = OutOfMemory |- _ => destruct H | H : _ /\ ?o = Done _ _ \/ _ |- _ => destruct H as [[? ?]|[? ?]] end;
    repeat match goal with H : ?o = _, O : ?o = Done v b' |- _ => is_var o; rewrite H in O; clear H end; try discriminate;
    injection O as O1 O2;
    first [ eapply U; [subst v; eassumption|cbn; tauto]
          | apply W; [subst v; eauto using number_kind|cbn; tauto]
          | eapply T; [symmetry; exact O1| |]; let Hx := fresh in intros Hx; cbn in Hx; repeat (destruct Hx as [Hx|Hx]; [discriminate Hx|]); exact Hx ].
Qed.

(** ** Accepted arguments *)
Lemma admits_accepts s ks vs : admits s ks -> Forall2 of_kind ks vs -> accepts s vs.
Proof.
  destruct s as [shapes|k]; cbn.
  - intros (l & I & ->) F. exists l. split; auto. clear I. revert vs F. induction l as [|k l IH]; intros vs F; inversion F; subst; constructor; auto.
  - intros A F. induction F as [|k' v ks vs H _ IH]; [constructor|]. inversion A as [|? ? Q A']; subst. constructor; auto.
Qed.
Definition definite (k : option kind) (v : value) : Prop := match k with Some k => has_kind k v | None => v = VSym (bs "t") \/ v = VSym (bs "nil") end.
Lemma definite_kind k k' v : has_kind k v -> definite k' v -> k' = Some k.
Proof. destruct k, k' as [[|]|], v; cbn; try easy; intros _ [H|H]; discriminate. Qed.
Lemma accepts_admits s ks vs : accepts s vs -> Forall2 definite ks vs -> admits s ks.
Proof.
  destruct s as [shapes|k]; cbn.
  - intros (l & I & A) F. exists l. split; auto. clear I. revert l vs A F. induction ks as [|k' ks IH]; intros l vs A F; inversion F; subst; inversion A; subst; auto.
    cbn. f_equal; eauto using definite_kind.
  - intros A F. induction F as [|k' v ks vs H _ IH]; [constructor|]. inversion A as [|? ? Q A']; subst. constructor; auto. symmetry. eauto using definite_kind.
Qed.

Section Checking.
Variable E : Ext.
Hypothesis X : ext_ok E.
Notation ev := (eval_expr E (default_env E)).
Notation evs := (eval_list E (default_env E)).

Lemma known_env name s : In (name, s) signatures -> exists f, default_env E (bs name) = Some f /\ forall args b, f args b = call E name args b.
Proof.
  intros I. destruct (known_some E (bs name)) as [f D]; [exists name, s; auto|]. exists f. split; auto. intros. unfold call. now rewrite D.
Qed.
(** the value of a checked expression is of its kind, and only a fallible command fails *)
Definition sound (e : value) (k : option kind) : Prop := holds_texts e -> forall b, machine b ->
  match ev e b with
  | Done v _ => of_kind k v
  | Fail m _ => exists name args, called (bs name) e /\ In name fallible /\ expected_error E name args m
  | Panic | OutOfMemory => True
  | Diverge => False
  end.
Lemma expected_fallible name args m : expected_error E name args m -> In name fallible.
Proof.
  intros [[H _]|[[H _]|[-> _]]]; cbn in *; intuition.
Qed.
Lemma checked_sound : (forall e k, checked e k -> sound e k) /\
  (forall es ks, all_checked es ks -> Forall holds_texts es -> forall b, machine b ->
    match evs es b with
    | Done vs _ => Forall2 of_kind ks vs
    | Fail m _ => exists e name args, In e es /\ called (bs name) e /\ In name fallible /\ expected_error E name args m
    | Panic | OutOfMemory => True
    | Diverge => False
    end).
Proof.
  apply checked_both.
  - intros s T b M. exact I.
  - intros f T b M. exact I.
  - intros name s args ks k S _ IH A Y T b M. apply all_atoms_list in T. inversion T as [|? ? _ T']; subst. specialize (IH T' b M).
    pose proof (list_lands E X args T' b M) as L. destruct (known_env name s S) as (f & D & F). rewrite eval_call, D. unfold bind.
    destruct (evs args b) as [vs b1|m b1| | |]; auto.
    + destruct L as [M1 H1]. rewrite F. pose proof (call_lands E X name vs b1 M1 H1 (ex_intro _ s S)) as L.
      destruct (call E name vs b1) as [v b2|m b2| | |] eqn:C; auto.
      * eapply call_kind; eauto.
      * exists name, vs. split; [constructor|]. assert (Ex : expected_error E name vs m).
        { eapply accepted_arguments_are_not_rejected; [exact S| |exact C]. eapply admits_accepts; eauto. }
        split; auto. eapply expected_fallible; eauto.
    + destruct IH as (e & n & l & I & H). exists n, l. destruct H as [H1 H2]. split; auto. now apply called_inside with e.
  - intros _ b M. constructor.
  - intros e es k ks _ IH1 _ IH2 T b M. inversion T as [|? ? T1 T2]; subst. specialize (IH1 T1 b M). pose proof (eval_lands E X e T1 b M) as L.
    rewrite eval_list_cons. unfold bind. destruct (ev e b) as [v b1|m b1| | |]; auto.
    + destruct L as [M1 _]. specialize (IH2 T2 b1 M1). destruct (evs es b1) as [vs b2|m b2| | |]; auto.
      * now constructor.
      * destruct IH2 as (e' & n & l & I & H). exists e', n, l. split; auto. now right.
    + destruct IH1 as (n & l & H). exists e, n, l. split; auto. now left.
Qed.

(** a call with a value had arguments the command accepts *)
Lemma concat_takes args : forall i acc b v b', concat_loop args i acc b = Done v b' -> Forall (has_kind KString) args.
Proof.
  induction args as [|x args IH]; intros i acc b v b' H; [constructor|]. destruct x as [n|s|f|l]; cbn [concat_loop] in H; try discriminate.
  unfold bind in H. destruct (alloc (acc ++ s) b) as [a b1|m b1| | |]; try discriminate. constructor; [exact I|]. eapply IH; eauto.
Qed.
Lemma call_takes name s args b v b' : In (name, s) signatures -> call E name args b = Done v b' -> accepts s args.
Proof.
  intros S C. destruct (acceptsb s args) eqn:A; [now apply acceptsb_spec|]. exfalso.
  assert (N : ~ accepts s args) by (rewrite <- acceptsb_spec; congruence).
  destruct (String.string_dec name "concat") as [->|D].
  - assert (s = AnyNumberOf KString) as -> by (eapply signatures_unique; [exact S|apply in_signatures; reflexivity]).
    apply N. eapply concat_takes. exact C.
  - destruct (wrong_arguments_are_rejected E name s args b S N) as [m Q]; [now intros|]. congruence.
Qed.
(** and, if it is not string-match, a value whose kind is settled *)
Lemma call_settled name args b v b' k : machine b -> held args -> (exists s, In (name, s) signatures) ->
  call E name args b = Done v b' -> yields name k -> name <> "string-match"%string -> definite k v.
Proof.
  intros M A N C Y D. pose proof (call_kind E name args b v b' k X M A N C Y) as K. destruct k as [k|]; [exact K|].
  inversion Y as [|? I|]; subst. cbn in I. apply manual_exact in C; auto. clear - C I D.
  destruct I as [<-|[<-|[<-|[]]]]; [| |congruence]; inversion C; subst; cbn; auto; unfold yes_if in *;
    match goal with H : _ /\ _ \/ _ /\ _ |- _ => destruct H as [[_ H]|[_ H]]; injection H as -> _; auto end.
Qed.

(** an expression with a value is checked, unless it uses the answer of string-match *)
Lemma each_checked args : Forall (fun e => plain e -> holds_texts e -> forall b v b', machine b -> ev e b = Done v b' ->
    exists k, checked e k /\ ((forall l, e <> VList (VSym (bs "string-match") :: l)) -> definite k v)) args ->
  Forall plain args -> (forall l, ~ In (VList (VSym (bs "string-match") :: l)) args) -> Forall holds_texts args ->
  forall b vs b', machine b -> evs args b = Done vs b' -> exists ks, all_checked args ks /\ Forall2 definite ks vs.
Proof.
  induction 1 as [|e es He _ IH]; intros P N T b vs b' M Q.
  - injection Q as <- _. exists []. split; constructor.
  - rewrite eval_list_cons in Q. unfold bind in Q. inversion P as [|? ? P1 P2]; inversion T as [|? ? T1 T2]; subst.
    pose proof (eval_lands E X e T1 b M) as L. destruct (ev e b) as [v b1|m b1| | |] eqn:Q1; try discriminate. destruct L as [M1 _].
    destruct (evs es b1) as [ws b2|m b2| | |] eqn:Q2; try discriminate. injection Q as <- _.
    destruct (He P1 T1 b v b1 M Q1) as (k & C & D). destruct (IH P2 (fun l I => N l (or_intror I)) T2 b1 ws b2 M1 Q2) as (ks & Cs & Ds).
    exists (k :: ks). split; constructor; auto. apply D. intros l ->. apply (N l). now left.
Qed.
Lemma done_checked e : plain e -> holds_texts e -> forall b v b', machine b -> ev e b = Done v b' ->
  exists k, checked e k /\ ((forall l, e <> VList (VSym (bs "string-match") :: l)) -> definite k v).
Proof.
  induction e as [n|s|f|l IH] using value_ind'; intros P T b v b' M Q.
  - discriminate.
  - injection Q as <- _. exists (Some KString). split; [constructor|now intros].
  - injection Q as <- _. exists (Some KNumber). split; [constructor|now intros].
  - destruct l as [|h args]; [discriminate|]. destruct h as [n|s|f|l']; try discriminate. rewrite eval_call in Q.
    apply all_atoms_list in T. inversion T as [|? ? _ T']; subst. inversion IH as [|? ? _ IH']; subst. inversion P as [| | |? ? P1 P2|]; subst.
    destruct (default_env E n) as [f|] eqn:D; [|discriminate]. unfold bind in Q.
    pose proof (list_lands E X args T' b M) as L. destruct (evs args b) as [vs b1|m b1| | |] eqn:Q1; try discriminate. destruct L as [M1 H1].
    destruct (known_call E n f vs b1 D) as (name & s & I & -> & F). rewrite F in Q.
    destruct (each_checked args IH' P1 P2 T' b vs b1 M Q1) as (ks & C & Ds). destruct (yields_total name) as [k Y].
    exists k. split.
    + eapply ck_call; eauto. eapply accepts_admits; [|exact Ds]. eapply call_takes; eauto.
    + intros N. eapply call_settled; eauto. intros ->. now apply (N args).
Qed.

(** ** Programs *)
Lemma program_errors p b x b' : Forall in_order p -> Forall holds_texts p -> machine b -> eval E (default_env E) p b = EvError x b' ->
  exists i name args, In i p /\ x_instruction x = i /\ called (bs name) i /\ In name fallible /\ expected_error E name args (x_error x).
Proof.
  intros O T M Q. apply program_exact in Q; auto. inversion Q as [|before i rest v b1 msg b2 -> S H| |]; subst. clear Q.
  apply Forall_app in T as [T1 T2]. inversion T2 as [|? ? T3 _]; subst. pose proof (sequence_machine E X _ _ _ _ S T1 M) as M1.
  apply means_iff in H; auto. apply Forall_app in O as [_ O]. inversion O as [|? ? [k C] _]; subst.
  pose proof (proj1 checked_sound i k C T3 b1 M1) as K. rewrite H in K. destruct K as (name & args & K).
  exists i, name, args. split; [apply in_or_app; right; now left|]. split; [reflexivity|]. exact K.
Qed.
End Checking.

(** ** The check as a function *)
Definition okind_dec (a b : option kind) : {a = b} + {a <> b}.
Proof. repeat decide equality. Defined.
Definition admitsb (s : signature) (ks : list (option kind)) : bool :=
  match s with
  | OneOf shapes => existsb (fun l => if list_eq_dec okind_dec ks (map Some l) then true else false) shapes
  | AnyNumberOf k => forallb (fun x => if okind_dec (Some k) x then true else false) ks
  end.
Lemma admitsb_iff s ks : admitsb s ks = true <-> admits s ks.
Proof.
  destruct s as [shapes|k]; unfold admitsb, admits.
  - rewrite existsb_exists. split; intros (l & I & H); exists l; split; auto; revert H; destruct (list_eq_dec okind_dec ks (map Some l)); congruence.
  - rewrite forallb_forall, Forall_forall. split; intros H x I; specialize (H x I); revert H; destruct (okind_dec (Some k) x); congruence.
Qed.
Definition yieldsb (name : String.string) : option kind :=
  if in_dec String.string_dec name counting then Some KNumber else if in_dec String.string_dec name asking then None else Some KString.
Lemma yieldsb_iff name k : yieldsb name = k <-> yields name k.
Proof.
  assert (H : yields name (yieldsb name)).
  { unfold yieldsb. destruct (in_dec _ name counting); [now constructor|]. destruct (in_dec _ name asking); now constructor. }
  split; [now intros <-|]. now apply yields_one.
Qed.
Definition lookup (n : str) : option (String.string * signature) := find (fun x => str_eqb n (bs (fst x))) signatures.
Lemma lookup_known name s : In (name, s) signatures -> lookup (bs name) = Some (name, s).
Proof.
  intros I. unfold lookup. destruct (find _ signatures) as [[k g]|] eqn:F.
  - apply find_some in F as [F H]. apply str_eqb_eq, bs_inj in H. cbn in H. subst k. now rewrite (signatures_unique name s g I F).
  - apply (find_none _ _ F) in I. cbn in I. now rewrite str_eqb_refl in I.
Qed.
Fixpoint kind_of (e : value) : option (option kind) :=
  match e with
  | VStr _ => Some (Some KString)
  | VNum _ => Some (Some KNumber)
  | VSym _ => None
  | VList [] => None
  | VList (h :: args) =>
    match h with
    | VSym n =>
      match lookup n, (fix all l := match l with [] => Some [] | x :: l' => match kind_of x, all l' with Some k, Some ks => Some (k :: ks) | _, _ => None end end) args with
      | Some (name, s), Some ks => if admitsb s ks then Some (yieldsb name) else None
      | _, _ => None
      end
    | _ => None
    end
  end.
Fixpoint kinds_of (l : list value) : option (list (option kind)) :=
  match l with [] => Some [] | x :: l' => match kind_of x, kinds_of l' with Some k, Some ks => Some (k :: ks) | _, _ => None end end.
Lemma kind_of_call n args : kind_of (VList (VSym n :: args)) = match lookup n, kinds_of args with
  | Some (name, s), Some ks => if admitsb s ks then Some (yieldsb name) else None | _, _ => None end.
Proof. reflexivity. Qed.
Lemma kinds_of_right l : Forall (fun e => forall k, kind_of e = Some k -> checked e k) l -> forall ks, kinds_of l = Some ks -> all_checked l ks.
Proof.
  induction 1 as [|e es H _ IH]; cbn; intros ks Q; [injection Q as <-; constructor|].
  destruct (kind_of e) as [k|]; [|discriminate]. destruct (kinds_of es) as [l|]; [|discriminate]. injection Q as <-. constructor; auto.
Qed.
Lemma kind_of_right e : forall k, kind_of e = Some k -> checked e k.
Proof.
  induction e as [n|s|f|l IH] using value_ind'; intros k Q.
  - discriminate.
  - injection Q as <-. constructor.
  - injection Q as <-. constructor.
  - destruct l as [|h args]; [discriminate|]. destruct h as [n|s|f|l']; try discriminate. rewrite kind_of_call in Q. inversion IH as [|? ? _ IH']; subst.
    destruct (lookup n) as [[name s]|] eqn:L; [|discriminate]. destruct (kinds_of args) as [ks|] eqn:K; [|discriminate].
    destruct (admitsb s ks) eqn:A; [|discriminate]. injection Q as <-. unfold lookup in L. apply find_some in L as [L H]. apply str_eqb_eq in H. cbn in H. subst n.
    apply ck_call with s ks; [exact L|now apply kinds_of_right|now apply admitsb_iff|now apply yieldsb_iff].
Qed.
Lemma kind_of_complete : (forall e k, checked e k -> kind_of e = Some k) /\ (forall l ks, all_checked l ks -> kinds_of l = Some ks).
Proof.
  apply checked_both; auto.
  - intros name s args ks k I _ IH A Y. rewrite kind_of_call, (lookup_known _ _ I), IH. apply admitsb_iff in A as ->. apply yieldsb_iff in Y as ->. reflexivity.
  - intros e es k ks _ H1 _ H2. cbn. now rewrite H1, H2.
Qed.
Lemma kind_of_iff e k : kind_of e = Some k <-> checked e k.
Proof. split; [apply kind_of_right|apply (proj1 kind_of_complete)]. Qed.
