(** Runs of texted edit. *)
From Coq Require Import ZArith NArith List Bool Lia ZifyBool ZifyN ZifyNat Strings.Byte.
From Verif Require Import Base Float Ext Utf8 Strconv Values Buffer Builtins Eval Parser Json Writer Files Cli SpecFiles
  Proofs_Base Proofs_Files.
Import ListNotations.
Open Scope Z_scope.

(** ** What is written at all *)
Lemma writes_refl K w : writes_only K w w.
Proof. exists []. split; [apply history_refl|]. intros s k []. Qed.
Lemma writes_trans K w w1 w2 : writes_only K w w1 -> writes_only K w1 w2 -> writes_only K w w2.
Proof.
  intros (l & H & A) (l' & H' & A'). exists (l' ++ l). split; [eapply history_trans; eauto|].
  assert (X : forall k, ~ K k -> w_fs w1 k = w_fs w k). { intros k N. destruct H as [_ H]. rewrite H. destruct l; [reflexivity|]. cbn [hd]. apply A; auto. now left. }
  intros s k I N. apply in_app_or in I as [I|I]; [rewrite (A' s k I N); auto|auto].
Qed.
Lemma writes_none K w w' : no_write w w' -> writes_only K w w'.
Proof. intros H. exists []. split; [exact H|]. intros s k []. Qed.
Lemma writes_weaken (K K' : str -> Prop) w w' : (forall k, K k -> K' k) -> writes_only K w w' -> writes_only K' w w'.
Proof. intros Q (l & H & A). exists l. split; auto. Qed.

Definition nw_bind {A B} := @runs_bind no_write no_write_trans A B.
Definition nw_try {A B} := @runs_try no_write no_write_trans A B.
Definition wo_bind K {A B} := @runs_bind (writes_only K) (writes_trans K) A B.
Definition wo_try K {A B} := @runs_try (writes_only K) (writes_trans K) A B.

Lemma nw_ret {A} (a : A) : runs no_write (io_ret a). Proof. intros w. apply history_refl. Qed.
Lemma nw_fail {A} e : runs no_write (@io_fail A e). Proof. intros w. apply history_refl. Qed.
Lemma nw_res {A} (r : res A) : runs no_write (io_res r). Proof. intros w. apply history_refl. Qed.
Lemma nw_read os n : runs no_write (os_read_file os n).
Proof. intros w. destruct (os_read_file os n w) eqn:E. now apply read_spec in E. Qed.
Lemma nw_stdin os : runs no_write (os_read_stdin os).
Proof. intros w. destruct (os_read_stdin os w) eqn:E. now apply stdin_spec in E. Qed.
Lemma nw_stdout os s : runs no_write (os_write_stdout os s).
Proof. intros w. destruct (os_write_stdout os s w) eqn:E. now apply stdout_spec in E. Qed.
Lemma nw_print s : runs no_write (print s). Proof. intros w. split; reflexivity. Qed.
Lemma nw_print_if c s : runs no_write (print_if c s). Proof. destruct c; [apply nw_print|apply nw_ret]. Qed.
Lemma nw_seq {A} m (k : IO A) : runs no_write m -> runs no_write k -> runs no_write (io_seq m k).
Proof. intros Hm Hk. apply nw_bind; auto. Qed.
Lemma nw_wrap {A} p (m : IO A) : runs no_write m -> runs no_write (wrap_err p m).
Proof. intros H. apply nw_try; auto. intros []; auto using nw_fail, nw_res. Qed.
Lemma wo_of {A} K (m : IO A) : runs no_write m -> runs (writes_only K) m.
Proof. intros H w. apply writes_none, H. Qed.
Lemma wo_write (K : str -> Prop) os n c : K (canon os n) -> runs (writes_only K) (os_write_file os n c).
Proof.
  intros H w. destruct (os_write_file os n c w) as [r w'] eqn:E. cbn [snd]. apply write_spec in E as (_ & _ & l & Hl & A & _).
  exists l. split; auto. intros s k I N. destruct (A s I) as (p & _ & S). rewrite S. apply upd_else. congruence.
Qed.
Lemma wo_seq {A} K m (k : IO A) : runs (writes_only K) m -> runs (writes_only K) k -> runs (writes_only K) (io_seq m k).
Proof. intros Hm Hk. apply wo_bind; auto. Qed.

Ltac silent := repeat first
  [ apply nw_ret | apply nw_fail | apply nw_res | apply nw_read | apply nw_stdin | apply nw_stdout | apply nw_print | apply nw_print_if
  | apply nw_seq | apply nw_wrap | (apply nw_bind; [|intros ?]) | (apply nw_try; [|intros []])
  | match goal with |- runs no_write (if ?b then _ else _) => destruct b | |- runs no_write (match ?x with _ => _ end) => destruct x end ].

Lemma expressions_silent E format out verbose quiet source : forall exprs i b, runs no_write (eval_expressions E format out verbose quiet source i exprs b).
Proof.
  induction exprs as [|e es IH]; intros i b; cbn [eval_expressions]; [silent|].
  apply nw_seq; [silent|]. destruct (parse_by_format format e); silent; apply IH.
Qed.
Lemma on_files_silent E os a format : forall files, runs no_write (expressions_on_files E os a format files).
Proof.
  induction files as [|f files IH]; cbn [expressions_on_files]; silent; [apply expressions_silent|apply IH].
Qed.
Lemma run_expressions_silent E os a format : runs no_write (run_expressions E os a format).
Proof. unfold run_expressions. destruct (a_files a); [apply nw_bind; [silent|intros c; apply expressions_silent]|apply on_files_silent]. Qed.

Lemma dry_loop E os a format script : a_dry_run a = true -> forall files, runs no_write (in_place_loop E os a format script files).
Proof. intros D. induction files as [|f files IH]; cbn [in_place_loop]; [silent|]. rewrite D. silent. apply IH. Qed.
Lemma dry_run_silent E os a : a_dry_run a = true -> runs no_write (run_edit E os a).
Proof.
  intros D. unfold run_edit. set (format := effective_format a).
  destruct (negb _); [apply nw_fail|]. do 3 (destruct (_ && _); [apply nw_fail|]).
  destruct (a_expressions a); [|apply run_expressions_silent]. apply nw_bind; [silent|]. intros script. destruct (a_files a) as [|f files] eqn:Ef.
  - unfold process_stdin. rewrite D. silent.
  - unfold process_files, process_to_output, process_to_stdout. rewrite Ef, D. destruct files; silent; apply dry_loop, D.
Qed.

(** ** One file in place *)
Lemma nodup_app {A} (l m : list A) : NoDup (l ++ m) -> NoDup l /\ NoDup m /\ forall x, In x l -> ~ In x m.
Proof.
  induction l as [|a l IH]; cbn [app].
  - intros H. split; [constructor|]. split; auto.
  - intros H. inversion H as [|? ? N H']; subst. destruct (IH H') as (A1 & A2 & A3). split; [constructor; auto; intros X; apply N; apply in_or_app; now left|].
    split; auto. intros x [<-|I]; auto. intros X. apply N. apply in_or_app. now right.
Qed.
Section OneFile.
  Variables (E : Ext) (os : OS) (a : edit_args) (format script : str).
  Let exec (c : str) : res str := execute_script_fmt E c script format.
  Lemma report_spec msg w r w' : report a msg w = (r, w') -> r = Ok false /\ no_write w w'.
  Proof.
    unfold report, io_seq, io_bind, print_if. destruct (negb (a_quiet a)); cbn; intros H; injection H as <- <-; split; try reflexivity; split; reflexivity.
  Qed.
  Lemma edit_one_spec file w r w' : edit_one_in_place E os a format script file w = (r, w') ->
    (forall e, r <> Err e) /\ exists l, history w w' l /\
    (forall s, In s l -> exists c out p, w_fs w (canon os file) = Some c /\ exec c = Ok out /\ prefix p out /\ same s (upd (w_fs w) (canon os file) p)) /\
    (r = Ok true -> exists c out, w_fs w (canon os file) = Some c /\ exec c = Ok out /\ same (w_fs w') (upd (w_fs w) (canon os file) out)).
  Proof.
    unfold edit_one_in_place, io_try. destruct (os_read_file os file w) as [q w1] eqn:Rd. apply read_spec in Rd as (N & _ & C & _).
    assert (Z : forall r w', history w w' [] -> (forall e, r <> Err e) -> r <> Ok true ->
      (forall e, r <> Err e) /\ exists l, history w w' l /\
      (forall s, In s l -> exists c out p, w_fs w (canon os file) = Some c /\ exec c = Ok out /\ prefix p out /\ same s (upd (w_fs w) (canon os file) p)) /\
      (r = Ok true -> exists c out, w_fs w (canon os file) = Some c /\ exec c = Ok out /\ same (w_fs w') (upd (w_fs w) (canon os file) out))).
    { intros r0 w0 H E1 E2. split; auto. exists []. split; auto. split; [intros s []|congruence]. }
    destruct q as [c|e|k].
    - destruct (execute_script_fmt E c script format) as [out|e|k] eqn:X.
      + destruct (os_write_file os file out w1) as [q2 w2] eqn:Wr. apply write_spec in Wr as (_ & _ & l & H & A & B).
        rewrite (no_write_fs _ _ N) in A, B. specialize (C c eq_refl).
        assert (Y : forall s, In s l -> exists c out p, w_fs w (canon os file) = Some c /\ exec c = Ok out /\ prefix p out /\ same s (upd (w_fs w) (canon os file) p)).
        { intros s I. destruct (A s I) as (p & P & S). exists c, out, p. auto. }
        destruct q2 as [u|e|k].
        * destruct B as [[e B]|(_ & B & _)]; [discriminate|]. unfold io_seq, io_bind, print_if. destruct (negb (a_quiet a)); cbn; intros R; injection R as <- <-;
            (split; [discriminate|]; exists l; split; [eapply history_after; [eapply history_before; eassumption|split; reflexivity]|]; split; [exact Y|]; intros _; exists c, out; auto).
        * intros R. apply report_spec in R as [-> N2]. split; [discriminate|]. exists l.
          split; [eapply history_after; [eapply history_before; eassumption|exact N2]|]. split; [exact Y|discriminate].
        * destruct B as [[e B]|(B & _)]; discriminate.
      + intros R. apply report_spec in R as [-> N2]. apply Z; [eapply no_write_trans; eauto|discriminate|discriminate].
      + intros R. injection R as <- <-. apply Z; [exact N|discriminate|discriminate].
    - intros R. apply report_spec in R as [-> N2]. apply Z; [eapply no_write_trans; eauto|discriminate|discriminate].
    - intros R. injection R as <- <-. apply Z; [exact N|discriminate|discriminate].
  Qed.

  (** the files one edit may write, and what is always true of the edited file *)
  Definition keys (file : str) : list str :=
    canon os file :: (if nonempty (a_backup a) then [canon os (file ++ a_backup a)] else []).
  Definition safe (file c : str) (s : fs) : Prop :=
    s (canon os file) = Some c \/
    (exists out p, exec c = Ok out /\ prefix p out /\ s (canon os file) = Some p) /\
    (nonempty (a_backup a) = true -> s (canon os (file ++ a_backup a)) = Some c).
  Definition done (file : str) (w w' : world) : Prop := exists c out, w_fs w (canon os file) = Some c /\ exec c = Ok out /\
    w_fs w' (canon os file) = Some out /\ (nonempty (a_backup a) = true -> w_fs w' (canon os (file ++ a_backup a)) = Some c).
  Lemma in_place_one_spec file w r w' : NoDup (keys file) -> in_place_one E os a format script file w = (r, w') ->
    (forall e, r <> Err e) /\ exists l, history w w' l /\
    (forall s, In s l -> (forall k, ~ In k (keys file) -> s k = w_fs w k) /\ exists c, w_fs w (canon os file) = Some c /\ safe file c s) /\
    (r = Ok true -> done file w w').
  Proof.
    intros ND. unfold in_place_one, keys, safe, done in *. destruct (nonempty (a_backup a)) eqn:Bk.
    - assert (Ne : canon os (file ++ a_backup a) <> canon os file). { inversion ND as [|? ? X _]; subst. intros Y. apply X. rewrite Y. now left. }
      set (bk := canon os (file ++ a_backup a)) in *. set (fk := canon os file) in *. 
      unfold io_seq at 1, io_bind. destruct (print_if _ _ w) as [q0 w0] eqn:Pr.
      assert (N0 : q0 = Ok tt /\ no_write w w0). { unfold print_if in Pr. destruct (_ && _); cbn in Pr; injection Pr as <- <-; split; try reflexivity; split; reflexivity. }
      destruct N0 as [-> N0]. unfold io_try at 1. destruct (os_read_file os file w0) as [q w1] eqn:Rd. apply read_spec in Rd as (N1 & _ & C & _).
      pose proof (no_write_trans _ _ _ N0 N1) as N. rewrite (no_write_fs _ _ N0) in C. fold fk in C.
      assert (Z : forall r w', no_write w w' -> (forall e, r <> Err e) -> r <> Ok true ->
        (forall e, r <> Err e) /\ exists l, history w w' l /\
        (forall s, In s l -> (forall k, ~ In k [fk; bk] -> s k = w_fs w k) /\ exists c, w_fs w fk = Some c /\
          (s fk = Some c \/ (exists out p, exec c = Ok out /\ prefix p out /\ s fk = Some p) /\ (true = true -> s bk = Some c))) /\
        (r = Ok true -> exists c out, w_fs w fk = Some c /\ exec c = Ok out /\ w_fs w' fk = Some out /\ (true = true -> w_fs w' bk = Some c))).
      { intros r0 w2 H E1 E2. split; auto. exists []. split; auto. split; [intros s []|congruence]. }
      destruct q as [c|e|k].
      + unfold io_try. destruct (os_write_file os (file ++ a_backup a) c w1) as [q2 w2] eqn:Wr. apply write_spec in Wr as (_ & _ & l & H & A & B).
        rewrite (no_write_fs _ _ N) in A, B. fold bk in A, B. specialize (C c eq_refl). pose proof (history_before _ _ _ _ N H) as Hl.
        assert (Y : forall s, In s l -> (forall k, ~ In k [fk; bk] -> s k = w_fs w k) /\ exists c0, w_fs w fk = Some c0 /\
          (s fk = Some c0 \/ (exists out p, exec c0 = Ok out /\ prefix p out /\ s fk = Some p) /\ (true = true -> s bk = Some c0))).
        { intros s I. destruct (A s I) as (p & _ & S). split.
          - intros k K. rewrite S. apply upd_else. intros ->. apply K. cbn. auto.
          - exists c. split; auto. left. rewrite S, upd_else; auto. }
        destruct q2 as [u|e|k].
        * destruct B as [[e B]|(_ & B & _)]; [discriminate|]. intros R. apply edit_one_spec in R as (R1 & l2 & H2 & A2 & B2). fold fk in A2, B2.
          split; auto. exists (l2 ++ l). split; [eapply history_trans; eauto|].
          assert (F2 : w_fs w2 fk = Some c) by (rewrite B, upd_else; auto).
          split.
          { intros s I. apply in_app_or in I as [I|I]; [|auto]. destruct (A2 s I) as (c2 & out & p & Fc & X & P & S). assert (c2 = c) as -> by congruence. split.
            - intros k K. rewrite S, upd_else by (intros ->; apply K; cbn; auto). rewrite B. apply upd_else. intros ->. apply K. cbn. auto.
            - exists c. split; auto. right. split; [exists out, p; rewrite S, upd_here; auto|]. intros _. rewrite S, upd_else by auto. rewrite B. apply upd_here. }
          { intros Rt. destruct (B2 Rt) as (c2 & out & Fc & X & S). assert (c2 = c) as -> by congruence. exists c, out. split; [auto|]. split; [auto|].
            split; [rewrite S; apply upd_here|]. intros _. rewrite S, upd_else by auto. rewrite B. apply upd_here. }
        * intros R. apply report_spec in R as [-> N2]. split; [discriminate|]. exists l. split; [eapply history_after; eauto|]. split; [exact Y|discriminate].
        * destruct B as [[e B]|(B & _)]; discriminate.
      + intros R. apply report_spec in R as [-> N2]. apply Z; [eapply no_write_trans; eauto|discriminate|discriminate].
      + intros R. injection R as <- <-. apply Z; [exact N|discriminate|discriminate].
    - intros R. apply edit_one_spec in R as (R1 & l & H & A & B). split; auto. exists l. split; auto. split.
      + intros s I. destruct (A s I) as (c & out & p & Fc & X & P & S). split.
        * intros k K. rewrite S. apply upd_else. intros ->. apply K. now left.
        * exists c. split; auto. right. split; [|discriminate]. exists out, p. rewrite S, upd_here. auto.
      + intros Rt. destruct (B Rt) as (c & out & Fc & X & S). exists c, out. split; auto. split; auto. split; [rewrite S; apply upd_here|discriminate].
  Qed.

  Lemma safe_same file c s t : (forall k, In k (keys file) -> s k = t k) -> safe file c s -> safe file c t.
  Proof.
    unfold safe, keys. intros H. assert (A : s (canon os file) = t (canon os file)) by (apply H; now left). rewrite <- A.
    intros [X|[X Y]]; [now left|]. right. split; auto. intros B. rewrite <- Y by auto. symmetry. apply H. rewrite B. cbn. auto.
  Qed.
  Lemma in_place_loop_spec files : forall w r w', NoDup (flat_map keys files) -> in_place_loop E os a format script files w = (r, w') ->
    (forall e, r <> Err e) /\ exists l, history w w' l /\
    (forall s, In s l -> (forall k, ~ In k (flat_map keys files) -> s k = w_fs w k) /\
                         (forall f, In f files -> w_fs w (canon os f) = None -> s (canon os f) = None) /\
                         forall f c, In f files -> w_fs w (canon os f) = Some c -> safe f c s) /\
    (a_dry_run a = false -> r = Ok true -> forall f, In f files -> done f w w').
  Proof.
    induction files as [|g files IH]; intros w r w' ND; cbn [in_place_loop].
    - intros R. injection R as <- <-. split; [discriminate|]. exists []. split; [apply history_refl|]. split; [intros s []|intros _ _ f []].
    - cbn [flat_map] in ND. apply nodup_app in ND as (NDg & NDf & Dis).
      unfold io_seq at 1, io_bind at 1. destruct (print_if _ _ w) as [q0 w0] eqn:Pr.
      assert (N0 : q0 = Ok tt /\ no_write w w0). { unfold print_if in Pr. destruct (_ && _); cbn in Pr; injection Pr as <- <-; split; try reflexivity; split; reflexivity. }
      destruct N0 as [-> N0]. pose proof (no_write_fs _ _ N0) as F0. unfold io_bind at 1.
      set (step := if a_dry_run a then _ else _). destruct (step w0) as [q1 w1] eqn:St.
      assert (G : (forall e, q1 <> Err e) /\ exists l, history w w1 l /\
        (forall s, In s l -> (forall k, ~ In k (keys g) -> s k = w_fs w k) /\ exists c, w_fs w (canon os g) = Some c /\ safe g c s) /\
        (a_dry_run a = false -> q1 = Ok true -> done g w w1)).
      { unfold step in St. destruct (a_dry_run a).
        - unfold io_seq, io_bind, print_if in St. destruct (negb (a_quiet a)); cbn in St; injection St as <- <-;
          (split; [discriminate|]; exists []; split; [eapply no_write_trans; [exact N0|split; reflexivity]|]; split; [intros s []|discriminate]).
        - apply in_place_one_spec in St as (A & l & H & B & D); auto. split; auto. exists l. split; [eapply history_before; eauto|]. rewrite F0 in B. split; auto.
          intros _ Rt. destruct (D Rt) as (c & out & X). exists c, out. now rewrite F0 in X. }
      clearbody step. clear St. destruct G as (G1 & l1 & H1 & A1 & D1).
      assert (Gk : forall k, ~ In k (keys g) -> w_fs w1 k = w_fs w k).
      { intros k K. destruct H1 as [_ ->]. destruct l1 as [|s l1]; [reflexivity|]. cbn [hd]. apply A1; auto. now left. }
      assert (Gs : forall c, w_fs w (canon os g) = Some c -> safe g c (w_fs w1)).
      { intros c Fc. destruct H1 as [_ ->]. destruct l1 as [|s l1]; [now left|]. cbn [hd]. destruct (A1 s ltac:(now left)) as [_ (c' & Fc' & S)]. congruence. }
      assert (Gn : w_fs w (canon os g) = None -> l1 = []).
      { intros Fn. destruct l1 as [|s l1]; auto. destruct (A1 s ltac:(now left)) as [_ (c' & Fc' & S)]. congruence. }
      assert (Hk : forall f, In f files -> In (canon os f) (flat_map keys files)).
      { intros f If. apply in_flat_map. exists f. split; auto. now left. }
      assert (Out : forall f, In f files -> ~ In (canon os f) (keys g)) by (intros f If X; exact (Dis _ X (Hk f If))).
      assert (First : forall s, In s l1 -> (forall k, ~ In k (keys g ++ flat_map keys files) -> s k = w_fs w k) /\
                         (forall f, In f (g :: files) -> w_fs w (canon os f) = None -> s (canon os f) = None) /\
                         forall f c, In f (g :: files) -> w_fs w (canon os f) = Some c -> safe f c s).
      { intros s I. destruct (A1 s I) as [B1 (c & Fc & S)]. split; [intros k K; apply B1; intros X; apply K; apply in_or_app; now left|]. split.
        - intros f [<-|If] Fn; [congruence|]. rewrite B1; auto.
        - intros f c' [<-|If] Fc'; [congruence|]. left. rewrite B1; auto. }
      destruct q1 as [ok|e|k].
      + destruct (in_place_loop E os a format script files w1) as [q2 w2] eqn:Lp. pose proof Lp as Lp0. apply (IH w1 q2 w2 NDf) in Lp as (R2 & l2 & H2 & A2 & D2).
        intros R. assert (w' = w2 /\ (r = Ok true -> ok = true /\ q2 = Ok true) /\ forall e, r <> Err e) as (-> & Rt & Re).
        { unfold io_bind in R. rewrite Lp0 in R. destruct q2 as [b|e|k]; cbn in R; injection R as <- <-.
          - split; [reflexivity|]. split; [|discriminate]. intros X. injection X as X. apply andb_prop in X as [-> ->]. auto.
          - exfalso. now apply (R2 e).
          - split; [reflexivity|]. split; discriminate. }
        split; auto. exists (l2 ++ l1). split; [eapply history_trans; eauto|]. split.
        * intros s I. apply in_app_or in I as [I|I]; [|cbn [flat_map]; auto]. destruct (A2 s I) as (B1 & B2 & B3). cbn [flat_map]. split; [|split].
          -- intros k K. rewrite B1 by (intros X; apply K; apply in_or_app; now right). apply Gk. intros X; apply K; apply in_or_app; now left.
          -- intros f [<-|If] Fn.
             ++ rewrite B1 by (intros X; apply (Dis (canon os g)); [now left|exact X]). destruct H1 as [_ ->]. now rewrite (Gn Fn).
             ++ apply B2; auto. rewrite Gk; auto.
          -- intros f c [<-|If] Fc.
             ++ apply (safe_same g c (w_fs w1)); auto. intros k K. symmetry. apply B1. intros X. exact (Dis _ K X).
             ++ apply B3; auto. rewrite Gk; auto.
        * intros Dr R1 f [<-|If].
          -- destruct (Rt R1) as [-> ->]. destruct (D1 Dr eq_refl) as (c & out & Fc & X & F1 & F2).
             assert (U : forall k, In k (keys g) -> w_fs w2 k = w_fs w1 k).
             { intros k K. destruct H2 as [_ ->]. destruct l2 as [|s l2]; [reflexivity|]. cbn [hd]. apply A2; [now left|]. intros Y. exact (Dis _ K Y). }
             exists c, out. split; auto. split; auto. split; [rewrite U; [auto|now left]|]. intros B. rewrite U; [auto|]. unfold keys. rewrite B. cbn. auto.
          -- destruct (Rt R1) as [_ ->]. destruct (D2 Dr eq_refl f If) as (c & out & X). exists c, out. rewrite Gk in X; auto.
      + exfalso. now apply (G1 e).
      + intros R. injection R as <- <-. split; [discriminate|]. exists l1. split; [exact H1|]. split; [exact First|]. intros _ X. discriminate.
  Qed.
End OneFile.

Lemma format_of_effective a : format_of a (effective_format a).
Proof. unfold format_of, effective_format. destruct (a_shell a), (a_sexp a), (a_json a); tauto. Qed.
Lemma in_keys os a files k : In k (flat_map (keys os a) files) <->
  In k (map (canon os) files) \/ nonempty (a_backup a) = true /\ In k (map (fun f => canon os (f ++ a_backup a)) files).
Proof.
  induction files as [|f files IH]; cbn [flat_map map]; [cbn; tauto|]. rewrite in_app_iff, IH. unfold keys. destruct (nonempty (a_backup a)); cbn [In]; intuition discriminate.
Qed.
Lemma keys_nodup os a files :
  NoDup (map (canon os) files ++ (if nonempty (a_backup a) then map (fun f => canon os (f ++ a_backup a)) files else [])) ->
  NoDup (flat_map (keys os a) files).
Proof.
  destruct (nonempty (a_backup a)) eqn:Nb.
  - induction files as [|f files IH]; cbn [map flat_map]; [constructor|]. cbn [app]. intros H. inversion H as [|? ? X H1]; subst.
    apply nodup_app in H1 as (A1 & A2 & A3). inversion A2 as [|? ? Y A4]; subst.
    assert (N : NoDup (map (canon os) files ++ map (fun f => canon os (f ++ a_backup a)) files)).
    { clear -A1 A4 A3. revert A1 A3. generalize (map (canon os) files). intros m. induction m as [|x m IH]; cbn [app]; intros A1 A3; auto. inversion A1; subst.
      constructor; [|apply IH; auto; intros y I; apply A3; now right]. intros I. apply in_app_or in I as [I|I]; [auto|]. apply (A3 x ltac:(now left)). now right. }
    unfold keys at 1. rewrite Nb. cbn [app]. constructor; [|constructor; [|auto]].
    + cbn [In]. intros [Z|Z]; [apply X; apply in_or_app; right; left; auto|]. apply in_keys in Z. rewrite Nb in Z. apply X. apply in_or_app. destruct Z as [Z|[_ Z]]; [now left|right; now right].
    + intros Z. apply in_keys in Z. rewrite Nb in Z. destruct Z as [Z|[_ Z]]; [|auto]. apply (A3 _ Z). now left.
  - rewrite app_nil_r. intros H. replace (flat_map (keys os a) files) with (map (canon os) files); auto.
    clear H. induction files as [|f files IH]; [reflexivity|]. cbn [map flat_map]. unfold keys at 1. rewrite Nb, IH. reflexivity.
Qed.
(** the whole command, in place *)
Lemma run_in_place E os a w r w' : a_in_place a = true ->
  NoDup (map (canon os) (a_files a) ++ (if nonempty (a_backup a) then map (fun f => canon os (f ++ a_backup a)) (a_files a) else [])) ->
  run_edit E os a w = (r, w') -> exists l, history w w' l /\
  (l = [] \/ exists format script, format_of a format /\ script_of os a w script /\
    forall s, In s l -> (forall k, ~ In k (flat_map (keys os a) (a_files a)) -> s k = w_fs w k) /\
                        (forall f, In f (a_files a) -> w_fs w (canon os f) = None -> s (canon os f) = None) /\
                        forall f c, In f (a_files a) -> w_fs w (canon os f) = Some c -> safe E os a format script f c s) /\
  (a_dry_run a = false -> a_expressions a = [] -> r = Ok tt -> a_files a <> [] ->
   exists format script, format_of a format /\ script_of os a w script /\ forall f, In f (a_files a) -> done E os a format script f w w').
Proof.
  intros IP ND R.
  assert (Z : forall w', no_write w w' -> r <> Ok tt \/ a_expressions a <> [] \/ a_files a = [] -> exists l, history w w' l /\
    (l = [] \/ exists format script, format_of a format /\ script_of os a w script /\
      forall s, In s l -> (forall k, ~ In k (flat_map (keys os a) (a_files a)) -> s k = w_fs w k) /\
                        (forall f, In f (a_files a) -> w_fs w (canon os f) = None -> s (canon os f) = None) /\
                        forall f c, In f (a_files a) -> w_fs w (canon os f) = Some c -> safe E os a format script f c s) /\
    (a_dry_run a = false -> a_expressions a = [] -> r = Ok tt -> a_files a <> [] ->
     exists format script, format_of a format /\ script_of os a w script /\ forall f, In f (a_files a) -> done E os a format script f w w')).
  { intros w1 N X. exists []. split; auto. split; auto. intros _ A B C. destruct X as [X|[X|X]]; congruence. }
  revert R. unfold run_edit. set (format := effective_format a). 
  destruct (negb _); [intros R; injection R as <- <-; apply Z; [apply history_refl|left; discriminate]|].
  destruct (_ && _); [intros R; injection R as <- <-; apply Z; [apply history_refl|left; discriminate]|].
  destruct (_ && _); [intros R; injection R as <- <-; apply Z; [apply history_refl|left; discriminate]|].
  destruct (nonempty (a_output a) && a_in_place a) eqn:C3; [intros R; injection R as <- <-; apply Z; [apply history_refl|left; discriminate]|].
  rewrite IP, andb_true_r in C3.
  destruct (a_expressions a) as [|e es] eqn:Ex.
  2:{ intros R. apply Z; [|right; left; discriminate]. pose proof (run_expressions_silent E os a format w) as S. now rewrite R in S. }
  unfold io_bind at 1. set (get := if nonempty (a_script_file a) then _ else _). destruct (get w) as [q w1] eqn:G.
  assert (Gs : no_write w w1 /\ forall script, q = Ok script -> script_of os a w script).
  { unfold get in G. unfold script_of. destruct (a_script_file a) as [|x xs] eqn:Sf; cbn [nonempty] in G.
    - destruct (a_script a) as [|y ys]; cbn [nonempty] in G; injection G as <- <-; (split; [apply history_refl|]); [discriminate|].
      intros script X. injection X as <-. right. repeat split; auto. discriminate.
    - unfold wrap_err, io_try in G. destruct (os_read_file os (x :: xs) w) as [q0 w0] eqn:Rd. apply read_spec in Rd as (N & _ & C & _).
      destruct q0 as [c|e|k]; cbn in G; injection G as <- <-; split; auto; try discriminate. intros script X. injection X as <-. left. split; [discriminate|auto]. }
  destruct Gs as [N Sc]. pose proof (no_write_fs _ _ N) as F1. destruct q as [script|e|k].
  2,3: intros R; injection R as <- <-; apply Z; [exact N|left; discriminate].
  specialize (Sc script eq_refl). destruct (a_files a) as [|f files] eqn:Ef.
  - intros R. apply Z; [|right; right; reflexivity]. eapply no_write_trans; [exact N|].
    assert (S : runs no_write (process_stdin E os a format script)) by (unfold process_stdin; rewrite C3; silent).
    specialize (S w1). now rewrite R in S.
  - intros R. assert (P : process_in_place E os a format script w1 = (r, w')).
    { unfold process_files in R. rewrite Ef, C3, IP in R. cbn [negb andb] in R. now destruct files. }
    unfold process_in_place, io_bind in P. destruct (in_place_loop E os a format script (a_files a) w1) as [q2 w2] eqn:Lp.
    apply in_place_loop_spec in Lp as (R2 & l & H & A & D). 2:{ apply keys_nodup. rewrite Ef. exact ND. }
    rewrite F1 in A. rewrite Ef in A, D.
    assert (w' = w2 /\ (r = Ok tt -> q2 = Ok true)) as [-> Rt].
    { destruct q2 as [[]|e2|k2]; cbn in P; injection P as <- <-; split; auto; discriminate. }
    exists l. split; [eapply history_before; eauto|]. split.
    + right. exists format, script. split; [apply format_of_effective|]. split; auto.
    + intros Dr _ Ro _. exists format, script. split; [apply format_of_effective|]. split; auto. intros g Ig.
      destruct (D Dr (Rt Ro) g Ig) as (c & out & X). exists c, out. now rewrite F1 in X.
Qed.

(** ** Not in place *)
Definition get_script (os : OS) (a : edit_args) : IO str :=
  if nonempty (a_script_file a) then wrap_err (bs "reading script file: ") (os_read_file os (a_script_file a))
  else if nonempty (a_script a) then io_ret (a_script a)
  else io_fail (bs "either --script, --file, or --expression must be specified").
Lemma get_script_spec os a w q w1 : get_script os a w = (q, w1) -> no_write w w1 /\ quiet_io w w1 /\ forall script, q = Ok script -> script_of os a w script.
Proof.
  unfold get_script, script_of. intros G. destruct (a_script_file a) as [|x xs] eqn:Sf; cbn [nonempty] in G.
  - destruct (a_script a) as [|y ys]; cbn [nonempty] in G; injection G as <- <-; (split; [apply history_refl|split; [apply quiet_refl|]]); [discriminate|].
    intros script X. injection X as <-. right. repeat split; auto. discriminate.
  - unfold wrap_err, io_try in G. destruct (os_read_file os (x :: xs) w) as [q0 w0] eqn:Rd. apply read_spec in Rd as (N & Q & C & _).
    destruct q0 as [c|e|k]; cbn in G; injection G as <- <-; split; auto; split; auto; try discriminate. intros script X. injection X as <-. left. split; [discriminate|auto].
Qed.
Lemma no_chatter_print a s : no_chatter a -> print_if (a_verbose a && negb (a_quiet a)) s = io_ret tt.
Proof. intros [->| ->]; [reflexivity|]. now rewrite andb_false_r. Qed.
Lemma seq_ret {A} (k : IO A) w : io_seq (io_ret tt) k w = k w. Proof. reflexivity. Qed.
Lemma bind_ok {A B} (m : IO A) (k : A -> IO B) w b w' : io_bind m k w = (Ok b, w') -> exists x w1, m w = (Ok x, w1) /\ k x w1 = (Ok b, w').
Proof. unfold io_bind. destruct (m w) as [[x|e|c] w1]; try discriminate. eauto. Qed.
Lemma wrap_ok {A} p (m : IO A) w x w' : wrap_err p m w = (Ok x, w') -> m w = (Ok x, w').
Proof. unfold wrap_err, io_try. destruct (m w) as [[y|e|c] w1]; try discriminate. auto. Qed.
(** a run that is not in place, does not fail early and is not dry *)
Lemma run_not_in_place E os a w r w' : a_in_place a = false -> a_expressions a = [] -> a_dry_run a = false -> no_chatter a ->
  run_edit E os a w = (r, w') -> r = Ok tt ->
  exists format script c out w1, format_of a format /\ script_of os a w script /\ input_of os a w c /\
    execute_script_fmt E c script format = Ok out /\ no_write w w1 /\ w_stdout w1 = w_stdout w /\
    (if nonempty (a_output a) then os_write_file os (a_output a) out else os_write_stdout os out) w1 = (Ok tt, w').
Proof.
  intros IP Ex Dr Ch R ->. revert R. unfold run_edit. destruct (negb _); [discriminate|]. destruct (nonempty (a_output a) && (1 <? _)) eqn:C1; [discriminate|]. destruct (nonempty (a_backup a) && _); [discriminate|].
  rewrite IP, Bool.andb_false_r, Ex. fold (get_script os a). intros R. apply bind_ok in R as (script & w1 & G & R). apply get_script_spec in G as (N & Q & Sc).
  specialize (Sc script eq_refl). pose proof (no_write_fs _ _ N) as F1. destruct Q as (Q1 & Q2 & Q3).
  destruct (a_files a) as [|f files] eqn:Ef.
  - unfold process_stdin in R. apply bind_ok in R as (c & w2 & Rd & R). apply wrap_ok in Rd. apply stdin_spec in Rd as (N2 & O2 & C2).
    rewrite no_chatter_print, seq_ret, Dr in R by auto. apply bind_ok in R as (out & w3 & X & R). injection X as X <-.
    exists (effective_format a), script, c, out, w2. split; [apply format_of_effective|]. split; auto. split.
    { left. split; auto. rewrite <- Q2. auto. }
    split; auto. split; [eapply no_write_trans; eauto|]. split; [congruence|]. destruct (nonempty (a_output a)); [rewrite no_chatter_print in R by auto; exact R|exact R].
  - unfold process_files in R. rewrite Ef, IP in R. cbn [negb andb] in R. destruct files as [|g files].
    2:{ destruct (nonempty (a_output a)) eqn:No; cbn [negb] in R; [|discriminate]. exfalso. rewrite ?Ef, ?No in C1; cbn [andb] in C1. unfold zlen in C1. cbn [length] in C1. apply Z.ltb_ge in C1. rewrite !Nat2Z.inj_succ in C1. lia. }
    assert (Body : forall fin : str -> IO unit,
      io_bind (wrap_err (bs "reading " ++ f ++ bs ": ") (os_read_file os f)) (fun c =>
      io_bind (wrap_err (bs "processing " ++ f ++ bs ": ") (io_res (execute_script_fmt E c script (effective_format a)))) fin) w1 = (Ok tt, w') ->
      exists c out w2, w_fs w (canon os f) = Some c /\ execute_script_fmt E c script (effective_format a) = Ok out /\ no_write w w2 /\ w_stdout w2 = w_stdout w /\ fin out w2 = (Ok tt, w')).
    { clear R. intros fin R. apply bind_ok in R as (c & w2 & Rd & R). apply wrap_ok in Rd. apply read_spec in Rd as (N2 & O2 & C2 & _).
      apply bind_ok in R as (out & w3 & X & R). apply wrap_ok in X. injection X as X <-.
      exists c, out, w2. split; [rewrite <- F1; auto|]. split; auto. split; [eapply no_write_trans; eauto|]. split; auto. destruct O2 as (O2 & _). congruence. }
    destruct (nonempty (a_output a)) eqn:No.
    + unfold process_to_output in R. rewrite no_chatter_print, seq_ret, Dr in R by auto. apply Body in R as (c & out & w2 & A1 & A2 & A3 & A4 & A5).
      exists (effective_format a), script, c, out, w2. split; [apply format_of_effective|]. split; auto. split; [right; eauto|]. repeat (split; auto).
    + unfold process_to_stdout in R. cbn [negb] in R. rewrite no_chatter_print, seq_ret, Dr in R by auto. apply Body in R as (c & out & w2 & A1 & A2 & A3 & A4 & A5).
      exists (effective_format a), script, c, out, w2. split; [apply format_of_effective|]. split; auto. split; [right; eauto|]. repeat (split; auto).
Qed.
