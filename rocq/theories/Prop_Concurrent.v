(** C65: several processes editing at the same time. *)
From Coq Require Import ZArith NArith List Bool Lia ZifyBool ZifyN ZifyNat Strings.Byte Wellfounded.
From Verif Require Import Base Float Ext Utf8 Strconv Values Buffer Builtins Eval Parser Json Writer Files Cli Concurrent
  Spec SpecText SpecFiles RefExt Proofs_Base Proofs_Files Prop_Files.
Import ListNotations.
Open Scope Z_scope.

(** ** C65 *)
(** the files a process is working on or will work on *)
Definition uses (os : OS) (p : proc) (k : str) : Prop :=
  In k (map (canon os) (p_todo p)) \/
  match p_phase p with
  | Reading f _ | Opening f _ | Writing f _ _ => canon os f = k
  | _ => False
  end.
(** the same contents, for the files in [K] *)
Definition agree (K : str -> Prop) (s t : fs) : Prop := forall k, K k -> s k = t k.

Ltac use_phase := match goal with H : p_phase _ = _ |- _ => rewrite H end.
Lemma agree_upd K s t k c : agree K s t -> agree K (upd s k c) (upd t k c).
Proof. intros A x X. unfold upd. destruct (str_eqb x k); auto. Qed.
Lemma uses_go os p ph k : uses os (go p ph) k -> In k (map (canon os) (p_todo p)) \/ match ph with
  | Reading f _ | Opening f _ | Writing f _ _ => canon os f = k | _ => False end.
Proof. auto. Qed.
Lemma step_uses os p s p' s' k : any_step os (p, s) (p', s') -> uses os p' k -> uses os p k.
Proof.
  intros [M|F] U.
  - inversion M; subst; clear M; unfold uses, go, record, compute in *; cbn [p_todo p_phase map In] in *;
      repeat match goal with H : p_phase _ = _ |- _ => rewrite H end; try tauto.
    destruct (max_alloc <? zlen got); [|destruct (p_exec p got)]; cbn [go record p_todo p_phase] in U; tauto.
  - inversion F; subst; clear F; unfold uses, go, record in *; cbn [p_todo p_phase map In] in *;
      repeat match goal with H : p_phase _ = _ |- _ => rewrite H end; tauto.
Qed.
Lemma step_exec os p s p' s' : any_step os (p, s) (p', s') -> p_exec p' = p_exec p.
Proof.
  intros [M|F]; [inversion M|inversion F]; subst; auto. unfold compute. destruct (max_alloc <? zlen got); [|destruct (p_exec p got)]; reflexivity.
Qed.
Lemma step_writes os p s p' s' k : any_step os (p, s) (p', s') -> ~ uses os p k -> s' k = s k.
Proof.
  intros [M|F] U; [inversion M|inversion F]; subst; auto.
  - apply upd_else. intros ->. apply U. right. now use_phase.
  - apply upd_else. intros ->. apply U. right. now use_phase.
Qed.
Lemma move_local os p s p' s' (K : str -> Prop) t : move os (p, s) (p', s') -> (forall k, uses os p k -> K k) -> agree K s t ->
  exists t', move os (p, t) (p', t') /\ agree K s' t'.
Proof.
  intros M U A. inversion M; subst; clear M.
  - exists t. split; auto. apply mv_missing. rewrite <- A; auto. apply U. left. now left.
  - exists t. split; auto. eapply mv_open. rewrite <- A; eauto. apply U. left. now left.
  - exists t. split; auto. eapply mv_read; eauto. rewrite <- A; eauto. apply U. right. now use_phase.
  - exists t. split; auto. eapply mv_eof; eauto. rewrite <- A; eauto. apply U. right. now use_phase.
  - exists (upd t (canon os f) []). split; [now apply mv_truncate|now apply agree_upd].
  - exists (upd t (canon os f) (overwrite c n d)). split; [|now apply agree_upd]. eapply mv_write; eauto. rewrite <- A; eauto. apply U. right. now use_phase.
  - exists t. split; auto. eapply mv_close; eauto.
Qed.
Lemma fault_local os p s p' s' (K : str -> Prop) t : fault (p, s) (p', s') -> (forall k, uses os p k -> K k) -> agree K s t ->
  exists t', fault (p, t) (p', t') /\ agree K s' t'.
Proof.
  intros M U A. inversion M; subst; clear M; exists t; (split; [|exact A]); [apply ft_open|eapply ft_read|eapply ft_truncate|eapply ft_write]; eauto.
Qed.
(** a way to step, local to the files a process uses *)
Definition local (os : OS) (step : proc * fs -> proc * fs -> Prop) : Prop :=
  (forall x y, step x y -> any_step os x y) /\
  forall p s p' s' (K : str -> Prop) t, step (p, s) (p', s') -> (forall k, uses os p k -> K k) -> agree K s t ->
    exists t', step (p, t) (p', t') /\ agree K s' t'.
Lemma move_is_local os : local os (move os).
Proof. split; [now left|]. intros. eapply move_local; eauto. Qed.
Lemma any_is_local os : local os (any_step os).
Proof.
  split; [auto|]. intros p s p' s' K t [M|F] U A.
  - destruct (move_local os p s p' s' K t M U A) as (t' & X & Y). exists t'. split; auto. now left.
  - destruct (fault_local os p s p' s' K t F U A) as (t' & X & Y). exists t'. split; auto. now right.
Qed.
Lemma star_local os step p s p' s' (K : str -> Prop) t : local os step -> star step (p, s) (p', s') -> (forall k, uses os p k -> K k) -> agree K s t ->
  exists t', star step (p, t) (p', t') /\ agree K s' t'.
Proof.
  intros [L1 L2] R. remember (p, s) as x eqn:X. remember (p', s') as y eqn:Y. revert p s X t. induction R as [x|x [p1 s1] z St R IH]; intros p s -> t U A.
  - injection Y as -> ->. exists t. split; [constructor|auto].
  - destruct (L2 _ _ _ _ K t St U A) as (t1 & S1 & A1). destruct (IH Y p1 s1 eq_refl t1) as (t' & R' & A'); auto.
    + intros k Hk. apply U. eapply step_uses; eauto.
    + exists t'. split; auto. econstructor; eauto.
Qed.
Lemma independent os step : local os step -> forall ps s ps' s', star (turn step) (ps, s) (ps', s') ->
  forall K : nat -> str -> Prop, (forall i p k, nth_error ps i = Some p -> uses os p k -> K i k) -> (forall i j k, K i k -> K j k -> i = j) ->
  forall i p, nth_error ps i = Some p -> exists p' si, nth_error ps' i = Some p' /\ star step (p, s) (p', si) /\ agree (K i) si s'.
Proof.
  intros L ps s ps' s' R. remember (ps, s) as x eqn:X. remember (ps', s') as y eqn:Y. revert ps s X.
  induction R as [x|x y' z St R IH]; intros ps s -> K U D i p I.
  - injection Y as -> ->. exists p, s'. split; auto. split; [constructor|intros k _; reflexivity].
  - inversion St as [a q b s0 q' s1 Q]; subst. pose proof (proj1 L _ _ Q) as Qa.
    assert (U' : forall i p k, nth_error (a ++ q' :: b) i = Some p -> uses os p k -> K i k).
    { intros j pj k Ij Uj. destruct (Nat.eq_dec j (length a)) as [->|N].
      - rewrite nth_error_app2, Nat.sub_diag in Ij by lia. injection Ij as <-. apply (U (length a) q).
        + rewrite nth_error_app2, Nat.sub_diag by lia. reflexivity.
        + eapply step_uses; eauto.
      - apply (U j pj); auto. destruct (Nat.lt_ge_cases j (length a)) as [O|O].
        + rewrite nth_error_app1 in * by lia. exact Ij.
        + rewrite nth_error_app2 in * by lia. destruct (j - length a)%nat eqn:J; [lia|exact Ij]. }
    specialize (IH eq_refl _ _ eq_refl K U' D i). destruct (Nat.eq_dec i (length a)) as [->|N].
    + rewrite nth_error_app2, Nat.sub_diag in I by lia. injection I as <-. destruct (IH q') as (p' & si & A & B & C).
      { rewrite nth_error_app2, Nat.sub_diag by lia. reflexivity. }
      exists p', si. split; auto. split; auto. econstructor; eauto.
    + assert (I' : nth_error (a ++ q' :: b) i = Some p).
      { destruct (Nat.lt_ge_cases i (length a)) as [O|O].
        - rewrite nth_error_app1 in * by lia. exact I.
        - rewrite nth_error_app2 in * by lia. destruct (i - length a)%nat eqn:J; [lia|exact I]. }
      destruct (IH p I') as (p' & si & A & B & C). exists p'.
      assert (Ag : agree (K i) s1 s).
      { intros k Hk. eapply step_writes; [exact Qa|]. intros Uk. apply N. apply (D i (length a) k Hk). apply (U _ q); auto.
        rewrite nth_error_app2, Nat.sub_diag by lia. reflexivity. }
      destruct (star_local os step p s1 p' si (K i) s L B) as (ti & T & G); auto.
      { intros k. apply U'. exact I'. }
      exists ti. split; auto. split; auto. intros k Hk. rewrite <- (C k Hk). symmetry. now apply G.
Qed.
(** processes whose files are different do not notice each other, whatever the order in which
    they take turns and whatever fails: each gets where it could get alone, and leaves behind
    the contents it would leave behind alone *)
Theorem disjoint_processes_independent os ps s ps' s' : 
  (forall i j p q k, nth_error ps i = Some p -> nth_error ps j = Some q -> uses os p k -> uses os q k -> i = j) ->
  star (turn (any_step os)) (ps, s) (ps', s') ->
  forall i p, nth_error ps i = Some p -> exists p' si, nth_error ps' i = Some p' /\ star (any_step os) (p, s) (p', si) /\ agree (uses os p) si s'.
Proof.
  intros D R i p I. 
  destruct (independent os _ (any_is_local os) _ _ _ _ R (fun i k => exists p, nth_error ps i = Some p /\ uses os p k)) with (i := i) (p := p) as (p' & si & A & B & C); auto.
  - eauto.
  - intros i1 i2 k (p1 & N1 & U1) (p2 & N2 & U2). eapply D; eauto.
  - exists p', si. split; auto. split; auto. intros k U. apply C. eauto.
Qed.
(** at no moment is a file touched that no process was asked to edit *)
Theorem other_files_untouched os ps s ps' s' k : star (turn (any_step os)) (ps, s) (ps', s') ->
  (forall p, In p ps -> ~ uses os p k) -> s' k = s k.
Proof.
  intros R. remember (ps, s) as x eqn:X. remember (ps', s') as y eqn:Y. revert ps s X. induction R as [x|x y' z St R IH]; intros ps s -> U.
  - now injection Y as -> ->.
  - inversion St as [a q b s0 q' s1 Q]; subst. rewrite (IH eq_refl _ _ eq_refl).
    + eapply step_writes; eauto. apply U. apply in_or_app. right. now left.
    + intros p I. apply in_app_or in I as [I|[<-|I]]; [apply U; apply in_or_app; now left| |apply U; apply in_or_app; right; now right].
      intros Up. eapply U; [apply in_or_app; right; now left|]. eapply step_uses; eauto.
Qed.

(** *** Alone *)
(** one file after the other, without system calls *)
Definition edit1 (os : OS) (exec : str -> res str) (f : str) (s : fs) : res (option str) * fs :=
  match s (canon os f) with
  | None => (Ok (Some (bs "failed to read file " ++ f ++ bs ": " ++ os_missing os f)), s)
  | Some c =>
    if max_alloc <? zlen c then (Crash CrashMemory, s)
    else match exec c with
         | Ok out => (Ok None, upd s (canon os f) out)
         | Err e => (Ok (Some e), s)
         | Crash k => (Crash k, s)
         end
  end.
Fixpoint edits (os : OS) (exec : str -> res str) (files : list str) (done : list edit_result) (s : fs) : res (list edit_result) * fs :=
  match files with
  | [] => (Ok done, s)
  | f :: files' =>
    match edit1 os exec f s with
    | (Ok v, s') => edits os exec files' (done ++ [mkResult f v]) s'
    | (Err e, s') => (Err e, s')
    | (Crash k, s') => (Crash k, s')
    end
  end.
Definition outcome (os : OS) (x : proc * fs) : res (list edit_result) * fs :=
  let '(p, s) := x in
  match p_phase p with
  | Idle => edits os (p_exec p) (p_todo p) (p_done p) s
  | Reading f _ => edits os (p_exec p) (f :: p_todo p) (p_done p) s
  | Opening f out | Writing f out _ => edits os (p_exec p) (p_todo p) (p_done p ++ [mkResult f None]) (upd s (canon os f) out)
  | Dead k => (Crash k, s)
  end.
Definition alike {A} (x y : A * fs) : Prop := fst x = fst y /\ same (snd x) (snd y).
Definition on_track (os : OS) (x : proc * fs) : Prop :=
  let '(p, s) := x in
  match p_phase p with
  | Reading f got => exists c, s (canon os f) = Some c /\ got = firstn (length got) c
  | Writing f out n => s (canon os f) = Some (firstn n out) /\ (n <= length out)%nat
  | _ => True
  end.
Lemma alike_refl {A} (x : A * fs) : alike x x. Proof. split; [reflexivity|intros k; reflexivity]. Qed.
Lemma alike_trans {A} (x y z : A * fs) : alike x y -> alike y z -> alike x z.
Proof. intros [A1 A2] [B1 B2]. split; [congruence|]. intros k. now rewrite A2. Qed.
Lemma same_upd s t k c : same s t -> same (upd s k c) (upd t k c).
Proof. intros S x. unfold upd. destruct (str_eqb x k); auto. Qed.
Lemma edit1_same os exec f s t : same s t -> alike (edit1 os exec f s) (edit1 os exec f t).
Proof.
  intros S. unfold edit1. rewrite (S (canon os f)). destruct (t (canon os f)) as [c|]; [|split; auto]. destruct (max_alloc <? zlen c); [split; auto|].
  destruct (exec c); split; auto. now apply same_upd.
Qed.
Lemma edits_same os exec files : forall done s t, same s t -> alike (edits os exec files done s) (edits os exec files done t).
Proof.
  induction files as [|f files IH]; intros done s t S; cbn [edits]; [split; auto|].
  destruct (edit1_same os exec f s t S) as [A B]. destruct (edit1 os exec f s) as [r s1], (edit1 os exec f t) as [r' t1]. cbn [fst snd] in *. subst r'.
  destruct r; [now apply IH|split; auto..].
Qed.
Lemma upd_upd s k c d : same (upd (upd s k c) k d) (upd s k d).
Proof. intros x. unfold upd. now destruct (str_eqb x k). Qed.
Lemma overwrite_end out n d r : skipn n out = d ++ r -> (n <= length out)%nat -> overwrite (firstn n out) n d = firstn (n + length d) out /\ (n + length d <= length out)%nat.
Proof.
  intros S L. assert (Ln : length (firstn n out) = n) by (rewrite firstn_length; lia). unfold overwrite.
  rewrite firstn_app, Ln, Nat.sub_diag, firstn_O, app_nil_r, firstn_firstn, Nat.min_id.
  rewrite skipn_all2 by (rewrite Ln; lia). rewrite app_nil_r.
  assert (O : out = firstn n out ++ d ++ r) by (rewrite <- S; symmetry; apply firstn_skipn).
  pose proof (f_equal (@length byte) O) as T. rewrite !app_length, Ln in T. split; [|lia].
  remember (firstn n out) as a eqn:Ea. clear Ea. rewrite O, app_assoc. replace (n + length d)%nat with (length (a ++ d) + 0)%nat by (rewrite app_length; lia).
  rewrite firstn_app_2. cbn [firstn]. now rewrite app_nil_r.
Qed.
Lemma move_outcome os x y : move os x y -> on_track os x -> on_track os y /\ alike (outcome os x) (outcome os y).
Proof.
  intros M. inversion M; subst; clear M; unfold on_track, outcome; cbn [go record p_phase p_todo p_exec p_done]; try use_phase.
  - intros _. split; auto. cbn [edits]. unfold edit1. rewrite H. apply alike_refl.
  - intros _. split; [exists c; auto|apply alike_refl].
  - intros (c' & C & G). rewrite H0 in C. injection C as <-. split; [|apply alike_refl]. exists c. split; auto.
    assert (Lg : (length got <= length c)%nat) by (rewrite G, firstn_length; lia).
    pose proof (firstn_skipn (length got) c) as O. rewrite H1, <- G, app_assoc in O. rewrite <- O.
    replace (length (got ++ d)) with (length (got ++ d) + 0)%nat by lia. rewrite firstn_app_2. cbn [firstn]. now rewrite app_nil_r.
  - intros (c' & C & G). rewrite H0 in C. injection C as <-. rewrite firstn_all2 in G by auto. subst c. unfold compute.
    cbn [edits]. unfold edit1. rewrite H0. destruct (max_alloc <? zlen got); [split; [exact I|apply alike_refl]|].
    destruct (p_exec p got); (split; [exact I|apply alike_refl]).
  - intros _. split; [split; [apply upd_here|lia]|]. apply edits_same. intros k. symmetry. apply upd_upd.
  - intros [C L]. rewrite H0 in C. injection C as ->. destruct (overwrite_end out n d r H1 L) as [-> L']. split; [split; [apply upd_here|auto]|].
    apply edits_same. intros k. symmetry. apply upd_upd.
  - intros [C L]. rewrite firstn_all in C. split; auto. apply edits_same. intros k. unfold upd. destruct (str_eqb k (canon os f)) eqn:Q; auto. apply str_eqb_eq in Q. now subst.
Qed.
Lemma star_outcome os x y : star (move os) x y -> on_track os x -> on_track os y /\ alike (outcome os x) (outcome os y).
Proof.
  induction 1 as [x|x y z M R IH]; intros T; [split; [auto|apply alike_refl]|]. destruct (move_outcome os x y M T) as [T1 A]. destruct (IH T1) as [T2 B].
  split; auto. eapply alike_trans; eauto.
Qed.
Lemma write_states_else key c n w k : k <> key -> w_fs (write_states key c n w) k = w_fs w k.
Proof. intros N. induction n as [|n IH]; cbn [write_states set_fs w_fs]; rewrite upd_else by auto; auto. Qed.
Lemma edits_loop os exec : no_faults os -> forall files done s w, same s (w_fs w) ->
  match edit_loop (fun f => edit_with os f exec) files w with
  | (Ok rs, w') => alike (edits os exec files done s) (Ok (done ++ rs), w_fs w')
  | (Err _, _) => False
  | (Crash k, w') => alike (edits os exec files done s) (Crash k, w_fs w')
  end.
Proof.
  intros NF. induction files as [|f files IH]; intros done s w S; cbn [edit_loop edits].
  - unfold io_ret. rewrite app_nil_r. split; auto.
  - assert (One : match edit_with os f exec w with
      | (Ok tt, w1) => alike (edit1 os exec f s) (Ok None, w_fs w1)
      | (Err e, w1) => alike (edit1 os exec f s) (Ok (Some e), w_fs w1)
      | (Crash k, w1) => alike (edit1 os exec f s) (Crash k, w_fs w1)
      end).
    { unfold edit_with, edit1, io_bind, read_file, io_try, os_read_file, io_res, io_fail. rewrite (S (canon os f)). destruct (w_fs w (canon os f)) as [c|] eqn:Fc.
      - destruct (NF (w_ops w)) as (-> & _). destruct (max_alloc <? zlen c); [split; auto|]. destruct (exec c) as [out|e|k]; [|split; auto..].
        unfold write_file, io_try, os_write_file. cbn [tick w_ops]. destruct (NF (Datatypes.S (w_ops w))) as (_ & -> & -> & _). unfold io_res.
        split; [reflexivity|]. cbn [snd]. intros k. unfold upd at 1. destruct (str_eqb k (canon os f)) eqn:Q.
        + apply str_eqb_eq in Q. subst k. now rewrite write_states_key, firstn_all.
        + rewrite write_states_else; [apply S|]. intros ->. now rewrite str_eqb_refl in Q.
      - split; auto. }
    unfold io_try. destruct (edit_with os f exec w) as [[[]|e|k] w1]; destruct (edit1 os exec f s) as [r s1]; destruct One as [O1 O2]; cbn [fst snd] in O1, O2; subst r.
    + specialize (IH (done ++ [mkResult f None]) s1 w1 O2). unfold io_bind. destruct (edit_loop _ files w1) as [[rs|e|k] w2]; auto. rewrite <- app_assoc in IH. exact IH.
    + specialize (IH (done ++ [mkResult f (Some e)]) s1 w1 O2). unfold io_bind. destruct (edit_loop _ files w1) as [[rs|e'|k] w2]; auto. rewrite <- app_assoc in IH. exact IH.
    + split; auto.
Qed.
(** a process that runs alone, in whatever pieces it reads and writes, ends as EditFiles of the
    sequential model does (C36 and C39 are about that) *)
Theorem solo_run E os files script w p' s' : no_faults os ->
  star (move os) (start (fun c => execute_script E c script) files, w_fs w) (p', s') ->
  (finished p' -> exists w', edit_files E os files script w = (Ok (p_done p'), w') /\ same (w_fs w') s') /\
  (forall c, p_phase p' = Dead c -> exists w', edit_files E os files script w = (Crash c, w') /\ same (w_fs w') s').
Proof.
  intros NF R. apply star_outcome in R as [_ R]; [|exact I]. unfold outcome at 1 in R. cbn [start p_phase p_exec p_todo p_done] in R.
  pose proof (edits_loop os (fun c => execute_script E c script) NF files [] (w_fs w) w (fun k => eq_refl)) as L.
  change (edit_loop (fun f => edit_with os f (fun c => execute_script E c script)) files) with (edit_files E os files script) in L.
  split.
  - intros [P T]. unfold outcome in R. rewrite P, T in R. cbn [edits] in R. destruct R as [R1 R2]. cbn [fst snd] in *.
    destruct (edit_files E os files script w) as [[rs|e|c] w'].
    + destruct L as [L1 L2]. cbn [fst snd app] in *. exists w'. split; [congruence|]. intros k. now rewrite <- L2.
    + destruct L.
    + destruct L as [L1 L2]. cbn [fst] in *. congruence.
  - intros c P. unfold outcome in R. rewrite P in R. destruct R as [R1 R2]. cbn [fst snd] in *.
    destruct (edit_files E os files script w) as [[rs|e|c'] w'].
    + destruct L as [L1 L2]. cbn [fst] in *. congruence.
    + destruct L.
    + destruct L as [L1 L2]. cbn [fst snd] in *. exists w'. split; [congruence|]. intros k. now rewrite <- L2.
Qed.
(** it does end *)
Definition rank (os : OS) (x : proc * fs) : nat * nat :=
  let '(p, s) := x in
  let t := (4 * length (p_todo p))%nat in
  match p_phase p with
  | Idle => (t + 1, 0)%nat
  | Reading f got => (t + 4, match s (canon os f) with Some c => length c - length got | None => 0 end)%nat
  | Opening f out => (t + 3, 0)%nat
  | Writing f out n => (t + 2, length out - n)%nat
  | Dead _ => (0, 0)%nat
  end.
Definition below (x y : nat * nat) : Prop := (fst x < fst y)%nat \/ fst x = fst y /\ (snd x < snd y)%nat.
Lemma below_wf : well_founded below.
Proof.
  intros [a b]. revert b. induction a as [a IHa] using (well_founded_induction lt_wf). intros b. induction b as [b IHb] using (well_founded_induction lt_wf).
  constructor. intros [c d] [H|[H1 H2]]; cbn [fst snd] in *; [now apply IHa|subst; now apply IHb].
Qed.
Lemma move_rank os x y : move os x y -> below (rank os y) (rank os x).
Proof.
  intros M. inversion M; subst; clear M; unfold rank, below, compute; cbn [go record p_phase p_todo p_exec p_done length]; try use_phase; cbn [fst snd].
  - left. lia.
  - left. lia.
  - right. rewrite H0. split; [lia|]. rewrite app_length. pose proof (f_equal (@length byte) H1) as L. rewrite skipn_length, app_length in L. destruct d; [congruence|cbn [length] in *; lia].
  - left. destruct (max_alloc <? zlen got); cbn [go p_phase p_todo]; [cbn [fst]; lia|]. destruct (p_exec p got); cbn [go record p_phase p_todo fst]; lia.
  - left. lia.
  - right. split; [lia|]. pose proof (f_equal (@length byte) H1) as L. rewrite skipn_length, app_length in L. destruct d; [congruence|cbn [length] in *; lia].
  - left. lia.
Qed.
Theorem solo_terminates os x : Acc (fun y x => move os x y) x.
Proof.
  apply (Acc_incl _ (fun y x => move os x y) (fun y x => below (rank os y) (rank os x))).
  - intros y z. apply move_rank.
  - apply (Acc_inverse_image _ _ below (rank os)). apply below_wf.
Qed.
(** a process is done, or dead, or can take its next step at once: nobody ever waits for
    somebody else *)
Definition there (os : OS) (s : fs) (p : proc) : Prop :=
  match p_phase p with
  | Reading f _ => s (canon os f) <> None
  | Writing f out n => s (canon os f) <> None /\ (n <= length out)%nat
  | _ => True
  end.
Lemma step_keeps os p s p' s' k : any_step os (p, s) (p', s') -> s k <> None -> s' k <> None.
Proof. intros [M|F]; [inversion M|inversion F]; subst; auto; intros N; unfold upd; destruct (str_eqb k (canon os f)); congruence. Qed.
Lemma step_there os p s p' s' : any_step os (p, s) (p', s') -> there os s p -> there os s' p'.
Proof.
  intros [M|F] T; [inversion M|inversion F]; subst; unfold there in *; cbn [go record p_phase] in *; try (use_phase; auto); auto.
  - congruence.
  - congruence.
  - unfold compute. destruct (max_alloc <? zlen got); cbn [go p_phase]; auto. destruct (p_exec p got); cbn [go record p_phase]; auto.
  - rewrite upd_here. split; [discriminate|lia].
  - rewrite upd_here. split; [discriminate|]. match goal with H : p_phase _ = _ |- _ => rewrite H in T end. destruct T as [_ T].
    match goal with H : skipn _ _ = _ |- _ => pose proof (f_equal (@length byte) H) as L end. rewrite skipn_length, app_length in L. lia.
Qed.
Lemma can_move os p s : there os s p -> finished p \/ (exists c, p_phase p = Dead c) \/ exists y, move os (p, s) y.
Proof.
  unfold there. destruct p as [exec todo ph done]. cbn [p_phase]. destruct ph as [|f got|f out|f out n|c].
  - intros _. destruct todo as [|f fs]; [left; split; reflexivity|]. right. right. destruct (s (canon os f)) as [c|] eqn:S; eexists; [eapply mv_open, S|eapply mv_missing, S].
  - intros N. right. right. destruct (s (canon os f)) as [c|] eqn:S; [|congruence]. destruct (skipn (length got) c) as [|b r] eqn:K.
    + eexists. eapply mv_eof; [reflexivity|exact S|]. pose proof (f_equal (@length byte) K) as L. rewrite skipn_length in L. cbn in L. lia.
    + eexists. eapply (mv_read os _ f got s c [b] r); [reflexivity|exact S|exact K|discriminate].
  - intros _. right. right. eexists. eapply mv_truncate. reflexivity.
  - intros [N L]. right. right. destruct (s (canon os f)) as [c|] eqn:S; [|congruence]. destruct (skipn n out) as [|b r] eqn:K.
    + assert (n = length out) by (pose proof (f_equal (@length byte) K) as X; rewrite skipn_length in X; cbn in X; lia). subst n. eexists. eapply mv_close. reflexivity.
    + eexists. eapply (mv_write os _ f out n s c [b] r); [reflexivity|exact S|exact K|discriminate].
  - intros _. right. left. eauto.
Qed.
Lemma turns_there os ps s ps' s' : star (turn (any_step os)) (ps, s) (ps', s') -> Forall (there os s) ps -> Forall (there os s') ps'.
Proof.
  intros R. remember (ps, s) as x eqn:X. remember (ps', s') as y eqn:Y. revert ps s X. induction R as [x|x y' z St R IH]; intros ps s -> U.
  - now injection Y as -> ->.
  - inversion St as [a q b s0 q' s1 Q]; subst. apply (IH eq_refl _ _ eq_refl).
    assert (G : forall p, there os s p -> there os s1 p).
    { intros p. unfold there. destruct (p_phase p); auto; [|intros [N L]; split; auto; revert N]; apply (step_keeps _ _ _ _ _ _ Q). }
    rewrite Forall_app in *. destruct U as [U1 U2]. inversion U2; subst. split; [eapply Forall_impl; [exact G|auto]|]. constructor; [eapply step_there; eauto|eapply Forall_impl; [exact G|auto]].
Qed.
Theorem nobody_waits os jobs s ps' s' : star (turn (any_step os)) (map (fun j => start (fst j) (snd j)) jobs, s) (ps', s') ->
  forall p, In p ps' -> finished p \/ (exists c, p_phase p = Dead c) \/ exists y, move os (p, s') y.
Proof.
  intros R p I. apply can_move. apply turns_there in R.
  - rewrite Forall_forall in R. auto.
  - apply Forall_forall. intros q J. apply in_map_iff in J as (j & <- & _). exact Logic.I.
Qed.
(** put together: processes on different files, without failures; those that are done have
    the results and have left the contents that EditFiles alone would give them *)
Theorem disjoint_edits E os (jobs : list (str * list str)) w ps' s' : no_faults os ->
  (forall i j a b k, nth_error jobs i = Some a -> nth_error jobs j = Some b -> In k (map (canon os) (snd a)) -> In k (map (canon os) (snd b)) -> i = j) ->
  star (turn (move os)) (map (fun j => start (fun c => execute_script E c (fst j)) (snd j)) jobs, w_fs w) (ps', s') ->
  forall i script files p', nth_error jobs i = Some (script, files) -> nth_error ps' i = Some p' -> 
    (finished p' -> exists w', edit_files E os files script w = (Ok (p_done p'), w') /\ forall f, In f files -> s' (canon os f) = w_fs w' (canon os f)) /\
    (forall c, p_phase p' = Dead c -> exists w', edit_files E os files script w = (Crash c, w') /\ forall f, In f files -> s' (canon os f) = w_fs w' (canon os f)).
Proof.
  intros NF D R i script files p' I Ip.
  destruct (independent os _ (move_is_local os) _ _ _ _ R (fun i k => exists a, nth_error jobs i = Some a /\ In k (map (canon os) (snd a)))) with (i := i) (p := start (fun c => execute_script E c script) files)
    as (p2 & si & A & B & C).
  - intros j p k J U. rewrite nth_error_map in J. destruct (nth_error jobs j) as [a|]; [|discriminate]. injection J as <-. destruct U as [U|[]]. eauto.
  - intros i1 i2 k (p1 & N1 & U1) (p2 & N2 & U2). eapply D; eauto.
  - rewrite nth_error_map, I. reflexivity.
  - rewrite Ip in A. injection A as <-. destruct (solo_run E os files script w p' si NF B) as [X Y].
    assert (G : forall f, In f files -> si (canon os f) = s' (canon os f)).
    { intros f F. apply C. exists (script, files). split; auto. now apply in_map. }
    split.
    + intros F. destruct (X F) as (w' & Ed & S). exists w'. split; auto. intros f Hf. rewrite S. symmetry. now apply G.
    + intros c F. destruct (Y c F) as (w' & Ed & S). exists w'. split; auto. intros f Hf. rewrite S. symmetry. now apply G.
Qed.
(** what a result says is true, whatever fails: no error means that the file now holds what
    the script makes of its former content; an error says whether the file could not be read,
    or the script failed - then the file is as it was -, or it could not be written - then
    it is as it was or holds a beginning of the new text *)
Inductive result_true (os : OS) (exec : str -> res str) (s s' : fs) : edit_result -> Prop :=
| rt_done f c out : s (canon os f) = Some c -> exec c = Ok out -> s' (canon os f) = Some out -> result_true os exec s s' (mkResult f None)
| rt_unread f e : s' (canon os f) = s (canon os f) -> result_true os exec s s' (mkResult f (Some (bs "failed to read file " ++ f ++ bs ": " ++ e)))
| rt_failed f c e : s (canon os f) = Some c -> exec c = Err e -> s' (canon os f) = Some c -> result_true os exec s s' (mkResult f (Some e))
| rt_unwritten f c out e : s (canon os f) = Some c -> exec c = Ok out -> (s' (canon os f) = Some c \/ exists a b, out = a ++ b /\ s' (canon os f) = Some a) ->
    result_true os exec s s' (mkResult f (Some (bs "failed to write file " ++ f ++ bs ": " ++ e))).
Lemma result_kept os exec s0 s s' r : result_true os exec s0 s r -> s' (canon os (r_file r)) = s (canon os (r_file r)) -> result_true os exec s0 s' r.
Proof.
  intros [f c out A B C|f e A|f c e A B C|f c out e A B C] E; cbn [r_file] in E; [eapply rt_done|apply rt_unread|eapply rt_failed|eapply rt_unwritten]; eauto; try congruence.
  rewrite E. exact C.
Qed.
Definition halfway (os : OS) (s0 : fs) (files : list str) (p : proc) (s : fs) : Prop :=
  exists cur, files = map r_file (p_done p) ++ cur ++ p_todo p /\ Forall (result_true os (p_exec p) s0 s) (p_done p) /\
    (forall f, In f (p_todo p) -> s (canon os f) = s0 (canon os f)) /\
    match p_phase p with
    | Idle => cur = []
    | Reading f got => cur = [f] /\ s (canon os f) = s0 (canon os f) /\ exists r, s (canon os f) = Some (got ++ r)
    | Opening f out => cur = [f] /\ s (canon os f) = s0 (canon os f) /\ exists c, s (canon os f) = Some c /\ p_exec p c = Ok out
    | Writing f out n => cur = [f] /\ (n <= length out)%nat /\ (exists c, s0 (canon os f) = Some c /\ p_exec p c = Ok out) /\ s (canon os f) = Some (firstn n out)
    | Dead _ => True
    end.
Lemma halfway_done os s0 files p s f r : NoDup (map (canon os) files) -> files = map r_file (p_done p) ++ [f] ++ p_todo p -> r_file r = f ->
  Forall (result_true os (p_exec p) s0 s) (p_done p) -> (forall f, In f (p_todo p) -> s (canon os f) = s0 (canon os f)) -> result_true os (p_exec p) s0 s r ->
  halfway os s0 files (mkProc (p_exec p) (p_todo p) Idle (p_done p ++ [r])) s.
Proof.
  intros _ E F D T R. exists []. cbn [p_done p_todo p_exec p_phase]. split; [rewrite E, map_app; cbn [map]; rewrite F, <- app_assoc; reflexivity|].
  split; [apply Forall_app; auto|]. auto.
Qed.
Lemma others_kept os files (done : list edit_result) f (todo : list str) (s s' : fs) (exec : str -> res str) s0 : NoDup (map (canon os) files) -> files = map r_file done ++ [f] ++ todo ->
  (forall k, k <> canon os f -> s' k = s k) -> Forall (result_true os exec s0 s) done -> (forall g, In g todo -> s (canon os g) = s0 (canon os g)) ->
  Forall (result_true os exec s0 s') done /\ forall g, In g todo -> s' (canon os g) = s0 (canon os g).
Proof.
  intros N E K D T. rewrite E, !map_app in N. cbn [map app] in N. apply NoDup_remove_2 in N.
  split.
  - rewrite Forall_forall in *. intros r I. apply (result_kept os exec s0 s); [auto|]. apply K. intros X. apply N. apply in_or_app. left. rewrite <- X. now apply in_map, in_map.
  - intros g I. rewrite K; [auto|]. intros X. apply N. apply in_or_app. right. rewrite <- X. now apply in_map.
Qed.
Lemma halfway_step os s0 files p s p' s' : NoDup (map (canon os) files) -> any_step os (p, s) (p', s') -> halfway os s0 files p s -> halfway os s0 files p' s'.
Proof.
  intros N [M|F] (cur & E & D & T & P).
  - inversion M as [exec f fl done s1 Ms Eq1 Eq2|exec f fl done s1 c Os Eq1 Eq2|p1 f got s1 c d r Ph Sc Sk Nd Eq1 Eq2|p1 f got s1 c Ph Sc Le Eq1 Eq2|p1 f out s1 Ph Eq1 Eq2|p1 f out n s1 c d r Ph Sc Sk Nd Eq1 Eq2|p1 f out s1 Ph Eq1 Eq2]; revert E; subst; intros E; cbn [p_done p_todo p_exec p_phase] in *.
    + subst cur. exists []. cbn [p_done p_todo p_exec p_phase app] in *. split; [rewrite E, map_app, <- app_assoc; reflexivity|].
      split; [apply Forall_app; split; [auto|constructor; [apply rt_unread; apply T; now left|constructor]]|]. split; [|reflexivity]. intros g G. apply T. now right.
    + subst cur. exists [f]. cbn [p_done p_todo p_exec p_phase app] in *. split; [exact E|]. split; [auto|]. split; [intros g G; apply T; now right|].
      split; [reflexivity|]. split; [apply T; now left|]. exists c. exact Os.
    + rewrite Ph in P. destruct P as (-> & S0 & (q & Q)). exists [f]. cbn [go p_done p_todo p_exec p_phase]. split; [auto|]. split; [auto|]. split; [auto|].
      split; [auto|]. split; [auto|]. rewrite Sc in Q. injection Q as Q. subst c. rewrite skipn_app, skipn_all, Nat.sub_diag in Sk. cbn [skipn app] in Sk. subst q. exists r. rewrite <- app_assoc. exact Sc.
    + rewrite Ph in P. destruct P as (-> & S0 & (q & Q)). rewrite Sc in Q. injection Q as Q. subst c. rewrite app_length in Le. assert (q = []) by (destruct q; [reflexivity|cbn in Le; lia]). subst q. rewrite app_nil_r in Sc.
      unfold compute. destruct (max_alloc <? zlen got).
      * exists [f]. cbn [go p_done p_todo p_exec p_phase]. auto.
      * destruct (p_exec p got) as [out|e|c] eqn:X.
        -- exists [f]. cbn [go p_done p_todo p_exec p_phase]. do 3 (split; [auto|]). split; [auto|]. split; [auto|]. exists got. auto.
        -- apply (halfway_done os s0 files p s' f (mkResult f (Some e))); auto. apply (rt_failed _ _ _ _ f got); [rewrite <- S0; exact Sc|exact X|exact Sc].
        -- exists [f]. cbn [go p_done p_todo p_exec p_phase]. auto.
    + rewrite Ph in P. destruct P as (-> & S0 & c & Sc & X). 
      destruct (others_kept os files (p_done p) f (p_todo p) s (upd s (canon os f) []) (p_exec p) s0 N E) as [D' T']; auto; [intros k K; now apply upd_else|].
      exists [f]. cbn [go p_done p_todo p_exec p_phase]. do 3 (split; [auto|]). split; [auto|]. split; [lia|]. split; [exists c; split; congruence|]. rewrite upd_here. reflexivity.
    + rewrite Ph in P. destruct P as (-> & Le & Ex & Sf). rewrite Sc in Sf. injection Sf as ->.
      destruct (others_kept os files (p_done p) f (p_todo p) s (upd s (canon os f) (overwrite (firstn n out) n d)) (p_exec p) s0 N E) as [D' T']; auto; [intros k K; now apply upd_else|].
      assert (Ln : (n + length d <= length out)%nat).
      { pose proof (f_equal (@length byte) Sk) as L. rewrite skipn_length, app_length in L. lia. }
      exists [f]. cbn [go p_done p_todo p_exec p_phase]. do 3 (split; [auto|]). split; [auto|]. split; [auto|]. split; [auto|]. rewrite upd_here. f_equal.
      unfold overwrite. assert (L1 : length (firstn n out) = n) by (rewrite firstn_length; lia).
      rewrite firstn_app, L1, Nat.sub_diag. cbn [firstn]. rewrite app_nil_r, firstn_firstn, Nat.min_id. rewrite (skipn_all2 (firstn n out)) by lia. rewrite app_nil_r.
      rewrite <- (firstn_skipn n out) at 2. rewrite Sk, app_assoc. rewrite firstn_app, app_length, L1, Nat.sub_diag. cbn [firstn]. rewrite app_nil_r.
      symmetry. apply firstn_all2. rewrite app_length. lia.
    + rewrite Ph in P. destruct P as (-> & Le & (c & S0 & X) & Sf). rewrite firstn_all in Sf.
      apply (halfway_done os s0 files p s' f (mkResult f None)); auto. eapply rt_done; eauto.
  - inversion F as [exec f fl done s1 e Eq1 Eq2|p1 f got s1 e Ph Eq1 Eq2|p1 f out s1 e Ph Eq1 Eq2|p1 f out n s1 e Ph Eq1 Eq2]; revert E; subst; intros E; cbn [p_done p_todo p_exec p_phase] in *.
    + subst cur. exists []. cbn [p_done p_todo p_exec p_phase app] in *. split; [rewrite E, map_app, <- app_assoc; reflexivity|].
      split; [apply Forall_app; split; [auto|constructor; [apply rt_unread; apply T; now left|constructor]]|]. split; [|reflexivity]. intros g G. apply T. now right.
    + rewrite Ph in P. destruct P as (-> & S0 & _). apply (halfway_done os s0 files p s' f (mkResult f _)); auto. now apply rt_unread.
    + rewrite Ph in P. destruct P as (-> & S0 & c & Sc & X). apply (halfway_done os s0 files p s' f (mkResult f _)); auto. eapply rt_unwritten; eauto. congruence.
    + rewrite Ph in P. destruct P as (-> & Le & (c & S0 & X) & Sf). apply (halfway_done os s0 files p s' f (mkResult f _)); auto. eapply rt_unwritten; eauto. right.
      exists (firstn n out), (skipn n out). split; [symmetry; apply firstn_skipn|auto].
Qed.
Lemma halfway_star os s0 files p s p' s' : NoDup (map (canon os) files) -> star (any_step os) (p, s) (p', s') -> halfway os s0 files p s -> halfway os s0 files p' s'.
Proof.
  intros N R. remember (p, s) as x eqn:X. remember (p', s') as y eqn:Y. revert p s X. induction R as [x|x [p1 s1] z St R IH]; intros p s -> H.
  - now injection Y as -> ->.
  - apply (IH Y p1 s1 eq_refl). eapply halfway_step; eauto.
Qed.
Theorem results_true os exec files s p' s' : NoDup (map (canon os) files) -> star (any_step os) (start exec files, s) (p', s') ->
  Forall (result_true os exec s s') (p_done p') /\ (finished p' -> map r_file (p_done p') = files).
Proof.
  intros N R. assert (X : p_exec p' = exec).
  { remember (start exec files, s) as x eqn:X. remember (p', s') as y eqn:Y. assert (H : p_exec (fst x) = exec) by (now subst x). clear X. revert H.
    induction R as [x|x [p1 s1] z St R IH]; intros H; [now subst x|]. apply (IH Y). destruct x as [p0 s2]. cbn [fst] in *. rewrite <- H. eapply step_exec; eauto. }
  destruct (halfway_star os s files _ _ p' s' N R) as (cur & E & D & _ & P).
  - exists []. cbn. repeat split; auto.
  - rewrite X in D. split; [auto|]. intros [Ph Td]. rewrite Ph in P. subst cur. rewrite Td in E. cbn [app] in E. now rewrite app_nil_r in E.
Qed.
(** and so it is when processes on different files run at once *)
Theorem concurrent_results_true os (jobs : list ((str -> res str) * list str)) s ps' s' :
  NoDup (flat_map (fun j => map (canon os) (snd j)) jobs) ->
  star (turn (any_step os)) (map (fun j => start (fst j) (snd j)) jobs, s) (ps', s') ->
  forall i exec files p', nth_error jobs i = Some (exec, files) -> nth_error ps' i = Some p' ->
    Forall (result_true os exec s s') (p_done p') /\ (finished p' -> map r_file (p_done p') = files).
Proof.
  intros N R i exec files p' I I'.
  assert (Ni : NoDup (map (canon os) files)).
  { apply nth_error_In in I. clear R I'. induction jobs as [|j js IH]; [destruct I|]. cbn [flat_map] in N. destruct I as [->|I].
    - cbn [snd] in N. clear IH. induction (map (canon os) files) as [|k l IH]; [constructor|]. cbn [app] in N. inversion N as [|? ? A B]; subst. constructor; [|auto]. intros X. apply A. apply in_or_app. now left.
    - apply IH; auto. clear IH. induction (map (canon os) (snd j)) as [|k l IH]; [auto|]. inversion N; subst. auto. }
  destruct (disjoint_processes_independent os (map (fun j => start (fst j) (snd j)) jobs) s ps' s') with (i := i) (p := start exec files) as (p2 & si & A & B & C); [|exact R| |].
  - clear R I I' Ni i p'. intros i j p q k Ip Iq Up Uq. rewrite nth_error_map in Ip, Iq.
    destruct (nth_error jobs i) as [a|] eqn:Ia; [|discriminate]. destruct (nth_error jobs j) as [b|] eqn:Ib; [|discriminate]. injection Ip as <-. injection Iq as <-.
    destruct Up as [Up|[]]. destruct Uq as [Uq|[]]. cbn [start p_todo] in Up, Uq.
    revert i j Ia Ib. induction jobs as [|x js IH]; intros [|i] [|j] Ia Ib; try discriminate; auto.
    + exfalso. injection Ia as ->. cbn [flat_map] in N. cbn [nth_error] in Ib. apply nth_error_In in Ib.
      assert (In k (flat_map (fun j => map (canon os) (snd j)) js)) as K by (apply in_flat_map; eauto).
      clear IH Ib Uq. induction (map (canon os) (snd a)) as [|k' l IHl]; [destruct Up|]. cbn [app] in N. inversion N as [|? ? Q1 Q2]; subst. destruct Up as [->|Up]; [apply Q1; apply in_or_app; now right|auto].
    + exfalso. injection Ib as ->. cbn [flat_map] in N. cbn [nth_error] in Ia. apply nth_error_In in Ia.
      assert (In k (flat_map (fun j => map (canon os) (snd j)) js)) as K by (apply in_flat_map; eauto).
      clear IH Ia Up. induction (map (canon os) (snd b)) as [|k' l IHl]; [destruct Uq|]. cbn [app] in N. inversion N as [|? ? Q1 Q2]; subst. destruct Uq as [->|Uq]; [apply Q1; apply in_or_app; now right|auto].
    + f_equal. cbn [nth_error] in Ia, Ib. apply IH; auto. cbn [flat_map] in N. clear IH. induction (map (canon os) (snd x)) as [|k' l IHl]; [auto|]. inversion N; subst. auto.
  - rewrite nth_error_map, I. reflexivity.
  - rewrite I' in A. injection A as <-. destruct (results_true os exec files s p' si Ni B) as [T F]. split; [|auto].
    apply Forall_forall. intros r Ir. rewrite Forall_forall in T. apply (result_kept os exec s si); [auto|]. symmetry. apply C. left. cbn [start p_todo].
    destruct (halfway_star os s files _ _ p' si Ni B) as (cur & E & _); [exists []; cbn; repeat split; auto|]. apply in_map. rewrite E. apply in_or_app. left. now apply in_map.
Qed.
(** whatever the processes do to each other's files: a property of bytes that zero bytes and
    the files have and the scripts keep, all files have at all times *)
Theorem bytes_stay_good os (P : byte -> Prop) ps s ps' s' : P Byte.x00 ->
  (forall p c out, In p ps -> Forall P c -> p_exec p c = Ok out -> Forall P out) ->
  (forall p, In p ps -> p_phase p = Idle) -> (forall k c, s k = Some c -> Forall P c) ->
  star (turn (any_step os)) (ps, s) (ps', s') -> forall k c, s' k = Some c -> Forall P c.
Proof.
  intros P0 Ex Id S R.
  set (good := fun p => (forall c out, Forall P c -> p_exec p c = Ok out -> Forall P out) /\ 
    match p_phase p with Reading _ x | Opening _ x | Writing _ x _ => Forall P x | _ => True end).
  assert (G : Forall good ps).
  { apply Forall_forall. intros p I. split; [intros; eapply Ex; eauto|]. now rewrite (Id p I). }
  clear Ex Id. remember (ps, s) as x eqn:X. remember (ps', s') as y eqn:Y. revert ps s X S G. induction R as [x|x y' z St R IH]; intros ps s -> S G.
  - injection Y as -> ->. exact S.
  - inversion St as [a q b s0 q' s1 Q]; subst. rewrite Forall_app in G. destruct G as [G1 G2]. inversion G2 as [|? ? [Gq1 Gq2] G3]; subst. 
    assert (Sk : forall n c, Forall P c -> Forall P (skipn n c)).
    { intros n c F. rewrite <- (firstn_skipn n c) in F. rewrite Forall_app in F. tauto. }
    assert (Fk : forall n c, Forall P c -> Forall P (firstn n c)).
    { intros n c F. rewrite <- (firstn_skipn n c) in F. rewrite Forall_app in F. tauto. }
    assert (U : forall k0 c0 k c, Forall P c0 -> upd s k0 c0 k = Some c -> Forall P c).
    { intros k0 c0 k c F H. unfold upd in H. destruct (str_eqb k k0); [now injection H as <-|now apply S in H]. }
    assert (N : good q' /\ forall k c, s1 k = Some c -> Forall P c).
    { unfold good in *. rewrite (step_exec os q s q' s1 Q). destruct Q as [M|F]; [inversion M|inversion F]; subst; cbn [go record p_phase p_exec] in *;
        repeat match goal with H : p_phase _ = _, H' : context [p_phase _] |- _ => rewrite H in H' end; try (split; [split|]; now auto).
      - split; [split; auto|auto]. apply Forall_app. split; auto. match goal with H : skipn _ _ = _ |- _ => pose proof (Sk (length got) c ltac:(eauto)) as Z; rewrite H, Forall_app in Z; tauto end.
      - split; [split; auto|auto]. unfold compute. destruct (max_alloc <? zlen got); cbn [go p_phase]; auto. destruct (p_exec q got) eqn:Eq; cbn [go record p_phase]; eauto.
      - split; [split; auto|]. intros k c. apply U. constructor.
      - split; [split; auto|]. intros k c'. apply U. unfold overwrite. rewrite !Forall_app. split; [|split].
        + apply Fk, Forall_app. split; eauto. apply Forall_forall. intros z Z. apply repeat_spec in Z. now subst.
        + match goal with H : skipn n _ = _ |- _ => pose proof (Sk n out Gq2) as Z; rewrite H, Forall_app in Z; tauto end.
        + apply Sk. eauto. }
    destruct N as [N1 N2]. apply (IH eq_refl _ _ eq_refl N2). apply Forall_app. split; auto.
Qed.

(** *** Not alone *)
Definition race_end (c1 c2 : str) (script1 script2 : str) (final : str) : Prop := exists ps' s',
  star (turn (move demo_os)) ([start (fun c => execute_script ref_ext c script1) [bs "f"]; start (fun c => execute_script ref_ext c script2) [bs "f"]], upd (fun _ => None) (bs "f") c1) (ps', s') /\
  Forall finished ps' /\ Forall (fun p => p_done p = [mkResult (bs "f") None]) ps' /\ s' (bs "f") = Some final /\
  (* one after the other, in either order *)
  (let w := demo [(bs "f", c1)] in
   w_fs (snd (edit_files ref_ext demo_os [bs "f"] script2 (snd (edit_files ref_ext demo_os [bs "f"] script1 w)))) (bs "f") = Some c2 /\
   w_fs (snd (edit_files ref_ext demo_os [bs "f"] script1 (snd (edit_files ref_ext demo_os [bs "f"] script2 w)))) (bs "f") = Some c2).
Ltac one := eapply star_more; [eapply (turn_at _ [] _ [_])|].
Ltac two := eapply star_more; [eapply (turn_at _ [_] _ [])|].
Ltac open_it := eapply mv_open; reflexivity.
Ltac eof_it := eapply mv_eof; [reflexivity|reflexivity|cbn; lia].
Ltac read_it x := eapply (mv_read _ _ _ _ _ _ x); [reflexivity|reflexivity|reflexivity|discriminate].
Ltac think := match goal with |- context [compute ?p ?f ?g] => let q := eval vm_compute in (p_exec p g) in
  match q with
  | Ok ?out => replace (compute p f g) with (go p (Opening f out)) by (unfold compute; replace (max_alloc <? zlen g) with false by (vm_compute; reflexivity); replace (p_exec p g) with q by (vm_compute; reflexivity); reflexivity)
  end end; cbn [go record start p_exec p_todo p_done p_phase].
Ltac truncate_it := eapply mv_truncate; reflexivity.
Ltac write_it x := eapply (mv_write _ _ _ _ _ _ _ x); [reflexivity|reflexivity|reflexivity|discriminate].
Ltac close_it x := eapply (mv_close _ _ _ x); reflexivity.
(** two processes that each append a mark to the same file, both reporting success: one mark
    is lost *)
Theorem lost_update_refuted : race_end [] (bs "!!") (bs "insert ""!""") (bs "insert ""!""") (bs "!").
Proof.
  do 2 eexists. split.
  { one; [open_it|]. one; [eof_it|]. think. two; [open_it|]. two; [eof_it|]. think.
    one; [truncate_it|]. one; [write_it (bs "!")|]. one; [close_it (bs "!")|].
    two; [truncate_it|]. two; [write_it (bs "!")|]. two; [close_it (bs "!")|]. apply star_here. }
  split; [repeat constructor|]. split; [repeat constructor|]. split; [reflexivity|]. vm_compute. split; reflexivity.
Qed.
(** a process reads the file while another has just truncated it: the whole text is lost,
    although neither script deletes anything and both report success *)
Theorem text_survives_refuted : race_end (bs "abc") (bs "!abc") (bs "goto-char 1") (bs "insert ""!""") (bs "!").
Proof.
  do 2 eexists. split.
  { one; [open_it|]. one; [read_it (bs "abc")|]. one; [eof_it|]. think. one; [truncate_it|].
    two; [open_it|]. two; [eof_it|]. think.
    one; [write_it (bs "ab")|]. one; [write_it (bs "c")|]. one; [close_it (bs "abc")|].
    two; [truncate_it|]. two; [write_it (bs "!")|]. two; [close_it (bs "!")|]. apply star_here. }
  split; [repeat constructor|]. split; [repeat constructor|]. split; [reflexivity|]. vm_compute. split; reflexivity.
Qed.
(** one truncates the file between two writes of the other: zero bytes appear that neither
    the text nor the scripts contain *)
Theorem no_foreign_bytes_refuted : race_end (bs "abcd") [] (bs "goto-char 1") (bs "mark-whole-buffer; delete-region") (Byte.x00 :: Byte.x00 :: bs "cd").
Proof.
  do 2 eexists. split.
  { one; [open_it|]. one; [read_it (bs "abc")|]. one; [read_it (bs "d")|]. one; [eof_it|]. think.
    two; [open_it|]. two; [read_it (bs "abcd")|]. two; [eof_it|]. think.
    one; [truncate_it|]. one; [write_it (bs "ab")|]. two; [truncate_it|]. one; [write_it (bs "cd")|]. one; [close_it (bs "abcd")|].
    two; [close_it (@nil byte)|]. apply star_here. }
  split; [repeat constructor|]. split; [repeat constructor|]. split; [reflexivity|]. vm_compute. split; reflexivity.
Qed.
(** different files: the hypotheses of [disjoint_edits] on a run with interleaved steps *)
Example disjoint_witness : let jobs := [(bs "insert ""!""", [bs "f"]); (bs "delete-char 1", [bs "g"; bs "h"])] in
  (forall i j a b k, nth_error jobs i = Some a -> nth_error jobs j = Some b -> In k (map (canon demo_os) (snd a)) -> In k (map (canon demo_os) (snd b)) -> i = j) /\
  exists ps' s', star (turn (move demo_os)) (map (fun j => start (fun c => execute_script ref_ext c (fst j)) (snd j)) jobs, w_fs (demo [(bs "f", bs "x"); (bs "g", bs "yz")])) (ps', s') /\
    Forall finished ps' /\ map p_done ps' = [[mkResult (bs "f") None]; [mkResult (bs "g") None; mkResult (bs "h") (Some (bs "failed to read file h: no such file"))]] /\
    s' (bs "f") = Some (bs "!x") /\ s' (bs "g") = Some (bs "z").
Proof.
  split.
  - intros [|[|i]] [|[|j]] a b k; cbn; intros A B; try (destruct i; discriminate); try (destruct j; discriminate); try reflexivity;
      injection A as <-; injection B as <-; cbn; intros H1 H2; repeat destruct H1 as [H1|H1]; repeat destruct H2 as [H2|H2]; try contradiction; subst; discriminate.
  - do 2 eexists. split.
    { cbn [map fst snd]. one; [open_it|]. two; [open_it|]. two; [read_it (bs "y")|]. one; [read_it (bs "x")|]. two; [read_it (bs "z")|]. two; [eof_it|]. think. two; [truncate_it|].
      one; [eof_it|]. think. one; [truncate_it|]. one; [write_it (bs "!")|]. two; [write_it (bs "z")|]. two; [close_it (bs "z")|]. two; [eapply mv_missing; reflexivity|].
      one; [write_it (bs "x")|]. one; [close_it (bs "!x")|]. apply star_here. }
    split; [repeat constructor|]. split; [vm_compute; reflexivity|]. split; reflexivity.
Qed.
(** a write that fails half way: the hypotheses of [results_true] *)
Example failed_write_witness : exists p' s', NoDup (map (canon demo_os) [bs "f"; bs "g"]) /\
  star (any_step demo_os) (start (fun c => execute_script ref_ext c (bs "insert ""!""")) [bs "f"; bs "g"], w_fs (demo [(bs "f", bs "xyz")])) (p', s') /\
  finished p' /\ map r_file (p_done p') = [bs "f"; bs "g"] /\ s' (bs "f") = Some (bs "!x") /\
  map r_err (p_done p') = [Some (bs "failed to write file f: no space left on device"); Some (bs "failed to read file g: no such file")].
Proof.
  do 2 eexists. split; [repeat constructor; cbn; intuition discriminate|]. split.
  { eapply star_more; [left; open_it|]. eapply star_more; [left; read_it (bs "xyz")|]. eapply star_more; [left; eof_it|]. think. eapply star_more; [left; truncate_it|].
    eapply star_more; [left; write_it (bs "!x")|]. eapply star_more; [right; eapply (ft_write _ _ _ _ _ (bs "no space left on device")); reflexivity|].
    eapply star_more; [left; eapply mv_missing; reflexivity|]. apply star_here. }
  split; [split; reflexivity|]. repeat split; vm_compute; reflexivity.
Qed.
(** without NUL bytes being let in by the property, it is about letters here *)
Example bytes_stay_good_witness : let P := fun b => b <> "Z"%byte in
  P Byte.x00 /\ Forall P (bs "abc") /\ (forall c out, Forall P c -> (fun c => Ok c) c = Ok out -> Forall P out).
Proof. split; [discriminate|]. split; [repeat constructor; discriminate|]. intros c out F H. now injection H as <-. Qed.

(** ** Assumptions of every theorem above *)
Print Assumptions disjoint_processes_independent.
Print Assumptions other_files_untouched.
Print Assumptions solo_run.
Print Assumptions solo_terminates.
Print Assumptions nobody_waits.
Print Assumptions disjoint_edits.
Print Assumptions results_true.
Print Assumptions concurrent_results_true.
Print Assumptions bytes_stay_good.
Print Assumptions lost_update_refuted.
Print Assumptions text_survives_refuted.
Print Assumptions no_foreign_bytes_refuted.
