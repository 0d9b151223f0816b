(** Reasoning about runs over the file system. *)
From Coq Require Import ZArith NArith List Bool Lia ZifyBool ZifyN ZifyNat Strings.Byte.
From Verif Require Import Base Float Ext Utf8 Strconv Values Buffer Builtins Eval Parser Json Writer Files SpecFiles
  Proofs_Base.
Import ListNotations.
Open Scope Z_scope.

Lemma same_refl s : same s s. Proof. intros k. reflexivity. Qed.
Lemma same_trans s t u : same s t -> same t u -> same s u.
Proof. intros A B k. now rewrite A. Qed.
Lemma upd_here f k c : upd f k c k = Some c.
Proof. unfold upd. now rewrite str_eqb_refl. Qed.
Lemma upd_else f k c k' : k' <> k -> upd f k c k' = f k'.
Proof. intros H. unfold upd. destruct (str_eqb k' k) eqn:E; auto. apply str_eqb_eq in E. congruence. Qed.
Lemma prefix_firstn n c : prefix (firstn n c) c.
Proof. exists (skipn n c). symmetry. apply firstn_skipn. Qed.
Lemma prefix_nth p c : prefix p c -> p = firstn (length p) c /\ (length p <= length c)%nat.
Proof. intros [q ->]. rewrite firstn_app, Nat.sub_diag, firstn_all, app_nil_r, app_length. split; [reflexivity|lia]. Qed.

Lemma history_refl w : history w w [].
Proof. split; reflexivity. Qed.
Lemma history_trans w w1 w2 l l' : history w w1 l -> history w1 w2 l' -> history w w2 (l' ++ l).
Proof.
  intros [A B] [C D]. split; [rewrite C, A; apply app_assoc|]. rewrite D, B. destruct l'; reflexivity.
Qed.
Lemma history_unique w w' l l' : history w w' l -> w_seen w' = l' ++ w_seen w -> l' = l.
Proof. intros [A _] B. rewrite A in B. now apply app_inv_tail in B. Qed.
Lemma no_write_trans w w1 w2 : no_write w w1 -> no_write w1 w2 -> no_write w w2.
Proof. apply (history_trans w w1 w2 [] []). Qed.
Lemma no_write_fs w w' : no_write w w' -> w_fs w' = w_fs w.
Proof. intros [_ H]. exact H. Qed.
Lemma history_before w w1 w2 l : no_write w w1 -> history w1 w2 l -> history w w2 l.
Proof. intros A B. rewrite <- (app_nil_r l). eapply history_trans; eauto. Qed.
Lemma history_after w w1 w2 l : history w w1 l -> no_write w1 w2 -> history w w2 l.
Proof. intros A B. change l with ([] ++ l). eapply history_trans; eauto. Qed.
Lemma quiet_refl w : quiet_io w w. Proof. repeat split. Qed.
Lemma quiet_trans w w1 w2 : quiet_io w w1 -> quiet_io w1 w2 -> quiet_io w w2.
Proof. intros (A & B & C) (D & E & F). repeat split; congruence. Qed.

(** ** Single operations *)
Lemma tick_no_write w : no_write w (tick w). Proof. split; reflexivity. Qed.
Lemma tick_quiet w : quiet_io w (tick w). Proof. repeat split. Qed.
Lemma read_spec os name w r w' : os_read_file os name w = (r, w') ->
  no_write w w' /\ quiet_io w w' /\ (forall c, r = Ok c -> w_fs w (canon os name) = Some c) /\ w_ops w' = S (w_ops w).
Proof.
  unfold os_read_file. intros H.
  assert (w' = tick w) as ->. { destruct (w_fs w _); [destruct (os_read_err _ _); [|destruct (_ <? _)]|]; congruence. }
  split; [apply tick_no_write|]. split; [apply tick_quiet|]. split; [|reflexivity].
  intros c ->. destruct (w_fs w _); [|discriminate]. destruct (os_read_err _ _); [discriminate|]. destruct (_ <? _); congruence.
Qed.

Lemma write_states_spec key c w n : (n <= length c)%nat -> exists l,
  history w (write_states key c n w) l /\ l <> [] /\
  (forall s, In s l -> exists i, (i <= n)%nat /\ same s (upd (w_fs w) key (firstn i c))) /\
  (forall i, (i <= n)%nat -> exists s, In s l /\ same s (upd (w_fs w) key (firstn i c))) /\
  same (w_fs (write_states key c n w)) (upd (w_fs w) key (firstn n c)) /\
  quiet_io w (write_states key c n w) /\ w_ops (write_states key c n w) = w_ops w.
Proof.
  induction n as [|n IH]; intros L.
  - exists [upd (w_fs w) key []]. cbn [write_states set_fs w_fs w_seen w_ops]. split; [split; reflexivity|]. split; [discriminate|]. split.
    { intros s [<-|[]]. exists 0%nat. split; [lia|apply same_refl]. }
    split. { intros i Hi. assert (i = 0%nat) as -> by lia. eexists. split; [now left|apply same_refl]. }
    split; [apply same_refl|]. repeat split.
  - destruct IH as (l & H & N & A & B & S & Q & O); [lia|]. cbn [write_states]. set (w1 := write_states key c n w) in *.
    set (f := upd (w_fs w1) key (firstn (Datatypes.S n) c)).
    assert (Sf : same f (upd (w_fs w) key (firstn (Datatypes.S n) c))).
    { intros k. unfold f, upd at 1 2. destruct (str_eqb k key) eqn:Ek; [reflexivity|]. rewrite S. unfold upd. now rewrite Ek. }
    exists (f :: l). split.
    { change (f :: l) with ([f] ++ l). eapply history_trans; [exact H|]. split; reflexivity. }
    split; [discriminate|]. split.
    { intros s [<-|I]; [exists (Datatypes.S n); split; [lia|exact Sf]|]. destruct (A s I) as (i & Hi & X). exists i. split; [lia|auto]. }
    split. { intros i Hi. destruct (Nat.eq_dec i (Datatypes.S n)) as [->|Ne]; [exists f; split; [now left|exact Sf]|].
      destruct (B i ltac:(lia)) as (s & I & X). exists s. split; [now right|auto]. }
    split; [exact Sf|]. split; [exact Q|exact O].
Qed.
Lemma write_spec os name c w r w' : os_write_file os name c w = (r, w') ->
  quiet_io w w' /\ w_ops w' = S (w_ops w) /\ exists l, history w w' l /\
  (forall s, In s l -> exists p, prefix p c /\ same s (upd (w_fs w) (canon os name) p)) /\
  ((exists e, r = Err e) \/
   r = Ok tt /\ same (w_fs w') (upd (w_fs w) (canon os name) c) /\
   forall p, prefix p c -> exists s, In s l /\ same s (upd (w_fs w) (canon os name) p)).
Proof.
  unfold os_write_file. destruct (os_open_err os (w_ops w)) as [e|].
  { intros H. injection H as <- <-. split; [apply tick_quiet|]. split; [reflexivity|]. exists []. split; [apply tick_no_write|]. split; [intros s []|]. left. eauto. }
  assert (K : forall n, (n <= length c)%nat -> let w' := write_states (canon os name) c n (tick w) in
    quiet_io w w' /\ w_ops w' = S (w_ops w) /\ exists l, history w w' l /\
    (forall s, In s l -> exists p, prefix p c /\ same s (upd (w_fs w) (canon os name) p)) /\
    same (w_fs w') (upd (w_fs w) (canon os name) (firstn n c)) /\ forall i, (i <= n)%nat -> exists s, In s l /\ same s (upd (w_fs w) (canon os name) (firstn i c))).
  { intros n L w1. destruct (write_states_spec (canon os name) c (tick w) n L) as (l & H & _ & A & B & S & Q & O). fold w1 in H, S, Q, O.
    split; [eapply quiet_trans; [apply tick_quiet|exact Q]|]. split; [rewrite O; reflexivity|]. exists l.
    split; [eapply history_before; [apply tick_no_write|exact H]|]. split.
    { intros s I. destruct (A s I) as (i & _ & X). exists (firstn i c). split; [apply prefix_firstn|exact X]. }
    split; [exact S|exact B]. }
  destruct (os_write_err os (w_ops w)) as [[k e]|]; intros H; injection H as <- <-.
  - destruct (K (Nat.min k (length c)) ltac:(lia)) as (Q & O & l & H & A & _). split; [exact Q|]. split; [exact O|]. exists l. split; [exact H|]. split; [exact A|]. left. eauto.
  - destruct (K (length c) ltac:(lia)) as (Q & O & l & H & A & S & B). split; [exact Q|]. split; [exact O|]. exists l. split; [exact H|]. split; [exact A|]. right.
    split; [reflexivity|]. rewrite firstn_all in S. split; [exact S|]. intros p P. destruct (prefix_nth p c P) as [E L]. rewrite E. apply B. exact L.
Qed.
Lemma print_spec s w r w' : print s w = (r, w') -> no_write w w' /\ r = Ok tt /\ w_stdout w' = w_stdout w ++ s /\ w_ops w' = w_ops w.
Proof. unfold print. intros H. injection H as <- <-. repeat split. Qed.
Lemma stdin_spec os w r w' : os_read_stdin os w = (r, w') -> no_write w w' /\ w_stdout w' = w_stdout w /\ (forall c, r = Ok c -> c = w_stdin w).
Proof.
  unfold os_read_stdin. set (w1 := mkWorld _ _ _ _ _ _). intros H.
  assert (w' = w1) as -> by (destruct (os_stdin_err _ _); [|destruct (_ <? _)]; congruence).
  split; [split; reflexivity|]. split; [reflexivity|]. intros c ->. destruct (os_stdin_err _ _); [discriminate|]. destruct (_ <? _); congruence.
Qed.
Lemma stdout_spec os s w r w' : os_write_stdout os s w = (r, w') -> no_write w w' /\ w_stdin w' = w_stdin w /\
  ((exists e, r = Err e) /\ w_stdout w' = w_stdout w \/ r = Ok tt /\ w_stdout w' = w_stdout w ++ s).
Proof.
  unfold os_write_stdout. destruct (os_stdout_err _ _) as [e|]; intros H.
  - injection H as <- <-. split; [apply tick_no_write|]. split; [reflexivity|]. left. split; [eauto|reflexivity].
  - unfold print in H. injection H as <- <-. repeat split. right. split; reflexivity.
Qed.

(** ** A relation between the worlds before and after, closed under composition *)
Definition runs {A} (R : world -> world -> Prop) (m : IO A) : Prop := forall w, R w (snd (m w)).
Section Runs.
  Variable R : world -> world -> Prop.
  Hypothesis R_refl : forall w, R w w.
  Hypothesis R_trans : forall w w1 w2, R w w1 -> R w1 w2 -> R w w2.
  Lemma runs_ret {A} (a : A) : runs R (io_ret a). Proof. intros w. apply R_refl. Qed.
  Lemma runs_fail {A} e : runs R (@io_fail A e). Proof. intros w. apply R_refl. Qed.
  Lemma runs_res {A} (r : res A) : runs R (io_res r). Proof. intros w. apply R_refl. Qed.
  Lemma runs_bind {A B} (m : IO A) (k : A -> IO B) : runs R m -> (forall a, runs R (k a)) -> runs R (io_bind m k).
  Proof.
    intros Hm Hk w. unfold io_bind. pose proof (Hm w) as X. destruct (m w) as [[a|e|c] w1]; cbn [snd] in *; auto. eapply R_trans; [exact X|apply Hk].
  Qed.
  Lemma runs_try {A B} (m : IO A) (k : res A -> IO B) : runs R m -> (forall r, runs R (k r)) -> runs R (io_try m k).
  Proof.
    intros Hm Hk w. unfold io_try. pose proof (Hm w) as X. destruct (m w) as [[a|e|c] w1]; cbn [snd] in *; auto; (eapply R_trans; [exact X|apply Hk]).
  Qed.
End Runs.

(** ** Editing one file *)
Definition edit_with (os : OS) (name : str) (exec : str -> res str) : IO unit :=
  io_bind (read_file os name) (fun c => io_bind (io_res (exec c)) (fun m => write_file os name m)).
Lemma read_file_spec os name w r w' : read_file os name w = (r, w') ->
  no_write w w' /\ quiet_io w w' /\ (forall c, r = Ok c -> w_fs w (canon os name) = Some c) /\ w_ops w' = S (w_ops w).
Proof.
  unfold read_file, io_try. destruct (os_read_file os name w) as [q w1] eqn:E. apply read_spec in E. intros H.
  destruct q as [c|e|c]; cbn in H; injection H as <- <-; auto. destruct E as (A & B & _ & D). repeat (split; auto). discriminate.
Qed.
Lemma write_file_spec os name c w r w' : write_file os name c w = (r, w') ->
  quiet_io w w' /\ w_ops w' = S (w_ops w) /\ exists l, history w w' l /\
  (forall s, In s l -> exists p, prefix p c /\ same s (upd (w_fs w) (canon os name) p)) /\
  ((exists e, r = Err e) \/
   r = Ok tt /\ same (w_fs w') (upd (w_fs w) (canon os name) c) /\
   forall p, prefix p c -> exists s, In s l /\ same s (upd (w_fs w) (canon os name) p)).
Proof.
  unfold write_file, io_try. destruct (os_write_file os name c w) as [q w1] eqn:E. apply write_spec in E as (Q & O & l & H & A & B). intros X.
  destruct q as [u|e|k]; cbn in X; injection X as <- <-; (split; [exact Q|]; split; [exact O|]; exists l; split; [exact H|]; split; [exact A|]).
  - destruct B as [[e B]|B]; [discriminate|]. right. destruct u. exact B.
  - left. eauto.
  - destruct B as [[e B]|[B _]]; discriminate.
Qed.
(** the four ways an edit can end *)
Lemma edit_with_spec os name exec w r w' : edit_with os name exec w = (r, w') -> quiet_io w w' /\
  ((no_write w w' /\ r <> Ok tt /\ (forall k, r = Crash k -> exists c, w_fs w (canon os name) = Some c /\ (exec c = Crash k \/ k = CrashMemory /\ max_alloc < zlen c)))
   \/ exists c out l, w_fs w (canon os name) = Some c /\ exec c = Ok out /\ history w w' l /\
      (forall s, In s l -> exists p, prefix p out /\ same s (upd (w_fs w) (canon os name) p)) /\
      ((exists e, r = Err e) \/
       r = Ok tt /\ same (w_fs w') (upd (w_fs w) (canon os name) out) /\
       forall p, prefix p out -> exists s, In s l /\ same s (upd (w_fs w) (canon os name) p))).
Proof.
  unfold edit_with, io_bind. destruct (read_file os name w) as [q w1] eqn:E. pose proof E as E0. apply read_file_spec in E as (A & B & C & _).
  assert (Z : forall k, q = Crash k -> exists c, w_fs w (canon os name) = Some c /\ k = CrashMemory /\ max_alloc < zlen c).
  { intros k ->. revert E0. unfold read_file, io_try, os_read_file. destruct (w_fs w _) as [c|]; [|discriminate]. destruct (os_read_err _ _); [discriminate|].
    destruct (max_alloc <? zlen c) eqn:L; [|discriminate]. cbn. intros X. exists c. split; [reflexivity|]. split; [congruence|lia]. }
  destruct q as [c|e|k].
  - unfold io_res. destruct (exec c) as [out|e|k] eqn:X.
    + intros H. apply write_file_spec in H as (Q & _ & l & H & D & F). split; [eapply quiet_trans; eauto|]. right. exists c, out, l.
      split; [auto|]. split; [auto|]. split; [eapply history_before; eauto|]. rewrite <- (no_write_fs _ _ A). split; auto.
    + intros H. injection H as <- <-. split; auto. left. split; auto. split; discriminate.
    + intros H. injection H as <- <-. split; auto. left. split; auto. split; [discriminate|]. intros k' Hk. injection Hk as <-. exists c. auto.
  - intros H. injection H as <- <-. split; auto. left. split; auto. split; discriminate.
  - intros H. injection H as <- <-. split; auto. left. split; auto. split; [discriminate|]. intros k' Hk. injection Hk as <-.
    destruct (Z k eq_refl) as (c & F & K & L). exists c. auto.
Qed.
(** it depends on nothing but the file's content (and the schedule of faults) *)
Lemma write_states_key key c w n : w_fs (write_states key c n w) key = Some (firstn n c).
Proof. destruct n; cbn [write_states set_fs w_fs]; apply upd_here. Qed.
Lemma edit_with_local os name exec w1 w2 : w_fs w1 (canon os name) = w_fs w2 (canon os name) -> w_ops w1 = w_ops w2 ->
  fst (edit_with os name exec w1) = fst (edit_with os name exec w2) /\
  w_fs (snd (edit_with os name exec w1)) (canon os name) = w_fs (snd (edit_with os name exec w2)) (canon os name).
Proof.
  intros F O. unfold edit_with, io_bind, read_file, io_try, os_read_file, io_res. rewrite <- F, <- O.
  destruct (w_fs w1 (canon os name)) as [c|] eqn:Fc; [|cbn; split; [reflexivity|congruence]].
  destruct (os_read_err os (w_ops w1)); [cbn; split; [reflexivity|congruence]|].
  destruct (max_alloc <? zlen c); [cbn; split; [reflexivity|congruence]|].
  destruct (exec c) as [out|e|k]; [|cbn; split; [reflexivity|congruence]|cbn; split; [reflexivity|congruence]].
  unfold write_file, io_try, os_write_file. cbn [tick w_ops]. rewrite <- O.
  destruct (os_open_err os (S (w_ops w1))); [cbn; split; [reflexivity|congruence]|].
  destruct (os_write_err os (S (w_ops w1))) as [[k e]|]; cbn [fst snd io_fail io_res]; split; try reflexivity; now rewrite !write_states_key.
Qed.
Lemma edit_with_touches os name exec w k : k <> canon os name -> w_fs (snd (edit_with os name exec w)) k = w_fs w k.
Proof.
  intros N. destruct (edit_with os name exec w) as [r w'] eqn:E. cbn [snd]. apply edit_with_spec in E as (_ & [(A & _)|(c & out & l & _ & _ & H & A & _)]).
  - now rewrite (no_write_fs _ _ A).
  - destruct H as [_ H]. rewrite H. destruct l as [|s l]; [reflexivity|]. cbn [hd]. destruct (A s ltac:(now left)) as (p & _ & S). rewrite S. now apply upd_else.
Qed.

(** ** Editing several files *)
Definition verdict (r : res unit) : option str := match r with Err e => Some e | _ => None end.
Lemma edit_loop_spec os exec files : forall w r w', NoDup (map (canon os) files) ->
  edit_loop (fun f => edit_with os f exec) files w = (r, w') ->
  (exists rs, r = Ok rs /\ map r_file rs = files /\ Forall (fun x => exists n,
      let one := edit_with os (r_file x) exec (at_op n w) in
      r_err x = verdict (fst one) /\ (forall c, fst one <> Crash c) /\ w_fs w' (canon os (r_file x)) = w_fs (snd one) (canon os (r_file x))) rs) /\
      (forall k, ~ In k (map (canon os) files) -> w_fs w' k = w_fs w k)
  \/ exists c f n, r = Crash c /\ In f files /\ fst (edit_with os f exec (at_op n w)) = Crash c.
Proof.
  induction files as [|f files IH]; intros w r w' N; cbn [edit_loop].
  - intros H. injection H as <- <-. left. split; [exists []; repeat split; constructor|auto].
  - cbn [map] in N. inversion N as [|? ? Nf N']; subst. unfold io_try. destruct (edit_with os f exec w) as [q w1] eqn:E.
    assert (K : forall k, k <> canon os f -> w_fs w1 k = w_fs w k).
    { intros k Hk. pose proof (edit_with_touches os f exec w k Hk) as X. now rewrite E in X. }
    assert (G : forall (one : edit_result), one = mkResult f (verdict q) -> (forall c, q <> Crash c) ->
      io_bind (edit_loop (fun f => edit_with os f exec) files) (fun rs => io_ret (one :: rs)) w1 = (r, w') ->
      (exists rs, r = Ok rs /\ map r_file rs = f :: files /\ Forall (fun x => exists n,
      let one := edit_with os (r_file x) exec (at_op n w) in
      r_err x = verdict (fst one) /\ (forall c, fst one <> Crash c) /\ w_fs w' (canon os (r_file x)) = w_fs (snd one) (canon os (r_file x))) rs) /\
      (forall k, ~ In k (map (canon os) (f :: files)) -> w_fs w' k = w_fs w k) \/
      exists c g n, r = Crash c /\ In g (f :: files) /\ fst (edit_with os g exec (at_op n w)) = Crash c).
    { intros one -> Q. unfold io_bind. destruct (edit_loop _ files w1) as [q2 w2] eqn:E2. apply (IH w1 q2 w2 N') in E2.
      destruct E2 as [[(rs & -> & M & F) T]|(c & g & n & -> & Ig & Cr)]; intros H; injection H as <- <-.
      2:{ right. exists c, g, n. split; [reflexivity|]. split; [now right|]. rewrite <- Cr. apply edit_with_local; [|reflexivity]. cbn [at_op w_fs]. symmetry. apply K.
          intros X. apply Nf. rewrite <- X. now apply in_map. }
      left. split.
      - exists (mkResult f (verdict q) :: rs). split; [reflexivity|]. split; [cbn [map r_file]; now rewrite M|]. constructor.
        + exists (w_ops w). cbv zeta. cbn [r_file r_err]. destruct (edit_with_local os f exec (at_op (w_ops w) w) w eq_refl eq_refl) as [X Y].
          rewrite X, Y, E. cbn [fst snd]. split; [reflexivity|]. split; [exact Q|]. now apply T.
        + assert (Fin : Forall (fun x => In (canon os (r_file x)) (map (canon os) files)) rs).
          { rewrite <- M. rewrite map_map. rewrite Forall_forall. intros x I. apply in_map_iff. eauto. }
          rewrite Forall_forall in *. intros x I. destruct (F x I) as (n & A & B & C). exists n. cbv zeta.
          assert (Z : w_fs (at_op n w1) (canon os (r_file x)) = w_fs (at_op n w) (canon os (r_file x))).
          { cbn [at_op w_fs]. apply K. intros X. apply Nf. rewrite <- X. now apply Fin. }
          destruct (edit_with_local os (r_file x) exec (at_op n w1) (at_op n w) Z eq_refl) as [X Y]. rewrite <- X, <- Y. auto.
      - intros k Hk. cbn [map In] in Hk. rewrite T by tauto. apply K. intros ->. tauto. }
    destruct q as [u|e|c].
    + intros H. refine (G _ eq_refl _ H). discriminate.
    + intros H. refine (G _ eq_refl _ H). discriminate.
    + intros H. injection H as <- <-. right. exists c, f, (w_ops w). split; [reflexivity|]. split; [now left|].
      destruct (edit_with_local os f exec (at_op (w_ops w) w) w eq_refl eq_refl) as [X _]. now rewrite X, E.
Qed.
