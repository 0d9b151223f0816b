(** C35-C41: files, backups and the edit command. *)
From Coq Require Import ZArith NArith List Bool Lia ZifyBool ZifyN ZifyNat Strings.Byte.
From Verif Require Import Base Float Ext Utf8 Strconv Values Buffer Builtins Eval Parser Json Writer Files Cli SpecFiles RefExt
  Proofs_Base Proofs_Files Proofs_Cli.
Import ListNotations.
Open Scope Z_scope.

(** a file system for the examples *)
Definition demo_os : OS := {| canon := fun n => n; os_read_err := fun _ => None; os_missing := fun _ => bs "no such file";
  os_open_err := fun _ => None; os_write_err := fun _ => None; os_stdin_err := fun _ => None; os_stdout_err := fun _ => None |}.
Definition demo_fs (l : list (str * str)) : fs := fun k => match find (fun p => str_eqb k (fst p)) l with Some p => Some (snd p) | None => None end.
Definition demo (l : list (str * str)) : world := init_world (demo_fs l) [].
(** the same, with the n-th operation failing: writes stop after one byte *)
Definition demo_fault (n : nat) : OS := {| canon := fun n => n; os_read_err := fun _ => None; os_missing := fun _ => bs "no such file";
  os_open_err := fun _ => None; os_write_err := fun m => if (m =? n)%nat then Some (1%nat, bs "disk full") else None;
  os_stdin_err := fun _ => None; os_stdout_err := fun _ => None |}.

(** ** C35 *)
(** Whatever happens, one of three things is true: nothing was written and the edit did not
    succeed; the file now holds exactly the script's result and nothing else changed; or
    writing that result failed, with only this file affected. *)
Theorem edit_file_outcome E os name script w r w' : edit_file E os name script w = (r, w') -> quiet_io w w' /\
  (no_write w w' /\ r <> Ok tt
   \/ exists c out, w_fs w (canon os name) = Some c /\ execute_script E c script = Ok out /\
      (r = Ok tt /\ same (w_fs w') (upd (w_fs w) (canon os name) out)
       \/ (exists e, r = Err e) /\ writes_only (eq (canon os name)) w w')).
Proof.
  change (edit_file E os name script) with (edit_with os name (fun c => execute_script E c script)).
  intros H. apply edit_with_spec in H as [Q [(A & B & _)|(c & out & l & F & X & H & A & B)]]; split; auto. right. exists c, out. split; auto. split; auto.
  destruct B as [B|(B & S & _)]; [right|left]; split; auto. exists l. split; auto. intros s k I N. destruct (A s I) as (p & _ & S). rewrite S. apply upd_else. congruence.
Qed.
Theorem edit_file_fmt_outcome E os name script format w r w' : edit_file_fmt E os name script format w = (r, w') -> quiet_io w w' /\
  (no_write w w' /\ r <> Ok tt
   \/ exists c out, w_fs w (canon os name) = Some c /\ execute_script_fmt E c script format = Ok out /\
      (r = Ok tt /\ same (w_fs w') (upd (w_fs w) (canon os name) out)
       \/ (exists e, r = Err e) /\ writes_only (eq (canon os name)) w w')).
Proof.
  change (edit_file_fmt E os name script format) with (edit_with os name (fun c => execute_script_fmt E c script format)).
  intros H. apply edit_with_spec in H as [Q [(A & B & _)|(c & out & l & F & X & H & A & B)]]; split; auto. right. exists c, out. split; auto. split; auto.
  destruct B as [B|(B & S & _)]; [right|left]; split; auto. exists l. split; auto. intros s k I N. destruct (A s I) as (p & _ & S). rewrite S. apply upd_else. congruence.
Qed.
Example edit_file_witness : let '(r, w') := edit_file ref_ext demo_os (bs "f") (bs "search-forward ""a""; insert ""!""") (demo [(bs "f", bs "xay"); (bs "g", bs "1")]) in
  r = Ok tt /\ w_fs w' (bs "f") = Some (bs "xa!y") /\ w_fs w' (bs "g") = Some (bs "1").
Proof. vm_compute. repeat split; reflexivity. Qed.
Example edit_file_write_fails_witness :
  let '(r, w') := edit_file ref_ext (demo_fault 1) (bs "f") (bs "search-forward ""a""; insert ""!""") (demo [(bs "f", bs "xay"); (bs "g", bs "1")]) in
  r = Err (bs "failed to write file f: disk full") /\ w_fs w' (bs "f") = Some (bs "x") /\ w_fs w' (bs "g") = Some (bs "1").
Proof. vm_compute. repeat split; reflexivity. Qed.
(** a script that does not parse, fails or takes the process down leaves every file alone *)
Theorem script_failure_keeps_files E os name script format w :
  (forall c out, w_fs w (canon os name) = Some c -> execute_script_fmt E c script format <> Ok out) ->
  no_write w (snd (edit_file_fmt E os name script format w)) /\ fst (edit_file_fmt E os name script format w) <> Ok tt.
Proof.
  intros H. destruct (edit_file_fmt E os name script format w) as [r w'] eqn:Ed. cbn [fst snd].
  apply edit_file_fmt_outcome in Ed as [_ [A|(c & out & F & X & _)]]; auto. exfalso. now apply (H c out).
Qed.
Example script_failure_witness :
  let run := edit_file ref_ext demo_os (bs "f") (bs "insert ""!""; search-forward ""zz""") (demo [(bs "f", bs "xay")]) in
  fst run <> Ok tt /\ w_seen (snd run) = w_seen (demo [(bs "f", bs "xay")]) /\ w_fs (snd run) (bs "f") = Some (bs "xay").
Proof.
  split; [intros H; vm_compute in H; discriminate H|]. split; vm_compute; reflexivity.
Qed.
(** when nothing fails the edit succeeds exactly when the script does *)
Theorem edit_file_succeeds E os name script w c out : no_faults os -> w_fs w (canon os name) = Some c -> zlen c <= max_alloc ->
  execute_script E c script = Ok out ->
  exists w', edit_file E os name script w = (Ok tt, w') /\ same (w_fs w') (upd (w_fs w) (canon os name) out).
Proof.
  intros NF F L X. destruct (edit_file E os name script w) as [r w'] eqn:Ed. pose proof Ed as Ed0.
  apply edit_file_outcome in Ed as [_ [(A & B)|(c' & out' & F' & X' & [(-> & S)|([e ->] & _)])]].
  - exfalso. revert Ed0 B. unfold edit_file, io_bind, read_file, io_try, os_read_file, io_res. rewrite F. destruct (NF (w_ops w)) as (-> & _).
    replace (max_alloc <? zlen c) with false by lia. rewrite X. unfold write_file, io_try, os_write_file. cbn [tick w_ops].
    destruct (NF (S (w_ops w))) as (_ & -> & -> & _). unfold io_res. congruence.
  - exists w'. split; auto. congruence.
  - exfalso. revert Ed0. unfold edit_file, io_bind, read_file, io_try, os_read_file, io_res. rewrite F. destruct (NF (w_ops w)) as (-> & _).
    replace (max_alloc <? zlen c) with false by lia. rewrite X. unfold write_file, io_try, os_write_file. cbn [tick w_ops].
    destruct (NF (S (w_ops w))) as (_ & -> & -> & _). unfold io_res. congruence.
Qed.
Example edit_file_succeeds_witness : no_faults demo_os /\ zlen (bs "xay") <= max_alloc /\ exists out, execute_script ref_ext (bs "xay") (bs "delete-char 1") = Ok out.
Proof. split; [repeat split|]. split; [apply Z.leb_le; vm_compute; reflexivity|]. exists (bs "ay"). vm_compute. reflexivity. Qed.

(** ** C36 *)
(** [EditFiles] returns a list, never an error; one entry per file, in order.  For distinct
    files each verdict and each final content are those of editing that file alone, at some
    point of the fault schedule; nothing else is touched.  Only a script that takes the
    process down ends it early. *)
Theorem edit_files_independent E os files script w r w' : NoDup (map (canon os) files) ->
  edit_files E os files script w = (r, w') ->
  (exists rs, r = Ok rs /\ map r_file rs = files /\
     Forall (fun x => exists n, let '(one, w1) := edit_file E os (r_file x) script (at_op n w) in
       (r_err x = None <-> one = Ok tt) /\ (forall e, r_err x = Some e <-> one = Err e) /\
       w_fs w' (canon os (r_file x)) = w_fs w1 (canon os (r_file x))) rs /\
     forall k, ~ In k (map (canon os) files) -> w_fs w' k = w_fs w k)
  \/ exists c f n, r = Crash c /\ In f files /\ fst (edit_file E os f script (at_op n w)) = Crash c.
Proof.
  intros N H. change (edit_files E os files script) with (edit_loop (fun f => edit_with os f (fun c => execute_script E c script)) files) in H.
  apply edit_loop_spec in H as [[(rs & -> & M & F) K]|X]; auto. left. exists rs. split; auto. split; auto. split; auto.
  eapply Forall_impl; [|exact F]. intros x (n & A & B & C). exists n. cbv zeta in *.
  change (edit_file E os (r_file x) script) with (edit_with os (r_file x) (fun c => execute_script E c script)).
  destruct (edit_with os (r_file x) (fun c => execute_script E c script) (at_op n w)) as [q w1] eqn:Eq. cbn [fst snd] in *. rewrite A. split; [|split]; auto.
  - destruct q as [[]|e|k]; cbn; split; try discriminate; auto. now apply B in B || (intros _; exfalso; now apply (B k)).
  - intros e. destruct q as [[]|e'|k]; cbn; split; try discriminate; congruence.
Qed.
Theorem edit_files_fmt_independent E os files script format w r w' : NoDup (map (canon os) files) ->
  edit_files_fmt E os files script format w = (r, w') ->
  (exists rs, r = Ok rs /\ map r_file rs = files /\
     Forall (fun x => exists n, let '(one, w1) := edit_file_fmt E os (r_file x) script format (at_op n w) in
       (r_err x = None <-> one = Ok tt) /\ (forall e, r_err x = Some e <-> one = Err e) /\
       w_fs w' (canon os (r_file x)) = w_fs w1 (canon os (r_file x))) rs /\
     forall k, ~ In k (map (canon os) files) -> w_fs w' k = w_fs w k)
  \/ exists c f n, r = Crash c /\ In f files /\ fst (edit_file_fmt E os f script format (at_op n w)) = Crash c.
Proof.
  intros N H. change (edit_files_fmt E os files script format) with (edit_loop (fun f => edit_with os f (fun c => execute_script_fmt E c script format)) files) in H.
  apply edit_loop_spec in H as [[(rs & -> & M & F) K]|X]; auto. left. exists rs. split; auto. split; auto. split; auto.
  eapply Forall_impl; [|exact F]. intros x (n & A & B & C). exists n. cbv zeta in *.
  change (edit_file_fmt E os (r_file x) script format) with (edit_with os (r_file x) (fun c => execute_script_fmt E c script format)).
  destruct (edit_with os (r_file x) (fun c => execute_script_fmt E c script format) (at_op n w)) as [q w1] eqn:Eq. cbn [fst snd] in *. rewrite A. split; [|split]; auto.
  - destruct q as [[]|e|k]; cbn; split; try discriminate; auto. intros _; exfalso; now apply (B k).
  - intros e. destruct q as [[]|e'|k]; cbn; split; try discriminate; congruence.
Qed.
Example edit_files_witness :
  let '(r, w') := edit_files ref_ext demo_os [bs "f"; bs "none"; bs "g"; bs "h"] (bs "search-forward ""a""; insert ""!""") (demo [(bs "f", bs "xay"); (bs "g", bs "1"); (bs "h", bs "a")]) in
  (exists m1 m2, r = Ok [mkResult (bs "f") None; mkResult (bs "none") (Some m1); mkResult (bs "g") (Some m2); mkResult (bs "h") None]) /\
  w_fs w' (bs "f") = Some (bs "xa!y") /\ w_fs w' (bs "none") = None /\ w_fs w' (bs "g") = Some (bs "1") /\ w_fs w' (bs "h") = Some (bs "a!").
Proof. vm_compute. split; [do 2 eexists; reflexivity|]. repeat split; reflexivity. Qed.
(** when no operation fails, in terms of the script alone *)
Theorem edit_files_results E os files script w rs w' : no_faults os -> NoDup (map (canon os) files) ->
  edit_files E os files script w = (Ok rs, w') ->
  map r_file rs = files /\ forall x, In x rs -> match w_fs w (canon os (r_file x)) with
    | None => r_err x <> None /\ w_fs w' (canon os (r_file x)) = None
    | Some c => match execute_script E c script with
        | Ok out => r_err x = None /\ w_fs w' (canon os (r_file x)) = Some out
        | Err e => r_err x = Some e /\ w_fs w' (canon os (r_file x)) = Some c
        | Crash _ => False
        end
    end.
Proof.
  intros NF ND H. destruct (edit_files_independent E os files script w _ w' ND H) as [(rs' & R & M & F & _)|(c & f & n & R & _)]; [|discriminate].
  injection R as <-. split; auto. intros x I. rewrite Forall_forall in F. destruct (F x I) as (n & G). clear F H I.
  destruct (edit_file E os (r_file x) script (at_op n w)) as [one w1] eqn:Ed. destruct G as (G1 & G2 & ->).
  revert Ed. unfold edit_file, io_bind, read_file, io_try, os_read_file, io_res, io_fail. cbn [at_op w_fs w_ops].
  destruct (w_fs w (canon os (r_file x))) as [c|] eqn:Fc.
  - destruct (NF n) as (-> & _). destruct (max_alloc <? zlen c) eqn:Lc.
    { intros X. injection X as <- <-. exfalso. destruct (r_err x) as [e|]; [destruct (G2 e) as [Y _]; now specialize (Y eq_refl)|destruct G1 as [Y _]; now specialize (Y eq_refl)]. }
    destruct (execute_script E c script) as [out|e|k].
    + unfold write_file, io_try, os_write_file. cbn [tick w_ops at_op]. destruct (NF (S n)) as (_ & -> & -> & _). unfold io_res. intros X. injection X as <- <-.
      split; [now apply G1|]. now rewrite write_states_key, firstn_all.
    + intros X. injection X as <- <-. split; [now apply G2|exact Fc].
    + intros X. injection X as <- <-. destruct (r_err x) as [e|]; [destruct (G2 e) as [Y _]; now specialize (Y eq_refl)|destruct G1 as [Y _]; now specialize (Y eq_refl)].
  - intros X. injection X as <- <-. split; [|exact Fc]. destruct (G2 (bs "failed to read file " ++ r_file x ++ bs ": " ++ os_missing os (r_file x))) as [_ Y]. rewrite Y by reflexivity. discriminate.
Qed.
Lemma pair_snd {A B} (p : A * B) a : fst p = a -> p = (a, snd p).
Proof. destruct p. cbn. congruence. Qed.
(** the same file given twice is edited twice: distinctness is needed *)
Theorem edit_files_twice_refuted : exists files script w rs w' f, edit_files ref_ext demo_os files script w = (Ok rs, w') /\ In f files /\
  w_fs w' f <> w_fs (snd (edit_file ref_ext demo_os f script w)) f.
Proof.
  exists [bs "f"; bs "f"], (bs "insert ""!"""), (demo [(bs "f", bs "x")]).
  exists [mkResult (bs "f") None; mkResult (bs "f") None], (snd (edit_files ref_ext demo_os [bs "f"; bs "f"] (bs "insert ""!""") (demo [(bs "f", bs "x")]))), (bs "f").
  split; [apply pair_snd; vm_compute; reflexivity|]. split; [now left|]. intros H. vm_compute in H. discriminate H.
Qed.

(** ** C39 *)
(** at every moment during an edit the file holds its old content or a prefix of the new one,
    and every other file is as before *)
Theorem edit_file_moments E os name script format w r w' l : edit_file_fmt E os name script format w = (r, w') ->
  w_seen w' = l ++ w_seen w -> forall s, In s l ->
  exists c out p, w_fs w (canon os name) = Some c /\ execute_script_fmt E c script format = Ok out /\ prefix p out /\
    same s (upd (w_fs w) (canon os name) p).
Proof.
  change (edit_file_fmt E os name script format) with (edit_with os name (fun c => execute_script_fmt E c script format)).
  intros H Seen s I. apply edit_with_spec in H as [_ [(A & _)|(c & out & l' & F & X & H & A & _)]].
  - rewrite (history_unique _ _ _ _ A Seen) in I. destruct I.
  - rewrite (history_unique _ _ _ _ H Seen) in I. destruct (A s I) as (p & P & S). exists c, out, p. auto.
Qed.
(** and each of those prefixes, the empty one included, is what a crash can leave behind *)
Theorem edit_file_not_atomic E os name script format w w' : edit_file_fmt E os name script format w = (Ok tt, w') ->
  exists c out l, w_fs w (canon os name) = Some c /\ execute_script_fmt E c script format = Ok out /\ w_seen w' = l ++ w_seen w /\
    forall p, prefix p out -> exists s, In s l /\ s (canon os name) = Some p.
Proof.
  change (edit_file_fmt E os name script format) with (edit_with os name (fun c => execute_script_fmt E c script format)).
  intros H. apply edit_with_spec in H as [_ [(_ & A & _)|(c & out & l & F & X & H & _ & [[e B]|(_ & _ & B)])]]; try congruence.
  exists c, out, l. split; auto. split; auto. split; [apply H|]. intros p P. destruct (B p P) as (s & I & S). exists s. split; auto. rewrite S. apply upd_here.
Qed.
(** so the old content can be lost *)
Theorem atomic_edit_refuted : exists name script w r w' s, edit_file ref_ext demo_os name script w = (r, w') /\ In s (w_seen w') /\ r = Ok tt /\
  w_fs w name = Some (bs "precious") /\ w_fs w' name = Some (bs "!precious") /\ s name = Some [].
Proof.
  exists (bs "f"), (bs "insert ""!"""), (demo [(bs "f", bs "precious")]). do 2 eexists.
  exists (upd (demo_fs [(bs "f", bs "precious")]) (bs "f") []). split; [apply surjective_pairing|]. split; [|repeat split; vm_compute; reflexivity].
  replace (w_seen (snd (edit_file ref_ext demo_os (bs "f") (bs "insert ""!""") (demo [(bs "f", bs "precious")]))))
    with (w_seen (write_states (bs "f") (bs "!precious") 9 (tick (tick (demo [(bs "f", bs "precious")]))))) by (vm_compute; reflexivity).
  cbn [write_states]. cbn [set_fs w_seen]. do 9 right. now left.
Qed.
(** in place, with or without backup: at every moment each file holds its old content or a
    prefix of its new one, and no file but the given ones and their backups is touched *)
Theorem in_place_moments E os a w r w' l : a_in_place a = true ->
  NoDup (map (canon os) (a_files a) ++ (if nonempty (a_backup a) then map (fun f => canon os (f ++ a_backup a)) (a_files a) else [])) ->
  run_edit E os a w = (r, w') -> w_seen w' = l ++ w_seen w -> forall s, In s l ->
  exists format script, format_of a format /\ script_of os a w script /\
    (forall f, In f (a_files a) -> match w_fs w (canon os f) with
       | None => s (canon os f) = None
       | Some c => s (canon os f) = Some c \/ exists out p, execute_script_fmt E c script format = Ok out /\ prefix p out /\ s (canon os f) = Some p
       end) /\
    (forall k, ~ In k (map (canon os) (a_files a)) -> (a_backup a = [] \/ ~ In k (map (fun f => canon os (f ++ a_backup a)) (a_files a))) -> s k = w_fs w k).
Proof.
  intros IP ND R Seen s I. destruct (run_in_place E os a w r w' IP ND R) as (l' & H & [->|(format & script & Fo & Sc & A)] & _).
  - rewrite (history_unique _ _ _ _ H Seen) in I. destruct I.
  - rewrite (history_unique _ _ _ _ H Seen) in I. exists format, script. split; auto. split; auto. destruct (A s I) as (A1 & A2 & A3). split.
    + intros f If. destruct (w_fs w (canon os f)) as [c|] eqn:Fc; [|auto]. destruct (A3 f c If Fc) as [X|[X _]]; auto.
    + intros k K1 K2. apply A1. rewrite in_keys. intros [X|[X Y]]; [auto|]. destruct K2 as [K2|K2]; [rewrite K2 in X; discriminate|auto].
Qed.

(** ** C38 *)
(** at every moment, each file's original content is in the file or in its backup *)
Theorem backup_always_somewhere E os a w r w' l : a_in_place a = true -> a_backup a <> [] ->
  NoDup (map (canon os) (a_files a) ++ map (fun f => canon os (f ++ a_backup a)) (a_files a)) ->
  run_edit E os a w = (r, w') -> w_seen w' = l ++ w_seen w ->
  forall s f c, s = w_fs w' \/ In s l -> In f (a_files a) -> w_fs w (canon os f) = Some c ->
  s (canon os f) = Some c \/ s (canon os (f ++ a_backup a)) = Some c.
Proof.
  intros IP Bk ND R Seen s f c I If Fc. assert (Nb : nonempty (a_backup a) = true) by (destruct (a_backup a); [congruence|reflexivity]).
  assert (ND' : NoDup (map (canon os) (a_files a) ++ (if nonempty (a_backup a) then map (fun f => canon os (f ++ a_backup a)) (a_files a) else []))) by (rewrite Nb; exact ND).
  destruct (run_in_place E os a w r w' IP ND' R) as (l' & H & K & _).
  pose proof (history_unique _ _ _ _ H Seen) as <-.
  assert (J : s = w_fs w \/ In s l). { destruct I as [->|I]; auto. destruct H as [_ ->]. destruct l; [now left|right; now left]. }
  destruct J as [->|J]; [now left|]. destruct K as [->|(format & script & _ & _ & A)]; [destruct J|].
  destruct (A s J) as (_ & _ & A3). destruct (A3 f c If Fc) as [X|[_ X]]; auto.
Qed.
(** after success the file holds the result and the backup the original *)
Theorem backup_after_success E os a w w' : a_in_place a = true -> a_dry_run a = false -> a_expressions a = [] ->
  NoDup (map (canon os) (a_files a) ++ (if nonempty (a_backup a) then map (fun f => canon os (f ++ a_backup a)) (a_files a) else [])) ->
  run_edit E os a w = (Ok tt, w') -> a_files a <> [] ->
  exists format script, format_of a format /\ script_of os a w script /\ forall f, In f (a_files a) ->
  exists c out, w_fs w (canon os f) = Some c /\ execute_script_fmt E c script format = Ok out /\ w_fs w' (canon os f) = Some out /\
    (a_backup a <> [] -> w_fs w' (canon os (f ++ a_backup a)) = Some c).
Proof.
  intros IP D Ex ND R Nf. destruct (run_in_place E os a w _ w' IP ND R) as (l' & H & _ & K).
  destruct (K D Ex eq_refl Nf) as (format & script & Fo & Sc & A). exists format, script. split; auto. split; auto. intros f If.
  destruct (A f If) as (c & out & B1 & B2 & B3 & B4). exists c, out. repeat (split; auto). intros Nb. apply B4. destruct (a_backup a); [congruence|reflexivity].
Qed.
Definition demo_args (script : str) (files : list str) : edit_args :=
  mkEditArgs (bs "shell") script [] [] true [] (bs ".bak") false false false false false false (bs "shell") files.
Example backup_witness : let w := demo [(bs "f", bs "xay"); (bs "g", bs "a")] in let a := demo_args (bs "search-forward ""a""; insert ""!""") [bs "f"; bs "g"] in
  NoDup (map (canon demo_os) (a_files a) ++ map (fun f => canon demo_os (f ++ a_backup a)) (a_files a)) /\
  let '(r, w') := run_edit ref_ext demo_os a w in r = Ok tt /\
  map (w_fs w') [bs "f"; bs "f.bak"; bs "g"; bs "g.bak"] = map Some [bs "xa!y"; bs "xay"; bs "a!"; bs "a"] /\ (length (w_seen w') = 15)%nat.
Proof.
  cbv zeta. split; [|vm_compute; repeat split; reflexivity].
  cbn. repeat constructor; cbn; intros H; repeat destruct H as [H|H]; discriminate || exact H.
Qed.
(** a write failing half way: the backup is there *)
Example backup_fault_witness : let w := demo [(bs "f", bs "xay")] in let a := demo_args (bs "search-forward ""a""; insert ""!""") [bs "f"] in
  let '(r, w') := run_edit ref_ext (demo_fault 3) a w in
  r = Err (bs "some files could not be edited") /\ w_fs w' (bs "f") = Some (bs "x") /\ w_fs w' (bs "f.bak") = Some (bs "xay").
Proof. vm_compute. repeat split; reflexivity. Qed.
(** when a backup name is also an edited file, an original is lost although all goes well *)
Theorem backup_clobbers_refuted : exists a w r w' c, a_in_place a = true /\ a_backup a <> [] /\ NoDup (map (canon demo_os) (a_files a)) /\
  run_edit ref_ext demo_os a w = (r, w') /\ r = Ok tt /\ In (bs "f.bak") (a_files a) /\ w_fs w (bs "f.bak") = Some c /\
  w_fs w' (bs "f.bak") <> Some c /\ w_fs w' (bs "f.bak.bak") <> Some c.
Proof.
  exists (demo_args (bs "insert ""!""") [bs "f"; bs "f.bak"]), (demo [(bs "f", bs "1"); (bs "f.bak", bs "2")]). do 2 eexists. exists (bs "2").
  split; [reflexivity|]. split; [discriminate|]. split; [cbn; repeat constructor; cbn; intros H; repeat destruct H as [H|H]; discriminate || exact H|].
  split; [apply surjective_pairing|]. split; [vm_compute; reflexivity|]. split; [cbn; auto|]. split; [reflexivity|]. split; vm_compute; discriminate.
Qed.

(** ** C37 *)
Theorem dry_run_writes_nothing E os a w : a_dry_run a = true -> no_write w (snd (run_edit E os a w)).
Proof. intros D. now apply dry_run_silent. Qed.
Example dry_run_witness : let a := mkEditArgs (bs "shell") (bs "insert ""!""") [] [] true [] (bs ".bak") true false true false false false (bs "shell") [bs "f"] in
  let '(r, w') := run_edit ref_ext demo_os a (demo [(bs "f", bs "1")]) in
  r = Ok tt /\ length (w_seen w') = 1%nat /\ w_stdout w' = bs "Processing f in place" ++ nl :: bs "Would edit f in place (backup to f.bak)" ++ [nl].
Proof. vm_compute. repeat split; reflexivity. Qed.
Theorem expressions_write_nothing E os a w : a_expressions a <> [] -> no_write w (snd (run_edit E os a w)).
Proof.
  intros X. unfold run_edit. destruct (negb (is_valid_format _)); [apply history_refl|]. do 3 (destruct (_ && _); [apply history_refl|]).
  destruct (a_expressions a); [congruence|]. apply run_expressions_silent.
Qed.
(** the expressions run on one buffer, in order; with --quiet nothing is printed *)
Theorem expressions_share_buffer E a content source w ps :
  In (effective_format a) [bs "shell"; bs "sexp"; bs "json"] -> a_quiet a = true ->
  Forall2 (fun e p => parse_by_format (effective_format a) e = POk p) (a_expressions a) ps ->
  fst (eval_on_content E a (effective_format a) content source w) = Ok tt <-> exists vs b, session E ps (new_buffer content) vs b.
Proof.
  intros _ Q F. unfold eval_on_content. rewrite Q. generalize 0 (new_buffer content). intros i b. revert i b w.
  induction F as [|e p es ps P _ IH]; intros i b w; cbn [eval_expressions].
  - split; [intros _; exists [], b; constructor|reflexivity].
  - rewrite andb_false_r. cbn [print_if io_seq io_bind io_ret negb]. rewrite P.
    unfold io_seq, io_bind, io_ret. destruct (eval E (default_env E) p b) as [v b1|x b1| | |] eqn:Ev; cbn [fst io_res io_fail].
    + rewrite IH. split; intros (vs & b2 & S); [exists (v :: vs), b2; econstructor; eauto|]. inversion S as [|? ? ? ? ? vs' ? Ev' S']; subst. rewrite Ev in Ev'. injection Ev' as <- <-. eauto.
    + split; [discriminate|]. intros (vs & b2 & S). inversion S; congruence.
    + split; [discriminate|]. intros (vs & b2 & S). inversion S; congruence.
    + split; [discriminate|]. intros (vs & b2 & S). inversion S; congruence.
    + split; [discriminate|]. intros (vs & b2 & S). inversion S; congruence.
Qed.
(** and otherwise each value is printed on a line of its own *)
Theorem expressions_print_values E a content source w ps vs b :
  a_quiet a = false -> a_verbose a = false -> a_output_format a = bs "sexp" ->
  Forall2 (fun e p => parse_by_format (effective_format a) e = POk p) (a_expressions a) ps ->
  session E ps (new_buffer content) vs b ->
  exists w', eval_on_content E a (effective_format a) content source w = (Ok tt, w') /\
    w_stdout w' = w_stdout w ++ flat_map (fun v => show E v ++ [nl]) vs.
Proof.
  intros Q V O F S. unfold eval_on_content. rewrite Q, V, O. revert F. generalize 0. intros i F. revert i w.
  remember (new_buffer content) as b0 eqn:Eb. clear Eb. revert F. generalize (a_expressions a).
  induction S as [b1|p ps b1 v b2 vs b3 Ev S IH]; intros es F i w; inversion F as [|e ? es' ? P F']; subst; cbn [eval_expressions].
  - exists w. split; [reflexivity|]. cbn. now rewrite app_nil_r.
  - cbn [print_if negb andb]. unfold io_seq at 1, io_bind, io_ret. rewrite P, Ev. change (negb (is_valid_format (bs "sexp"))) with false. cbv iota.
    change (write_value E (bs "sexp") (if str_eqb (bs "sexp") (bs "shell") then VList [v] else v)) with (POk (sexp_value E v)). cbv iota.
    unfold io_seq, io_bind, print. set (w1 := mkWorld _ _ _ _ _ _). destruct (IH es' F' (i + 1) w1) as (w' & -> & Out). exists w'. split; [reflexivity|].
    rewrite Out. cbn [w1 w_stdout flat_map]. unfold w1. cbn [w_stdout]. now rewrite <- !app_assoc.
Qed.
Example expressions_witness : let a := mkEditArgs (bs "shell") [] [] [bs "search-forward ""a"""; bs "insert ""!"""; bs "buffer-substring 1 4"] false [] [] false false false false true false (bs "sexp") [bs "f"] in
  let '(r, w') := run_edit ref_ext demo_os a (demo [(bs "f", bs "xay")]) in
  r = Ok tt /\ w_fs w' (bs "f") = Some (bs "xay") /\ w_stdout w' = bs """""" ++ nl :: bs """""" ++ nl :: bs """xa!""" ++ [nl].
Proof. vm_compute. repeat split; reflexivity. Qed.

(** ** C40 *)
Theorem bad_flags_no_io E os a w :
  (a_shell a = false /\ a_sexp a = false /\ a_json a = false /\ ~ In (a_format a) [bs "shell"; bs "sexp"; bs "json"]) \/
  (a_output a <> [] /\ (2 <= length (a_files a))%nat) \/ (a_backup a <> [] /\ a_in_place a = false) \/ (a_output a <> [] /\ a_in_place a = true) ->
  exists m, run_edit E os a w = (Err m, w).
Proof.
  intros H. unfold run_edit, io_fail, effective_format.
  destruct (is_valid_format _) eqn:Vf; cbn [negb]; [|eexists; reflexivity].
  destruct (nonempty (a_output a) && (1 <? zlen (a_files a))) eqn:C1; [eexists; reflexivity|].
  destruct (nonempty (a_backup a) && negb (a_in_place a)) eqn:C2; [eexists; reflexivity|].
  destruct (nonempty (a_output a) && a_in_place a) eqn:C3; [eexists; reflexivity|]. exfalso.
  destruct H as [(A1 & A2 & A3 & N)|[[N L]|[[N L]|[N L]]]].
  - rewrite A1, A2, A3 in Vf. apply N. unfold is_valid_format in Vf. apply orb_prop in Vf as [Vf|Vf]; [apply orb_prop in Vf as [Vf|Vf]|]; apply str_eqb_eq in Vf; rewrite Vf; cbn; auto.
  - destruct (a_output a); [congruence|]. cbn [nonempty andb] in C1. unfold zlen in C1. apply Z.ltb_ge in C1. lia.
  - rewrite L in C2. destruct (a_backup a); [congruence|discriminate].
  - rewrite L in C3. destruct (a_output a); [congruence|discriminate].
Qed.
Example bad_flags_witness : run_edit ref_ext demo_os (mkEditArgs (bs "yaml") (bs "insert ""!""") [] [] true [] [] false false false false false false (bs "shell") [bs "f"])
  (demo [(bs "f", bs "1")]) = (Err (bs "invalid script format: yaml (must be shell, sexp, or json)"), demo [(bs "f", bs "1")]).
Proof. reflexivity. Qed.
(** no script given: an error too, before any file is read *)
Theorem no_script_no_io E os a w : a_script a = [] -> a_script_file a = [] -> a_expressions a = [] ->
  exists m, run_edit E os a w = (Err m, w).
Proof.
  intros A B C. unfold run_edit. destruct (negb (is_valid_format _)); [eexists; reflexivity|]. do 3 (destruct (_ && _); [eexists; reflexivity|]).
  rewrite A, B, C. eexists. reflexivity.
Qed.
Example no_script_witness : exists m, run_edit ref_ext demo_os (mkEditArgs (bs "sexp") [] [] [] true [] [] false false false false false false (bs "shell") [bs "f"]) (demo []) = (Err m, demo []).
Proof. apply no_script_no_io; reflexivity. Qed.

(** ** C41 *)
Theorem not_in_place_writes_output_only E os a w : a_in_place a = false ->
  writes_only (fun k => a_output a <> [] /\ k = canon os (a_output a)) w (snd (run_edit E os a w)).
Proof.
  intros IP. set (K := fun k => a_output a <> [] /\ k = canon os (a_output a)). unfold run_edit. set (format := effective_format a).
  destruct (negb (is_valid_format _)); [apply writes_refl|]. destruct (nonempty (a_output a) && (1 <? _)) eqn:C1; [apply writes_refl|]. destruct (nonempty (a_backup a) && _); [apply writes_refl|]. destruct (nonempty (a_output a) && a_in_place a); [apply writes_refl|].
  destruct (a_expressions a); [|apply writes_none, run_expressions_silent].
  apply wo_bind; [apply wo_of; silent|]. intros script.
  assert (O : nonempty (a_output a) = true -> forall c, runs (writes_only K) (os_write_file os (a_output a) c)).
  { intros N c. apply wo_write. split; [destruct (a_output a); discriminate|reflexivity]. }
  destruct (a_files a) as [|f files] eqn:Ef.
  - unfold process_stdin. apply wo_bind; [apply wo_of; silent|]. intros c. apply wo_seq; [apply wo_of; silent|]. destruct (a_dry_run a); [apply wo_of; silent|].
    apply wo_bind; [apply wo_of; silent|]. intros r. destruct (nonempty (a_output a)) eqn:N; [|apply wo_of; silent].
    apply wo_seq; [apply wo_of; silent|auto].
  - unfold process_files. rewrite Ef, IP. cbn [negb andb]. destruct files as [|g files].
    + destruct (nonempty (a_output a)) eqn:N; [|apply wo_of; unfold process_to_stdout; silent].
      unfold process_to_output. apply wo_seq; [apply wo_of; silent|]. destruct (a_dry_run a); [apply wo_of; silent|].
      apply wo_bind; [apply wo_of; silent|]. intros c. apply wo_bind; [apply wo_of; silent|]. auto.
    + destruct (nonempty (a_output a)) eqn:N; cbn [negb]; [|apply wo_of; silent].
      exfalso. rewrite ?Ef, ?N in C1. cbn [andb] in C1. unfold zlen in C1. cbn [length] in C1. apply Z.ltb_ge in C1. rewrite !Nat2Z.inj_succ in C1. lia.
Qed.
(** several files without --in-place: an error, nothing written or printed *)
Theorem several_files_need_in_place E os a w : a_in_place a = false -> (2 <= length (a_files a))%nat -> a_expressions a = [] ->
  let '(r, w') := run_edit E os a w in r <> Ok tt /\ no_write w w' /\ w_stdout w' = w_stdout w.
Proof.
  intros IP L Ex. unfold run_edit.
  assert (Z : forall e : str, let '(r, w') := @io_fail unit e w in r <> Ok tt /\ no_write w w' /\ w_stdout w' = w_stdout w) by (intros e; split; [discriminate|split; [apply history_refl|reflexivity]]).
  destruct (negb (is_valid_format _)); [apply Z|]. destruct (nonempty (a_output a) && (1 <? _)) eqn:C1; [apply Z|]. destruct (nonempty (a_backup a) && _); [apply Z|]. destruct (nonempty (a_output a) && a_in_place a); [apply Z|].
  rewrite Ex. fold (get_script os a). unfold io_bind. destruct (get_script os a w) as [q w1] eqn:G. apply get_script_spec in G as (N & (Q & _) & _).
  destruct q as [script|e|k]; try (split; [discriminate|auto]).
  destruct (a_files a) as [|f [|g files]] eqn:Ef; [cbn in L; lia|cbn in L; lia|]. unfold process_files. rewrite Ef, IP.
  destruct (nonempty (a_output a)) eqn:No; cbn [negb andb]; [exfalso; rewrite ?Ef, ?No in C1; cbn [andb] in C1; unfold zlen in C1; cbn [length] in C1; apply Z.ltb_ge in C1; rewrite !Nat2Z.inj_succ in C1; lia|].
  split; [discriminate|auto].
Qed.
Example several_files_witness : let a := mkEditArgs (bs "shell") (bs "insert ""!""") [] [] false [] [] false false false false false false (bs "shell") [bs "f"; bs "g"] in
  fst (run_edit ref_ext demo_os a (demo [(bs "f", bs "1"); (bs "g", bs "2")])) = Err (bs "multiple files require --in-place or --output flag").
Proof. vm_compute. reflexivity. Qed.
(** on success the result goes to standard output ... *)
Theorem result_on_stdout E os a w w' : a_in_place a = false -> a_expressions a = [] -> a_dry_run a = false -> no_chatter a -> a_output a = [] ->
  run_edit E os a w = (Ok tt, w') ->
  exists format script c out, format_of a format /\ script_of os a w script /\ input_of os a w c /\ execute_script_fmt E c script format = Ok out /\
    w_stdout w' = w_stdout w ++ out /\ no_write w w'.
Proof.
  intros IP Ex Dr Ch O R. destruct (run_not_in_place E os a w _ w' IP Ex Dr Ch R eq_refl) as (format & script & c & out & w1 & A1 & A2 & A3 & A4 & A5 & A6 & A7).
  exists format, script, c, out. rewrite O in A7. cbn [nonempty] in A7. apply stdout_spec in A7 as (N & _ & [[[e X] _]|[_ X]]); [discriminate|].
  repeat (split; auto). - rewrite X. congruence. - apply (no_write_trans _ _ _ A5 N). - apply (no_write_trans _ _ _ A5 N).
Qed.
Example result_on_stdout_witness : let a := mkEditArgs (bs "shell") [] (bs "s") [] false [] [] false false false false false false (bs "shell") [bs "f"] in
  let '(r, w') := run_edit ref_ext demo_os a (demo [(bs "s", bs "end-of-buffer" ++ nl :: bs "insert ""!"""); (bs "f", bs "1")]) in
  r = Ok tt /\ w_stdout w' = bs "1!" /\ w_fs w' (bs "f") = Some (bs "1").
Proof. vm_compute. repeat split; reflexivity. Qed.
(** ... or to exactly the --output file *)
Theorem result_in_output_file E os a w w' : a_in_place a = false -> a_expressions a = [] -> a_dry_run a = false -> no_chatter a -> a_output a <> [] ->
  run_edit E os a w = (Ok tt, w') ->
  exists format script c out, format_of a format /\ script_of os a w script /\ input_of os a w c /\ execute_script_fmt E c script format = Ok out /\
    same (w_fs w') (upd (w_fs w) (canon os (a_output a)) out) /\ w_stdout w' = w_stdout w.
Proof.
  intros IP Ex Dr Ch O R. destruct (run_not_in_place E os a w _ w' IP Ex Dr Ch R eq_refl) as (format & script & c & out & w1 & A1 & A2 & A3 & A4 & A5 & A6 & A7).
  exists format, script, c, out. destruct (a_output a) as [|x xs] eqn:Eo; [congruence|]. cbn [nonempty] in A7.
  apply write_spec in A7 as ((Q & _) & _ & l & H & _ & [[e B]|(_ & B & _)]); [discriminate|]. rewrite (no_write_fs _ _ A5) in B.
  repeat (split; auto). congruence.
Qed.
Example result_in_output_witness : let a := mkEditArgs (bs "json") (bs "[[""insert"",""!""]]") [] [] false (bs "o") [] false false false false false false (bs "shell") [] in
  let '(r, w') := run_edit ref_ext demo_os a (init_world (demo_fs []) (bs "in")) in
  r = Ok tt /\ w_stdout w' = [] /\ w_fs w' (bs "o") = Some (bs "!in").
Proof. vm_compute. repeat split; reflexivity. Qed.

(** ** Assumptions of every theorem above *)
Print Assumptions edit_file_outcome.
Print Assumptions edit_file_fmt_outcome.
Print Assumptions script_failure_keeps_files.
Print Assumptions edit_file_succeeds.
Print Assumptions edit_files_independent.
Print Assumptions edit_files_fmt_independent.
Print Assumptions edit_files_results.
Print Assumptions edit_files_twice_refuted.
Print Assumptions edit_file_moments.
Print Assumptions edit_file_not_atomic.
Print Assumptions atomic_edit_refuted.
Print Assumptions in_place_moments.
Print Assumptions backup_always_somewhere.
Print Assumptions backup_after_success.
Print Assumptions backup_clobbers_refuted.
Print Assumptions dry_run_writes_nothing.
Print Assumptions expressions_write_nothing.
Print Assumptions expressions_share_buffer.
Print Assumptions expressions_print_values.
Print Assumptions bad_flags_no_io.
Print Assumptions no_script_no_io.
Print Assumptions not_in_place_writes_output_only.
Print Assumptions several_files_need_in_place.
Print Assumptions result_on_stdout.
Print Assumptions result_in_output_file.
