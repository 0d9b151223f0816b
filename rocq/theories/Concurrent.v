(** Several texted processes at work on the same file system: texted.go:100-167 (EditFiles,
    readFile, writeFile) as small-step machines.  os.ReadFile and os.WriteFile are not part of
    /repo; how they split into system calls - open, reads of any size up to the end of file,
    open with truncation, writes of any size at the process's own offset, a hole being filled
    with zero bytes - is modelled from knowledge of Go's os package and of POSIX.  No process
    deletes files; files of other programs are out of scope. *)
From Coq Require Import ZArith NArith List Bool Strings.Byte.
From Verif Require Import Base Float Ext Utf8 Strconv Values Buffer Builtins Eval Parser Json Writer Files.
Import ListNotations.
Open Scope Z_scope.

(** where a process is in its current file *)
Inductive phase :=
| Idle                                   (* about to open the next file *)
| Reading (f got : str)                  (* readFile, this much read so far *)
| Opening (f out : str)                  (* the script is done, about to open for writing *)
| Writing (f out : str) (n : nat)        (* writeFile, truncated, [n] bytes written *)
| Dead (c : crash).                      (* the script took the process down *)

Record proc := mkProc {
  p_exec : str -> res str;               (* ExecuteScript(_, script) *)
  p_todo : list str;                     (* files still to be edited *)
  p_phase : phase;
  p_done : list edit_result
}.
(** texted.go:100-118 EditFiles when called *)
Definition start (exec : str -> res str) (files : list str) : proc := mkProc exec files Idle [].
Definition finished (p : proc) : Prop := p_phase p = Idle /\ p_todo p = [].

(** texted.go:107-114 one file is done, on to the next *)
Definition record (p : proc) (f : str) (e : option str) : proc :=
  mkProc (p_exec p) (p_todo p) Idle (p_done p ++ [mkResult f e]).
Definition go (p : proc) (ph : phase) : proc := mkProc (p_exec p) (p_todo p) ph (p_done p).

(** texted.go:75-78 the whole text has been read *)
Definition compute (p : proc) (f got : str) : proc :=
  if max_alloc <? zlen got then go p (Dead CrashMemory)
  else match p_exec p got with
       | Ok out => go p (Opening f out)
       | Err e => record p f (Some e)
       | Crash c => go p (Dead c)
       end.

(** pwrite: [d] at offset [n] of a file with content [c] *)
Definition overwrite (c : str) (n : nat) (d : str) : str :=
  firstn n (c ++ repeat Byte.x00 n) ++ d ++ skipn (n + length d) c.

(** one system call that does not fail *)
Inductive move (os : OS) : proc * fs -> proc * fs -> Prop :=
| mv_missing exec f fs done s : s (canon os f) = None ->
    move os (mkProc exec (f :: fs) Idle done, s)
            (mkProc exec fs Idle (done ++ [mkResult f (Some (bs "failed to read file " ++ f ++ bs ": " ++ os_missing os f))]), s)
| mv_open exec f fs done s c : s (canon os f) = Some c ->
    move os (mkProc exec (f :: fs) Idle done, s) (mkProc exec fs (Reading f []) done, s)
| mv_read p f got s c d r : p_phase p = Reading f got -> s (canon os f) = Some c ->
    skipn (length got) c = d ++ r -> d <> [] ->
    move os (p, s) (go p (Reading f (got ++ d)), s)
| mv_eof p f got s c : p_phase p = Reading f got -> s (canon os f) = Some c ->
    (length c <= length got)%nat ->
    move os (p, s) (compute p f got, s)
| mv_truncate p f out s : p_phase p = Opening f out ->
    move os (p, s) (go p (Writing f out 0), upd s (canon os f) [])
| mv_write p f out n s c d r : p_phase p = Writing f out n -> s (canon os f) = Some c ->
    skipn n out = d ++ r -> d <> [] ->
    move os (p, s) (go p (Writing f out (n + length d)), upd s (canon os f) (overwrite c n d))
| mv_close p f out s : p_phase p = Writing f out (length out) ->
    move os (p, s) (record p f None, s).

(** one system call that fails, with some error text *)
Inductive fault : proc * fs -> proc * fs -> Prop :=
| ft_open exec f fs done s e :
    fault (mkProc exec (f :: fs) Idle done, s)
          (mkProc exec fs Idle (done ++ [mkResult f (Some (bs "failed to read file " ++ f ++ bs ": " ++ e))]), s)
| ft_read p f got s e : p_phase p = Reading f got ->
    fault (p, s) (record p f (Some (bs "failed to read file " ++ f ++ bs ": " ++ e)), s)
| ft_truncate p f out s e : p_phase p = Opening f out ->
    fault (p, s) (record p f (Some (bs "failed to write file " ++ f ++ bs ": " ++ e)), s)
| ft_write p f out n s e : p_phase p = Writing f out n ->
    fault (p, s) (record p f (Some (bs "failed to write file " ++ f ++ bs ": " ++ e)), s).
Definition any_step (os : OS) (x y : proc * fs) : Prop := move os x y \/ fault x y.

(** the processes take turns in any order *)
Inductive turn (step : proc * fs -> proc * fs -> Prop) : list proc * fs -> list proc * fs -> Prop :=
| turn_at a p b s p' s' : step (p, s) (p', s') -> turn step (a ++ p :: b, s) (a ++ p' :: b, s').

(** any number of steps *)
Inductive star {A : Type} (step : A -> A -> Prop) : A -> A -> Prop :=
| star_here x : star step x x
| star_more x y z : step x y -> star step y z -> star step x z.
