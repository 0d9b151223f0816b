(** The 50 built-in functions, one definition per edlisp/builtin_*.go file.

    Arithmetic on Go ints goes through [wrap] except for loop counters and scan
    positions, which the loop conditions keep strictly inside the int range. *)
From Coq Require Import ZArith NArith List Bool Strings.Byte.
From Verif Require Import Base Float Ext Utf8 Strconv Values Buffer.
Import ListNotations.
Open Scope Z_scope.

Definition builtin := list value -> M value.

(** NewString(""), NewSymbol("t"), NewSymbol("nil") *)
Definition VEmpty : value := VStr [].
Definition VT : value := VSym (bs "t").
Definition VNil : value := VSym (bs "nil").

(** The argument checks repeated in every file: "X expects N argument(s), got K". *)
Definition got (name what : String.string) {A} (args : list value) : M A :=
  fail (bs name ++ bs " expects " ++ bs what ++ bs ", got " ++ itoa (zlen args)).
Definition wants (name what : String.string) {A} : M A :=
  fail (bs name ++ bs " expects " ++ bs what).

Arguments got (name what)%string_scope {A} args.
Arguments wants (name what)%string_scope {A}.

(** no arguments *)
Definition no_args (name : String.string) (args : list value) (k : M value) : M value :=
  match args with
  | [] => k
  | _ => got name "0 arguments" args
  end.

Arguments no_args name%string_scope args k.

(** exactly one string *)
Definition one_string (name : String.string) (args : list value) (k : str -> M value) : M value :=
  match args with
  | [VStr s] => k s
  | [_] => wants name "a string argument"
  | _ => got name "1 argument" args
  end.

Arguments one_string name%string_scope args k.

(** exactly one number, converted to int *)
Definition one_number (E : Ext) (name : String.string) (args : list value) (k : Z -> M value) : M value :=
  match args with
  | [VNum f] => k (f_to_int E f)
  | [_] => wants name "a number argument"
  | _ => got name "1 argument" args
  end.

Arguments one_number E name%string_scope args k.

(** an optional count, default 1 *)
Definition opt_count (E : Ext) (name : String.string) (args : list value) (k : Z -> M value) : M value :=
  match args with
  | [] => k 1
  | [VNum f] => k (f_to_int E f)
  | [_] => wants name "a number argument"
  | _ => got name "at most 1 argument" args
  end.

Arguments opt_count E name%string_scope args k.

(** edlisp/builtin_insert.go:9-21 *)
Definition b_insert (args : list value) : M value :=
  one_string "insert" args (fun s => buf_insert s ;;; ret VEmpty).

(** edlisp/builtin_goto_char.go:12-33 *)
Definition b_goto_char (E : Ext) (args : list value) : M value :=
  one_number E "goto-char" args (fun pos =>
    c <- get_content ;;
    let pos := if pos <? 1 then 1 else if zlen c + 1 <? pos then zlen c + 1 else pos in
    set_point pos ;;; ret VEmpty).

(** lines 34-37 of builtin_goto_line.go: sum of the first [n] line lengths plus newlines *)
Fixpoint line_offset (lines : list str) (n : nat) : Z :=
  match n, lines with
  | S n', l :: ls => zlen l + 1 + line_offset ls n'
  | _, _ => 0
  end.

(** edlisp/builtin_goto_line.go:12-41 *)
Definition b_goto_line (E : Ext) (args : list value) : M value :=
  one_number E "goto-line" args (fun n =>
    c <- get_content ;;
    let lines := split_byte nl c in
    let n := if n <? 1 then 1 else if zlen lines <? n then zlen lines else n in
    set_point (wrap (1 + line_offset lines (Z.to_nat (n - 1)))) ;;; ret VEmpty).

(** edlisp/builtin_search_forward.go:12-46 *)
Definition b_search_forward (args : list value) : M value :=
  one_string "search-forward" args (fun s =>
    c <- get_content ;;
    p <- get_point ;;
    let start := wrap (p - 1) in
    let start := if start <? 0 then 0 else start in
    if zlen c <=? start then fail (bs "search failed") else
    area <- slice_from c start ;;
    let i := str_index area s in
    if i =? -1 then fail (bs "search failed") else
    let ms := start + i + 1 in
    let me := wrap (ms + zlen s) in
    set_point me ;;; set_search s ms me ;;; ret VEmpty).

(** edlisp/builtin_search_backward.go:12-47 *)
Definition b_search_backward (args : list value) : M value :=
  one_string "search-backward" args (fun s =>
    c <- get_content ;;
    p <- get_point ;;
    let e := wrap (p - 1) in
    let e := if zlen c <? e then zlen c else e in
    if e <? 0 then fail (bs "search failed") else
    area <- slice_to c e ;;
    let i := str_last_index area s in
    if i =? -1 then fail (bs "search failed") else
    let ms := i + 1 in
    let me := wrap (ms + zlen s) in
    set_point me ;;; set_search s ms me ;;; ret VEmpty).

(** edlisp/builtin_re_search_forward.go:13-52 *)
Definition b_re_search_forward (E : Ext) (args : list value) : M value :=
  one_string "re-search-forward" args (fun s =>
    c <- get_content ;;
    p <- get_point ;;
    let start := wrap (p - 1) in
    let start := if start <? 0 then 0 else start in
    if zlen c <=? start then fail (bs "search failed") else
    match re_error E s with
    | Some msg => fail (bs "invalid regexp: " ++ msg)
    | None =>
      area <- slice_from c start ;;
      match re_find E s area with
      | None => fail (bs "search failed")
      | Some (m0, m1) =>
        set_point (start + m1 + 1) ;;;
        t <- slice_m c (start + m0) (start + m1) ;;
        set_search t (start + m0 + 1) (start + m1 + 1) ;;; ret VEmpty
      end
    end).

(** edlisp/builtin_re_search_backward.go:13-56 *)
Definition b_re_search_backward (E : Ext) (args : list value) : M value :=
  one_string "re-search-backward" args (fun s =>
    c <- get_content ;;
    p <- get_point ;;
    let e := wrap (p - 1) in
    let e := if zlen c <? e then zlen c else e in
    if e <? 0 then fail (bs "search failed") else
    match re_error E s with
    | Some msg => fail (bs "invalid regexp: " ++ msg)
    | None =>
      area <- slice_to c e ;;
      match rev (re_find_all E s area) with
      | [] => fail (bs "search failed")
      | (m0, m1) :: _ =>
        set_point (m1 + 1) ;;;
        t <- slice_m c m0 m1 ;;
        set_search t (m0 + 1) (m1 + 1) ;;; ret VEmpty
      end
    end).

(** edlisp/builtin_end_of_buffer.go:9-17 *)
Definition b_end_of_buffer (args : list value) : M value :=
  no_args "end-of-buffer" args (c <- get_content ;; set_point (zlen c + 1) ;;; ret VEmpty).

(** edlisp/builtin_beginning_of_buffer.go:9-16 *)
Definition b_beginning_of_buffer (args : list value) : M value :=
  no_args "beginning-of-buffer" args (set_point 1 ;;; ret VEmpty).

(** edlisp/builtin_set_mark.go:11-18 *)
Definition b_set_mark (args : list value) : M value :=
  no_args "set-mark" args (p <- get_point ;; set_mark p ;;; ret VEmpty).

(** edlisp/builtin_set_mark_command.go:11-29 *)
Definition b_set_mark_command (E : Ext) (args : list value) : M value :=
  match args with
  | [] => p <- get_point ;; set_mark p ;;; ret VEmpty
  | [VNum f] => set_mark (f_to_int E f) ;;; ret VEmpty
  | [_] => wants "set-mark-command" "a number argument"
  | _ => got "set-mark-command" "at most 1 argument" args
  end.

(** edlisp/builtin_mark.go:38-44 *)
Definition b_mark (args : list value) : M value :=
  no_args "mark" args (m <- get_mark ;; ret (VInt m)).

(** edlisp/builtin_point.go:36-42 *)
Definition b_point (args : list value) : M value :=
  no_args "point" args (p <- get_point ;; ret (VInt p)).

(** edlisp/builtin_point_min.go:39-45 *)
Definition b_point_min (args : list value) : M value :=
  no_args "point-min" args (ret (VInt 1)).

(** edlisp/builtin_point_max.go:37-44 *)
Definition b_point_max (args : list value) : M value :=
  no_args "point-max" args (c <- get_content ;; ret (VInt (zlen c + 1))).

(** edlisp/builtin_buffer_size.go:28-35 *)
Definition b_buffer_size (args : list value) : M value :=
  no_args "buffer-size" args (c <- get_content ;; ret (VInt (zlen c))).

(** number of newlines in a string *)
Fixpoint count_nl (s : str) : Z :=
  match s with
  | [] => 0
  | c :: t => (if is_nl c then 1 else 0) + count_nl t
  end.

(** edlisp/builtin_line_number_at_pos.go:43-66; the loop of lines 58-63 reads exactly
    content[:pos] *)
Definition b_line_number_at_pos (args : list value) : M value :=
  no_args "line-number-at-pos" args (
    c <- get_content ;;
    p <- get_point ;;
    let pos := wrap (p - 1) in
    let pos := if pos <? 0 then 0 else pos in
    let pos := if zlen c <? pos then zlen c else pos in
    before <- slice_to c pos ;;
    ret (VInt (1 + count_nl before))).

(** edlisp/builtin_current_column.go:39-61; the loop of lines 54-58 counts the bytes
    scanned backward from [pos] until a newline *)
Fixpoint column_loop (fuel : nat) (c : str) (i col : Z) : M Z :=
  match fuel with
  | O => diverge
  | S f =>
    if 0 <=? i then
      ch <- index_m c i ;;
      if negb (is_nl ch) then column_loop f c (i - 1) (col + 1) else ret col
    else ret col
  end.
Definition b_current_column (args : list value) : M value :=
  no_args "current-column" args (
    c <- get_content ;;
    p <- get_point ;;
    let pos := wrap (p - 1) in
    if pos <? 0 then ret (VInt 0) else
    let pos := if zlen c <=? pos then zlen c - 1 else pos in
    col <- column_loop (loop_fuel c) c pos 0 ;;
    ret (VInt col)).

(** edlisp/builtin_replace_match.go:14-45 *)
Definition b_replace_match (args : list value) : M value :=
  one_string "replace-match" args (fun s =>
    lm <- get_search ;;
    let '(m, ls, le) := lm in
    match m with
    | [] => fail (bs "no previous search")
    | _ =>
      c <- get_content ;;
      let start := wrap (ls - 1) in
      let e := wrap (le - 1) in
      if (start <? 0) || (zlen c <? e) || (e <=? start)
      then fail (bs "invalid search match positions")
      else
        l <- slice_to c start ;;
        r <- slice_from c e ;;
        set_content (l ++ s ++ r) ;;;
        set_point (wrap (start + zlen s + 1)) ;;; ret VEmpty
    end).

(** edlisp/builtin_delete_region.go:16-35 and builtin_replace_region.go:21-40: the
    0-based bounds of the region, [None] when it is empty *)
Definition region_bounds (c : str) (mk pt : Z) : option (Z * Z) :=
  let '(start, e) := if pt <? mk then (pt, mk) else (mk, pt) in
  let start := wrap (start - 1) in
  let e := wrap (e - 1) in
  let start := if start <? 0 then 0 else start in
  let e := if zlen c <? e then zlen c else e in
  if e <=? start then None else Some (start, e).

(** edlisp/builtin_delete_region.go:11-45 *)
Definition b_delete_region (args : list value) : M value :=
  no_args "delete-region" args (
    mk <- get_mark ;; pt <- get_point ;; c <- get_content ;;
    match region_bounds c mk pt with
    | None => ret VEmpty
    | Some (start, e) =>
      l <- slice_to c start ;;
      r <- slice_from c e ;;
      set_content (l ++ r) ;;; set_point (start + 1) ;;; ret VEmpty
    end).

(** edlisp/builtin_replace_region.go:10-50 *)
Definition b_replace_region (args : list value) : M value :=
  one_string "replace-region" args (fun s =>
    mk <- get_mark ;; pt <- get_point ;; c <- get_content ;;
    match region_bounds c mk pt with
    | None => ret VEmpty
    | Some (start, e) =>
      l <- slice_to c start ;;
      r <- slice_from c e ;;
      set_content (l ++ s ++ r) ;;; set_point (wrap (start + zlen s + 1)) ;;; ret VEmpty
    end).

(** edlisp/builtin_region_beginning.go:11-24 *)
Definition b_region_beginning (args : list value) : M value :=
  no_args "region-beginning" args (
    mk <- get_mark ;; pt <- get_point ;; ret (VInt (if pt <? mk then pt else mk))).

(** edlisp/builtin_region_end.go:11-24 *)
Definition b_region_end (args : list value) : M value :=
  no_args "region-end" args (
    mk <- get_mark ;; pt <- get_point ;; ret (VInt (if pt <? mk then mk else pt))).

(** edlisp/builtin_buffer_substring.go:41-74 *)
Definition b_buffer_substring (E : Ext) (args : list value) : M value :=
  match args with
  | [VNum f; VNum g] =>
    c <- get_content ;;
    let start := f_to_int E f in
    let e := f_to_int E g in
    let e := if e =? -1 then zlen c + 1 else e in
    let start := wrap (start - 1) in
    let e := wrap (e - 1) in
    let start := if start <? 0 then 0 else start in
    let e := if zlen c <? e then zlen c else e in
    if e <=? start then ret VEmpty else
    t <- slice_m c start e ;; ret (VStr t)
  | [_; _] => wants "buffer-substring" "number arguments"
  | _ => got "buffer-substring" "2 arguments" args
  end.

(** edlisp/builtin_mark_word.go:12-41 *)
Definition b_mark_word (args : list value) : M value :=
  no_args "mark-word" args (
    c <- get_content ;;
    p <- get_point ;;
    let pos := wrap (p - 1) in
    if (pos <? 0) || (zlen c <=? pos) then ret VEmpty else
    start <- scan_bwd (loop_fuel c) c is_letter pos ;;
    e <- scan_fwd (loop_fuel c) c is_letter pos ;;
    set_mark (start + 1) ;;; set_point (e + 1) ;;; ret VEmpty).

(** edlisp/builtin_forward_char.go:10-35 *)
Definition b_forward_char (E : Ext) (args : list value) : M value :=
  opt_count E "forward-char" args (fun n =>
    c <- get_content ;;
    p <- get_point ;;
    let np := wrap (p + n) in
    let np := if np <? 1 then 1 else if zlen c + 1 <? np then zlen c + 1 else np in
    set_point np ;;; ret VEmpty).

(** edlisp/builtin_backward_char.go:10-32 *)
Definition b_backward_char (E : Ext) (args : list value) : M value :=
  opt_count E "backward-char" args (fun n =>
    p <- get_point ;;
    let np := wrap (p - n) in
    let np := if np <? 1 then 1 else np in
    set_point np ;;; ret VEmpty).

(** edlisp/builtin_length.go:29-40 *)
Definition b_length (args : list value) : M value :=
  one_string "length" args (fun s => ret (VInt (zlen s))).

(** edlisp/builtin_substring.go:52-88 with the end as an option *)
Definition substring_of (s : str) (start : Z) (e : option Z) : M value :=
  let start := wrap (start - 1) in
  let e := match e with None => zlen s | Some e => wrap (e - 1) end in
  let start := if start <? 0 then 0 else start in
  let e := if zlen s <? e then zlen s else e in
  if e <? start then ret VEmpty else
  t <- slice_m s start e ;; ret (VStr t).

(** edlisp/builtin_substring.go:39-88 *)
Definition b_substring (E : Ext) (args : list value) : M value :=
  match args with
  | [a0; a1] =>
    match a0, a1 with
    | VStr s, VNum f => substring_of s (f_to_int E f) None
    | VStr _, _ => wants "substring" "a number as second argument"
    | _, _ => wants "substring" "a string as first argument"
    end
  | [a0; a1; a2] =>
    match a0, a1, a2 with
    | VStr s, VNum f, VNum g => substring_of s (f_to_int E f) (Some (f_to_int E g))
    | VStr _, VNum _, _ => wants "substring" "a number as third argument"
    | VStr _, _, _ => wants "substring" "a number as second argument"
    | _, _, _ => wants "substring" "a string as first argument"
    end
  | _ => got "substring" "2 or 3 arguments" args
  end.

(** edlisp/builtin_string_match.go:16-46 *)
Definition b_string_match (E : Ext) (args : list value) : M value :=
  match args with
  | [VStr p; VStr s] =>
    match re_error E p with
    | Some _ => let i := str_index s p in
                if i =? -1 then ret VNil else ret (VInt i)
    | None => match re_find E p s with
              | None => ret VNil
              | Some (m0, _) => ret (VInt m0)
              end
    end
  | [_; _] => wants "string-match" "string arguments"
  | _ => got "string-match" "2 arguments" args
  end.

(** edlisp/builtin_beginning_of_line.go:10-33 *)
Definition b_beginning_of_line (args : list value) : M value :=
  no_args "beginning-of-line" args (
    c <- get_content ;;
    p <- get_point ;;
    let pos := wrap (p - 1) in
    if pos <? 0 then set_point 1 ;;; ret VEmpty else
    let pos := if zlen c <=? pos then zlen c - 1 else pos in
    q <- scan_bwd (loop_fuel c) c (fun ch => negb (is_nl ch)) pos ;;
    set_point (q + 1) ;;; ret VEmpty).

(** edlisp/builtin_end_of_line.go:10-35 *)
Definition b_end_of_line (args : list value) : M value :=
  no_args "end-of-line" args (
    c <- get_content ;;
    p <- get_point ;;
    let pos := wrap (p - 1) in
    let pos := if pos <? 0 then 0 else pos in
    if zlen c <=? pos then set_point (zlen c + 1) ;;; ret VEmpty else
    q <- scan_fwd (loop_fuel c) c (fun ch => negb (is_nl ch)) pos ;;
    set_point (q + 1) ;;; ret VEmpty).

(** edlisp/builtin_upcase.go:31-42, builtin_downcase.go:31-42 *)
Definition b_upcase (E : Ext) (args : list value) : M value :=
  one_string "upcase" args (fun s => t <- alloc (to_upper E s) ;; ret (VStr t)).
Definition b_downcase (E : Ext) (args : list value) : M value :=
  one_string "downcase" args (fun s => t <- alloc (to_lower E s) ;; ret (VStr t)).

(** edlisp/builtin_capitalize.go:32-48; string(b) of a byte b is the UTF-8 encoding of
    the code point b *)
Definition b_capitalize (E : Ext) (args : list value) : M value :=
  one_string "capitalize" args (fun s =>
    match s with
    | [] => ret VEmpty
    | c :: t =>
      r <- alloc (to_upper E (encode_rune (byteN c)) ++ to_lower E t) ;; ret (VStr r)
    end).

(** edlisp/builtin_concat.go:32-44 *)
Fixpoint concat_loop (args : list value) (i : Z) (acc : str) : M value :=
  match args with
  | [] => ret (VStr acc)
  | VStr s :: rest => acc' <- alloc (acc ++ s) ;; concat_loop rest (i + 1) acc'
  | _ :: _ => fail (bs "concat expects string arguments, got non-string at position " ++ itoa (i + 1))
  end.
Definition b_concat (args : list value) : M value := concat_loop args 0 [].

(** edlisp/builtin_exchange_point_and_mark.go:12-24 *)
Definition b_exchange_point_and_mark (args : list value) : M value :=
  no_args "exchange-point-and-mark" args (
    p <- get_point ;; m <- get_mark ;; set_point m ;;; set_mark p ;;; ret VEmpty).

(** edlisp/builtin_mark_whole_buffer.go:12-22 *)
Definition b_mark_whole_buffer (args : list value) : M value :=
  no_args "mark-whole-buffer" args (
    c <- get_content ;; set_mark 1 ;;; set_point (zlen c + 1) ;;; ret VEmpty).

(** edlisp/builtin_delete_char.go:10-44 *)
Definition b_delete_char (E : Ext) (args : list value) : M value :=
  opt_count E "delete-char" args (fun n =>
    c <- get_content ;;
    pos <- get_point ;;
    if (pos <? 1) || (zlen c <? pos) then ret VEmpty else
    let start := pos - 1 in
    let e := wrap (start + n) in
    let e := if zlen c <? e then zlen c else e in
    l <- slice_to c start ;;
    r <- slice_from c e ;;
    set_content (l ++ r) ;;; ret VEmpty).

(** edlisp/builtin_delete_backward_char.go:10-46 *)
Definition b_delete_backward_char (E : Ext) (args : list value) : M value :=
  opt_count E "delete-backward-char" args (fun n =>
    c <- get_content ;;
    p <- get_point ;;
    let e := wrap (p - 1) in
    let start := wrap (e - n) in
    let start := if start <? 0 then 0 else start in
    if e <=? start then ret VEmpty else
    l <- slice_to c start ;;
    r <- slice_from c e ;;
    set_content (l ++ r) ;;; set_point (wrap (start + 1)) ;;; ret VEmpty).

(** The loop of builtin_forward_word.go:29-38 and builtin_kill_word.go:30-39:
    for i := 0; i < count && pos < len(content); i++ { skip non-word; skip word } *)
Fixpoint fwd_words (fuel : nat) (c : str) (count i pos : Z) : M Z :=
  match fuel with
  | O => diverge
  | S f =>
    if (i <? count) && (pos <? zlen c) then
      p1 <- scan_fwd (loop_fuel c) c (fun ch => negb (is_letter ch)) pos ;;
      p2 <- scan_fwd (loop_fuel c) c is_letter p1 ;;
      fwd_words f c count (i + 1) p2
    else ret pos
  end.

(** The loop of builtin_backward_word.go:29-38 and builtin_backward_kill_word.go:31-40 *)
Fixpoint bwd_words (fuel : nat) (c : str) (count i pos : Z) : M Z :=
  match fuel with
  | O => diverge
  | S f =>
    if (i <? count) && (0 <? pos) then
      p1 <- scan_bwd (loop_fuel c) c (fun ch => negb (is_letter ch)) pos ;;
      p2 <- scan_bwd (loop_fuel c) c is_letter p1 ;;
      bwd_words f c count (i + 1) p2
    else ret pos
  end.

(** edlisp/builtin_forward_word.go:12-42 *)
Definition b_forward_word (E : Ext) (args : list value) : M value :=
  opt_count E "forward-word" args (fun n =>
    c <- get_content ;;
    p <- get_point ;;
    q <- fwd_words (loop_fuel c) c n 0 (wrap (p - 1)) ;;
    set_point (wrap (q + 1)) ;;; ret VEmpty).

(** edlisp/builtin_backward_word.go:12-42 *)
Definition b_backward_word (E : Ext) (args : list value) : M value :=
  opt_count E "backward-word" args (fun n =>
    c <- get_content ;;
    p <- get_point ;;
    q <- bwd_words (loop_fuel c) c n 0 (wrap (p - 1)) ;;
    set_point (wrap (q + 1)) ;;; ret VEmpty).

(** edlisp/builtin_kill_word.go:12-46 *)
Definition b_kill_word (E : Ext) (args : list value) : M value :=
  opt_count E "kill-word" args (fun n =>
    c <- get_content ;;
    p <- get_point ;;
    let start := wrap (p - 1) in
    q <- fwd_words (loop_fuel c) c n 0 start ;;
    l <- slice_to c start ;;
    r <- slice_from c q ;;
    set_content (l ++ r) ;;; ret VEmpty).

(** edlisp/builtin_backward_kill_word.go:12-55 *)
Definition b_backward_kill_word (E : Ext) (args : list value) : M value :=
  opt_count E "backward-kill-word" args (fun n =>
    c <- get_content ;;
    p <- get_point ;;
    let start := wrap (p - 1) in
    q <- bwd_words (loop_fuel c) c n 0 start ;;
    let e := wrap (start + 1) in
    let e := if zlen c <? e then zlen c else e in
    l <- slice_to c q ;;
    r <- slice_from c e ;;
    set_content (l ++ r) ;;; set_point (wrap (q + 1)) ;;; ret VEmpty).

(** edlisp/builtin_looking_at.go:15-49 *)
Definition b_looking_at (E : Ext) (args : list value) : M value :=
  one_string "looking-at" args (fun pat =>
    c <- get_content ;;
    p <- get_point ;;
    let pos := wrap (p - 1) in
    if (pos <? 0) || (zlen c <=? pos) then ret VNil else
    after <- slice_from c pos ;;
    match re_error E pat with
    | Some _ => if has_prefix after pat then ret VT else ret VNil
    | None => match re_find E pat after with
              | Some (m0, _) => if m0 =? 0 then ret VT else ret VNil
              | None => ret VNil
              end
    end).

(** edlisp/builtin_looking_back.go:17-52; in the literal case the length test of line 38
    comes before the slice, as here *)
Definition b_looking_back (E : Ext) (args : list value) : M value :=
  one_string "looking-back" args (fun pat =>
    c <- get_content ;;
    p <- get_point ;;
    let pos := wrap (p - 1) in
    if pos <=? 0 then ret VNil else
    match re_error E pat with
    | Some _ =>
      if zlen pat <=? pos then
        before <- slice_to c pos ;;
        if has_suffix before pat then ret VT else ret VNil
      else ret VNil
    | None =>
      before <- slice_to c pos ;;
      match re_find E pat before with
      | Some (_, m1) => if m1 =? zlen before then ret VT else ret VNil
      | None => ret VNil
      end
    end).

(** One iteration of the line loops (builtin_delete_line.go:37-42, builtin_mark_line.go:38-43,
    builtin_kill_line.go:48-54) *)
Definition line_step (c : str) (pos : Z) : M Z :=
  q <- scan_fwd (loop_fuel c) c (fun ch => negb (is_nl ch)) pos ;;
  if q <? zlen c then
    ch <- index_m c q ;;
    ret (if is_nl ch then q + 1 else q)
  else ret q.

(** for i := 0; i < count; i++ { line_step } *)
Definition line_steps (c : str) (count pos : Z) : M Z :=
  Z.iter count (fun m => q <- m ;; line_step c q) (ret pos).

(** edlisp/builtin_mark_line.go:12-50 *)
Definition b_mark_line (E : Ext) (args : list value) : M value :=
  opt_count E "mark-line" args (fun n =>
    c <- get_content ;;
    p <- get_point ;;
    let pos := wrap (p - 1) in
    ls <- scan_bwd (loop_fuel c) c (fun ch => negb (is_nl ch)) pos ;;
    le <- line_steps c n pos ;;
    set_mark (wrap (ls + 1)) ;;; set_point (wrap (le + 1)) ;;; ret VEmpty).

(** edlisp/builtin_delete_line.go:11-52 *)
Definition b_delete_line (E : Ext) (args : list value) : M value :=
  opt_count E "delete-line" args (fun n =>
    c <- get_content ;;
    p <- get_point ;;
    let pos := wrap (p - 1) in
    ls <- scan_bwd (loop_fuel c) c (fun ch => negb (is_nl ch)) pos ;;
    le <- line_steps c n pos ;;
    l <- slice_to c ls ;;
    r <- slice_from c le ;;
    set_content (l ++ r) ;;; set_point (wrap (ls + 1)) ;;; ret VEmpty).

(** edlisp/builtin_kill_line.go:11-63 *)
Definition b_kill_line (E : Ext) (args : list value) : M value :=
  opt_count E "kill-line" args (fun n =>
    c <- get_content ;;
    p <- get_point ;;
    let pos := wrap (p - 1) in
    if (pos <? 0) || (zlen c <=? pos) then ret VEmpty else
    let start := if n =? 1 then pos + 1 else pos in
    le <- (if n =? 1
           then scan_fwd (loop_fuel c) c (fun ch => negb (is_nl ch)) start
           else line_steps c n start) ;;
    l <- slice_to c start ;;
    r <- slice_from c le ;;
    set_content (l ++ r) ;;; ret VEmpty).

(** edlisp/builtin_replace_regexp_in_string.go:14-34 *)
Definition b_replace_regexp_in_string (E : Ext) (args : list value) : M value :=
  match args with
  | [VStr p; VStr r; VStr s] =>
    match re_error E p with
    | Some msg => fail (bs "invalid regexp: " ++ msg)
    | None => t <- alloc (re_replace_all E p s r) ;; ret (VStr t)
    end
  | [_; _; _] => wants "replace-regexp-in-string" "string arguments"
  | _ => got "replace-regexp-in-string" "3 arguments" args
  end.
