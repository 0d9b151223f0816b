(** The line-based parser: edlisp/parser/linebased.go. *)
From Coq Require Import ZArith NArith List Bool Strings.Byte.
From Verif Require Import Base Float Ext Utf8 Strconv Values.
Import ListNotations.
Open Scope Z_scope.

(** A parse result, a Go error, or out of fuel (never reached: Proofs_Parser.v). *)
Inductive presult (A : Type) :=
| POk (a : A)
| PErr (msg : str)
| PFuel.
Arguments POk {A} a.
Arguments PErr {A} msg.
Arguments PFuel {A}.

Definition pbind {A B} (m : presult A) (k : A -> presult B) : presult B :=
  match m with POk a => k a | PErr e => PErr e | PFuel => PFuel end.

Definition rune_list (s : str) : list rune := map r_rune (runes s).

Definition rn_backslash : rune := 92%N.
Definition rn_quote : rune := 34%N.
Definition rn_open : rune := 40%N.
Definition rn_close : rune := 41%N.
Definition rn_semi : rune := 59%N.

(** ' ', '\t', '\n', '\r' (linebased.go:191) *)
Definition is_blank (r : rune) : bool :=
  ((r =? 32) || (r =? 9) || (r =? 10) || (r =? 13))%N.

(** if current.Len() > 0 { tokens = append(tokens, current.String()) } *)
Definition flush (cur : str) (k : list str) : list str :=
  match cur with [] => k | _ => cur :: k end.

Definition pcons (t : str) (r : presult (list str)) : presult (list str) :=
  pbind r (fun l => POk (t :: l)).
Definition pflush (cur : str) (r : presult (list str)) : presult (list str) :=
  match cur with [] => r | _ => pcons cur r end.

(** linebased.go:159-212 tokenize: state is the current token, inQuotes, escapeNext.
    [current.WriteRune] re-encodes, so an invalid byte becomes U+FFFD. *)
Fixpoint tokenize_from (cur : str) (inq esc : bool) (l : list rune) : presult (list str) :=
  match l with
  | [] => if inq then PErr (bs "unterminated string literal") else POk (flush cur [])
  | r :: l' =>
    if esc then tokenize_from (cur ++ encode_rune r) inq false l'
    else if (r =? rn_backslash)%N then tokenize_from (cur ++ encode_rune r) inq inq l'
    else if (r =? rn_quote)%N then tokenize_from (cur ++ encode_rune r) (negb inq) false l'
    else if ((r =? rn_open) || (r =? rn_close))%N then
      if inq then tokenize_from (cur ++ encode_rune r) inq false l'
      else pflush cur (pcons (encode_rune r) (tokenize_from [] inq false l'))
    else if is_blank r then
      if inq then tokenize_from (cur ++ encode_rune r) inq false l'
      else pflush cur (tokenize_from [] inq false l')
    else tokenize_from (cur ++ encode_rune r) inq false l'
  end.
Definition tokenize (line : str) : presult (list str) :=
  tokenize_from [] false false (rune_list line).

(** linebased.go:256-297 splitOnSemicolons *)
Fixpoint split_semi_from (cur : str) (inq esc : bool) (l : list rune) : list str :=
  match l with
  | [] => flush cur []
  | r :: l' =>
    if esc then split_semi_from (cur ++ encode_rune r) inq false l'
    else if (r =? rn_backslash)%N then split_semi_from (cur ++ encode_rune r) inq inq l'
    else if (r =? rn_quote)%N then split_semi_from (cur ++ encode_rune r) (negb inq) false l'
    else if (r =? rn_semi)%N then
      if inq then split_semi_from (cur ++ encode_rune r) inq false l'
      else cur :: split_semi_from [] inq false l'
    else split_semi_from (cur ++ encode_rune r) inq false l'
  end.
Definition split_semi (line : str) : list str := split_semi_from [] false false (rune_list line).

(** linebased.go:300-320 parseToken *)
Definition parse_token (token : str) : presult value :=
  if has_prefix token (bs """") && has_suffix token (bs """") then
    if zlen token <? 2 then PErr (bs "invalid string literal: " ++ token)
    else match unquote token with
         | Some s => POk (VStr s)
         | None => PErr (bs "invalid string literal " ++ token ++ bs ": invalid syntax")
         end
  else match parse_float token with
       | Some f => POk (VNum f)
       | None => POk (VSym token)
       end.

Definition tok_open : str := bs "(".
Definition tok_close : str := bs ")".

(** linebased.go:215-253 parseTokens and parseList.  The index into the token slice is
    replaced by the list of remaining tokens. *)
Fixpoint parse_tokens (fuel : nat) (toks : list str) : presult (value * list str) :=
  match fuel with
  | O => PFuel
  | S f =>
    match toks with
    | [] => PErr (bs "unexpected end of input")
    | t :: rest =>
      if str_eqb t tok_open then parse_list f [] rest
      else if str_eqb t tok_close then PErr (bs "unexpected closing parenthesis")
      else pbind (parse_token t) (fun v => POk (v, rest))
    end
  end
with parse_list (fuel : nat) (acc : list value) (toks : list str) : presult (value * list str) :=
  match fuel with
  | O => PFuel
  | S f =>
    match toks with
    | [] => PErr (bs "unterminated list")
    | t :: rest =>
      if str_eqb t tok_close then POk (VList (rev acc), rest)
      else match parse_tokens f toks with
           | POk (v, toks') => parse_list f (v :: acc) toks'
           | PErr e => PErr e
           | PFuel => PFuel
           end
    end
  end.

Definition tok_fuel (toks : list str) : nat := S (length toks + length toks).

(** linebased.go:111-119 parseSExpression: what follows the first expression is dropped *)
Definition parse_sexp_line (line : str) : presult value :=
  pbind (tokenize line) (fun toks =>
  pbind (parse_tokens (tok_fuel toks) toks) (fun r => POk (fst r))).

(** the loop of linebased.go:131-153 *)
Fixpoint shell_loop (fuel : nat) (acc : list value) (toks : list str) : presult value :=
  match fuel with
  | O => PFuel
  | S f =>
    match toks with
    | [] => POk (VList (rev acc))
    | t :: rest =>
      if str_eqb t tok_open then
        match parse_tokens (tok_fuel toks) toks with
        | POk (v, toks') => shell_loop f (v :: acc) toks'
        | PErr e => PErr e
        | PFuel => PFuel
        end
      else if str_eqb t tok_close then
        PErr (bs "unexpected closing parenthesis in shell-like syntax")
      else match parse_token t with
           | POk v => shell_loop f (v :: acc) rest
           | PErr e => PErr e
           | PFuel => PFuel
           end
    end
  end.

(** linebased.go:122-156 parseShellLike *)
Definition parse_shell_line (line : str) : presult value :=
  pbind (tokenize line) (fun toks => shell_loop (S (length toks)) [] toks).

(** linebased.go:103-108 parseLine *)
Definition parse_line (line : str) : presult value :=
  if has_prefix line tok_open then parse_sexp_line line else parse_shell_line line.

(** linebased.go:33-44: the commands of one line *)
Fixpoint parse_commands (cmds : list str) : presult (list value) :=
  match cmds with
  | [] => POk []
  | c :: cs =>
    match trim_space c with
    | [] => parse_commands cs
    | c' => pbind (parse_line c') (fun v => pbind (parse_commands cs) (fun vs => POk (v :: vs)))
    end
  end.

(** linebased.go:26-44: one physical line *)
Definition parse_physical_line (l : str) : presult (list value) :=
  match trim_left l with
  | [] => POk []
  | l' => parse_commands (split_semi l')
  end.

(** bufio.Scanner with ScanLines: lines without their newline, one trailing CR removed;
    a last empty line is not reported. *)
Definition drop_cr (l : str) : str :=
  match rev l with
  | c :: r => if Byte.eqb c x0d then rev r else l
  | [] => l
  end.
Fixpoint drop_last_empty (ls : list str) : list str :=
  match ls with
  | [] => []
  | [l] => match l with [] => [] | _ => [l] end
  | l :: ls' => l :: drop_last_empty ls'
  end.
Definition raw_lines (s : str) : list str := drop_last_empty (split_byte nl s).

(** bufio.MaxScanTokenSize: a line of this many bytes does not fit the scanner's buffer *)
Definition max_line : Z := 65536.

(** linebased.go:25-51 the loop of ParseReader *)
Fixpoint parse_lines (ls : list str) : presult (list value) :=
  match ls with
  | [] => POk []
  | l :: ls' =>
    if max_line <=? zlen l then PErr (bs "reading input: bufio.Scanner: token too long")
    else pbind (parse_physical_line (drop_cr l)) (fun vs =>
         pbind (parse_lines ls') (fun rest => POk (vs ++ rest)))
  end.

(** linebased.go:55-57 ParseString (ParseReader on a string reader, which cannot fail) *)
Definition parse_string (s : str) : presult (list value) := parse_lines (raw_lines s).

(** linebased.go:61-83 ParseSexp *)
Definition parse_sexp (s : str) : presult (list value) :=
  match trim_space s with
  | [] => POk []
  | t =>
    if has_prefix t tok_open then pbind (parse_sexp_line t) (fun v => POk [v])
    else pbind (parse_token t) (fun v => POk [v])
  end.
