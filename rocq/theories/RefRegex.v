(** A small regular expression engine, used only to run the repository's own tests and
    documentation examples on the model (RepoTests.v): leftmost-first backtracking like
    Go's regexp, over bytes, for literals, classes, escapes, groups, alternation, the
    operators * + ? and the assertions ^ $ and word boundary.  No theorem about all
    inputs depends on this file. *)
From Coq Require Import ZArith NArith List Bool Strings.Byte.
From Verif Require Import Base Float Ext.
Import ListNotations.
Open Scope Z_scope.

Inductive rx :=
| RNone
| REps
| RChar (f : byte -> bool)
| RCat (a b : rx)
| RAlt (a b : rx)
| RStar (greedy : bool) (a : rx)
| RBol
| REol
| RWordB (neg : bool).

(** ** Matching *)
Definition word_byte (c : byte) : bool := is_letter c || Byte.eqb c "_"%byte.
Definition word_opt (c : option byte) : bool :=
  match c with Some c => word_byte c | None => false end.

(** [k] continues with the byte before the position and the rest of the subject; the
    result is the length of what remains after the match *)
Fixpoint rx_match (fuel : nat) (r : rx) (prev : option byte) (s : str)
    (k : option byte -> str -> option nat) : option nat :=
  match fuel with
  | O => None
  | S f =>
    match r with
    | RNone => None
    | REps => k prev s
    | RChar p => match s with
                 | c :: t => if p c then k (Some c) t else None
                 | [] => None
                 end
    | RCat a b => rx_match f a prev s (fun pv t => rx_match f b pv t k)
    | RAlt a b => match rx_match f a prev s k with
                  | Some n => Some n
                  | None => rx_match f b prev s k
                  end
    | RStar g a =>
      let more := rx_match f a prev s (fun pv t =>
                    if Nat.eqb (length t) (length s) then None else rx_match f r pv t k) in
      if g then match more with Some n => Some n | None => k prev s end
      else match k prev s with Some n => Some n | None => more end
    | RBol => match prev with None => k prev s | Some _ => None end
    | REol => match s with [] => k prev s | _ => None end
    | RWordB neg =>
      if xorb neg (xorb (word_opt prev) (word_opt (hd_error s))) then k prev s else None
    end
  end.

(** ** Reading a pattern *)
Definition esc_class (c : byte) : option (byte -> bool) :=
  if Byte.eqb c "d"%byte then Some (in_range 48 57)
  else if Byte.eqb c "D"%byte then Some (fun b => negb (in_range 48 57 b))
  else if Byte.eqb c "w"%byte then Some word_byte
  else if Byte.eqb c "W"%byte then Some (fun b => negb (word_byte b))
  else if Byte.eqb c "s"%byte then Some (fun b => existsb (Byte.eqb b) [x09; x0a; x0c; x0d; x20])
  else if Byte.eqb c "S"%byte then Some (fun b => negb (existsb (Byte.eqb b) [x09; x0a; x0c; x0d; x20]))
  else if Byte.eqb c "n"%byte then Some (Byte.eqb x0a)
  else if Byte.eqb c "t"%byte then Some (Byte.eqb x09)
  else if is_letter c then None
  else Some (Byte.eqb c).

(** the items of a class up to the closing bracket *)
Fixpoint class_items (fuel : nat) (acc : byte -> bool) (s : str) : option ((byte -> bool) * str) :=
  match fuel with
  | O => None
  | S f =>
    match s with
    | c :: t =>
      if Byte.eqb c "]"%byte then Some (acc, t)
      else if Byte.eqb c "\"%byte then
        match t with
        | e :: u => match esc_class e with
                    | Some p => class_items f (fun b => acc b || p b) u
                    | None => None
                    end
        | [] => None
        end
      else
        match t with
        | d :: e :: u =>
          if Byte.eqb d "-"%byte && negb (Byte.eqb e "]"%byte)
          then if (byteN c <=? byteN e)%N
               then class_items f (fun b => acc b || in_range (byteN c) (byteN e) b) u
               else None
          else class_items f (fun b => acc b || Byte.eqb b c) t
        | _ => class_items f (fun b => acc b || Byte.eqb b c) t
        end
    | [] => None
    end
  end.

Fixpoint rx_alt (fuel : nat) (s : str) : option (rx * str) :=
  match fuel with
  | O => None
  | S f =>
    match rx_cat f REps s with
    | Some (a, c :: t) =>
      if Byte.eqb c "|"%byte
      then match rx_alt f t with Some (b, u) => Some (RAlt a b, u) | None => None end
      else Some (a, c :: t)
    | r => r
    end
  end
with rx_cat (fuel : nat) (acc : rx) (s : str) : option (rx * str) :=
  match fuel with
  | O => None
  | S f =>
    match s with
    | [] => Some (acc, [])
    | c :: t =>
      if Byte.eqb c "|"%byte || Byte.eqb c ")"%byte then Some (acc, s)
      else
        let atom : option (rx * str) :=
          if Byte.eqb c "("%byte then
            let t' := if has_prefix t (bs "?:") then skipn 2 t else t in
            match rx_alt f t' with
            | Some (r, d :: u) => if Byte.eqb d ")"%byte then Some (r, u) else None
            | _ => None
            end
          else if Byte.eqb c "["%byte then
            match t with
            | d :: u => if Byte.eqb d "^"%byte
                        then match class_items f (fun _ => false) u with
                             | Some (p, v) => Some (RChar (fun b => negb (p b)), v)
                             | None => None
                             end
                        else match class_items f (fun _ => false) t with
                             | Some (p, v) => Some (RChar p, v)
                             | None => None
                             end
            | [] => None
            end
          else if Byte.eqb c "."%byte then Some (RChar (fun b => negb (is_nl b)), t)
          else if Byte.eqb c "^"%byte then Some (RBol, t)
          else if Byte.eqb c "$"%byte then Some (REol, t)
          else if Byte.eqb c "\"%byte then
            match t with
            | e :: u => if Byte.eqb e "b"%byte then Some (RWordB false, u)
                        else if Byte.eqb e "B"%byte then Some (RWordB true, u)
                        else match esc_class e with Some p => Some (RChar p, u) | None => None end
            | [] => None
            end
          else if existsb (Byte.eqb c) (bs "*+?{") then None
          else Some (RChar (Byte.eqb c), t) in
        match atom with
        | None => None
        | Some (r, u) =>
          match u with
          | q :: v =>
            let lazy := match v with d :: _ => Byte.eqb d "?"%byte | [] => false end in
            let v' := if lazy then skipn 1 v else v in
            if Byte.eqb q "*"%byte then rx_cat f (RCat acc (RStar (negb lazy) r)) v'
            else if Byte.eqb q "+"%byte then rx_cat f (RCat acc (RCat r (RStar (negb lazy) r))) v'
            else if Byte.eqb q "?"%byte then
              rx_cat f (RCat acc (if lazy then RAlt REps r else RAlt r REps)) v'
            else rx_cat f (RCat acc r) u
          | [] => rx_cat f (RCat acc r) u
          end
        end
    end
  end.

(** [None]: not a pattern of the supported language *)
Definition rx_parse (p : str) : option rx :=
  match rx_alt (S (S (length p + length p))) p with
  | Some (r, []) => Some r
  | _ => None
  end.

(** ** The interface of Go's regexp *)
Definition rx_fuel (p s : str) : nat := (2 + length p + length p) * (2 + length s).

(** the leftmost match at or after the current position, [off] bytes into the subject *)
Fixpoint rx_search (fuel : nat) (r : rx) (prev : option byte) (s : str) (off : Z) : option (Z * Z) :=
  match rx_match fuel r prev s (fun _ t => Some (length t)) with
  | Some n => if Nat.leb n (length s) then Some (off, off + zlen s - Z.of_nat n) else None
  | None => match s with
            | [] => None
            | c :: t => rx_search fuel r (Some c) t (off + 1)
            end
  end.

Definition rx_find (p s : str) : option (Z * Z) :=
  match rx_parse p with
  | Some r => rx_search (rx_fuel p s) r None s 0
  | None => None
  end.

Definition last_byte (s : str) : option byte := hd_error (rev s).

(** regexp.allMatches: [s] is the subject from [pos] on, [prev_end] the end of the
    previous match *)
Fixpoint rx_all (n : nat) (fuel : nat) (r : rx) (prev : option byte) (s : str) (pos prev_end : Z) : list (Z * Z) :=
  match n with
  | O => []
  | S n' =>
    match rx_search fuel r prev s pos with
    | None => []
    | Some (a, b) =>
      let keep := negb ((b =? pos) && (a =? prev_end)) in
      let rest :=
        if b =? pos then match s with
                         | [] => []
                         | c :: t => rx_all n' fuel r (Some c) t (pos + 1) b
                         end
        else let k := Z.to_nat (b - pos) in
             rx_all n' fuel r (last_byte (firstn k s)) (skipn k s) b b in
      if keep then (a, b) :: rest else rest
    end
  end.
Definition rx_find_all (p s : str) : list (Z * Z) :=
  match rx_parse p with
  | Some r => rx_all (S (length s)) (rx_fuel p s) r None s 0 (-1)
  | None => []
  end.

(** ReplaceAllString, without the $ substitutions in the replacement *)
Fixpoint rx_replace (ms : list (Z * Z)) (s r : str) (off : Z) : str :=
  match ms with
  | [] => s
  | (i, j) :: ms' =>
    firstn (Z.to_nat (i - off)) s ++ r ++ rx_replace ms' (skipn (Z.to_nat (j - off)) s) r j
  end.

Definition rx_ext : Ext := {|
  re_error := fun p => match rx_parse p with Some _ => None | None => Some (bs "unsupported pattern") end;
  re_find := rx_find;
  re_find_all := rx_find_all;
  re_replace_all := fun p s r => rx_replace (rx_find_all p s) s r 0;
  uc_upper := fun r => r;
  uc_lower := fun r => r;
  uc_print := fun _ => true;
  f2i_oob := fun _ => min_int
|}.
