(** Vocabulary for list-valued flags: comma-separated values, written down as a grammar. *)
From Coq Require Import ZArith NArith List Bool Strings.Byte.
From Verif Require Import Base.
Import ListNotations.

Definition no_byte (c : byte) (s : str) : Prop := ~ In c s.
(** a field that may stand for itself *)
Definition plain_field (f : str) : Prop := no_byte ","%byte f /\ no_byte x22 f /\ no_byte x0a f.
(** every quotation mark written twice *)
Inductive doubled : str -> str -> Prop :=
| db_nil : doubled [] []
| db_quote f t : doubled f t -> doubled (x22 :: f) (x22 :: x22 :: t)
| db_other c f t : c <> x22 -> doubled f t -> doubled (c :: f) (c :: t).
(** [csv_field t f]: the text [t] denotes the field [f] *)
Inductive csv_field : str -> str -> Prop :=
| cf_plain f : plain_field f -> csv_field f f
| cf_quoted f t : doubled f t -> csv_field (x22 :: t ++ [x22]) f.
(** [csv_record t fs]: the text [t] starts with a line that denotes the fields [fs] *)
Inductive csv_record : str -> list str -> Prop :=
| cr_last t f rest : csv_field t f -> (forall c r, rest = c :: r -> c = x0a) -> csv_record (t ++ rest) [f]
| cr_more t f s fs : csv_field t f -> csv_record s fs -> csv_record (t ++ ","%byte :: s) (f :: fs).
(** no line ends in \r\n, nor the text in \r *)
Definition unix_lines (s : str) : Prop := forall a b, s = a ++ x0d :: b -> exists c r, b = c :: r /\ c <> x0a.
(** an expression that can be typed as it is *)
Definition simple_expression (s : str) : Prop := s <> [] /\ plain_field s /\ no_byte x0d s.
(** [unix_text s u]: [u] is [s] with every \r\n turned into \n and a last \r dropped *)
Inductive unix_text : str -> str -> Prop :=
| ut_nil : unix_text [] []
| ut_last : unix_text [x0d] []
| ut_line s u : unix_text (x0a :: s) u -> unix_text (x0d :: x0a :: s) u
| ut_byte c s u : (c = x0d -> exists d r, s = d :: r /\ d <> x0a) -> unix_text s u -> unix_text (c :: s) (c :: u).
