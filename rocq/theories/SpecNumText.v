(** The text of a number, for C69 and C79; nothing here is used by the model. *)
From Coq Require Import ZArith QArith Qabs List Bool Strings.Byte.
From Verif Require Import Base Float Ext Values Spec SpecNumber.
Import ListNotations.
Open Scope Z_scope.

(** [number_shown E f t]: integers in the range of int are shown exactly, other finite numbers as
    the shortest decimal; 2^63 depends on what the processor makes of it when converting to int *)
Inductive number_shown (E : Ext) : spec_float -> str -> Prop :=
| ns_nan : number_shown E S754_nan (bs "NaN")
| ns_infinity : number_shown E (S754_infinity false) (bs "+Inf")
| ns_minus_infinity : number_shown E (S754_infinity true) (bs "-Inf")
| ns_minus_zero : number_shown E (S754_zero true) (bs "-0")
| ns_integer f z t : is_finite f -> f <> S754_zero true -> (q_value f == inject_Z z)%Q -> min_int <= z <= max_int -> int_text t z -> number_shown E f t
| ns_other f t : is_finite f -> (forall z, min_int <= z <= max_int -> ~ (q_value f == inject_Z z)%Q) -> ~ (q_value f == inject_Z (2 ^ 63))%Q ->
    shortest f t -> number_shown E f t
| ns_limit f n t : (q_value f == inject_Z (2 ^ 63))%Q -> int_arg E f n -> nearest (inject_Z n) f -> int_text t (2 ^ 63) -> number_shown E f t
| ns_limit_other f n t : (q_value f == inject_Z (2 ^ 63))%Q -> int_arg E f n -> ~ nearest (inject_Z n) f -> shortest f t -> number_shown E f t.
