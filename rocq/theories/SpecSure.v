(** Scripts of which it is known before they run that they succeed.  Used to state C88;
    nothing here is used by the model, and nothing of the model is used here except the data
    types. *)
From Coq Require Import ZArith List.
From Verif Require Import Base Ext Values Spec SpecGrowth SpecKinds.
Import ListNotations.

(** every command gets what its signature asks for (C87), none is called that may fail on
    such arguments, none in a way that may crash (C09), and the lengths are bounded (C85) *)
Definition reliable (E : Ext) (p : list value) : Prop :=
  Forall in_order p /\ Forall certain p /\ Forall (harmless E) p /\ bounded p.
