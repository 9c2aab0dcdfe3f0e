(** * What the comparison operators of containers are for

    Nothing here is used by the model. *)

From Coq Require Import List Bool.
From Verif Require Import Sequence SpecSequence.

(** A <=> whose results fit together: swapping the arguments turns the result around, it is transitive, equivalent values are compared alike
    with all others, and any two values can be compared. *)
Record good_order {A} (cmp : A -> A -> ordering) : Prop := {
  o_opposite : forall x y, cmp y x = opposite (cmp x y);
  o_transitive : forall x y z, cmp x y = Less -> cmp y z = Less -> cmp x z = Less;
  o_alike : forall x y z, cmp x y = Equivalent -> cmp x z = cmp y z;
  o_total : forall x y, cmp x y <> Unordered }.
(** == says the same as <=>. *)
Definition fits {A} (eq : A -> A -> bool) (cmp : A -> A -> ordering) : Prop := forall x y, eq x y = true <-> cmp x y = Equivalent.
(** == is true exactly for the same value. *)
Definition tells_apart {A} (eq : A -> A -> bool) : Prop := forall x y, eq x y = true <-> x = y.
