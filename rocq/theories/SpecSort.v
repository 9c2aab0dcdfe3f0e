(** * What it means to sort, for the properties of the sorting functions

    Nothing here is used by the model. *)

From Coq Require Import List Arith Bool Permutation.
From Verif Require Import Mem.
Import ListNotations.

Section Order.
Context {V : Type} (lt : V -> V -> bool).

(** What C++ demands of a comparison function: a strict weak ordering. Two elements are equivalent when neither is
    less than the other. *)
Definition equivalent (a b : V) : bool := negb (lt a b) && negb (lt b a).
Definition strict_weak_order : Prop :=
  (forall a, lt a a = false) /\
  (forall a b c, lt a b = true -> lt b c = true -> lt a c = true) /\
  (forall a b c, equivalent a b = true -> equivalent b c = true -> equivalent a c = true).

(** No element is less than one before it. *)
Definition ordered (l : list V) : Prop :=
  forall i j a b, i < j -> nth_error l i = Some a -> nth_error l j = Some b -> lt b a = false.
(** [l'] has the elements of [l], in order. *)
Definition sorting (l l' : list V) : Prop := Permutation l l' /\ ordered l'.
(** And equivalent elements keep their relative order. *)
Definition stable_sorting (l l' : list V) : Prop :=
  sorting l l' /\ forall z, filter (equivalent z) l' = filter (equivalent z) l.

End Order.

Section Memory.
Context {V : Type}.
(** The objects from index [length before] of block [b] on are alive and have the values [l]; before them and after them
    the block holds [before] and [after]. *)
Definition range_is (w : world V) (b : nat) (before : list (option V)) (l : list V) (after : list (option V)) : Prop :=
  heap w b = Some (before ++ map Some l ++ after).
(** No block but [b] is different. *)
Definition only_in (b : nat) (w w' : world V) : Prop := forall b', b' <> b -> heap w' b' = heap w b'.
End Memory.
