(** * What the properties of the unique functions say

    Nothing here is used by the model. *)

From Coq Require Import List Arith Bool.
From Verif Require Import Unique SpecSort.
Import ListNotations.

Section SpecUnique.
Context {V : Type}.

(** The elements of the array [b] from index [i] on are [l]. *)
Definition array_at (h : arrays (V := V)) (b i : nat) (l : list V) : Prop :=
  forall k v, nth_error l k = Some v -> read h b (i + k) = Some v.
(** There are the same arrays, each with the same number of elements. *)
Definition same_shape (h h' : arrays (V := V)) : Prop := map (@length V) h' = map (@length V) h.

(** The elements of a list that are not equal to the one before. *)
Fixpoint run_starts (equal : V -> V -> bool) (previous : option V) (l : list V) : list V :=
  match l with
  | [] => []
  | v :: l =>
      if match previous with Some u => equal u v | None => false end then run_starts equal (Some v) l
      else v :: run_starts equal (Some v) l
  end.
Definition equivalence (equal : V -> V -> bool) : Prop :=
  (forall a, equal a a = true) /\ (forall a b, equal a b = equal b a) /\
  (forall a b c, equal a b = true -> equal b c = true -> equal a c = true).

Context (less : V -> V -> bool).
Definition increasing (l : list V) : Prop :=
  forall i j a b, i < j -> nth_error l i = Some a -> nth_error l j = Some b -> less a b = true.
(** [v] is in [l] and no element equivalent to it is there before it. *)
Definition first_of_its_class (l : list V) (v : V) : Prop :=
  exists i, nth_error l i = Some v /\ forall j u, j < i -> nth_error l j = Some u -> equivalent less u v = false.
(** [r] has the first element of every class of equivalent elements of [l], in increasing order. *)
Definition uniques (l r : list V) : Prop :=
  increasing r /\ forall v, In v r <-> first_of_its_class l v.
End SpecUnique.
