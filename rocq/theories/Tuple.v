(** * tv::tuple, tuple_cat and transform

    A tuple is the list of its elements; what depends on the type of element [i] is a function of [i]. *)

From Coq Require Import List Arith Bool.
Import ListNotations.

Local Notation "'let?' x := m 'in' k" := (match m with Some x => k | None => None end) (at level 200, x pattern).

Section Model.
Context {A : Type}.

(** tv/tuple.cpp 36-46: [t[i]]; there is no element outside the tuple, so [None] does not compile. *)
Definition element (t : list A) (i : nat) : option A := nth_error t i.

(** tv/tuple.cpp 135-141: a fold with [or] over the indexes: the comparison of one pair is assigned to [cmp]; the fold stops
    when it is not equal. [compare i]: operator<=> of the elements at [i]. *)
Fixpoint spaceship_from (compare : nat -> A -> A -> comparison) (indexes : list nat) (lhs rhs : list A) (cmp : comparison) : option comparison :=
  match indexes with
  | [] => Some cmp
  | i :: indexes =>
      let? a := element lhs i in
      let? b := element rhs i in
      let cmp := compare i a b in
      match cmp with
      | Eq => spaceship_from compare indexes lhs rhs cmp
      | _ => Some cmp
      end
  end.
Definition spaceship (compare : nat -> A -> A -> comparison) (lhs rhs : list A) : option comparison :=
  if length lhs =? length rhs then spaceship_from compare (seq 0 (length lhs)) lhs rhs Eq else None.

(** tv/tuple.cpp 143-147 *)
Fixpoint equal_from (eqb : nat -> A -> A -> bool) (indexes : list nat) (lhs rhs : list A) : option bool :=
  match indexes with
  | [] => Some true
  | i :: indexes =>
      let? a := element lhs i in
      let? b := element rhs i in
      if eqb i a b then equal_from eqb indexes lhs rhs else Some false
  end.
Definition tuple_equal (eqb : nat -> A -> A -> bool) (lhs rhs : list A) : option bool :=
  if length lhs =? length rhs then equal_from eqb (seq 0 (length lhs)) lhs rhs else None.

(** tv/tuple_cat.cpp 28-36 *)
Definition add_pack (outer size : nat) : list (nat * nat) := map (fun inner => (outer, inner)) (seq 0 size).
(** tv/tuple_cat.cpp 38-46 *)
Fixpoint make_indexes (outer : nat) (sizes : list nat) : list (nat * nat) :=
  match sizes with
  | [] => []
  | size :: sizes => add_pack outer size ++ make_indexes (S outer) sizes
  end.
Fixpoint all_of {B C} (f : B -> option C) (l : list B) : option (list C) :=
  match l with
  | [] => Some []
  | x :: l => let? y := f x in let? ys := all_of f l in Some (y :: ys)
  end.
(** tv/tuple_cat.cpp 49-62 *)
Definition tuple_cat (tuples : list (list A)) : option (list A) :=
  let indexes := make_indexes 0 (map (@length A) tuples) in
  all_of (fun j => let? p := nth_error indexes j in
                   let? t := nth_error tuples (fst p) in
                   element t (snd p)) (seq 0 (length indexes)).

(** tv/transform.cpp 22-42: all tuples have the same size; no tuples give an empty tuple. *)
Definition transform {B} (f : list A -> B) (tuples : list (list A)) : option (list B) :=
  let size := match tuples with [] => 0 | t :: _ => length t end in
  if forallb (fun t => length t =? size) tuples then
    all_of (fun i => let? args := all_of (fun t => element t i) tuples in Some (f args)) (seq 0 size)
  else None.
End Model.
