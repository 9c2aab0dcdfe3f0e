(** * What the properties of the search, partition and sort functions say

    Nothing here is used by the model. *)

From Coq Require Import List Arith Bool Permutation.
From Verif Require Import Mem SpecVec SpecSort.
Import ListNotations.

Section SpecAlgo.
Context {V : Type}.

(** Memory after a call that changed nothing. *)
Definition unchanged (w w' : world V) : Prop := unused_names w' /\ forall b, heap w' b = heap w b.

(** A function that sorts ranges: given a range of live objects it leaves their values there, sorted, and changes nothing
    else; when a comparison throws the values are still all there. It throws only when something it calls does. *)
Definition sorts_ranges (lt : V -> V -> bool) {X} (sort : ptr -> nat -> nat -> M V X unit) : Prop :=
  forall (x : X) w b before l after, unused_names w -> range_is w b before l after ->
  ends (sort (Some b) (length before) (length l) x w)
    (fun x' _ w' => x' = x /\ unused_names w' /\ only_in b w w' /\ (~ someone_throws w -> ~ someone_throws w') /\
       exists l', range_is w' b before l' after /\ sorting lt l l')
    (fun x' w' => x' = x /\ unused_names w' /\ only_in b w w' /\ someone_throws w /\
       exists l', range_is w' b before l' after /\ Permutation l l').

(** [r] is the first index from [first] on, and before [last], of an element with [pr]; or [last], when there is none. *)
Definition first_with (pr : V -> bool) (l : list V) (first last r : nat) : Prop :=
  first <= r <= last /\ (forall i v, first <= i < r -> nth_error l i = Some v -> pr v = false) /\
  (r < last -> exists v, nth_error l r = Some v /\ pr v = true).
(** [r] is the last such index, or [last] when there is none. *)
Definition last_with (pr : V -> bool) (l : list V) (first last r : nat) : Prop :=
  (first <= r < last /\ (exists v, nth_error l r = Some v /\ pr v = true) /\
     (forall i v, r < i < last -> nth_error l i = Some v -> pr v = false)) \/
  (r = last /\ forall i v, first <= i < last -> nth_error l i = Some v -> pr v = false).

(** The first [r] elements fulfil the predicate and the others do not. *)
Definition splits (pr : V -> bool) (l : list V) (r : nat) : Prop :=
  r <= length l /\ (forall v, In v (firstn r l) -> pr v = true) /\ (forall v, In v (skipn r l) -> pr v = false).

End SpecAlgo.
