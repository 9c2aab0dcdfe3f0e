(** * Ranges and their iterators

    A range of the library as its iterator operations see it. The views (Views.v) turn one such range into another, so a view of a
    view is modelled by composing the definitions. *)

From Coq Require Import List ZArith Bool.
Import ListNotations.
Local Open Scope Z_scope.

(** The outcome of an operation: a value, undefined behaviour (a failed BOUNDED_ASSERT or assume_in_range among it), an exception,
    or a loop that needs more than the given number of steps. *)
Inductive res (A : Type) : Type := Val (a : A) | Undefined | Thrown | Running.
Arguments Val {A} a.
Arguments Undefined {A}.
Arguments Thrown {A}.
Arguments Running {A}.

Definition bind {A B} (e : res A) (k : A -> res B) : res B :=
  match e with Val a => k a | Undefined => Undefined | Thrown => Thrown | Running => Running end.
Notation "'let*' x ':=' e 'in' k" := (bind e (fun x => k)) (at level 200, x name, e at level 100, k at level 200).
(** bounded::assume_in_range and BOUNDED_ASSERT *)
Definition assume {A} (c : bool) (e : res A) : res A := if c then e else Undefined.
(** Evaluating an expression for each element of a pack. *)
Fixpoint each {A B} (f : A -> res B) (l : list A) : res (list B) :=
  match l with
  | [] => Val []
  | a :: l => let* b := f a in let* bs := each f l in Val (b :: bs)
  end.
(** The fold expressions (... and e) and (... or e). *)
Fixpoint all_of {A} (f : A -> res bool) (l : list A) : res bool :=
  match l with
  | [] => Val true
  | a :: l => let* c := f a in if c then all_of f l else Val false
  end.
Fixpoint any_of {A} (f : A -> res bool) (l : list A) : res bool :=
  match l with
  | [] => Val false
  | a :: l => let* c := f a in if c then Val true else any_of f l
  end.
Definition negated (e : res bool) : res bool := let* c := e in Val (negb c).

(** A range with iterators of type [I] to elements of type [A]. An operation that the iterators do not have is [None].
    - [first]: begin(range)
    - [stop it]: it == end(range)
    - [get it], [next it]: *it and it + 1
    - [same], [order], [minus]: ==, <=> and - of two iterators
    - [last]: end(range), when it is an iterator
    - [prev]: it - 1
    - [plus]: it + offset, also for a negative offset when [backward]
    - [reach]: the largest value of difference_type
    - [size]: size(range)
    An iterator that is only moved and never copied is modelled the same way: it is its state. *)
Record range (I A : Type) : Type := Range {
  first : res I;
  stop : I -> res bool;
  get : I -> res A;
  next : I -> res I;
  same : option (I -> I -> res bool);
  last : option (res I);
  prev : option (I -> res I);
  plus : option (I -> Z -> res I);
  backward : bool;
  minus : option (I -> I -> res Z);
  order : option (I -> I -> res comparison);
  reach : Z;
  size : option (res Z) }.
Arguments Range {I A}.
Arguments first {I A}. Arguments stop {I A}. Arguments get {I A}. Arguments next {I A}. Arguments same {I A}.
Arguments last {I A}. Arguments prev {I A}. Arguments plus {I A}. Arguments backward {I A}. Arguments minus {I A}.
Arguments order {I A}. Arguments reach {I A}. Arguments size {I A}.

(** An array of the elements [xs] in a type that can hold [max] (contiguous_iterator.cpp 28-110): an iterator is an index. Going
    outside of the array is undefined, and so is reading its end. *)
Definition array_range {A} (max : Z) (xs : list A) : range Z A :=
  let n := Z.of_nat (length xs) in
  let plus_ := fun i d => assume ((0 <=? i + d) && (i + d <=? n)) (Val (i + d)) in
  Range (Val 0)
    (fun i => Val (i =? n))
    (fun i => if 0 <=? i then match nth_error xs (Z.to_nat i) with Some x => Val x | None => Undefined end else Undefined)
    (fun i => plus_ i 1)
    (Some (fun i j => Val (i =? j)))
    (Some (Val n))
    (Some (fun i => plus_ i (-1)))
    (Some plus_) true
    (Some (fun i j => Val (i - j)))
    (Some (fun i j => Val (i ?= j)))
    max
    (Some (Val n)).
(** The same range seen through iterators that can do less: bidirectional ones without a size, forward ones, and input ones. *)
Definition as_bidirectional {I A} (r : range I A) : range I A :=
  Range (first r) (stop r) (get r) (next r) (same r) (last r) (prev r) None false None None (reach r) None.
Definition as_forward {I A} (r : range I A) : range I A :=
  Range (first r) (stop r) (get r) (next r) (same r) None None None false None None (reach r) None.
Definition as_input {I A} (r : range I A) : range I A :=
  Range (first r) (stop r) (get r) (next r) None None None None false None None (reach r) None.

(** find.cpp 26-34 *)
Fixpoint find_if {I A} (fuel : nat) (r : range I A) (predicate : A -> bool) (it : I) : res I :=
  match fuel with
  | O => Running
  | S fuel =>
      let* e := stop r it in
      if e then Val it
      else
        let* x := get r it in
        if predicate x then Val it
        else let* it := next r it in find_if fuel r predicate it
  end.

(** What a range-based for loop sees: the elements in order, up to the end. *)
Fixpoint visit_from {I A} (fuel : nat) (r : range I A) (it : I) : res (list A) :=
  match fuel with
  | O => Running
  | S fuel =>
      let* e := stop r it in
      if e then Val []
      else
        let* x := get r it in
        let* it := next r it in
        let* xs := visit_from fuel r it in
        Val (x :: xs)
  end.
Definition visit {I A} (fuel : nat) (r : range I A) : res (list A) :=
  let* it := first r in visit_from fuel r it.
