(** * Algorithms on whole ranges

    Models containers/algorithms/compare.cpp, mismatch.cpp, starts_with.cpp, ends_with.cpp, count.cpp, distance.cpp and set.cpp, and
    containers/at.cpp, front.cpp, back.cpp, is_empty.cpp and size.cpp, on the ranges of Range.v. Functions and predicates given by the
    user are functions without effects. [fuel] bounds the loops. *)

From Coq Require Import List ZArith Bool.
From Verif Require Import Range Views.
Import ListNotations.
Local Open Scope Z_scope.

(** std::partial_ordering; the stronger orderings are never unordered. *)
Inductive ordering : Type := Less | Equivalent | Greater | Unordered.
(** result != 0 *)
Definition differs (o : ordering) : bool := match o with Equivalent => false | _ => true end.
(** result < 0 and result > 0 *)
Definition is_less (o : ordering) : bool := match o with Less => true | _ => false end.
Definition is_greater (o : ordering) : bool := match o with Greater => true | _ => false end.
Definition of_comparison (c : comparison) : ordering := match c with Lt => Less | Eq => Equivalent | Gt => Greater end.

Section Two.
Context {I J A B : Type} (r1 : range I A) (r2 : range J B).

(** The BOUNDED_ASSERT of compare.cpp 38-40 and 98-100 *)
Definition assert_same_size {T} (e : res T) : res T :=
  match size r1, size r2 with
  | Some size1, Some size2 => let* n1 := size1 in let* n2 := size2 in assume (n1 =? n2) e
  | _, _ => e
  end.

(** compare.cpp 44-49 *)
Fixpoint compare_same_size_loop (fuel : nat) (cmp : A -> B -> ordering) (first1 : I) (first2 : J) : res ordering :=
  match fuel with
  | O => Running
  | S fuel =>
      let* e := stop r1 first1 in
      if e then Val Equivalent
      else
        let* x := get r1 first1 in
        let* y := get r2 first2 in
        if differs (cmp x y) then Val (cmp x y)
        else
          let* first1 := next r1 first1 in
          let* first2 := next r2 first2 in
          compare_same_size_loop fuel cmp first1 first2
  end.
(** compare.cpp 32-50 *)
Definition lexicographical_compare_assume_same_size (fuel : nat) (cmp : A -> B -> ordering) : res ordering :=
  assert_same_size (
    let* first1 := first r1 in
    let* first2 := first r2 in
    compare_same_size_loop fuel cmp first1 first2).

(** compare.cpp 62-70 *)
Fixpoint compare_loop (fuel : nat) (cmp : A -> B -> ordering) (first1 : I) (first2 : J) : res ordering :=
  match fuel with
  | O => Running
  | S fuel =>
      let* e1 := stop r1 first1 in
      let* e2 := if e1 then Val true else stop r2 first2 in
      if e1 || e2 then
        let* e1 := stop r1 first1 in
        if negb e1 then Val Greater
        else
          let* e2 := stop r2 first2 in
          if negb e2 then Val Less else Val Equivalent
      else
        let* x := get r1 first1 in
        let* y := get r2 first2 in
        if differs (cmp x y) then Val (cmp x y)
        else
          let* first1 := next r1 first1 in
          let* first2 := next r2 first2 in
          compare_loop fuel cmp first1 first2
  end.
(** compare.cpp 52-71 *)
Definition lexicographical_compare (fuel : nat) (cmp : A -> B -> ordering) : res ordering :=
  let* first1 := first r1 in
  let* first2 := first r2 in
  compare_loop fuel cmp first1 first2.

(** compare.cpp 73-89; both ranges need a size. *)
Definition shortlex_compare (fuel : nat) (cmp : A -> B -> ordering) : option (res ordering) :=
  match size r1, size r2 with
  | Some size1, Some size2 => Some (
      let* n1 := size1 in
      let* n2 := size2 in
      if differs (of_comparison (n1 ?= n2)) then Val (of_comparison (n1 ?= n2))
      else lexicographical_compare_assume_same_size fuel cmp)
  | _, _ => None
  end.

(** compare.cpp 104-109 *)
Fixpoint equal_same_size_loop (fuel : nat) (cmp : A -> B -> bool) (first1 : I) (first2 : J) : res bool :=
  match fuel with
  | O => Running
  | S fuel =>
      let* e := stop r1 first1 in
      if e then Val true
      else
        let* x := get r1 first1 in
        let* y := get r2 first2 in
        if negb (cmp x y) then Val false
        else
          let* first1 := next r1 first1 in
          let* first2 := next r2 first2 in
          equal_same_size_loop fuel cmp first1 first2
  end.
(** compare.cpp 92-110 *)
Definition equal_assume_same_size (fuel : nat) (cmp : A -> B -> bool) : res bool :=
  assert_same_size (
    let* first1 := first r1 in
    let* first2 := first r2 in
    equal_same_size_loop fuel cmp first1 first2).
(** compare.cpp 132-137 *)
Fixpoint equal_loop (fuel : nat) (cmp : A -> B -> bool) (first1 : I) (first2 : J) : res bool :=
  match fuel with
  | O => Running
  | S fuel =>
      let* e1 := stop r1 first1 in
      let* e2 := if e1 then Val true else stop r2 first2 in
      if e1 || e2 then
        let* e1 := stop r1 first1 in
        if e1 then stop r2 first2 else Val false
      else
        let* x := get r1 first1 in
        let* y := get r2 first2 in
        if negb (cmp x y) then Val false
        else
          let* first1 := next r1 first1 in
          let* first2 := next r2 first2 in
          equal_loop fuel cmp first1 first2
  end.
(** compare.cpp 113-139 *)
Definition equal (fuel : nat) (cmp : A -> B -> bool) : res bool :=
  match size r1, size r2 with
  | Some size1, Some size2 =>
      let* n1 := size1 in
      let* n2 := size2 in
      if n1 =? n2 then equal_assume_same_size fuel cmp else Val false
  | _, _ =>
      let* first1 := first r1 in
      let* first2 := first r2 in
      equal_loop fuel cmp first1 first2
  end.

(** mismatch.cpp 30-34 *)
Fixpoint mismatch_loop (fuel : nat) (predicate : A -> B -> bool) (it1 : I) (it2 : J) : res (I * J) :=
  match fuel with
  | O => Running
  | S fuel =>
      let* e1 := stop r1 it1 in
      if e1 then Val (it1, it2)
      else
        let* e2 := stop r2 it2 in
        if e2 then Val (it1, it2)
        else
          let* x := get r1 it1 in
          let* y := get r2 it2 in
          if predicate x y then
            let* it1 := next r1 it1 in
            let* it2 := next r2 it2 in
            mismatch_loop fuel predicate it1 it2
          else Val (it1, it2)
  end.
(** mismatch.cpp 20-35 *)
Definition mismatch (fuel : nat) (predicate : A -> B -> bool) : res (I * J) :=
  let* it1 := first r1 in
  let* it2 := first r2 in
  mismatch_loop fuel predicate it1 it2.

(** set.cpp 58-68, with the [comp] of 28-41 as a parameter. The iterators need an end that is an iterator (last1, last2 of the same
    types as it1, it2). *)
Fixpoint find_first_matching (fuel : nat) (comp : A -> B -> ordering) (last1 : I) (last2 : J) (it1 : I) (it2 : J) : res (I * J) :=
  match fuel with
  | O => Running
  | S fuel =>
      let* e1 := stop r1 it1 in
      let* e2 := if e1 then Val true else stop r2 it2 in
      if e1 || e2 then Val (last1, last2)
      else
        let* x := get r1 it1 in
        let* y := get r2 it2 in
        if is_less (comp x y) then
          let* it1 := next r1 it1 in find_first_matching fuel comp last1 last2 it1 it2
        else if is_greater (comp x y) then
          let* it2 := next r2 it2 in find_first_matching fuel comp last1 last2 it1 it2
        else Val (it1, it2)
  end.
End Two.

(** set.cpp 28-41: what a predicate that is less than gives. *)
Definition less_to_compare {A} (less : A -> A -> bool) (x y : A) : ordering :=
  if less x y then Less else if less y x then Greater else Equivalent.

(** sort/is_sorted.cpp 23-38 *)
Fixpoint is_sorted_loop {I A} (fuel : nat) (r : range I A) (less : A -> A -> bool) (first_ next_ : I) : res bool :=
  match fuel with
  | O => Running
  | S fuel =>
      let* e := stop r next_ in
      if e then Val true
      else
        let* y := get r next_ in
        let* x := get r first_ in
        if less y x then Val false
        else let* after := next r next_ in is_sorted_loop fuel r less next_ after
  end.
Definition is_sorted {I A} (fuel : nat) (r : range I A) (less : A -> A -> bool) : res bool :=
  let* first_ := first r in
  let* e := stop r first_ in
  if e then Val true
  else let* next_ := next r first_ in is_sorted_loop fuel r less first_ next_.

(** set.cpp 71-182 for forward ranges with a predicate that is less than. The constructor asserts that both ranges are sorted. The
    iterators are compared by the first of each pair. *)
Definition set_intersection_pair {I J A} (fuel : nat) (less : A -> A -> bool) (r1 : range I A) (r2 : range J A) : option (res (range (I * J) (A * A))) :=
  match last r1, last r2, same r1, same r2 with
  | Some end1, Some end2, Some same1, Some _ => Some (
      let* s1 := is_sorted fuel r1 less in
      assume s1 (
      let* s2 := is_sorted fuel r2 less in
      assume s2 (
      let* last1 := end1 in
      let* last2 := end2 in
      let find := find_first_matching r1 r2 fuel (less_to_compare less) last1 last2 in
      Val (Range
        (let* it1 := first r1 in let* it2 := first r2 in find it1 it2)
        (fun it => same1 (fst it) last1)
        (fun it => let* x := get r1 (fst it) in let* y := get r2 (snd it) in Val (x, y))
        (fun it => let* it1 := next r1 (fst it) in let* it2 := next r2 (snd it) in find it1 it2)
        (Some (fun a b => same1 (fst a) (fst b)))
        (Some (Val (last1, last2)))
        None None false None
        (option_map (fun order_ a b => order_ (fst a) (fst b)) (order r1))
        (Z.min (reach r1) (reach r2))
        None))))
  | _, _, _, _ => None
  end.

Section One.
Context {I A : Type} (r : range I A).

(** count.cpp 22-31: the count goes up to the largest value of difference_type (count_type.cpp 14-15). *)
Fixpoint count_if_loop (fuel : nat) (predicate : A -> bool) (it : I) (sum : Z) : res Z :=
  match fuel with
  | O => Running
  | S fuel =>
      let* e := stop r it in
      if e then Val sum
      else
        let* x := get r it in
        let* sum := if predicate x then assume (sum + 1 <=? reach r) (Val (sum + 1)) else Val sum in
        let* it := next r it in
        count_if_loop fuel predicate it sum
  end.
Definition count_if (fuel : nat) (predicate : A -> bool) : res Z :=
  let* it := first r in count_if_loop fuel predicate it 0.
(** count.cpp 33-35 *)
Definition count (fuel : nat) (equal_ : A -> A -> bool) (value : A) : res Z := count_if fuel (fun x => equal_ x value).

(** distance.cpp 24-28 *)
Fixpoint distance_loop (fuel : nat) (it : I) (difference : Z) : res Z :=
  match fuel with
  | O => Running
  | S fuel =>
      let* e := stop r it in
      if e then Val difference
      else
        let* it := next r it in
        assume (difference + 1 <=? reach r) (distance_loop fuel it (difference + 1))
  end.
(** distance.cpp 19-30 from [it] to the end of the range *)
Definition distance_to_end (fuel : nat) (it : I) : res Z :=
  match last r, minus r with
  | Some last_, Some minus_ => let* l := last_ in minus_ l it
  | _, _ => distance_loop fuel it 0
  end.

(** is_empty.cpp 24-31; [min_size] is the smallest value of range_size_t. *)
Definition is_empty (min_size : Z) : res bool :=
  if 0 <? min_size then Val false else let* it := first r in stop r it.
(** front.cpp 19-22 *)
Definition front (min_size : Z) : res A :=
  let* e := is_empty min_size in
  assume (negb e) (let* it := first r in get r it).
(** back.cpp 20-23 with advance.cpp (prev) *)
Definition back (min_size : Z) : option (res A) :=
  match last r, prev r with
  | Some last_, Some prev_ => Some (
      let* e := is_empty min_size in
      assume (negb e) (let* l := last_ in let* it := prev_ l in get r it))
  | _, _ => None
  end.
(** size.cpp 28-33: a range without a member function size. [max_size] is the largest value of range_size_t. *)
Definition size_by_difference (max_size : Z) : option (res Z) :=
  match last r, minus r with
  | Some last_, Some minus_ => Some (
      let* l := last_ in
      let* f := first r in
      let* d := minus_ l f in
      assume ((0 <=? d) && (d <=? max_size)) (Val d))
  | _, _ => None
  end.
(** at.cpp 24-31, with operator[] of the ranges (OPERATORS_BRACKET_SEQUENCE_RANGE_DEFINITIONS, external): *(begin() + index). Out of
    range it throws std::out_of_range. *)
Definition at_ (index : Z) : option (res A) :=
  match size r, plus r with
  | Some size_, Some plus_ => Some (
      let* n := size_ in
      if (0 <=? index) && (index <=? n - 1) then let* f := first r in let* it := plus_ f index in get r it else Thrown)
  | _, _ => None
  end.
(** at.cpp 33-37. It compiles for an index whose type is within 0 and the largest possible size - 1. *)
Definition at_unchecked (index : Z) : option (res A) :=
  match plus r with
  | Some plus_ => Some (let* f := first r in let* it := plus_ f index in get r it)
  | _ => None
  end.
End One.

(** starts_with.cpp 21-26; [max_size] is the largest value of the type of the size of the prefix. take is take.cpp 198-217. *)
Definition starts_with {I J A B} (fuel : nat) (cmp : A -> B -> bool) (max_size : Z) (full : range I A) (prefix : range J B) : option (res bool) :=
  match size prefix with
  | Some size_ => Some (
      let* n := size_ in
      match take_random max_size n full with
      | Some taken => equal taken prefix fuel cmp
      | None => equal (take_counted false max_size n full) prefix fuel cmp
      end)
  | None => None
  end.

(** ends_with.cpp 24-40; [max_full] is the largest value of the type of the size of [full] and [min_suffix] the smallest of that of
    [suffix]. *)
Definition ends_with {I J A B} (fuel : nat) (cmp : A -> B -> bool) (max_full min_suffix : Z) (full : range I A) (suffix : range J B) : option (res bool) :=
  match size full, size suffix with
  | Some full_size_, Some suffix_size_ =>
      if max_full <? min_suffix then Some (Val false)
      else Some (
        let* full_size := full_size_ in
        let* suffix_size := suffix_size_ in
        if full_size <? suffix_size then Val false
        else
          match drop_sized true max_full 0 (full_size - suffix_size) full with
          | Some dropped => let* d := dropped in equal d suffix fuel cmp
          | None => Undefined
          end)
  | _, _ => None
  end.
