(** * Searching, partitioning and introsort

    Models containers/algorithms/find.cpp, all_any_none.cpp, partition.cpp, binary_search.cpp, minmax_element.cpp and
    sort/sort.cpp on the memory of Mem.v. An iterator into the range is an index into the block [p]; a range is
    [first, last). Calling a predicate or a comparison reads the objects it is given and may throw. *)

From Coq Require Import List Arith Bool.
From Verif Require Import Mem Sort.
Import ListNotations.
Local Open Scope nat_scope.

Section Algo.
Context {V : Type} (moved : V -> V).
Local Notation M := (M V).

(** Calling a predicate on [*it]. *)
Definition test_at {X} (p : ptr) (pr : V -> bool) (i : nat) : M X bool :=
  bind (load p i) (fun v => bind may_throw (fun _ => ret (pr v))).
(** The number of increments from [first] to [last]. A loop [first != last] with [last] before [first] runs out of the range. *)
Definition distance {X} (first last : nat) : M X nat :=
  if first <=? last then ret (last - first) else bad Outside.
(** std::not_fn *)
Definition not_fn {X} (test : nat -> M X bool) (i : nat) : M X bool :=
  bind (test i) (fun c => ret (negb c)).

(** find.cpp 26-34: [n] iterations are left. *)
Fixpoint find_if_loop {X} (test : nat -> M X bool) (first n : nat) : M X nat :=
  match n with
  | 0 => ret first
  | S n => bind (test first) (fun c => if c then ret first else find_if_loop test (S first) n)
  end.
Definition find_if {X} (test : nat -> M X bool) (first last : nat) : M X nat :=
  bind (distance first last) (find_if_loop test first).
(** find.cpp 45-54: [it] is [first + n]. *)
Fixpoint find_last_if_loop {X} (test : nat -> M X bool) (first n last : nat) : M X nat :=
  match n with
  | 0 => ret last
  | S n => bind (test (first + n)) (fun c => if c then ret (first + n) else find_last_if_loop test first n last)
  end.
Definition find_last_if {X} (test : nat -> M X bool) (first last : nat) : M X nat :=
  bind (distance first last) (fun n => find_last_if_loop test first n last).
(** find.cpp 65-68, 79-82 *)
Definition find_if_not {X} (test : nat -> M X bool) (first last : nat) : M X nat := find_if (not_fn test) first last.
Definition find_last_if_not {X} (test : nat -> M X bool) (first last : nat) : M X nat := find_last_if (not_fn test) first last.
(** find.cpp 93-96, 107-110 *)
Definition find {X} (eqb : V -> V -> bool) (p : ptr) (value : V) (first last : nat) : M X nat :=
  find_if (test_at p (fun v => eqb v value)) first last.
Definition find_last {X} (eqb : V -> V -> bool) (p : ptr) (value : V) (first last : nat) : M X nat :=
  find_last_if (test_at p (fun v => eqb v value)) first last.

(** all_any_none.cpp 26-28, 55-57, 84-86 *)
Definition all {X} (test : nat -> M X bool) (first last : nat) : M X bool :=
  bind (find_if_not test first last) (fun it => ret (it =? last)).
Definition any {X} (test : nat -> M X bool) (first last : nat) : M X bool :=
  bind (find_if test first last) (fun it => ret (negb (it =? last))).
Definition none {X} (test : nat -> M X bool) (first last : nat) : M X bool :=
  bind (find_if test first last) (fun it => ret (it =? last)).

(** partition.cpp 31-36 *)
Definition is_partitioned {X} (test : nat -> M X bool) (first last : nat) : M X bool :=
  bind (find_if_not test first last) (fun it =>
  bind (find_if test it last) (fun it' => ret (it' =? last))).

(** partition.cpp 38-57. [fuel] is never used up when it is more than [count]. *)
Fixpoint partition_point_loop {X} (fuel : nat) (test : nat -> M X bool) (first count : nat) : M X nat :=
  match fuel with
  | 0 => bad Broken
  | S fuel =>
      if count =? 0 then ret first
      else
        let step := count / 2 in
        let it := first + step in
        bind (test it) (fun c =>
        if c then partition_point_loop fuel test (S it) (count - (step + 1))
        else partition_point_loop fuel test first step)
  end.
Definition partition_point {X} (test : nat -> M X bool) (first count : nat) : M X nat :=
  partition_point_loop (S count) test first count.

(** binary_search.cpp 21-28, 31-38 *)
Definition lower_bound {X} (lt : V -> V -> bool) (p : ptr) (value : V) (first count : nat) : M X nat :=
  partition_point (test_at p (fun element => lt element value)) first count.
Definition upper_bound {X} (lt : V -> V -> bool) (p : ptr) (value : V) (first count : nat) : M X nat :=
  partition_point (test_at p (fun element => negb (lt value element))) first count.
(** binary_search.cpp 42-53 *)
Definition equal_range {X} (lt : V -> V -> bool) (p : ptr) (value : V) (first count : nat) : M X (nat * nat) :=
  bind (lower_bound lt p value first count) (fun it =>
  bind (distance it (first + count)) (fun n =>
  bind (upper_bound lt p value it n) (fun it' => ret (it, it')))).
(** binary_search.cpp 58-66 *)
Definition binary_search {X} (lt : V -> V -> bool) (p : ptr) (value : V) (first count : nat) : M X bool :=
  bind (lower_bound lt p value first count) (fun it =>
  if it =? first + count then ret false
  else test_at p (fun element => negb (lt value element)) it).

(** minmax_element.cpp 26-38: the rest of the loop, [n] elements from [it] on. *)
Fixpoint min_element_loop {X} (compare : V -> V -> bool) (p : ptr) (smallest it n : nat) : M X nat :=
  match n with
  | 0 => ret smallest
  | S n => bind (less_at compare p it p smallest) (fun c =>
           min_element_loop compare p (if c then it else smallest) (S it) n)
  end.
Definition min_element {X} (compare : V -> V -> bool) (p : ptr) (first count : nat) : M X nat :=
  match count with
  | 0 => ret first
  | S n => min_element_loop compare p first (S first) n
  end.
(** minmax_element.cpp 44-49 *)
Definition max_element {X} (greater : V -> V -> bool) (p : ptr) (first count : nat) : M X nat :=
  min_element (fun lhs rhs => negb (greater rhs lhs)) p first count.

(** partition.cpp 71-78: [last] is [first + n] before it is decremented. *)
Fixpoint advance_last {X} (test : nat -> M X bool) (first n : nat) : M X nat :=
  match n with
  | 0 => ret first
  | S n => bind (test (first + n)) (fun c => if c then ret (first + n) else advance_last test first n)
  end.
(** partition.cpp 81-88 *)
Fixpoint partition_loop {X} (fuel : nat) (p : ptr) (test : nat -> M X bool) (first last : nat) : M X nat :=
  match fuel with
  | 0 => bad Broken
  | S fuel =>
      if first =? last then ret first
      else
        bind (swap_at p first last) (fun _ =>
        bind (find_if_not test first last) (fun first =>
        if first =? last then ret first
        else bind (distance first last) (fun n =>
             bind (advance_last test first n) (fun last => partition_loop fuel p test first last))))
  end.
(** partition.cpp 64-101 for a [last] that can be decremented. *)
Definition partition {X} (p : ptr) (test : nat -> M X bool) (first last : nat) : M X nat :=
  bind (find_if_not test first last) (fun first' =>
  bind (distance first' last) (fun n =>
  bind (advance_last test first' n) (fun last' => partition_loop (S (last - first)) p test first' last'))).
(** partition.cpp 93-98: [n] elements from [it] on. *)
Fixpoint partition_forward_loop {X} (p : ptr) (test : nat -> M X bool) (first it n : nat) : M X nat :=
  match n with
  | 0 => ret first
  | S n => bind (test it) (fun c =>
           if c then bind (swap_at p it first) (fun _ => partition_forward_loop p test (S first) (S it) n)
           else partition_forward_loop p test first (S it) n)
  end.
(** partition.cpp 64-101 for other sentinels. *)
Definition partition_forward {X} (p : ptr) (test : nat -> M X bool) (first last : nat) : M X nat :=
  bind (find_if_not test first last) (fun first' =>
  if first' =? last then ret first'
  else bind (distance (S first') last) (fun n => partition_forward_loop p test first' (S first') n)).

(** partition.cpp 117-132. The predicate compares with [*middle], whatever is there when it is called. *)
Fixpoint iterator_partition_loop {X} (fuel : nat) (lt : V -> V -> bool) (p : ptr) (first middle last : nat) : M X nat :=
  match fuel with
  | 0 => bad Broken
  | S fuel =>
      let predicate i := less_at lt p i p middle in
      bind (find_if_not predicate first middle) (fun first =>
      if first =? last then ret first
      else
        bind (find_last_if predicate (S first) last) (fun last_less_than =>
        if last_less_than =? last then ret first
        else
          bind (swap_at p first last_less_than) (fun _ =>
          iterator_partition_loop fuel lt p (S first) (if first =? middle then last_less_than else middle) last_less_than)))
  end.
(** partition.cpp 112-134 *)
Definition iterator_partition {X} (lt : V -> V -> bool) (p : ptr) (first middle last : nat) : M X nat :=
  bind (require ((first =? last) || negb (middle =? last))) (fun _ =>
  iterator_partition_loop (S (last - first)) lt p first middle last).

(** sort.cpp 46-77. [heap_sort] (sort.cpp 36-41) is std::make_heap and std::sort_heap: a parameter. The recursion is on [depth]. *)
Fixpoint introsort {X} (heap_sort : ptr -> nat -> nat -> M X unit) (lt : V -> V -> bool) (cheap : bool)
    (depth : nat) (p : ptr) (first length : nat) : M X unit :=
  small_size_optimized_sort moved lt cheap p first length
    match depth with
    | 0 => heap_sort p first length
    | S next_depth =>
        let last := first + length in
        let median := first + length / 2 in
        let before_last := last - 1 in
        bind (if 1000 <=? length
              then run moved lt p [first; first + length / 4; median; median + length / 4; before_last] None 0 in_place_5
              else run moved lt p [first; median; before_last] None 0 in_place_3) (fun _ =>
        bind (iterator_partition lt p first median last) (fun median =>
        bind (distance first median) (fun n1 =>
        bind (distance median last) (fun n2 =>
        bind (introsort heap_sort lt cheap next_depth p first n1) (fun _ =>
        introsort heap_sort lt cheap next_depth p median n2)))))
    end.
(** sort.cpp 79-96: [size] elements, of a range that can have two or more. The BOUNDED_ASSERT of line 91 is not checked in the release
    configuration; that it holds is a consequence of the property. *)
Definition new_sort {X} (heap_sort : ptr -> nat -> nat -> M X unit) (lt : V -> V -> bool) (cheap : bool)
    (p : ptr) (first size : nat) : M X unit :=
  introsort heap_sort lt cheap (2 * Nat.log2 size) p first size.

End Algo.
