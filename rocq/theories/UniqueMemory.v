(** * unique and unique_inplace_merge in memory, and flat maps that are made from ranges

    Models containers/algorithms/unique.cpp 42-200 and containers/flat_map.cpp 80-102, 132-145, 266-273 on the storage of Mem.v: Unique.v and
    FlatMap.v are about the values alone, here every comparison may throw, and so may allocating the temporary array. [moved v] is what is left of
    [v] when it is moved from, and [self_moved v] what is left when it is moved to itself. Moving does not throw. *)

From Coq Require Import List Arith Bool.
From Verif Require Import Mem Vec DynArray.
From Verif Require Algo Unique.
Import ListNotations.
Local Open Scope nat_scope.

Section UniqueMemory.
Context {V : Type} (moved self_moved : V -> V).
Local Notation M := (M V).

(** [compare(p[i], q[j])] *)
Definition compare_at {X} (compare : V -> V -> bool) (p : ptr) (i : nat) (q : ptr) (j : nat) : M X bool :=
  u <- load p i ;; v <- load q j ;; may_throw ;;; ret (compare u v).
Definition same_place (p : ptr) (i : nat) (q : ptr) (j : nat) : bool :=
  match p, q with Some b, Some c => (b =? c) && (i =? j) | _, _ => false end.
(** [p[i] = std::move(q[j])] *)
Definition move_assign {X} (p : ptr) (i : nat) (q : ptr) (j : nat) : M X unit :=
  if same_place p i q j then v <- load p i ;; store p i (self_moved v)
  else assign_at moved p i (MoveOf q j).

(** unique_common (lines 42-52) for a move_range: [n] elements of the input are left, from [p[i]] on; [q[o]] is the output. *)
Fixpoint mem_unique_common {X} (equal : V -> V -> bool) (n : nat) (p : ptr) (i : nat) (q : ptr) (o : nat) : M X nat :=
  match n with
  | 0 => ret (S o)
  | S n =>
      same <- compare_at equal q o p i ;;
      if same : bool then mem_unique_common equal n p (S i) q o
      else move_assign q (S o) p i ;;; mem_unique_common equal n p (S i) q (S o)
  end.
(** unique_copy (lines 54-65) for a move_range *)
Definition mem_unique_move {X} (equal : V -> V -> bool) (p : ptr) (i n : nat) (q : ptr) (o : nat) : M X nat :=
  match n with
  | 0 => ret o
  | S n => move_assign q o p i ;;; mem_unique_common equal n p (S i) q o
  end.
(** The loop of find_first_equal (lines 73-80) *)
Fixpoint mem_find_first_equal_loop {X} (equal : V -> V -> bool) (n : nat) (p : ptr) (previous first : nat) : M X nat :=
  match n with
  | 0 => ret first
  | S n =>
      same <- compare_at equal p previous p first ;;
      if same : bool then ret first else mem_find_first_equal_loop equal n p first (S first)
  end.
(** find_first_equal (lines 68-82) *)
Definition mem_find_first_equal {X} (equal : V -> V -> bool) (p : ptr) (first n : nat) : M X nat :=
  match n with
  | 0 => ret first
  | S n => mem_find_first_equal_loop equal n p first (S first)
  end.
(** unique (lines 85-101) *)
Definition mem_unique {X} (equal : V -> V -> bool) (p : ptr) (first n : nat) : M X nat :=
  equal_element <- mem_find_first_equal equal p first n ;;
  if equal_element =? first + n then ret equal_element
  else
    other <- Algo.find_if_loop (fun i => same <- compare_at equal p equal_element p i ;; ret (negb same)) (S equal_element) (first + n - S equal_element) ;;
    if other =? first + n then ret equal_element
    else
      move_assign p equal_element p other ;;;
      mem_unique_common equal (first + n - S other) p (S other) p equal_element.

Context (less : V -> V -> bool).
(** next_greater (lines 113-116): the element to compare with is [q[o]]. *)
Definition mem_next_greater {X} (p : ptr) (first n : nat) (q : ptr) (o : nat) : M X nat :=
  Algo.find_if_loop (fun i => compare_at less q o p i) first n.
(** unique_merge_copy (lines 119-135) for two move_ranges, with unique_copy_less (103-106). [fuel] is more than the number of iterations. *)
Fixpoint mem_unique_merge {X} (fuel : nat) (p1 : ptr) (first1 n1 : nat) (p2 : ptr) (first2 n2 : nat) (q : ptr) (output : nat) : M X nat :=
  match fuel with
  | 0 => bad Outside
  | S fuel =>
      match n1, n2 with
      | S _, S _ =>
          second <- compare_at less p2 first2 p1 first1 ;;
          (if second : bool then move_assign q output p2 first2 else move_assign q output p1 first1) ;;;
          let from1 := if second : bool then first1 else S first1 in
          let from2 := if second : bool then S first2 else first2 in
          next1 <- mem_next_greater p1 from1 (first1 + n1 - from1) q output ;;
          next2 <- mem_next_greater p2 from2 (first2 + n2 - from2) q output ;;
          mem_unique_merge fuel p1 next1 (first1 + n1 - next1) p2 next2 (first2 + n2 - next2) q (S output)
      | S _, 0 => mem_unique_move (Unique.not_less less) p1 first1 n1 q output
      | 0, _ => mem_unique_move (Unique.not_less less) p2 first2 n2 q output
      end
  end.
(** [storage_type(::containers::move_range(subrange(p + first, p + first + n)))] (lines 154, 188-191), used and destroyed. The type of its size is
    large enough for any number of elements. *)
Definition with_temporary {X A} (p : ptr) (first n : nat) (body : ptr -> M X A) : M X A :=
  with_local (on_unit (da_from moved 0 n (map (MoveOf p) (seq first n)))) da_destroy
    (xt <- get ;; on_fst (body (da_data (snd xt)))).
(** find_first_to_move (lines 164-179): [before] and [first], with [n] elements from [first] to [middle]. *)
Fixpoint mem_find_first_to_move {X} (n : nat) (p : ptr) (before first middle : nat) : M X (nat * nat) :=
  match n with
  | 0 => ret (before, first)
  | S n =>
      found <- compare_at less p middle p first ;;
      if found : bool then ret (before, first) else mem_find_first_to_move n p first (S first) middle
  end.
(** unique_inplace_merge (lines 138-200). The BOUNDED_ASSERTs of lines 140-145 are not checked in the release configuration. *)
Definition mem_unique_inplace_merge {X} (p : ptr) (first middle last : nat) : M X nat :=
  if (first =? middle) || (middle =? last) then mem_unique (Unique.not_less less) p first (last - first)
  else
    at_beginning <- compare_at less p middle p first ;;
    if at_beginning : bool then
      with_temporary p first (middle - first) (fun temp =>
        mem_unique_merge (S (middle - first + (last - middle))) temp 0 (middle - first) p middle (last - middle) p first)
    else
      found <- mem_find_first_to_move (middle - S first) p first (S first) middle ;;
      let before_target := fst found in
      let target := snd found in
      if target =? middle then mem_unique (Unique.not_less less) p before_target (last - before_target)
      else
        with_temporary p target (middle - target) (fun temp =>
          new_middle <- mem_next_greater p middle (last - middle) p before_target ;;
          mem_unique_merge (S (middle - target + (last - new_middle))) temp 0 (middle - target) p new_middle (last - new_middle) p target).

(** ska_sort and std::inplace_merge, which rearrange elements: what they do when nothing throws is [result]; when they throw, the elements are left in
    the order [interrupted]. *)
Fixpoint read_elements {X} (p : ptr) (first n : nat) : M X (list V) :=
  match n with
  | 0 => ret []
  | S n => v <- load p first ;; vs <- read_elements p (S first) n ;; ret (v :: vs)
  end.
Fixpoint write_elements {X} (p : ptr) (first : nat) (vs : list V) : M X unit :=
  match vs with
  | [] => ret tt
  | v :: vs => store p first v ;;; write_elements p (S first) vs
  end.
Definition mem_rearrange {X} (result : list V -> option (list V)) (interrupted : list V -> list V) (p : ptr) (first n : nat) : M X unit :=
  vs <- read_elements p first n ;;
  rethrow_after may_throw (write_elements p first (interrupted vs)) ;;;
  match result vs with Some vs => write_elements p first vs | None => bad Broken end.
End UniqueMemory.

Section FlatRanges.
Context {K T : Type} (moved self_moved : K * T -> K * T) (key_less key_equal : K -> K -> bool).
Local Notation element := (K * T)%type.
Context (ska_sort : list element -> option (list element)) (interrupted : list element -> list element).
Context {O : Type} (C : container (V := element) O).
Local Notation M := (M element).
Local Notation less := (fun a b : element => key_less (fst a) (fst b)).

(** merge_sorted_and_unsorted<false> (lines 80-102) *)
Definition mem_merge_sorted_and_unsorted (midpoint : nat) : M O unit :=
  o <- get ;;
  mem_rearrange ska_sort interrupted (c_data C o) midpoint (c_size C o - midpoint) ;;;
  position <- mem_unique_inplace_merge moved self_moved less (c_data C o) 0 midpoint (c_size C o) ;;
  erase_to_end C position.
(** insert of a range (lines 266-273) whose size is known or not *)
Definition mem_flat_insert (sized : bool) (elements : list element) : M O unit :=
  o <- get ;;
  append moved C (Source (map Supply elements) sized) ;;;
  mem_merge_sorted_and_unsorted (c_size C o).
(** unique_ska_sort (ska_sort.cpp 41-51) *)
Definition mem_unique_ska_sort : M O unit :=
  o <- get ;;
  mem_rearrange ska_sort interrupted (c_data C o) 0 (c_size C o) ;;;
  position <- mem_unique moved self_moved (fun a b => key_equal (fst a) (fst b)) (c_data C o) 0 (c_size C o) ;;
  erase_to_end C position.
End FlatRanges.
(** The constructors from a range (flat_map.cpp 132-145, 170-184) whose size is known: an exception in the body destroys the container. *)
Definition mem_flat_from {K T} (moved self_moved : K * T -> K * T) (key_equal : K -> K -> bool) (ska_sort : list (K * T) -> option (list (K * T)))
    (interrupted : list (K * T) -> list (K * T)) (maximum : nat) (elements : list (K * T)) : M (K * T) unit bvector :=
  fun x w =>
    match bv_from moved 0 maximum false (Source (map Supply elements) true) x w with
    | Ret x o w =>
        match mem_unique_ska_sort moved self_moved key_equal ska_sort interrupted (bounded_vector moved 0 maximum) o w with
        | Ret o _ w => Ret x o w
        | Exc o w => match bv_destroy o w with
                     | Ret _ _ w => Exc x w
                     | Exc _ _ => Bad Terminated
                     | Bad f => Bad f
                     end
        | Bad f => Bad f
        end
    | Exc x w => Exc x w
    | Bad f => Bad f
    end.
