(** * Vector-like containers

    The generic operations of source/containers on containers that manage a contiguous
    block by [set_size], and two of those containers: bounded_vector (of which vector
    is the case [min_capacity = 0]) and static_vector. *)

From Coq Require Import List Arith Bool.
From Verif Require Import Mem.
Import ListNotations.

Notation "x <- m ;; k" := (bind m (fun x => k)) (at level 61, m at next level, right associativity).
Notation "m ;;; k" := (bind m (fun _ => k)) (at level 61, right associativity).

Section Containers.
Context {V : Type} (moved : V -> V).
Local Notation M := (M V).
Local Notation maker := (maker V).
Local Notation construct_at := (construct_at moved).
Local Notation assign_at := (assign_at moved).
Local Notation uninitialized_copy := (uninitialized_copy moved).
Local Notation uninitialized_relocate := (uninitialized_relocate moved).
Local Notation uninitialized_relocate_reversed := (uninitialized_relocate_reversed moved).

(** ** What the generic operations ask of a container type

    [O] is the type of the container object: its data members. The concepts can_set_size
    (containers/can_set_size.cpp 13-18) and reservable (containers/reservable.cpp 17-18) are decided by
    the type: a container that is not reservable has [c_reserve = None]. *)
Record container (O : Type) : Type := Container {
  c_data : O -> ptr;                         (* data() *)
  c_size : O -> nat;                         (* size() *)
  c_capacity : M O nat;                      (* capacity() *)
  c_set_size : nat -> M O unit;              (* set_size(n) *)
  c_default : M unit O;                      (* Container() *)
  c_destroy : M O unit;                      (* ~Container() *)
  c_move_assign : M (O * O) unit;            (* operator=(Container &&): first = std::move(second) *)
  c_reserve : option (nat -> M O unit);      (* reserve(n), if there is one *)
  c_replace : option (nat -> M O unit);      (* replace_empty_allocation(n), if there is one *)
  c_max : nat                                (* the largest value of the type of capacity() *)
}.
Arguments c_data {O}. Arguments c_size {O}. Arguments c_capacity {O}. Arguments c_set_size {O}.
Arguments c_default {O}. Arguments c_destroy {O}. Arguments c_move_assign {O}.
Arguments c_reserve {O}. Arguments c_replace {O}. Arguments c_max {O}.

(** reallocation_size.cpp 21-29 *)
Definition reallocation_size (current_capacity minimum_acceptable_capacity : nat) : nat :=
  Nat.max minimum_acceptable_capacity (current_capacity * 2).

Section Generic.
Context {O : Type} (C : container O).

(** check_in_range<Capacity>: throws unless the value is a capacity. A value below the
    smallest capacity cannot occur here and is not modelled. *)
Definition check_capacity {X} (n : nat) : M X unit := if n <=? c_max C then ret tt else throw.
(** assume_in_range<Capacity> *)
Definition assume_capacity {X} (n : nat) : M X unit := require (n <=? c_max C).

(** lazy_push_back_into_capacity.cpp 33-48, first and second case *)
Definition lazy_push_back_into_capacity (mk : maker) : M O unit :=
  o <- get ;;
  cap <- c_capacity C ;;
  require (c_size C o <? cap) ;;;
  construct_at (c_data C o) (c_size C o) mk ;;;
  c_set_size C (c_size C o + 1).

(** lazy_push_back.cpp 37-77 for containers with set_size. The returned reference is not
    modelled. *)
Definition lazy_push_back (mk : maker) : M O unit :=
  if c_max C =? 0 then throw else
  o <- get ;;
  cap <- c_capacity C ;;
  if c_size C o <? cap then lazy_push_back_into_capacity mk
  else match c_reserve C with
       | None => throw
       | Some reserve =>
           with_local (on_unit (c_default C)) (c_destroy C) (
             assume_capacity (reallocation_size cap 1) ;;;
             on_snd (reserve (reallocation_size cap 1)) ;;;
             ot <- get ;;
             construct_at (c_data C (snd ot)) (c_size C o) mk ;;;
             uninitialized_relocate (c_data C o) 0 (c_size C o) (c_data C (snd ot)) 0 ;;;
             on_fst (c_set_size C 0) ;;;
             c_move_assign C ;;;
             on_fst (c_set_size C (c_size C o + 1)))
       end.
(** push_back.cpp 21-44: the constructor is value_to_function(value): a copy or a move of the
    argument. *)
Definition push_back (mk : maker) : M O unit := lazy_push_back mk.

(** pop_back.cpp 29-37. back of an empty container is undefined. *)
Definition pop_back : M O unit :=
  o <- get ;;
  (if c_size C o =? 0 then bad Outside else ret tt) ;;;
  destroy (c_data C o) (c_size C o - 1) ;;;
  c_set_size C (c_size C o - 1).

(** clear.cpp 27-44, second case *)
Definition clear : M O unit :=
  o <- get ;;
  destroy_range (c_data C o) 0 (c_size C o) ;;;
  c_set_size C 0.

(** algorithms/erase.cpp 77-88, first case. Iterators are indexes. *)
Definition erase_to_end (position : nat) : M O unit :=
  o <- get ;;
  require (position <=? c_size C o) ;;;
  let count := c_size C o - position in
  destroy_range (c_data C o) position count ;;;
  c_set_size C (c_size C o - count).

(** erase.cpp 55-60: the loop; [fuel] is [middle - target]. Returns [source]. *)
Fixpoint erase_loop (p : ptr) (target fuel source last : nat) : M O (nat * nat) :=
  match fuel with
  | 0 => ret (target, source)
  | S fuel =>
      if source =? last then ret (target, source)
      else destroy p target ;;;
           construct_at p target (Relocate p source) ;;;
           erase_loop p (S target) fuel (S source) last
  end.
(** erase.cpp 36-69, last case. Returns the index of the returned iterator. *)
Definition erase (first middle : nat) : M O nat :=
  if first =? middle then ret middle else
  o <- get ;;
  require ((first <=? middle) && (middle <=? c_size C o)) ;;;
  let count := middle - first in
  let last := c_size C o in
  ts <- erase_loop (c_data C o) first (middle - first) middle last ;;
  (if negb (snd ts =? last)
   then uninitialized_relocate (c_data C o) (snd ts) (last - snd ts) (c_data C o) middle
   else destroy_range (c_data C o) (fst ts) (middle - fst ts)) ;;;
  c_set_size C (c_size C o - count) ;;;
  ret first.
(** erase.cpp 71-75 *)
Definition erase_one (it : nat) : M O nat :=
  o <- get ;;
  require (negb (it =? c_size C o)) ;;;
  erase it (it + 1).

(** find.cpp: the first index in [from, from + n) whose element satisfies the predicate, or
    [from + n]. Calling the predicate may throw. *)
Fixpoint find_if (p : ptr) (from n : nat) (predicate : V -> bool) : M O nat :=
  match n with
  | 0 => ret from
  | S n => v <- load p from ;;
           may_throw ;;;
           if predicate v then ret from else find_if p (S from) n predicate
  end.
(** erase.cpp 109-116: returns [new_last] and [result]. Move assignment may throw. *)
Fixpoint erase_if_loop (p : ptr) (it n new_last result : nat) (predicate : V -> bool) : M O (nat * nat) :=
  match n with
  | 0 => ret (new_last, result)
  | S n =>
      v <- load p it ;;
      may_throw ;;;
      if predicate v then erase_if_loop p (S it) n new_last result predicate
      else may_throw ;;;
           assign_at p new_last (MoveOf p it) ;;;
           erase_if_loop p (S it) n (S new_last) (S result) predicate
  end.
(** erase.cpp 90-120, second case *)
Definition erase_if (predicate : V -> bool) : M O nat :=
  o <- get ;;
  new_last <- find_if (c_data C o) 0 (c_size C o) predicate ;;
  if new_last =? c_size C o then ret 0
  else nr <- erase_if_loop (c_data C o) (S new_last) (c_size C o - S new_last) new_last 0 predicate ;;
       erase_to_end (fst nr) ;;;
       ret (snd nr).

(** exponential_force_reserve.cpp 20-31; [bounded::increase_min<1>(new_size)] requires
    [1 <= new_size]. *)
Definition exponential_force_reserve (reserve : nat -> M O unit) (current_capacity new_size : nat) : M O unit :=
  cap <- c_capacity C ;;
  require (cap <=? current_capacity) ;;;
  require (1 <=? new_size) ;;;
  check_capacity (reallocation_size current_capacity new_size) ;;;
  reserve (reallocation_size current_capacity new_size).

(** A source range: the makers of its elements, and whether its size can be found without
    consuming it (size_then_use_range.cpp 16-17). *)
Record source : Type := Source { s_elements : list maker; s_sized : bool }.

Fixpoint each_push_back (mks : list maker) : M O unit :=
  match mks with
  | [] => ret tt
  | mk :: mks => lazy_push_back mk ;;; each_push_back mks
  end.

(** take.cpp 198-203, 213-216, 91-98 (check_size_not_greater_than) around uninitialized_copy:
    a sized source that is too long is refused at the start; for one without a size, the
    comparison with the end throws when [count] elements were taken and another follows, inside
    the try block of uninitialized_copy. Returns the number of elements. *)
Fixpoint checked_copy_loop (p : ptr) (from done : nat) (mks : list maker) (count : nat) : M O unit :=
  match mks with
  | [] => ret tt
  | mk :: mks =>
      match count with
      | 0 => rethrow_after throw (destroy_range p from done)
      | S count =>
          rethrow_after (construct_at p (from + done) mk) (destroy_range p from done) ;;;
          checked_copy_loop p from (S done) mks count
      end
  end.
Definition checked_uninitialized_copy (p : ptr) (from : nat) (s : source) (count : nat) : M O unit :=
  if s_sized s
  then (if count <? length (s_elements s) then throw else ret tt) ;;;
       uninitialized_copy p from (s_elements s)
  else checked_copy_loop p from 0 (s_elements s) count.

(** append.cpp 38-86, the cases for containers with set_size. [original_size + source_size]
    has a type wide enough for it, so there is no wraparound. *)
Definition append (s : source) : M O unit :=
  match c_reserve C with
  | Some reserve =>
      if s_sized s then
        o <- get ;;
        let source_size := length (s_elements s) in
        let original_size := c_size C o in
        let new_size := original_size + source_size in
        cap <- c_capacity C ;;
        (if new_size <=? cap
         then uninitialized_copy (c_data C o) original_size (s_elements s)
         else
           with_local (on_unit (c_default C)) (c_destroy C) (
             on_snd (exponential_force_reserve reserve cap new_size) ;;;
             ot <- get ;;
             uninitialized_copy (c_data C (snd ot)) original_size (s_elements s) ;;;
             uninitialized_relocate (c_data C o) 0 (c_size C o) (c_data C (snd ot)) 0 ;;;
             on_fst (c_set_size C 0) ;;;
             c_move_assign C)) ;;;
        c_set_size C new_size
      else each_push_back (s_elements s)
  | None =>
      o <- get ;;
      cap <- c_capacity C ;;
      checked_uninitialized_copy (c_data C o) (c_size C o) s cap ;;;
      c_set_size C (c_size C o + length (s_elements s))
  end.

(** append_into_capacity.cpp 32-56, first case *)
Definition append_into_capacity (s : source) : M O unit :=
  o <- get ;;
  uninitialized_copy (c_data C o) (c_size C o) (s_elements s) ;;;
  c_set_size C (c_size C o + length (s_elements s)).

(** resize.cpp 23-48: the generator makes every new element; generate_n has a size. *)
Definition resize (new_size : nat) (generator : maker) : M O unit :=
  o <- get ;;
  if new_size <=? c_size C o then erase_to_end new_size
  else append (Source (repeat generator (new_size - c_size C o)) true).

(** insert.cpp 41-59 *)
Definition insert_without_reallocation (position : nat) (mks : list maker) (number_of_elements : nat) : M O nat :=
  o <- get ;;
  let original_end := c_size C o in
  let new_end := original_end + number_of_elements in
  let new_position := position + number_of_elements in
  uninitialized_relocate_reversed (c_data C o) position (original_end - position) (c_data C o) new_position ;;;
  rethrow_after
    (uninitialized_copy (c_data C o) position mks)
    (uninitialized_relocate (c_data C o) new_position (new_end - new_position) (c_data C o) position) ;;;
  c_set_size C (c_size C o + number_of_elements) ;;;
  ret position.
(** insert.cpp 61-89 *)
Definition insert_with_reallocation (reserve : nat -> M O unit) (position : nat) (mks : list maker) (number_of_elements : nat) : M O nat :=
  with_local (on_unit (c_default C)) (c_destroy C) (
    ot <- get ;;
    let o := fst ot in
    let original_size := c_size C o in
    let new_size := original_size + number_of_elements in
    cap <- on_fst (c_capacity C) ;;
    on_snd (exponential_force_reserve reserve cap new_size) ;;;
    ot <- get ;;
    let temp := c_data C (snd ot) in
    uninitialized_copy temp position mks ;;;
    uninitialized_relocate (c_data C o) 0 position temp 0 ;;;
    uninitialized_relocate (c_data C o) position (original_size - position) temp (position + number_of_elements) ;;;
    on_fst (c_set_size C 0) ;;;
    on_snd (c_set_size C new_size) ;;;
    c_move_assign C ;;;
    ret position).
(** insert.cpp 108-135 for containers that are not splicable. Returns the index of the
    returned iterator. *)
Definition insert (position : nat) (mks : list maker) : M O nat :=
  o <- get ;;
  require (position <=? c_size C o) ;;;
  let range_size := length mks in
  cap <- c_capacity C ;;
  if c_size C o + range_size <=? cap
  then insert_without_reallocation position mks range_size
  else match c_reserve C with
       | Some reserve => insert_with_reallocation reserve position mks range_size
       | None => throw
       end.
(** insert.cpp 140-151, 161-177: lazy_insert, emplace and insert of one value *)
Definition insert_one (position : nat) (mk : maker) : M O nat := insert position [mk].

(** assign_to_empty.cpp 49-58, 60-86. [fits]: size_always_fits_in_capacity, a property of the
    two types. *)
Definition assign_to_empty_into_capacity (s : source) : M O unit :=
  o <- get ;;
  require (c_size C o =? 0) ;;;
  uninitialized_copy (c_data C o) 0 (s_elements s) ;;;
  c_set_size C (length (s_elements s)).
Definition do_reserve (reserve : nat -> M O unit) (source_size : nat) : M O unit :=
  match c_replace C with
  | Some replace => replace source_size
  | None => with_local (on_unit (c_default C)) (c_destroy C) (
              on_snd (reserve source_size) ;;; c_move_assign C)
  end.
Definition assign_to_empty (fits : bool) (s : source) : M O unit :=
  o <- get ;;
  require (c_size C o =? 0) ;;;
  if fits then assign_to_empty_into_capacity s
  else match c_reserve C with
       | Some reserve =>
           if s_sized s then
             let source_size := length (s_elements s) in
             assume_capacity source_size ;;;
             cap <- c_capacity C ;;
             (if cap <? source_size then do_reserve reserve source_size else ret tt) ;;;
             o <- get ;;
             uninitialized_copy (c_data C o) 0 (s_elements s) ;;;
             c_set_size C source_size
           else each_push_back (s_elements s)
       | None =>
           cap <- c_capacity C ;;
           checked_uninitialized_copy (c_data C o) 0 s cap ;;;
           c_set_size C (length (s_elements s))
       end.

(** algorithms/copy.cpp 44-56 (copy_truncate): assigns to the elements [from ..] while both ranges
    last, and returns how many it assigned. *)
Fixpoint copy_truncate (p : ptr) (from n : nat) (mks : list maker) (done : nat) : M O nat :=
  match n, mks with
  | S n, mk :: mks => assign_at p from mk ;;; copy_truncate p (S from) n mks (S done)
  | _, _ => ret done
  end.
(** assign.cpp 65-92, the last two cases; [trivial]: std::is_trivially_copyable_v of the
    elements. *)
Definition assign (trivial fits : bool) (s : source) : M O unit :=
  if trivial then clear ;;; assign_to_empty fits s
  else
    o <- get ;;
    n <- copy_truncate (c_data C o) 0 (c_size C o) (s_elements s) 0 ;;
    erase_to_end n ;;;
    append (Source (skipn n (s_elements s)) (s_sized s)).

(** shrink_to_fit.cpp 21-39; [min_capacity]: the smallest value of the type of capacity(). *)
Definition shrink_to_fit (min_capacity : nat) : M O unit :=
  match c_reserve C with
  | None => ret tt
  | Some reserve =>
      o <- get ;;
      let s := c_size C o in
      cap <- c_capacity C ;;
      if s =? cap then ret tt
      else if (0 <? min_capacity) && (cap =? min_capacity) then ret tt
      else with_local (on_unit (c_default C)) (c_destroy C) (
             on_snd (reserve s) ;;;
             ot <- get ;;
             uninitialized_relocate (c_data C o) 0 s (c_data C (snd ot)) 0 ;;;
             on_snd (c_set_size C s) ;;;
             on_fst (c_set_size C 0) ;;;
             c_move_assign C)
  end.

End Generic.

(** ** uninitialized_dynamic_array (uninitialized_dynamic_array.cpp 21-88)

    and dynamic_array_data.cpp 21-74. [min, max] is the range of the type Capacity. *)
Record storage : Set := Storage { u_pointer : ptr; u_size : nat }.
(** dynamic_array_data.cpp 56-66 *)
Definition allocate_storage {X} (size : nat) : M X storage :=
  b <- allocate size ;; ret (Storage (Some b) size).
(** uninitialized_dynamic_array.cpp 82-86, dynamic_array_data.cpp 68-74 *)
Definition deallocate_storage {X} (s : storage) : M X unit :=
  match u_pointer s with
  | None => ret tt
  | Some _ => deallocate (u_pointer s) (u_size s)
  end.
(** 26-28 *)
Definition storage_empty : storage := Storage None 0.
(** 42-46: the new object and what is left of the other *)
Definition storage_move (other : storage) : storage * storage :=
  (other, Storage None (u_size other)).
(** 67-70 *)
Definition storage_capacity {X} (s : storage) : M X nat :=
  require (match u_pointer s with Some _ => true | None => u_size s =? 0 end) ;;; ret (u_size s).

(** ** bounded_vector (bounded_vector.cpp 39-199) *)
Record bvector : Set := BVector { b_storage : storage; b_size : nat }.

Section BoundedVector.
Context (min_capacity max_capacity : nat).

(** 182-184; bounded::max, then assume_in_range<capacity_type> *)
Definition reservation_size {X} (source_size : nat) : M X nat :=
  let n := Nat.max source_size min_capacity in
  require ((min_capacity <=? n) && (n <=? max_capacity)) ;;; ret n.
(** 53-57: with [min_capacity = 0] the constructor of the storage from constant<0> is chosen,
    which allocates nothing. *)
Definition bv_initial_storage {X} : M X storage :=
  if min_capacity =? 0 then ret storage_empty else allocate_storage min_capacity.
Definition bv_default : M unit bvector :=
  s <- bv_initial_storage ;; ret (BVector s 0).
(** 140-148 *)
Definition bv_data (o : bvector) : ptr := u_pointer (b_storage o).
(** 152-157 *)
Definition bv_capacity : M bvector nat :=
  o <- get ;;
  if min_capacity =? max_capacity then ret min_capacity else storage_capacity (b_storage o).
(** 158-162 *)
Definition bv_set_size (n : nat) : M bvector unit :=
  cap <- bv_capacity ;;
  require (n <=? cap) ;;;
  o <- get ;;
  put (BVector (b_storage o) n).
(** 110-112, then the destructor of m_storage (uninitialized_dynamic_array.cpp 54-56) *)
Definition bv_destroy : M bvector unit :=
  o <- get ;;
  destroy_range (bv_data o) 0 (b_size o) ;;;
  deallocate_storage (b_storage o).
(** 114-120 with uninitialized_dynamic_array.cpp 47-53 *)
Definition bv_move_assign : M (bvector * bvector) unit :=
  ot <- get ;;
  let o := fst ot in
  let other := snd ot in
  destroy_range (bv_data o) 0 (b_size o) ;;;
  put (BVector (b_storage other) (b_size other),
       BVector (Storage None (u_size (b_storage other))) 0) ;;;
  deallocate_storage (b_storage o).
(** 168-179 *)
Definition bv_reserve (requested_capacity : nat) : M bvector unit :=
  cap <- bv_capacity ;;
  if requested_capacity <=? cap then ret tt
  else
    n <- reservation_size requested_capacity ;;
    with_local (allocate_storage n) (s <- get ;; deallocate_storage s) (
      ot <- get ;;
      let o := fst ot in
      uninitialized_relocate (bv_data o) 0 (b_size o) (u_pointer (snd ot)) 0 ;;;
      put (BVector (snd ot) (b_size o), Storage None (u_size (snd ot))) ;;;
      deallocate_storage (b_storage o)).
(** 164-167 with uninitialized_dynamic_array.cpp 72-75 *)
Definition bv_replace_empty_allocation (requested_capacity : nat) : M bvector unit :=
  o <- get ;;
  require (b_size o =? 0) ;;;
  n <- reservation_size requested_capacity ;;
  deallocate_storage (b_storage o) ;;;
  s <- allocate_storage n ;;
  put (BVector s (b_size o)).

Definition bounded_vector : container bvector :=
  Container _ bv_data b_size bv_capacity bv_set_size bv_default bv_destroy bv_move_assign
    (if min_capacity =? max_capacity then None else Some bv_reserve)
    (Some bv_replace_empty_allocation)
    max_capacity.

(** Leaving a constructor by an exception destroys the members already constructed, here
    m_storage, but does not run the destructor of the object itself. *)
Definition constructor {X} (members : M X bvector) (body : M bvector unit) : M X bvector :=
  fun x w =>
    match members x w with
    | Ret x o w =>
        match body o w with
        | Ret o _ w => Ret x o w
        | Exc o w => match deallocate_storage (b_storage o) x w with
                     | Ret x _ w => Exc x w
                     | Exc _ _ => Bad Terminated
                     | Bad f => Bad f
                     end
        | Bad f => Bad f
        end
    | Exc x w => Exc x w
    | Bad f => Bad f
    end.
(** 59-74, 185-190: from a range; 59-65 is chosen when the size cannot be found without
    consuming the range. *)
Definition bv_from (fits : bool) (s : source) : M unit bvector :=
  if s_sized s then
    constructor
      (n <- reservation_size (length (s_elements s)) ;;
       st <- allocate_storage n ;;
       ret (BVector st (length (s_elements s))))
      (o <- get ;; uninitialized_copy (bv_data o) 0 (s_elements s))
  else
    constructor
      (st <- bv_initial_storage ;; ret (BVector st 0))
      (assign_to_empty bounded_vector fits s).
(** 103-108; [other] is copied element by element *)
Definition bv_copy (other : bvector) : M unit bvector :=
  constructor
    (n <- reservation_size (b_size other) ;;
     st <- allocate_storage n ;;
     ret (BVector st (b_size other)))
    (o <- get ;; uninitialized_copy (bv_data o) 0 (map (CopyOf (bv_data other)) (seq 0 (b_size other)))).
(** 97-101: the new object, and what is left of the other *)
Definition bv_move (other : bvector) : bvector * bvector :=
  (BVector (b_storage other) (b_size other),
   BVector (Storage None (u_size (b_storage other))) 0).
(** 121-133; [this == addressof(other)] is the caller's choice not to call this. *)
Definition bv_copy_assign (trivial : bool) (other : bvector) : M bvector unit :=
  o <- get ;;
  let elements := map (CopyOf (bv_data other)) (seq 0 (b_size other)) in
  match bv_data o with
  | None =>
      bv_replace_empty_allocation (b_size other) ;;;
      o <- get ;;
      uninitialized_copy (bv_data o) 0 elements ;;;
      put (BVector (b_storage o) (b_size other))
  | Some _ => assign bounded_vector trivial false (Source elements true)
  end.
(** 114-120 when both sides are the same object: [v = std::move(v)]. m_size is set to 0 after it is
    read; m_storage is moved onto itself: its pointer is cleared and the original storage
    released. *)
Definition bv_self_move_assign : M bvector unit :=
  o <- get ;;
  destroy_range (bv_data o) 0 (b_size o) ;;;
  put (BVector (Storage None (u_size (b_storage o))) 0) ;;;
  deallocate_storage (b_storage o).
(** 135-138 *)
Definition bv_swap : M (bvector * bvector) unit :=
  ot <- get ;;
  put (BVector (b_storage (snd ot)) (b_size (snd ot)), BVector (b_storage (fst ot)) (b_size (fst ot))).

End BoundedVector.

(** ** static_vector (static_vector.cpp 46-150)

    The object contains its storage: [v_place] is the block of [capacity] cells inside it. *)
Record svector : Set := SVector { v_place : nat; v_size : nat }.

Section StaticVector.
Context (capacity : nat).

Definition sv_data (o : svector) : ptr := Some (v_place o).
(** 115-118 *)
Definition sv_set_size (n : nat) : M svector unit :=
  require (n <=? capacity) ;;;
  o <- get ;;
  put (SVector (v_place o) n).
(** 48: a variable comes with its storage *)
Definition sv_default : M unit svector :=
  b <- new_block capacity ;; ret (SVector b 0).
(** 77-80: afterwards the storage of the variable is gone as well *)
Definition sv_destroy : M svector unit :=
  o <- get ;;
  destroy_range (sv_data o) 0 (v_size o) ;;;
  deallocate (sv_data o) capacity.

Definition static_vector : container svector :=
  Container _ sv_data v_size (ret capacity) sv_set_size sv_default sv_destroy
    (* move assignment is modelled by [sv_move_assign]; no generic operation uses it *)
    (bad Broken)
    None None capacity.

(** Leaving a constructor by an exception: the storage of the variable is released. *)
Definition sv_constructor (body : M svector unit) : M unit svector :=
  fun x w =>
    match sv_default x w with
    | Ret x o w =>
        match body o w with
        | Ret o _ w => Ret x o w
        | Exc o w => match deallocate (sv_data o) capacity x w with
                     | Ret x _ w => Exc x w
                     | Exc _ _ => Bad Terminated
                     | Bad f => Bad f
                     end
        | Bad f => Bad f
        end
    | Exc x w => Exc x w
    | Bad f => Bad f
    end.
(** 65-67; 69-72 is the case [fits] *)
Definition sv_from (fits : bool) (s : source) : M unit svector :=
  sv_constructor (assign_to_empty static_vector fits s).
(** 58-63 *)
Definition sv_copy (other : svector) : M unit svector :=
  sv_constructor (assign_to_empty_into_capacity static_vector
    (Source (map (CopyOf (sv_data other)) (seq 0 (v_size other))) true)).
(** 50-56: the state of the new object and of the other one *)
Definition sv_move : M svector svector :=
  other <- get ;;
  b <- new_block capacity ;;
  uninitialized_relocate (sv_data other) 0 (v_size other) (Some b) 0 ;;;
  put (SVector (v_place other) 0) ;;;
  ret (SVector b (v_size other)).
(** 90-98 *)
Definition sv_copy_assign (trivial : bool) (other : svector) : M svector unit :=
  assign static_vector trivial true (Source (map (CopyOf (sv_data other)) (seq 0 (v_size other))) true).
(** 82-88, for elements that are not trivially movable. Simplified: moving and move-assigning an
    element do not throw. Copying from an expiring container moves its elements
    (algorithms/copy.cpp 44-56 dereferences an rvalue; assign.cpp 56-63 for the rest) and leaves its size
    alone. Also the case where [other] is the object itself. *)
Definition sv_move_assign (other : svector) : M svector unit :=
  assign static_vector false true (Source (map (MoveOf (sv_data other)) (seq 0 (v_size other))) true).

(** std::swap of two elements; simplified: it does not throw. *)
Definition swap_elements {X} (p : ptr) (i : nat) (q : ptr) (j : nat) : M X unit :=
  a <- load p i ;;
  b <- load q j ;;
  store p i b ;;;
  store q j a.
(** std::swap_ranges *)
Fixpoint swap_ranges {X} (p : ptr) (i n : nat) (q : ptr) (j : nat) : M X unit :=
  match n with
  | 0 => ret tt
  | S n => swap_elements p i q j ;;; swap_ranges p (S i) n q (S j)
  end.
(** 122-138, for two different objects; for an object with itself nothing happens. *)
Definition sv_swap : M (svector * svector) unit :=
  lr <- get ;;
  let swap_impl (longer shorter : svector) :=
    swap_ranges (sv_data shorter) 0 (v_size shorter) (sv_data longer) 0 ;;;
    uninitialized_relocate (sv_data longer) (v_size shorter) (v_size longer - v_size shorter)
                           (sv_data shorter) (v_size shorter) in
  let lhs := fst lr in
  let rhs := snd lr in
  (if v_size rhs <=? v_size lhs then swap_impl lhs rhs else swap_impl rhs lhs) ;;;
  put (SVector (v_place lhs) (v_size rhs), SVector (v_place rhs) (v_size lhs)).

End StaticVector.

(** ** A static_vector constructed from an expiring container of another type

    static_vector.cpp 65-67 with a source of type [static_vector<T, n> &&], [n < capacity]:
    assign_to_empty.cpp 63-64 and assign_to_empty_into_capacity.cpp 37-51. The source is
    a container whose elements are not trivially copyable, so copy_or_relocate_from.cpp 34-44
    relocates its elements and then sets its size to zero; the size of the source is asked for
    after that. *)
Definition sv_from_expiring (capacity : nat) : M svector svector :=
  b <- new_block capacity ;;
  source <- get ;;
  uninitialized_copy (Some b) 0 (map (Relocate (sv_data source)) (seq 0 (v_size source))) ;;;
  put (SVector (v_place source) 0) ;;;
  source <- get ;;
  require (v_size source <=? capacity) ;;;
  ret (SVector b (v_size source)).

End Containers.

Arguments c_data {V O}. Arguments c_size {V O}. Arguments c_capacity {V O}. Arguments c_set_size {V O}.
Arguments c_default {V O}. Arguments c_destroy {V O}. Arguments c_move_assign {V O}.
Arguments c_reserve {V O}. Arguments c_replace {V O}. Arguments c_max {V O}.
Arguments Source {V}. Arguments s_elements {V}. Arguments s_sized {V}.
