(** * sbo_vector: a vector with a small buffer (containers/sbo_vector.cpp)

    Runs on the storage of Mem.v; the generic operations are those of Vec.v. *)

From Coq Require Import List Arith Bool NArith.
From Verif Require Import Mem Vec.
Import ListNotations.

(** ** The size, split into bytes *)

(** The bytes of a number of [k] bytes, least significant first, as std::bit_cast gives them on
    the little-endian platforms the library supports. *)
Fixpoint bytes_of (k : nat) (n : N) : list N :=
  match k with
  | 0 => []
  | S k => (n mod 256)%N :: bytes_of k (n / 256)%N
  end.
Fixpoint of_bytes (l : list N) : N :=
  match l with
  | [] => 0%N
  | b :: l => (b + 256 * of_bytes l)%N
  end.

(** 62-63 with bounded::size_of: how many bytes [size_and_bit<integer<0, max>>], the type
    integer<0, 2 * max + 1>, takes; the storage types are those of property C14. *)
Definition size_and_bit_bytes (max : nat) : nat :=
  let n := (2 * N.of_nat max + 1)%N in
  if (n <? 2 ^ 8)%N then 1
  else if (n <? 2 ^ 16)%N then 2
  else if (n <? 2 ^ 32)%N then 4
  else if (n <? 2 ^ 64)%N then 8
  else 16.

(** 65-75: all bytes but the last, and the last *)
Definition split_size_bytes (max size : nat) : list N * N :=
  let k := size_and_bit_bytes max - 1 in
  let bytes := bytes_of (S k) (N.of_nat size) in
  (firstn k bytes, nth k bytes 0%N).
(** 77-80. Simplified: assume_in_range is not checked here; set_size and the other functions that
    change the size check the result. *)
Definition recombine_size (first : list N) (last : N) : nat :=
  N.to_nat (of_bytes (first ++ [last])).
(** 57-60: assignment to the bit-field of seven bits *)
Definition to_bit_field (last : N) : N := (last mod 128)%N.

Section Sbo.
Context {V : Type} (moved : V -> V).
Local Notation M := (M V).
Local Notation uninitialized_relocate := (uninitialized_relocate moved).

(** 355-367. [Small]: the member small of the union is active; its storage is the block
    [s_place], part of the object. [Large]: the member large is active; the storage of small is then
    no storage of objects. [s_last_size], [s_is_large]: the two bit-fields of last_byte. *)
Inductive sbo_state : Set :=
| Small (first : list N)
| Large (pointer : ptr) (capacity : nat) (first : list N).
Record sbo : Set := Sbo { s_place : nat; s_state : sbo_state; s_last_size : N; s_is_large : bool }.

(** [small_capacity]: small_type::capacity() (92-99), the larger of the requested capacity and of what
    fits in the place of the members of large; [max_size]: the largest size. *)
Context (small_capacity max_size : nat).

(** 118-120: value-initialization of small_type *)
Definition empty_small : sbo_state := Small (repeat 0%N (size_and_bit_bytes small_capacity - 1)).

(** 232-237. Reading a member of the union that is not active is undefined; here it gives the
    null pointer. *)
Definition sb_data (o : sbo) : ptr :=
  match s_is_large o, s_state o with
  | false, Small _ => Some (s_place o)
  | true, Large p _ _ => p
  | _, _ => None
  end.
(** 239-245; for a member that is not active 0 *)
Definition sb_size (o : sbo) : nat :=
  match s_is_large o, s_state o with
  | false, Small first => recombine_size first (s_last_size o)
  | true, Large _ _ first => recombine_size first (s_last_size o)
  | _, _ => 0
  end.
(** 249-251, 140-142 *)
Definition sb_capacity : M sbo nat :=
  o <- get ;;
  match s_is_large o, s_state o with
  | false, Small _ => ret small_capacity
  | true, Large _ c _ => require ((small_capacity + 1 <=? c) && (c <=? max_size)) ;;; ret c
  | _, _ => bad Dead
  end.
(** 82-87, 253-264 *)
Definition sb_set_size (n : nat) : M sbo unit :=
  o <- get ;;
  (match s_is_large o, s_state o with
   | false, Small _ =>
       require (n <=? small_capacity) ;;;
       let split := split_size_bytes small_capacity n in
       put (Sbo (s_place o) (Small (fst split)) (to_bit_field (snd split)) (s_is_large o))
   | true, Large p c _ =>
       require (n <=? max_size) ;;;
       let split := split_size_bytes max_size n in
       put (Sbo (s_place o) (Large p c (fst split)) (to_bit_field (snd split)) (s_is_large o))
   | _, _ => bad Dead
   end) ;;;
  o <- get ;;
  require (sb_size o =? n).
(** 180, 356-360 *)
Definition sb_default : M unit sbo :=
  b <- new_block small_capacity ;;
  ret (Sbo b empty_small 0 false).

(** construct_at of a member of the union: the storage of the small buffer is reused, so no
    element may be alive in it. *)
Definition require_buffer_free {X} (o : sbo) : M X unit :=
  fun x w => match heap w (s_place o) with
             | None => Bad Outside
             | Some cs => if forallb (fun c => match c with None => true | Some _ => false end) cs
                          then Ret x tt w else Bad Overwrite
             end.
Definition construct_state (s : sbo_state) : M sbo unit :=
  o <- get ;;
  require_buffer_free o ;;;
  put (Sbo (s_place o) s (s_last_size o) (s_is_large o)).
(** m_state.last_byte.is_large = b *)
Definition set_is_large (b : bool) : M sbo unit :=
  o <- get ;;
  put (Sbo (s_place o) (s_state o) (s_last_size o) b).

(** 295-297 and 324-328, dynamic_array_data.cpp 68-74 *)
Definition sb_deallocate_large : M sbo unit :=
  o <- get ;;
  match s_is_large o, s_state o with
  | true, Large p c _ => deallocate p c
  | true, _ => bad Dead
  | false, _ => ret tt
  end.
(** 299-302 *)
Definition sb_destroy_contents : M sbo unit :=
  o <- get ;;
  destroy_range (sb_data o) 0 (sb_size o) ;;;
  sb_deallocate_large.
(** 228-230; afterwards the storage of the variable is gone as well *)
Definition sb_destroy : M sbo unit :=
  sb_destroy_contents ;;;
  o <- get ;;
  deallocate (Some (s_place o)) small_capacity.

(** 304-315 *)
Definition sb_relocate_to_small : M sbo unit :=
  o <- get ;;
  match s_is_large o, s_state o with
  | false, _ => ret tt
  | true, Large p c _ =>
      let size := sb_size o in
      construct_state empty_small ;;;
      uninitialized_relocate p 0 size (Some (s_place o)) 0 ;;;
      deallocate p c ;;;
      require (size <=? small_capacity) ;;;
      let split := split_size_bytes small_capacity size in
      put (Sbo (s_place o) (Small (fst split)) (to_bit_field (snd split)) false)
  | true, Small _ => bad Dead
  end.
(** 342-353 *)
Definition sb_relocate_to_large (requested_capacity : nat) : M sbo unit :=
  temp <- allocate requested_capacity ;;
  o <- get ;;
  let split := split_size_bytes max_size (sb_size o) in
  uninitialized_relocate (sb_data o) 0 (sb_size o) (Some temp) 0 ;;;
  sb_deallocate_large ;;;
  construct_state (Large (Some temp) requested_capacity (fst split)) ;;;
  o <- get ;;
  put (Sbo (s_place o) (s_state o) (to_bit_field (snd split)) true).
(** 283-292 *)
Definition sb_reserve (requested_capacity : nat) : M sbo unit :=
  cap <- sb_capacity ;;
  if requested_capacity <=? cap then ret tt
  else if requested_capacity <=? small_capacity then sb_relocate_to_small
  else
    require ((small_capacity + 1 <=? requested_capacity) && (requested_capacity <=? max_size)) ;;;
    sb_relocate_to_large requested_capacity.
(** 266-282 *)
Definition sb_replace_empty_allocation (requested_capacity : nat) : M sbo unit :=
  o <- get ;;
  require (sb_size o =? 0) ;;;
  sb_deallocate_large ;;;
  (if requested_capacity <=? small_capacity
   then construct_state empty_small ;;; set_is_large false
   else
     require ((small_capacity + 1 <=? requested_capacity) && (requested_capacity <=? max_size)) ;;;
     temp <- allocate requested_capacity ;;
     construct_state (Large (Some temp) requested_capacity (repeat 0%N (size_and_bit_bytes max_size - 1))) ;;;
     set_is_large true) ;;;
  o <- get ;;
  require (sb_size o =? 0).

(** 330-340: the first takes the contents of the second *)
Definition sb_move_assign_to_empty : M (sbo * sbo) unit :=
  ot <- get ;;
  let o := fst ot in
  let other := snd ot in
  (match s_is_large other, s_state other with
   | false, Small first =>
       on_fst (construct_state empty_small) ;;;
       uninitialized_relocate (sb_data other) 0 (sb_size other) (Some (s_place o)) 0 ;;;
       on_fst (o <- get ;; put (Sbo (s_place o) (Small first) (s_last_size o) (s_is_large o)))
   | true, Large p c first =>
       on_fst (construct_state (Large p c first))
   | _, _ => bad Dead
   end) ;;;
  on_snd (construct_state empty_small) ;;;
  ot <- get ;;
  put (Sbo (s_place (fst ot)) (s_state (fst ot)) (s_last_size (snd ot)) (s_is_large (snd ot)),
       Sbo (s_place (snd ot)) (s_state (snd ot)) 0 false).
(** 218-226, for two different objects; for an object and itself nothing happens *)
Definition sb_move_assign : M (sbo * sbo) unit :=
  on_fst sb_destroy_contents ;;;
  sb_move_assign_to_empty.

(** The type of capacity() is the common type of a constant and of large_type::capacity_type
    (249-251), so its largest value is [max_size]. *)
Definition sbo_vector : container (V := V) sbo :=
  Container _ sb_data sb_size sb_capacity sb_set_size sb_default sb_destroy sb_move_assign
    (Some sb_reserve) (Some sb_replace_empty_allocation) max_size.

(** The constructors with a body delegate to the default constructor; when the body throws the
    object has been constructed and its destructor runs. *)
Definition sb_constructor (body : M sbo unit) : M unit sbo :=
  fun x w =>
    match sb_default x w with
    | Ret x o w =>
        match body o w with
        | Ret o _ w => Ret x o w
        | Exc o w => match sb_destroy o w with
                     | Ret _ _ w => Exc x w
                     | Exc _ _ => Bad Terminated
                     | Bad f => Bad f
                     end
        | Bad f => Bad f
        end
    | Exc x w => Exc x w
    | Bad f => Bad f
    end.
(** 182-193 *)
Definition sb_from (s : source) : M unit sbo := sb_constructor (assign_to_empty moved sbo_vector false s).
(** 200-204 *)
Definition sb_copy (other : sbo) : M unit sbo :=
  sb_from (Source (map (CopyOf (sb_data other)) (seq 0 (sb_size other))) true).
(** 206-210: the new object; the state is the other one *)
Definition sb_move : M sbo sbo :=
  o <- on_unit sb_default ;;
  other <- get ;;
  fun x w => match sb_move_assign_to_empty (o, other) w with
             | Ret p _ w => Ret (snd p) (fst p) w
             | Exc p w => Exc (snd p) w
             | Bad f => Bad f
             end.
(** 212-217, for two different objects *)
Definition sb_copy_assign (trivial : bool) (other : sbo) : M sbo unit :=
  assign moved sbo_vector trivial false (Source (map (CopyOf (sb_data other)) (seq 0 (sb_size other))) true).
(** std::swap for two different objects: T temp(std::move(a)); a = std::move(b); b = std::move(temp);
    then the destructor of temp. *)
Definition sb_swap : M (sbo * sbo) unit :=
  fun p w =>
    match sb_move (fst p) w with
    | Ret a temp w =>
        match sb_move_assign (a, snd p) w with
        | Ret (a, b) _ w =>
            match sb_move_assign (b, temp) w with
            | Ret (b, temp) _ w =>
                match sb_destroy temp w with
                | Ret _ _ w => Ret (a, b) tt w
                | Exc _ _ => Bad Terminated
                | Bad f => Bad f
                end
            | Exc _ _ | Bad _ => Bad Terminated
            end
        | Exc _ _ | Bad _ => Bad Terminated
        end
    | Exc _ _ | Bad _ => Bad Terminated
    end.

End Sbo.
