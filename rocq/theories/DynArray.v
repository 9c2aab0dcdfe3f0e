(** * dynamic_array: an array whose size is chosen at run time (containers/dynamic_array.cpp)

    Runs on the storage of Mem.v, with uninitialized_dynamic_array as in Vec.v. The object is its member m_data. *)

From Coq Require Import List Arith Bool.
From Verif Require Import Mem Vec.
Import ListNotations.

Section DynamicArray.
Context {V : Type} (moved : V -> V).
Local Notation M := (M V).
Local Notation maker := (maker V).

(** The range of the type Size (39-42). *)
Context (min_size max_size : nat).

(** 44 *)
Definition da_default : storage := storage_empty.
(** 92-97 *)
Definition da_data (o : storage) : ptr := u_pointer o.
(** 99-101 *)
Definition da_size {X} (o : storage) : M X nat := storage_capacity o.
(** 46-51, 62-65. The size is checked, a block of that size is allocated (also for no elements: std::allocator
    gives a pointer that is not null), and when the copy of an element throws the member is destroyed. *)
Definition da_from (mks : list maker) : M unit storage :=
  (if (min_size <=? length mks) && (length mks <=? max_size) then ret tt else throw) ;;;
  s <- allocate_storage (length mks) ;;
  rethrow_after (uninitialized_copy moved (u_pointer s) 0 mks) (deallocate_storage s) ;;;
  ret s.
Definition da_copy (other : storage) : M unit storage :=
  n <- da_size other ;;
  da_from (map (CopyOf (da_data other)) (seq 0 n)).
(** 67-70: the new object and what is left of the other *)
Definition da_move (other : storage) : storage * storage := storage_move other.
(** 73-75, 85-87 *)
Definition da_destroy_elements {X} (o : storage) : M X unit :=
  match da_data o with
  | Some _ => n <- da_size o ;; destroy_range (da_data o) 0 n
  | None => ret tt
  end.
(** 72-76, then the destructor of the member *)
Definition da_destroy : M storage unit :=
  o <- get ;;
  da_destroy_elements o ;;;
  deallocate_storage o.
(** 84-90 with uninitialized_dynamic_array.cpp 47-53, for two different objects *)
Definition da_move_assign : M (storage * storage) unit :=
  ot <- get ;;
  da_destroy_elements (fst ot) ;;;
  put (snd ot, Storage None (u_size (snd ot))) ;;;
  deallocate_storage (fst ot).
(** The same for an object and itself. *)
Definition da_self_move_assign : M storage unit :=
  o <- get ;;
  da_destroy_elements o ;;;
  put (Storage None (u_size o)) ;;;
  deallocate_storage o.
(** 105-107: move assignment from a new array *)
Definition da_clear : M storage unit :=
  with_local (ret da_default) da_destroy da_move_assign.
(** algorithms/copy.cpp 35-42: assigns to the elements from [from] on *)
Fixpoint copy_all {X} (p : ptr) (from : nat) (mks : list maker) : M X unit :=
  match mks with
  | [] => ret tt
  | mk :: mks => assign_at moved p from mk ;;; copy_all p (S from) mks
  end.
(** 114, 123: *this = dynamic_array(range) *)
Definition da_replace (mks : list maker) : M storage unit :=
  with_local (on_unit (da_from mks)) da_destroy da_move_assign.
(** 109-125 *)
Definition da_assign (mks : list maker) : M storage unit :=
  o <- get ;;
  match da_data o with
  | None => da_replace mks
  | Some _ =>
      n <- da_size o ;;
      if length mks =? n then copy_all (da_data o) 0 mks
      else (if min_size =? 0 then da_clear else ret tt) ;;; da_replace mks
  end.
(** 78-83, for two different objects *)
Definition da_copy_assign (other : storage) : M storage unit :=
  n <- da_size other ;;
  da_assign (map (CopyOf (da_data other)) (seq 0 n)).
(** std::swap for two different objects: three moves and the destructor of the temporary *)
Definition da_swap : M (storage * storage) unit :=
  fun p w =>
    let '(temp, a) := da_move (fst p) in
    match da_move_assign (a, snd p) w with
    | Ret (a, b) _ w =>
        match da_move_assign (b, temp) w with
        | Ret (b, temp) _ w =>
            match da_destroy temp w with
            | Ret _ _ w => Ret (a, b) tt w
            | Exc _ _ => Bad Terminated
            | Bad f => Bad f
            end
        | Exc _ _ => Bad Terminated
        | Bad f => Bad f
        end
    | Exc _ _ => Bad Terminated
    | Bad f => Bad f
    end.

End DynamicArray.
