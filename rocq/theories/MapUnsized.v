(** * The constructors of the maps from ranges whose size is not known

    Models /repo/source/containers/linear_map.cpp 62-71 and flat_map.cpp 132-145 with
    the constructor of vector.cpp for ranges whose size cannot be found without
    consuming them ([bv_from] with an unsized source, Vec.v). An exception in the body
    destroys the container. The element type, the comparison and the sort function are
    as in LinearMemory.v and UniqueMemory.v. *)

From Coq Require Import List Arith Bool.
From Verif Require Import Mem Vec LinearMap LinearMemory Unique UniqueMemory.
Import ListNotations.

(** linear_map.cpp 62-71 *)
Definition mem_linear_from_unsized {K T} (moved : K * T -> K * T) (equal : K -> K -> bool) (maximum_size : nat) (elements : list (K * T)) : M (K * T) unit bvector :=
  fun x w =>
    match bv_from moved 0 maximum_size false (Source (map Supply elements) false) x w with
    | Ret x o w =>
        match mem_remove_duplicates equal (bounded_vector moved 0 maximum_size) (S (b_size o)) 0 (b_size o) o w with
        | Ret o _ w => Ret x o w
        | Exc o w => match bv_destroy o w with
                     | Ret _ _ w => Exc x w
                     | Exc _ _ => Bad Terminated
                     | Bad f => Bad f
                     end
        | Bad f => Bad f
        end
    | Exc x w => Exc x w
    | Bad f => Bad f
    end.

(** flat_map.cpp 132-145, without duplicates *)
Definition mem_flat_from_unsized {K T} (moved self_moved : K * T -> K * T) (key_equal : K -> K -> bool) (ska_sort : list (K * T) -> option (list (K * T)))
    (interrupted : list (K * T) -> list (K * T)) (maximum : nat) (elements : list (K * T)) : M (K * T) unit bvector :=
  fun x w =>
    match bv_from moved 0 maximum false (Source (map Supply elements) false) x w with
    | Ret x o w =>
        match mem_unique_ska_sort moved self_moved key_equal ska_sort interrupted (bounded_vector moved 0 maximum) o w with
        | Ret o _ w => Ret x o w
        | Exc o w => match bv_destroy o w with
                     | Ret _ _ w => Exc x w
                     | Exc _ _ => Bad Terminated
                     | Bad f => Bad f
                     end
        | Bad f => Bad f
        end
    | Exc x w => Exc x w
    | Bad f => Bad f
    end.
