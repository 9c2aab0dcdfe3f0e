(** * concatenate into a vector

    Models containers/algorithms/concatenate.cpp for a Result that is a bounded_vector (vector is the case [min_capacity = 0]) with
    different smallest and largest capacity, whose elements are not trivially copyable. *)

From Coq Require Import List Arith Bool.
From Verif Require Import Mem Vec.
Import ListNotations.

Section Concatenate.
Context {V : Type} (moved : V -> V) (min_capacity max_capacity : nat).
Local Notation M := (M V).
Local Notation bv_capacity := (bv_capacity (V := V) min_capacity max_capacity).
Local Notation bv_set_size := (bv_set_size (V := V) min_capacity max_capacity).

(** What is concatenated: an expiring object of type Result, or another range, whose elements are made one by one. Expiring containers
    of other types are not modelled. *)
Inductive argument : Type :=
| Borrowed (elements : list (maker V))
| Expiring (o : bvector).
Local Notation arguments := (list argument).

(** linear_size.cpp 27-38 *)
Definition argument_size (a : argument) : nat :=
  match a with Borrowed elements => length elements | Expiring o => b_size o end.
(** A member function called on an argument. *)
Definition on_argument {A} (k : nat) (m : M bvector A) : M arguments A :=
  fun args w =>
    match nth_error args k with
    | Some (Expiring o) =>
        match m o w with
        | Ret o a w => Ret (set_nth args k (Expiring o)) a w
        | Exc o w => Exc (set_nth args k (Expiring o)) w
        | Bad f => Bad f
        end
    | _ => Bad Broken
    end.
(** uninitialized.cpp 77-93 and 54-63 with copy_or_relocate_from.cpp 27-51. Returns the position after the copied elements. *)
Definition copy_from (k : nat) (target : ptr) (from : nat) : M arguments nat :=
  args <- get ;;
  match nth_error args k with
  | Some (Borrowed elements) => uninitialized_copy moved target from elements ;;; ret (from + length elements)
  | Some (Expiring o) =>
      uninitialized_copy moved target from (map (Relocate (bv_data o)) (seq 0 (b_size o))) ;;;
      on_argument k (bv_set_size 0) ;;;
      ret (from + b_size o)
  | None => bad Broken
  end.
(** append_into_capacity.cpp 32-54; the target is one of the arguments, too. *)
Definition append_into (target k : nat) : M arguments unit :=
  o <- on_argument target get ;;
  args <- get ;;
  match nth_error args k with
  | Some a =>
      require (argument_size a <=? max_capacity) ;;;
      copy_from k (bv_data o) (b_size o) ;;;
      on_argument target (bv_set_size (b_size o + argument_size a))
  | None => bad Broken
  end.
Fixpoint append_all (target : nat) (ks : list nat) : M arguments unit :=
  match ks with
  | [] => ret tt
  | k :: ks => append_into target k ;;; append_all target ks
  end.
(** concatenate.cpp 36-53; [ks] are the places of the remaining ranges. *)
Fixpoint concatenate_prepend_append (result it : nat) (ks : list nat) : M arguments unit :=
  match ks with
  | [] => bad Broken
  | k :: ks =>
      if k =? result then append_all result ks
      else
        o <- on_argument result get ;;
        next_it <- copy_from k (bv_data o) it ;;
        concatenate_prepend_append result next_it ks
  end.
(** concatenate.cpp 61-74 with the fold of 131: the first expiring object with room for everything, and the size of what comes before
    it. *)
Fixpoint reusable_concatenate_container (total_size before_size : nat) (ks : list nat) : M arguments (option nat * nat) :=
  match ks with
  | [] => ret (None, before_size)
  | k :: ks =>
      args <- get ;;
      match nth_error args k with
      | Some (Expiring o) =>
          capacity <- on_argument k bv_capacity ;;
          if total_size <=? capacity then ret (Some k, before_size)
          else reusable_concatenate_container total_size (before_size + b_size o) ks
      | Some (Borrowed elements) => reusable_concatenate_container total_size (before_size + length elements) ks
      | None => bad Broken
      end
  end.
(** concatenate.cpp 100-106 *)
Definition move_existing_data_to_final_position (before_size : nat) : M bvector unit :=
  o <- get ;;
  uninitialized_relocate_reversed moved (bv_data o) 0 (b_size o) (bv_data o) before_size ;;;
  bv_set_size (b_size o + before_size).
(** concatenate.cpp 140-147: the object that is returned is the last one of the list while it is made. It is destroyed when an
    exception leaves. *)
Definition with_result (make_result : M unit bvector) (body : M arguments unit) : M arguments bvector :=
  fun args w =>
    match make_result tt w with
    | Ret _ o w =>
        match body (args ++ [Expiring o]) w with
        | Ret args _ w =>
            match List.last args (Borrowed []) with
            | Expiring o => Ret (removelast args) o w
            | Borrowed _ => Bad Broken
            end
        | Exc args w =>
            match List.last args (Borrowed []) with
            | Expiring o => match bv_destroy o w with
                            | Ret _ _ w => Exc (removelast args) w
                            | Exc _ _ => Bad Terminated
                            | Bad f => Bad f
                            end
            | Borrowed _ => Bad Broken
            end
        | Bad f => Bad f
        end
    | Exc _ w => Exc args w
    | Bad f => Bad f
    end.
(** concatenate.cpp 123-148. [always_fits] is always_fits_in_capacity: the type of the sum of the sizes has no value above the smallest
    capacity. *)
Definition concatenate (always_fits : bool) : M arguments bvector :=
  args <- get ;;
  let total_size := list_sum (map argument_size args) in
  let ks := seq 0 (length args) in
  reusable <- reusable_concatenate_container total_size 0 ks ;;
  match fst reusable with
  | Some k =>
      (if snd reusable =? 0 then ret tt else on_argument k (move_existing_data_to_final_position (snd reusable))) ;;;
      concatenate_prepend_append k 0 ks ;;;
      on_argument k (o <- get ;; let (result, rest) := bv_move o in put rest ;;; ret result)
  | None =>
      with_result (bv_default min_capacity) (
        (if always_fits then ret tt
         else require (total_size <=? max_capacity) ;;;
              on_argument (length args) (bv_reserve moved min_capacity max_capacity total_size)) ;;;
        append_all (length args) ks)
  end.

End Concatenate.
