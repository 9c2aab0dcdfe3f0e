(** * A linear map in memory

    Models containers/linear_map.cpp on a container of Vec.v: LinearMap.v is about the sequence of elements alone, here are also the storage, its
    capacity and exceptions. The elements are pairs of a key and a mapped value, [C] is vector or static_vector. Every comparison of keys may
    throw, and so may making the new element and allocating. *)

From Coq Require Import List Arith Bool.
From Verif Require Import Mem Vec Keyed FlatMemory.
From Verif Require Algo.
Import ListNotations.
Local Open Scope nat_scope.

Section LinearMemory.
Context {K T : Type} (moved : K * T -> K * T) (equal : K -> K -> bool).
Local Notation element := (K * T)%type.
Context {O : Type} (C : container (V := element) O).
Local Notation M := (M element).

(** find (lines 136-142) *)
Definition mem_linear_find (key : K) : M O nat :=
  o <- get ;; Algo.find_if (Algo.test_at (c_data C o) (fun e => equal key (fst e))) 0 (c_size C o).
(** lazy_insert (lines 145-155): the position and whether it was inserted. [mapped] is what the function returns. *)
Definition mem_linear_lazy_insert (key : K) (mapped : T) : M O (nat * bool) :=
  it <- mem_linear_find key ;;
  o <- get ;;
  if negb (it =? c_size C o) then ret (it, false)
  else
    lazy_push_back moved C (Supply (key, mapped)) ;;;
    o <- get ;;
    ret (c_size C o - 1, true).
(** keyed_erase (keyed_erase.cpp 28-34) with erase (linear_map.cpp 166-168) *)
Definition mem_linear_keyed_erase (key : K) : M O nat :=
  it <- mem_linear_find key ;;
  o <- get ;;
  if it =? c_size C o then ret 0
  else erase_one moved C it ;;; ret 1.
(** lookup (lookup.cpp 20-26) and reading through the pointer *)
Definition mem_linear_lookup_value (key : K) : M O (option T) :=
  it <- mem_linear_find key ;;
  o <- get ;;
  if it =? c_size C o then ret None
  else e <- load (c_data C o) it ;; ret (Some (snd e)).
(** What a program does with the map (Keyed.v): one action. *)
Definition mem_linear_act (a : action K T) : M O (reply T) :=
  match a with
  | Insert key mapped => r <- mem_linear_lazy_insert key mapped ;; ret (Inserted (snd r))
  | Erase key => n <- mem_linear_keyed_erase key ;; ret (Erased n)
  | Lookup key => v <- mem_linear_lookup_value key ;; ret (Found v)
  | Size => o <- get ;; ret (Number (c_size C o))
  end.

(** matches_this_value (lines 179-181) for the element at [starting_from] *)
Definition matches_this_value (p : ptr) (starting_from i : nat) : M O bool :=
  e <- load p starting_from ;;
  Algo.test_at p (fun verified => equal (fst e) (fst verified)) i.
(** remove_duplicates (lines 174-193): the loop and erase_to_end. [fuel] is more than the number of elements from [starting_from] to
    [to_remove]. *)
Fixpoint mem_remove_duplicates (fuel starting_from to_remove : nat) : M O unit :=
  match fuel with
  | 0 => bad Outside
  | S fuel =>
      if starting_from =? to_remove then erase_to_end C to_remove
      else
        o <- get ;;
        found <- Algo.any (matches_this_value (c_data C o) starting_from) 0 starting_from ;;
        if found : bool then
          if starting_from =? to_remove - 1 then erase_to_end C (to_remove - 1)
          else
            swap_elements (c_data C o) starting_from (c_data C o) (to_remove - 1) ;;;
            mem_remove_duplicates fuel starting_from (to_remove - 1)
        else mem_remove_duplicates fuel (S starting_from) to_remove
  end.
(** insert of a range (lines 158-165) whose size is known or not *)
Definition mem_linear_insert (sized : bool) (elements : list element) : M O unit :=
  o <- get ;;
  append moved C (Source (map Supply elements) sized) ;;;
  o' <- get ;;
  mem_remove_duplicates (S (c_size C o' - c_size C o)) (c_size C o) (c_size C o').
End LinearMemory.

(** The life of a linear_map: its container is vector<map_value_type<Key, T>> (lines 216-217), which starts without storage; the map is destroyed
    at the end; *)
Definition linear_map_life {K T} (moved : K * T -> K * T) (equal : K -> K -> bool) (maximum_size : nat) (actions : list (action K T))
    : M (K * T) unit (list (option (reply T))) :=
  with_local (bv_default 0) bv_destroy (on_snd (session (mem_linear_act moved equal (bounded_vector moved 0 maximum_size)) actions)).
(** static_linear_map: static_vector<map_value_type<Key, T>, capacity> (lines 219-220). *)
Definition static_linear_map_life {K T} (moved : K * T -> K * T) (equal : K -> K -> bool) (capacity : nat) (actions : list (action K T))
    : M (K * T) unit (list (option (reply T))) :=
  with_local (sv_default capacity) (sv_destroy capacity) (on_snd (session (mem_linear_act moved equal (static_vector capacity)) actions)).
(** The constructors from a range (lines 62-71, 84-95) whose size is known: an exception in the body destroys the container. *)
Definition mem_linear_from {K T} (moved : K * T -> K * T) (equal : K -> K -> bool) (maximum_size : nat) (elements : list (K * T)) : M (K * T) unit bvector :=
  fun x w =>
    match bv_from moved 0 maximum_size false (Source (map Supply elements) true) x w with
    | Ret x o w =>
        match mem_remove_duplicates equal (bounded_vector moved 0 maximum_size) (S (b_size o)) 0 (b_size o) o w with
        | Ret o _ w => Ret x o w
        | Exc o w => match bv_destroy o w with
                     | Ret _ _ w => Exc x w
                     | Exc _ _ => Bad Terminated
                     | Bad f => Bad f
                     end
        | Bad f => Bad f
        end
    | Exc x w => Exc x w
    | Bad f => Bad f
    end.
