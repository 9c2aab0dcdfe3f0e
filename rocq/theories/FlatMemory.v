(** * A flat map in memory

    Models containers/flat_map.cpp with the searching functions of Algo.v on a container of Vec.v: FlatMap.v is about the sequence of elements
    alone, here are also the storage, its capacity and exceptions. The elements are pairs of a key and a mapped value, [C] is vector or static_vector.
    Every comparison of keys may throw, and so may making the new element and allocating. *)

From Coq Require Import List Arith Bool.
From Verif Require Import Mem Vec Keyed.
From Verif Require Algo.
Import ListNotations.
Local Open Scope nat_scope.

Section FlatMemory.
Context {K T : Type} (moved : K * T -> K * T) (key_less : K -> K -> bool).
Local Notation element := (K * T)%type.
Context {O : Type} (C : container (V := element) O).
Local Notation M := (M element).

(** compare()(get_key of the element at [it], key), and with the arguments swapped (lines 122-124) *)
Definition is_less (it : nat) (key : K) : M O bool :=
  o <- get ;; Algo.test_at (c_data C o) (fun e => key_less (fst e) key) it.
Definition is_greater (it : nat) (key : K) : M O bool :=
  o <- get ;; Algo.test_at (c_data C o) (fun e => key_less key (fst e)) it.

(** keyed_lower_bound and keyed_upper_bound (keyed_binary_search.cpp 17-31, binary_search.cpp 21-38, partition.cpp 38-57) *)
Definition mem_lower_bound (key : K) : M O nat :=
  o <- get ;; Algo.partition_point (Algo.test_at (c_data C o) (fun e => key_less (fst e) key)) 0 (c_size C o).
Definition mem_upper_bound (key : K) : M O nat :=
  o <- get ;; Algo.partition_point (Algo.test_at (c_data C o) (fun e => negb (key_less key (fst e)))) 0 (c_size C o).

(** find (lines 320-327) *)
Definition mem_find (key : K) : M O nat :=
  it <- mem_lower_bound key ;;
  o <- get ;;
  if it =? c_size C o then ret (c_size C o)
  else greater <- is_greater it key ;; ret (if greater then c_size C o else it).

(** lazy_insert (lines 241-264) of a map: the position and whether it was inserted. [mapped] is what the function returns. *)
Definition mem_lazy_insert (key : K) (mapped : T) : M O (nat * bool) :=
  position <- mem_upper_bound key ;;
  let add_element := it <- insert_one moved C position (Supply (key, mapped)) ;; ret (it, true) in
  if position =? 0 then add_element
  else
    less <- is_less (position - 1) key ;;
    if less then add_element else ret (position - 1, false).
(** lazy_insert of a multimap: lines 243-252 *)
Definition mem_multi_lazy_insert (key : K) (mapped : T) : M O nat :=
  position <- mem_upper_bound key ;;
  insert_one moved C position (Supply (key, mapped)).

(** keyed_erase (keyed_erase.cpp 28-34) *)
Definition mem_keyed_erase (key : K) : M O nat :=
  it <- mem_find key ;;
  o <- get ;;
  if it =? c_size C o then ret 0
  else erase_one moved C it ;;; ret 1.
(** keyed_equal_range (keyed_binary_search.cpp 33-39, binary_search.cpp 42-53) *)
Definition mem_equal_range (key : K) : M O (nat * nat) :=
  it <- mem_lower_bound key ;;
  o <- get ;;
  last <- Algo.partition_point (Algo.test_at (c_data C o) (fun e => negb (key_less key (fst e)))) it (c_size C o - it) ;;
  ret (it, last).
(** keyed_erase of a multimap (keyed_erase.cpp 35-41) *)
Definition mem_multi_keyed_erase (key : K) : M O nat :=
  range <- mem_equal_range key ;;
  erase moved C (fst range) (snd range) ;;;
  ret (snd range - fst range).

(** lookup (lookup.cpp 20-26) and reading through the pointer *)
Definition mem_lookup_value (key : K) : M O (option T) :=
  it <- mem_find key ;;
  o <- get ;;
  if it =? c_size C o then ret None
  else e <- load (c_data C o) it ;; ret (Some (snd e)).

(** What a program does with the map (Keyed.v): one action; *)
Definition mem_act (a : action K T) : M O (reply T) :=
  match a with
  | Insert key mapped => r <- mem_lazy_insert key mapped ;; ret (Inserted (snd r))
  | Erase key => n <- mem_keyed_erase key ;; ret (Erased n)
  | Lookup key => v <- mem_lookup_value key ;; ret (Found v)
  | Size => o <- get ;; ret (Number (c_size C o))
  end.
Fixpoint read_range (first n : nat) : M O (list T) :=
  match n with
  | 0 => ret []
  | S n => o <- get ;; e <- load (c_data C o) first ;; rest <- read_range (S first) n ;; ret (snd e :: rest)
  end.
Definition mem_multi_act (a : multi_action K T) : M O (multi_reply T) :=
  match a with
  | MultiInsert key mapped => mem_multi_lazy_insert key mapped ;;; ret MultiInserted
  | MultiErase key => n <- mem_multi_keyed_erase key ;; ret (MultiErased n)
  | MultiLookup key => range <- mem_equal_range key ;; vs <- read_range (fst range) (snd range - fst range) ;; ret (MultiFound vs)
  | MultiSize => o <- get ;; ret (MultiNumber (c_size C o))
  end.

(** try { ... } catch (...) {}: [None] when there was an exception; *)
Definition attempt {X A} (m : M X A) : M X (option A) :=
  fun x w => match m x w with
             | Ret x a w => Ret x (Some a) w
             | Exc x w => Ret x None w
             | Bad f => Bad f
             end.
(** and a sequence of actions, each in such a block: what the program sees of each. *)
Fixpoint session {A R} (act : A -> M O R) (actions : list A) : M O (list (option R)) :=
  match actions with
  | [] => ret []
  | a :: actions => r <- attempt (act a) ;; rs <- session act actions ;; ret (r :: rs)
  end.
End FlatMemory.

(** The life of a flat_map: its container is vector<map_value_type<Key, Mapped>, maximum_map_size<Key, Mapped>> (lines 408-419), which
    starts without storage (bounded_vector.cpp 53-57). When [reserved] is given, reserve is called first (lines 234-236). The map is destroyed at the end. *)
Definition flat_map_life {K T} (moved : K * T -> K * T) (key_less : K -> K -> bool) (maximum_map_size : nat) (reserved : option nat)
    (actions : list (action K T)) : M (K * T) unit (list (option (reply T))) :=
  with_local (bv_default 0) bv_destroy (on_snd (
    match reserved with None => ret tt | Some n => bv_reserve moved 0 maximum_map_size n end ;;;
    session (mem_act moved key_less (bounded_vector moved 0 maximum_map_size)) actions)).
(** flat_multimap: vector<map_value_type<Key, Mapped>>, whose maximum size is that of an array (lines 423-424; vector.cpp 37-39); *)
Definition flat_multimap_life {K T} (moved : K * T -> K * T) (key_less : K -> K -> bool) (maximum_size : nat)
    (actions : list (multi_action K T)) : M (K * T) unit (list (option (multi_reply T))) :=
  with_local (bv_default 0) bv_destroy (on_snd (session (mem_multi_act moved key_less (bounded_vector moved 0 maximum_size)) actions)).
(** static_flat_map and static_flat_multimap: static_vector<map_value_type<Key, Mapped>, capacity> (lines 420-421 and 426-427). *)
Definition static_flat_map_life {K T} (moved : K * T -> K * T) (key_less : K -> K -> bool) (capacity : nat)
    (actions : list (action K T)) : M (K * T) unit (list (option (reply T))) :=
  with_local (sv_default capacity) (sv_destroy capacity) (on_snd (session (mem_act moved key_less (static_vector capacity)) actions)).
Definition static_flat_multimap_life {K T} (moved : K * T -> K * T) (key_less : K -> K -> bool) (capacity : nat)
    (actions : list (multi_action K T)) : M (K * T) unit (list (option (multi_reply T))) :=
  with_local (sv_default capacity) (sv_destroy capacity) (on_snd (session (mem_multi_act moved key_less (static_vector capacity)) actions)).

(** The first step of constructing a flat_map from a range whose size is known: the container is made from the whole range (lines 128-139), before
    entries with the same key are removed from it; *)
Definition flat_map_container_from {K T} (moved : K * T -> K * T) (maximum_map_size : nat) (elements : list (K * T)) : M (K * T) unit bvector :=
  bv_from moved 0 maximum_map_size false (Source (map Supply elements) true).
(** and the first step of inserting one: the whole range is appended (lines 266-270). *)
Definition flat_map_append {K T} (moved : K * T -> K * T) (maximum_map_size : nat) (elements : list (K * T)) : M (K * T) bvector unit :=
  append moved (bounded_vector moved 0 maximum_map_size) (Source (map Supply elements) true).
