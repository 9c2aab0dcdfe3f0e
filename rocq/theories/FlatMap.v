(** * basic_flat_map and basic_flat_multimap

    Models containers/flat_map.cpp. The underlying container (a vector or static_vector, modelled in Vec.v) is the list of its elements, which are
    pairs of a key and a mapped value; an iterator is an index. [key_less] compares the radix sort keys of two keys with [<]
    (extract_key_to_less.cpp 20-22) and [key_equal] with [==]. [ska_sort] is the sort that is called, see InplaceRadix.v. [None]: an index out of range,
    or the sort gives up. Nothing throws. *)

From Coq Require Import List Arith Bool.
From Verif Require Import Unique.
Import ListNotations.
Local Open Scope nat_scope.

(** partition_point (algorithms/partition.cpp 38-57) as in Algo.v, for a range that is a list: [count] elements from [first] on. *)
Fixpoint partition_point_list {E} (fuel : nat) (test : E -> bool) (l : list E) (first count : nat) : option nat :=
  match fuel with
  | 0 => None
  | S fuel =>
      if count =? 0 then Some first
      else
        let step := count / 2 in
        let it := first + step in
        match nth_error l it with
        | None => None
        | Some e =>
            if test e then partition_point_list fuel test l (S it) (count - (step + 1))
            else partition_point_list fuel test l first step
        end
  end.

Section FlatMap.
Context {K M : Type} (key_less key_equal : K -> K -> bool) (moved self_moved : K * M -> K * M) (ska_sort : list (K * M) -> option (list (K * M))).
Notation element := (K * M)%type.

(** compare() (lines 122-124) of two elements *)
Definition less (a b : element) : bool := key_less (fst a) (fst b).

(** keyed_lower_bound and keyed_upper_bound (keyed_binary_search.cpp 17-31, binary_search.cpp 21-38) *)
Definition keyed_lower_bound (m : list element) (key : K) : option nat :=
  partition_point_list (S (length m)) (fun e => key_less (fst e) key) m 0 (length m).
Definition keyed_upper_bound (m : list element) (key : K) : option nat :=
  partition_point_list (S (length m)) (fun e => negb (key_less key (fst e))) m 0 (length m).

(** find (lines 320-327) *)
Definition find (m : list element) (key : K) : option nat :=
  match keyed_lower_bound m key with
  | None => None
  | Some it =>
      if it =? length m then Some (length m)
      else match nth_error m it with None => None | Some e => Some (if key_less key (fst e) then length m else it) end
  end.
(** lookup (lookup.cpp 20-26): the index of the mapped value that the pointer points to, or a null pointer. *)
Definition lookup (m : list element) (key : K) : option (option nat) :=
  match find m key with
  | None => None
  | Some it => Some (if it =? length m then None else Some it)
  end.

(** ::containers::lazy_insert (insert.cpp; Vec.v) *)
Definition insert_at (m : list element) (position : nat) (e : element) : list element := firstn position m ++ e :: skipn position m.
(** lazy_insert (lines 241-264) of a map: the new map, the position and whether it was inserted. *)
Definition lazy_insert (m : list element) (key : K) (mapped : M) : option (list element * nat * bool) :=
  match keyed_upper_bound m key with
  | None => None
  | Some position =>
      match position with
      | 0 => Some (insert_at m position (key, mapped), position, true)
      | S previous =>
          match nth_error m previous with
          | None => None
          | Some e =>
              let that_element_is_equal := negb (key_less (fst e) key) in
              if that_element_is_equal then Some (m, previous, false)
              else Some (insert_at m position (key, mapped), position, true)
          end
      end
  end.
(** lazy_insert of a multimap: lines 243-252 *)
Definition multi_lazy_insert (m : list element) (key : K) (mapped : M) : option (list element * nat) :=
  match keyed_upper_bound m key with
  | None => None
  | Some position => Some (insert_at m position (key, mapped), position)
  end.

(** unique_ska_sort (ska_sort.cpp 41-51). The container is the only array in memory. *)
Definition unique_ska_sort (l : list element) : option (list element) :=
  match ska_sort l with
  | None => None
  | Some l =>
      match unique moved self_moved (fun a b => key_equal (fst a) (fst b)) [l] 0 0 (length l) with
      | Some ([l], position) => Some (firstn position l)
      | _ => None
      end
  end.
(** The constructors from a range (lines 132-145, 170-184), assume_sorted_unique (147-156, 186-197), assume_unique (158-167, 199-210) *)
Definition from_range (l : list element) : option (list element) := unique_ska_sort l.
Definition multi_from_range (l : list element) : option (list element) := ska_sort l.
Definition from_sorted_unique (l : list element) : list element := l.
Definition from_unique (l : list element) : option (list element) := ska_sort l.

(** merge_sorted_and_unsorted<false> (lines 80-104) *)
Definition merge_sorted_and_unsorted (m : list element) (midpoint : nat) : option (list element) :=
  match ska_sort (skipn midpoint m) with
  | None => None
  | Some tail =>
      match unique_inplace_merge moved self_moved less [firstn midpoint m ++ tail] 0 0 midpoint (length m) with
      | Some ([l], position) => Some (firstn position l)
      | _ => None
      end
  end.
(** std::inplace_merge, which is stable: of the second range an element goes before those of the first range that are greater. *)
Fixpoint std_merge (l1 l2 : list element) : list element :=
  match l1 with
  | [] => l2
  | a :: t1 =>
      (fix inner l2 := match l2 with
                       | [] => l1
                       | b :: t2 => if less b a then b :: inner t2 else a :: std_merge t1 l2
                       end) l2
  end.
(** merge_sorted_and_unsorted<true> *)
Definition multi_merge_sorted_and_unsorted (m : list element) (midpoint : nat) : option (list element) :=
  match ska_sort (skipn midpoint m) with
  | None => None
  | Some tail => Some (std_merge (firstn midpoint m) tail)
  end.
(** insert of a range (lines 266-273) *)
Definition insert (m init : list element) : option (list element) := merge_sorted_and_unsorted (m ++ init) (length m).
Definition multi_insert (m init : list element) : option (list element) := multi_merge_sorted_and_unsorted (m ++ init) (length m).

(** erase and erase_if (lines 275-283; the functions of algorithms/erase.cpp, Vec.v) *)
Definition erase (m : list element) (first last : nat) : list element := firstn first m ++ skipn last m.
Definition erase_if (m : list element) (predicate : element -> bool) : list element := filter (fun e => negb (predicate e)) m.

(** The loop of upsert (lines 335-343) *)
Fixpoint upsert_loop (update : M -> M -> M) (m other : list element) : option (list element) :=
  match other with
  | [] => Some m
  | value :: other =>
      match lookup m (fst value) with
      | None => None
      | Some (Some i) =>
          match nth_error m i with
          | None => None
          | Some e => upsert_loop update (firstn i m ++ (fst e, update (snd e) (snd value)) :: skipn (S i) m) other
          end
      | Some None => upsert_loop update (m ++ [value]) other
      end
  end.
(** upsert (lines 329-346); [update old new] is what a call of [update] leaves in its first argument. *)
Definition upsert (update : M -> M -> M) (m other : list element) : option (list element) :=
  let original_size := length m in
  match upsert_loop update m other with
  | None => None
  | Some m => merge_sorted_and_unsorted m original_size
  end.
End FlatMap.
