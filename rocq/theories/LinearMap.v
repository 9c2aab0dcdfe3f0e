(** * basic_linear_map

    Models containers/linear_map.cpp. The underlying container (a vector or static_vector, modelled in Vec.v) is the list of its elements,
    which are pairs of a key and a mapped value; an iterator is an index. [None]: an index out of range. Nothing throws. *)

From Coq Require Import List Arith Bool.
From Verif Require Import Mem.
Import ListNotations.
Local Open Scope nat_scope.

Section LinearMap.
Context {K M : Type} (equal : K -> K -> bool).
Notation element := (K * M)%type.

(** find (lines 136-142) *)
Fixpoint linear_find (m : list element) (key : K) : nat :=
  match m with
  | [] => 0
  | e :: m => if equal key (fst e) then 0 else S (linear_find m key)
  end.
(** lazy_insert (lines 145-155) *)
Definition linear_lazy_insert (m : list element) (key : K) (mapped : M) : list element * nat * bool :=
  let it := linear_find m key in
  if negb (it =? length m) then (m, it, false)
  else (m ++ [(key, mapped)], length m, true).

(** std::ranges::swap of two elements *)
Definition swap_elements (m : list element) (i j : nat) : option (list element) :=
  match nth_error m i, nth_error m j with
  | Some a, Some b => Some (set_nth (set_nth m i b) j a)
  | _, _ => None
  end.
(** remove_duplicates (lines 174-193): the loop and erase_to_end. [fuel] is more than the number of elements from [starting_from] to
    [to_remove]. *)
Fixpoint remove_duplicates (fuel : nat) (m : list element) (starting_from to_remove : nat) : option (list element) :=
  match fuel with
  | 0 => None
  | S fuel =>
      if starting_from =? to_remove then Some (firstn to_remove m)
      else
        match nth_error m starting_from with
        | None => None
        | Some e =>
            if existsb (fun verified => equal (fst e) (fst verified)) (firstn starting_from m) then
              match to_remove with
              | 0 => None
              | S to_remove =>
                  if starting_from =? to_remove then Some (firstn to_remove m)
                  else match swap_elements m starting_from to_remove with
                       | None => None
                       | Some m => remove_duplicates fuel m starting_from to_remove
                       end
              end
            else remove_duplicates fuel m (S starting_from) to_remove
        end
  end.
(** The constructors from a range (lines 62-71, 84-95) and with assume_unique (73-81, 97-108) *)
Definition linear_from_range (l : list element) : option (list element) := remove_duplicates (S (length l)) l 0 (length l).
Definition linear_from_unique (l : list element) : list element := l.
(** insert of a range (lines 158-165) *)
Definition linear_insert (m init : list element) : option (list element) :=
  remove_duplicates (S (length init)) (m ++ init) (length m) (length (m ++ init)).
(** erase (lines 166-171) *)
Definition linear_erase (m : list element) (first last : nat) : list element := firstn first m ++ skipn last m.
End LinearMap.
