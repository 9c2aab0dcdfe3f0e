(** * Inserting, erasing and looking up by key; finding without iterators

    Models containers/algorithms/keyed_erase.cpp, keyed_insert.cpp, lookup.cpp and algorithms/maybe_find.cpp, on the maps of
    FlatMap.v and LinearMap.v and on the memory of Mem.v. [None]: undefined behaviour. *)

From Coq Require Import List Arith Bool.
From Verif Require Import Mem Algo FlatMap LinearMap.
Import ListNotations.
Local Open Scope nat_scope.

Section Flat.
Context {K M : Type} (key_less : K -> K -> bool).
Notation element := (K * M)%type.

(** keyed_erase (keyed_erase.cpp 28-34) of a map that has find; erase of one element asserts that it is not the end
    (algorithms/erase.cpp 72-75). The new map and the number of erased elements. *)
Definition keyed_erase (m : list element) (key : K) : option (list element * nat) :=
  match find key_less m key with
  | None => None
  | Some it =>
      if it =? length m then Some (m, 0)
      else if it <? length m then Some (erase m it (S it), 1)
      else None
  end.
(** keyed_equal_range (keyed_binary_search.cpp 33-39, binary_search.cpp 42-53) *)
Definition keyed_equal_range (m : list element) (key : K) : option (nat * nat) :=
  match keyed_lower_bound key_less m key with
  | None => None
  | Some it =>
      match partition_point_list (S (length m)) (fun e => negb (key_less key (fst e))) m it (length m - it) with
      | None => None
      | Some last => Some (it, last)
      end
  end.
(** keyed_erase (lines 35-41) of a flat multimap, which has no find. *)
Definition multi_keyed_erase (m : list element) (key : K) : option (list element * nat) :=
  match keyed_equal_range m key with
  | None => None
  | Some (first, last) =>
      let erased := last - first in
      Some (erase m first last, erased)
  end.
(** keyed_insert (keyed_insert.cpp 33-38, 41-46, 49-54): all three forms call lazy_insert with the key and a function that returns the mapped
    value. *)
Definition keyed_insert (m : list element) (key : K) (mapped : M) : option (list element * nat * bool) := lazy_insert key_less m key mapped.
Definition multi_keyed_insert (m : list element) (key : K) (mapped : M) : option (list element * nat) := multi_lazy_insert key_less m key mapped.
(** lookup (lookup.cpp 20-26) and reading through the pointer *)
Definition lookup_value (m : list element) (key : K) : option (option M) :=
  match lookup key_less m key with
  | None => None
  | Some None => Some None
  | Some (Some it) => match nth_error m it with None => None | Some e => Some (Some (snd e)) end
  end.
End Flat.

Section Linear.
Context {K M : Type} (equal : K -> K -> bool).
Notation element := (K * M)%type.

(** The same for a linear map. *)
Definition linear_keyed_erase (m : list element) (key : K) : option (list element * nat) :=
  let it := linear_find equal m key in
  if it =? length m then Some (m, 0)
  else if it <? length m then Some (linear_erase m it (S it), 1)
  else None.
Definition linear_keyed_insert (m : list element) (key : K) (mapped : M) : list element * nat * bool := linear_lazy_insert equal m key mapped.
Definition linear_lookup_value (m : list element) (key : K) : option (option M) :=
  let it := linear_find equal m key in
  if it =? length m then Some None
  else match nth_error m it with None => None | Some e => Some (Some (snd e)) end.
End Linear.

(** maybe_find_if and maybe_find (maybe_find.cpp 28-49) for iterators into an array: a pointer, which is the index of the object, or a null
    pointer. *)
Definition maybe_find_if {V X} (test : nat -> M V X bool) (first last : nat) : M V X (option nat) :=
  bind (find_if test first last) (fun it => ret (if it =? last then None else Some it)).
Definition maybe_find {V X} (equal : V -> V -> bool) (p : ptr) (value : V) (first last : nat) : M V X (option nat) :=
  maybe_find_if (test_at p (fun v => equal v value)) first last.

(** What a program does with a map, and what it sees. *)
Section Use.
Context {K M : Type}.
Inductive action := Insert (key : K) (mapped : M) | Erase (key : K) | Lookup (key : K) | Size.
Inductive reply := Inserted (b : bool) | Erased (n : nat) | Found (mapped : option M) | Number (n : nat).

(** One action on a flat map. *)
Definition flat_act (key_less : K -> K -> bool) (m : list (K * M)) (a : action) : option (list (K * M) * reply) :=
  match a with
  | Insert key mapped => match keyed_insert key_less m key mapped with Some (m', _, b) => Some (m', Inserted b) | None => None end
  | Erase key => match keyed_erase key_less m key with Some (m', n) => Some (m', Erased n) | None => None end
  | Lookup key => match lookup_value key_less m key with Some o => Some (m, Found o) | None => None end
  | Size => Some (m, Number (length m))
  end.
(** One action on a linear map. *)
Definition linear_act (equal : K -> K -> bool) (m : list (K * M)) (a : action) : option (list (K * M) * reply) :=
  match a with
  | Insert key mapped => let '(m', _, b) := linear_keyed_insert equal m key mapped in Some (m', Inserted b)
  | Erase key => match linear_keyed_erase equal m key with Some (m', n) => Some (m', Erased n) | None => None end
  | Lookup key => match linear_lookup_value equal m key with Some o => Some (m, Found o) | None => None end
  | Size => Some (m, Number (length m))
  end.
(** A sequence of actions; the replies. *)
Fixpoint replies {S A R} (act : S -> A -> option (S * R)) (s : S) (actions : list A) : option (list R) :=
  match actions with
  | [] => Some []
  | a :: actions =>
      match act s a with
      | None => None
      | Some (s, r) => match replies act s actions with None => None | Some rs => Some (r :: rs) end
      end
  end.

(** What a program does with a flat multimap: insert, erase, see the mapped values in the range of a key, and the size. *)
Inductive multi_action := MultiInsert (key : K) (mapped : M) | MultiErase (key : K) | MultiLookup (key : K) | MultiSize.
Inductive multi_reply := MultiInserted | MultiErased (n : nat) | MultiFound (mapped : list M) | MultiNumber (n : nat).
Definition multi_act (key_less : K -> K -> bool) (m : list (K * M)) (a : multi_action) : option (list (K * M) * multi_reply) :=
  match a with
  | MultiInsert key mapped => match multi_keyed_insert key_less m key mapped with Some (m', _) => Some (m', MultiInserted) | None => None end
  | MultiErase key => match multi_keyed_erase key_less m key with Some (m', n) => Some (m', MultiErased n) | None => None end
  | MultiLookup key =>
      match keyed_equal_range key_less m key with
      | Some (first, last) => Some (m, MultiFound (map snd (firstn (last - first) (skipn first m))))
      | None => None
      end
  | MultiSize => Some (m, MultiNumber (length m))
  end.
End Use.
Arguments action : clear implicits.
Arguments reply : clear implicits.
Arguments multi_action : clear implicits.
Arguments multi_reply : clear implicits.
