(** * The vectors with the interface of the standard library

    Models what containers/std/vector.cpp and containers/std/inplace_vector.cpp add to [bounded_vector] and [static_vector] (Vec.v): the
    other member functions pass their arguments on. The line numbers of inplace_vector.cpp are given second. *)

From Coq Require Import List Arith Bool.
From Verif Require Import Mem Vec.
Import ListNotations.
Local Open Scope nat_scope.

Section Std.
Context {V : Type} (moved : V -> V).
Local Notation M := (M V).
Local Notation "x <- m ;; k" := (bind m (fun x => k)) (at level 61, m at next level, right associativity).
Local Notation "m ;;; k" := (bind m (fun _ => k)) (at level 61, right associativity).

(** object_is_in_storage (vector.cpp 336-339, inplace_vector.cpp 370-373): the object at [p], [i] is one of the elements. Cells of another block are
    not between the two addresses. *)
Definition in_storage (data : ptr) (size : nat) (p : ptr) (i : nat) : bool :=
  match data, p with
  | Some b, Some b' => (b =? b') && (i <? size)
  | _, _ => false
  end.
(** [T(value)]: a temporary, here a block with one cell, and its destructor. *)
Definition copy_value {X} (p : ptr) (i : nat) : M X nat :=
  b <- new_block 1 ;;
  rethrow_after (construct_at moved (Some b) 0 (CopyOf p i)) (deallocate (Some b) 1) ;;;
  ret b.
Definition end_value : M nat unit :=
  b <- get ;;
  destroy (Some b) 0 ;;;
  deallocate (Some b) 1.

Section Insert.
Context {O : Type} (C : @container V O).
(** insert(position, value) (vector.cpp 247-256, inplace_vector.cpp 307-316); the value is the object at [p], [i]. Simplified: the temporary is copied where it is moved,
    so the model may throw once more. *)
Definition std_insert (position : nat) (p : ptr) (i : nat) : M O nat :=
  o <- get ;;
  if in_storage (c_data C o) (c_size C o) p i
  then with_local (copy_value p i) end_value (
         ot <- get ;;
         on_fst (insert moved C position [CopyOf (Some (snd ot)) 0]))
  else insert moved C position [CopyOf p i].
(** insert(position, count, value) (vector.cpp 257-266, inplace_vector.cpp 317-326). repeat_n (repeat_n.cpp) keeps the address of the value. *)
Definition std_insert_n (position count : nat) (p : ptr) (i : nat) : M O nat :=
  o <- get ;;
  if in_storage (c_data C o) (c_size C o) p i
  then with_local (copy_value p i) end_value (
         ot <- get ;;
         on_fst (insert moved C position (repeat (CopyOf (Some (snd ot)) 0) count)))
  else insert moved C position (repeat (CopyOf p i) count).
(** resize(count, value) (vector.cpp 309-311, inplace_vector.cpp 195-197; resize.cpp 45-48) *)
Definition std_resize (count : nat) (p : ptr) (i : nat) : M O unit := resize moved C count (CopyOf p i).

(** std::reverse_iterator: *it is the element before its base; ++it moves the base back. rbegin() and rend() (vector.cpp 199-217, inplace_vector.cpp 150-161). *)
Definition rbegin (o : O) : nat := 0.
Definition rend (o : O) : nat := c_size C o.
Definition reverse_read (base : nat) : M O V :=
  match base with
  | 0 => bad Outside
  | S i => o <- get ;; load (c_data C o) i
  end.
Definition reverse_next (base : nat) : M O nat :=
  match base with
  | 0 => bad Outside
  | S i => ret i
  end.
(** for (auto it = first; it != last; ++it): the elements that it refers to *)
Fixpoint reverse_loop (fuel base last : nat) (seen : list V) : M O (list V) :=
  match fuel with
  | 0 => bad Broken
  | S fuel =>
      if base =? last then ret seen
      else v <- reverse_read base ;; base <- reverse_next base ;; reverse_loop fuel base last (seen ++ [v])
  end.
Definition read_in_reverse : M O (list V) := o <- get ;; reverse_loop (S (c_size C o)) (rbegin o) (rend o) [].
End Insert.

(** reserve(n) of a vector (vector.cpp 219-221): check_in_range throws length_error. *)
Definition std_reserve (minc maxc n : nat) : M bvector unit := if n <=? maxc then bv_reserve moved minc maxc n else throw.

Section Inplace.
Context (capacity : nat).
Local Notation C := (static_vector (V := V) capacity).
(** try_push_back, try_emplace_back (inplace_vector.cpp 263-278): a pointer to the new element, or null *)
Definition try_push_back (mk : maker V) : M svector (option nat) :=
  o <- get ;;
  if c_size C o <? capacity then push_back moved C mk ;;; ret (Some (c_size C o)) else ret None.
(** unchecked_push_back, unchecked_emplace_back (lines 287-296) *)
Definition unchecked_push_back (mk : maker V) : M svector unit := lazy_push_back_into_capacity moved C mk.
(** reserve (lines 199-203) *)
Definition inplace_reserve (n : nat) : M svector unit := if capacity <? n then throw else ret tt.
End Inplace.
End Std.
