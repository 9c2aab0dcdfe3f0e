(** * What a vector is, for the properties of the containers

    Nothing here is used by the model. [others] is the memory that does not belong to
    the vector: an operation on the vector must leave it alone, and when the vector is gone nothing
    but it must be left. *)

From Coq Require Import List Arith Bool.
From Verif Require Import Mem Vec.
Import ListNotations.

Section Spec.
Context {V : Type}.

(** Block names and what is in them; [None] in a cell is raw memory, [Some v] a living object. *)
Definition memory : Type := nat -> option (list (option V)).
Definition same (m m' : memory) : Prop := forall b, m b = m' b.
(** Names that were not given out yet are not in use. *)
Definition unused_names (w : world V) : Prop := forall b, next w <= b -> heap w b = None.

(** How a call ends: it returns, or it leaves by an exception; never with a fault. *)
Definition ends {X A} (r : out V X A) (returns : X -> A -> world V -> Prop) (throws : X -> world V -> Prop) : Prop :=
  match r with
  | Ret x a w => returns x a w
  | Exc x w => throws x w
  | Bad _ => False
  end.
(** Some operation of the outside world (an allocation, a copy, a predicate) throws. *)
Definition someone_throws (w : world V) : Prop := In true (script w).

(** [o] is a vector with the elements [vs]: the first cells of its block are living objects with these
    values, the rest of the block is raw; the capacity is the size of the block and in bounds; the rest
    of the memory is [others]. A vector without storage has no elements. *)
Definition is_vector_in (minc maxc : nat) (o : bvector) (vs : list V) (others m : memory) : Prop :=
  b_size o = length vs /\
  match u_pointer (b_storage o) with
  | Some b =>
      others b = None /\
      (exists spare, m b = Some (map Some vs ++ repeat None spare) /\
         u_size (b_storage o) = length vs + spare /\ minc <= length vs + spare <= maxc) /\
      (forall b', b' <> b -> m b' = others b')
  | None => vs = [] /\ u_size (b_storage o) = 0 /\ minc = 0 /\ same m others
  end.
Definition is_vector (minc maxc : nat) (o : bvector) (vs : list V) (others : memory) (w : world V) : Prop :=
  is_vector_in minc maxc o vs others (heap w) /\ unused_names w.
(** Two vectors with different storage. *)
Definition two_vectors (minc maxc : nat) (o : bvector) (vs : list V) (t : bvector) (us : list V) (others : memory) (w : world V) : Prop :=
  exists middle, is_vector_in minc maxc o vs others middle /\ is_vector_in minc maxc t us middle (heap w) /\ unused_names w.
Definition capacity_of (o : bvector) : nat := u_size (b_storage o).
(** The capacity after making room for [n] elements: unchanged when there is room, otherwise at least
    doubled. *)
Definition grown (o : bvector) (n : nat) : nat :=
  if n <=? capacity_of o then capacity_of o else Nat.max n (2 * capacity_of o).
(** What is left of a vector after its contents were moved away. *)
Definition moved_from (o : bvector) : Prop := u_pointer (b_storage o) = None /\ b_size o = 0.

(** The same for static_vector, whose block is part of the object. *)
Definition is_static_vector_in (capacity : nat) (o : svector) (vs : list V) (others m : memory) : Prop :=
  v_size o = length vs /\ others (v_place o) = None /\
  (exists spare, m (v_place o) = Some (map Some vs ++ repeat None spare) /\ length vs + spare = capacity) /\
  (forall b, b <> v_place o -> m b = others b).
Definition is_static_vector (capacity : nat) (o : svector) (vs : list V) (others : memory) (w : world V) : Prop :=
  is_static_vector_in capacity o vs others (heap w) /\ unused_names w.
Definition two_static_vectors (capacity : nat) (o : svector) (vs : list V) (t : svector) (us : list V) (others : memory) (w : world V) : Prop :=
  exists middle, is_static_vector_in capacity o vs others middle /\ is_static_vector_in capacity t us middle (heap w) /\ unused_names w.

(** The element made by [mk] in this memory has the value [v]: either the caller supplies the
    value or it is copied from a living object. *)
Definition makes (m : memory) (mk : maker V) (v : V) : Prop :=
  match mk with
  | Supply u => u = v
  | CopyOf (Some b) i => exists cells, m b = Some cells /\ nth_error cells i = Some (Some v)
  | _ => False
  end.

(** The strong exception guarantee: neither the object nor any memory changed. *)
Definition untouched {O} (o o' : O) (w w' : world V) : Prop := o' = o /\ same (heap w') (heap w) /\ unused_names w'.

(** A pointer to cell [i] of a block points to a living object of value [v]. *)
Definition points_to (w : world V) (p : ptr) (i : nat) (v : V) : Prop :=
  exists b cells, p = Some b /\ heap w b = Some cells /\ nth_error cells i = Some (Some v).

(** A list without the elements that satisfy a predicate. *)
Definition without (p : V -> bool) (l : list V) : list V := filter (fun v => negb (p v)) l.

End Spec.
