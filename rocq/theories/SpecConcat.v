(** * What the arguments of concatenate are, for its properties

    Nothing here is used by the model. *)

From Coq Require Import List Arith Bool.
From Verif Require Import Mem Vec Concat SpecVec.
Import ListNotations.

Section Spec.
Context {V : Type} (minc maxc : nat).
Local Notation memory := (@memory V).
Local Notation argument := (@argument V).

(** The vector has the elements [vs] (as in SpecVec.v, but nothing is said about other memory). *)
Definition vector_at (o : bvector) (vs : list V) (m : memory) : Prop :=
  b_size o = length vs /\
  match u_pointer (b_storage o) with
  | Some b => exists spare, m b = Some (map Some vs ++ repeat None spare) /\
                u_size (b_storage o) = length vs + spare /\ minc <= length vs + spare <= maxc
  | None => vs = [] /\ u_size (b_storage o) = 0 /\ minc = 0
  end.
(** Every vector among the arguments has its own block, and what is not in these blocks is [base]. *)
Definition uses (args : list argument) (k b : nat) : Prop :=
  exists o, nth_error args k = Some (Expiring o) /\ u_pointer (b_storage o) = Some b.
Definition apart (args : list argument) (base m : memory) : Prop :=
  (forall j k b, uses args j b -> uses args k b -> j = k) /\
  (forall k b, uses args k b -> base b = None) /\
  (forall b, (forall k, ~ uses args k b) -> m b = base b).
(** [vss] are the elements of the arguments. Those that are not vectors are supplied or copied from elsewhere. *)
Definition argument_has (base m : memory) (a : argument) (vs : list V) : Prop :=
  match a with
  | Borrowed elements => Forall2 (makes base) elements vs
  | Expiring o => vector_at o vs m
  end.
Definition arguments_have (args : list argument) (vss : list (list V)) (base m : memory) : Prop :=
  Forall2 (argument_has base m) args vss /\ apart args base m.
(** What is left of an argument: a vector without elements or one that was moved from; the others are as they were. *)
Definition argument_left (m : memory) (a a' : argument) : Prop :=
  match a, a' with
  | Borrowed elements, Borrowed elements' => elements' = elements
  | Expiring _, Expiring o => vector_at o [] m \/ moved_from o
  | _, _ => False
  end.
(** The [k]-th argument is the first one that is a vector with room for [total] elements. *)
Definition first_with_room (args : list argument) (total k : nat) (o : bvector) : Prop :=
  nth_error args k = Some (Expiring o) /\ total <= capacity_of o /\
  forall j o', j < k -> nth_error args j = Some (Expiring o') -> capacity_of o' < total.

End Spec.
