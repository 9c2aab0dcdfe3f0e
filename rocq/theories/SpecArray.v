(** * What arrays are for

    Nothing here is used by the model. *)

From Coq Require Import List Arith Bool.
From Verif Require Import Mem SpecVec Array.
Import ListNotations.

(** The block [b] holds exactly the elements [vs], all alive. *)
Definition array_in {V} (m : @memory V) (b : nat) (vs : list V) : Prop := m b = Some (map Some vs).
(** All other blocks are the same. *)
Definition same_but {V} (bs : list nat) (m m' : @memory V) : Prop := forall b, ~ In b bs -> m' b = m b.
(** [b] is a new array with the elements [vs]; of the other memory, only the blocks [bs] may have changed. *)
Definition new_in {V} (w w' : world V) (b : nat) (vs : list V) (bs : list nat) : Prop :=
  heap w b = None /\ array_in (heap w') b vs /\ same_but (b :: bs) (heap w) (heap w') /\ unused_names w'.
(** The first [k] elements have been moved from. *)
Definition after_moves {V} (moved : V -> V) (k : nat) (vs : list V) : list V := map moved (firstn k vs) ++ skipn k vs.

(** An array with the given sizes, as a list of lists of ... *)
Fixpoint shaped {T} (k : nat) : nested T k -> list nat -> Prop :=
  match k with
  | 0 => fun _ sizes => sizes = []
  | S k => fun a sizes =>
      match sizes with
      | [] => False
      | n :: sizes => length a = n /\ Forall (fun x => shaped k x sizes) a
      end
  end.
(** All elements in the order in which they lie in memory. *)
Fixpoint flat {T} (k : nat) : nested T k -> list T :=
  match k with
  | 0 => fun a => [a]
  | S k => fun a => flat_map (flat k) a
  end.
Definition number_of_elements (sizes : list nat) : nat := fold_right Nat.mul 1 sizes.
(** The place of a[i1][i2]... among them. *)
Fixpoint place (sizes path : list nat) : nat :=
  match sizes, path with
  | _ :: sizes, i :: path => i * number_of_elements sizes + place sizes path
  | _, _ => 0
  end.
