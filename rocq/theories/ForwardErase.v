(** * Erasing a range of a forward list

    source/containers/algorithms/erase.cpp 122-128. LinkedList.v has the case in which the range ends with the list. *)

From Coq Require Import List Arith Bool Lia.
From Verif Require Import LinkedList.
Import ListNotations.
Local Open Scope nat_scope.

Section Erase.
Context {V : Type}.
Notation F := (M (option nat) V).
(** Comparison of two iterators, which are null at the end (linked_list_helper.cpp). A sentinel is the iterator at the end. *)
Definition same_place (a b : option nat) : bool :=
  match a, b with
  | None, None => true
  | Some a, Some b => a =? b
  | _, _ => false
  end.
(** The loop (lines 125-127); [fuel] is more than the list has nodes *)
Fixpoint erase_until_loop (fuel before_first : nat) (last it : option nat) : F unit :=
  match fuel with
  | 0 => undefined
  | S fuel => if same_place it last then ret tt else bind (erase_after before_first) (fun it => erase_until_loop fuel before_first last it)
  end.
(** erase_after(container, before_first, last) (lines 122-128) *)
Definition erase_range_after (before_first : nat) (last : option nat) : F unit :=
  bind (links before_first) (fun it => with_fuel (fun fuel => erase_until_loop fuel before_first last it)).
End Erase.
