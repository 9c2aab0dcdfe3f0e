(** * merge, reverse, unique and sort of the list with the interface of the standard library

    Models containers/std/list.cpp 369-380 and 408-426: the bodies say TODO and do nothing. The overloads with fewer arguments call these. *)

From Coq Require Import List ZArith.
From Verif Require Import LinkedList StdList.
Local Open Scope nat_scope.

Section Stubs.
Context {V : Type}.
(** merge (lines 369-380): the list with the sentinel [t] goes to the one with the sentinel [s] *)
Definition sized_merge (less : V -> V -> bool) (s t : nat) : S' V unit := sret tt.
(** reverse (lines 408-410) *)
Definition sized_reverse (s : nat) : S' V unit := sret tt.
(** unique (lines 412-418), with the number of removed elements *)
Definition sized_unique (equal : V -> V -> bool) (s : nat) : S' V nat := sret 0.
(** sort (lines 420-426) *)
Definition sized_sort (less : V -> V -> bool) (s : nat) : S' V unit := sret tt.
End Stubs.
