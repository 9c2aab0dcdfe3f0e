(** * Reversing a range in place

    Models containers/algorithms/reverse.cpp on the memory of Mem.v. An iterator into the range is an index into the block [p], and
    [begin] is the first of the range. *)

From Coq Require Import List Arith Bool.
From Verif Require Import Mem Sort.
Import ListNotations.
Local Open Scope nat_scope.

Section Reverse.
Context {V : Type}.
Local Notation M := (M V).

(** --it; the first iterator cannot be decremented. *)
Definition decrement {X} (begin it : nat) : M X nat := if begin <? it then ret (it - 1) else bad Outside.

(** reverse.cpp 30-34 *)
Fixpoint reverse_random_loop {X} (fuel : nat) (p : ptr) (begin first last : nat) : M X unit :=
  match fuel with
  | 0 => bad Broken
  | S fuel =>
      if first <? last then
        bind (swap_at p first last) (fun _ =>
        bind (decrement begin last) (fun last => reverse_random_loop fuel p begin (S first) last))
      else ret tt
  end.
(** reverse.cpp 22-34: ranges with random access. *)
Definition reverse_random {X} (p : ptr) (first last : nat) : M X unit :=
  if first =? last then ret tt
  else bind (decrement first last) (fun last' => reverse_random_loop (S (last - first)) p first first last').

(** reverse.cpp 36-43: the others. *)
Fixpoint reverse_bidirectional_loop {X} (fuel : nat) (p : ptr) (begin first last : nat) : M X unit :=
  match fuel with
  | 0 => bad Broken
  | S fuel =>
      if first =? last then ret tt
      else
        bind (decrement begin last) (fun last =>
        if first =? last then ret tt
        else bind (swap_at p first last) (fun _ => reverse_bidirectional_loop fuel p begin (S first) last))
  end.
Definition reverse_bidirectional {X} (p : ptr) (first last : nat) : M X unit :=
  reverse_bidirectional_loop (S (last - first)) p first first last.

End Reverse.
