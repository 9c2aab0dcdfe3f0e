(** * Removing the elements that are equal to a value

    Models bounded/comparison_function_object.cpp and what the containers with the interface of the standard library do with it: remove of list
    (containers/std/list.cpp 404-406) and erase of inplace_vector (containers/std/inplace_vector.cpp 378-381). Both take the value as an lvalue, so
    [unary_equal_to] holds a reference (comparison_function_object.cpp 31-36), and each call reads what is there at that time (lines 23-29). *)

From Coq Require Import List Arith Bool.
From Verif Require Import LinkedList StdList.
Import ListNotations.
Local Open Scope nat_scope.

Section EqualTo.
Context {V : Type}.
(** operator== of the elements; the bound value is on the left (comparison_function_object.cpp 25) *)
Context (equal : V -> V -> bool).

(** remove (std/list.cpp 404-406, with remove_if, lines 401-403, and erase_if, algorithms/erase.cpp 90-101, 119), where the value is that of the node [bound] *)
Fixpoint sized_remove_loop (fuel bound s it count : nat) : S' V nat :=
  match fuel with
  | 0 => sundefined
  | S fuel =>
      if it =? list_end s then sret count
      else
        sbind (lift (value bound)) (fun b =>
        sbind (lift (value it)) (fun v =>
        if equal b v then sbind (sized_erase_one s it) (fun it => sized_remove_loop fuel bound s it (S count))
        else sbind (lift (get_next it)) (fun it => sized_remove_loop fuel bound s it count)))
  end.
Definition sized_remove (s bound : nat) : S' V nat :=
  sbind (lift (list_begin s)) (fun b => swith_fuel (fun fuel => sized_remove_loop fuel bound s b 0)).

(** What the reference refers to: an object that is not in the vector, or the element with an index *)
Inductive referred : Type := Outside (v : V) | Element (i : nat).
Definition read (cells : list V) (r : referred) : option V := match r with Outside v => Some v | Element i => nth_error cells i end.
(** operator() of unary_equal_to (comparison_function_object.cpp 23-29). Simplified: a reference to no element compares unequal; no theorem is about one. *)
Definition matches (cells : list V) (r : referred) (v : V) : bool := match read cells r with Some b => equal b v | None => false end.
Fixpoint set_nth (cells : list V) (i : nat) (v : V) : list V :=
  match cells, i with
  | [], _ => []
  | _ :: cells, 0 => v :: cells
  | c :: cells, S i => c :: set_nth cells i v
  end.
(** [moved]: what an assignment from an rvalue leaves behind in its source *)
Context (moved : V -> V).
(** The loop of erase_if (algorithms/erase.cpp 109-116); [n] elements are left. Simplified: nothing throws, and the count that is returned is left out
    (Vec.v has both, C37). *)
Fixpoint compact (r : referred) (n : nat) (cells : list V) (new_last it : nat) : list V * nat :=
  match n with
  | 0 => (cells, new_last)
  | S n =>
      match nth_error cells it with
      | None => (cells, new_last)
      | Some v =>
          if matches cells r v then compact r n cells new_last (S it)
          else compact r n (set_nth (set_nth cells new_last v) it (moved v)) (S new_last) (S it)
      end
  end.
(** find_if (algorithms/find.cpp 33-42) from the index [it] on *)
Fixpoint find_match (r : referred) (cells rest : list V) (it : nat) : option nat :=
  match rest with
  | [] => None
  | v :: rest => if matches cells r v then Some it else find_match r cells rest (S it)
  end.
(** erase (std/inplace_vector.cpp 378-381; erase_if, algorithms/erase.cpp 102-119): the elements after it *)
Definition erase_equal (cells : list V) (r : referred) : list V :=
  match find_match r cells cells 0 with
  | None => cells
  | Some k => let '(cells, new_last) := compact r (length cells - S k) cells k (S k) in firstn new_last cells
  end.
End EqualTo.
Arguments referred : clear implicits.
