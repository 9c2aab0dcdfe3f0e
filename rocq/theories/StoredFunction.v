(** * What an iterator of a transformed range keeps of the function: containers/reference_or_value.cpp, stored_function.cpp,
    value_wrapper.cpp, adapt.cpp 38-44, algorithms/transform.cpp

    The source of the range is an lvalue, so that its elements are outside of the range object; a range of an rvalue contains the
    elements its iterators refer to. *)

From Coq Require Import List Arith Bool.
Import ListNotations.

(** The traits of a type that bounded::mostly_trivial (bounded/concepts.cpp 59-65) and sizeof look at. *)
Record function_type : Type := Function_type {
  size_of : nat;
  trivial_move_construct : bool;
  trivial_copy_construct : bool;
  trivial_move_assign : bool;
  trivial_copy_assign : bool;
  trivial_destroy : bool }.
(** T const: nothing can be assigned to it. Classes whose operator= is a const member function are left out. *)
Definition const_ (t : function_type) : function_type :=
  Function_type (size_of t) (trivial_move_construct t) (trivial_copy_construct t) false false (trivial_destroy t).
(** bounded/concepts.cpp 59-65 *)
Definition mostly_trivial (t : function_type) : bool :=
  trivial_move_construct t && trivial_copy_construct t && trivial_move_assign t && trivial_copy_assign t && trivial_destroy t.
(** reference_or_value.cpp 15-18; a reference_wrapper has the size of a pointer, 8 bytes *)
Definition can_store_copy (t : function_type) : bool := mostly_trivial t && (size_of t <=? 8).

Section Iterators.
(** [F]: the values of the function type; [apply]: calling one; [moved]: what a move leaves behind. *)
Context {A B F : Type} (apply : F -> A -> B) (moved : F -> F).

(** value_wrapper<T> or std::reference_wrapper<T const>, where the reference is to the function in the range object at that place *)
Inductive stored : Type := Value (f : F) | Reference (place : nat).
(** The range objects that live, by the place they are at, with their functions *)
Definition ranges : Type := nat -> option F.
Definition put (place : nat) (f : option F) (s : ranges) : ranges := fun p => if p =? place then f else s p.

(** reference_or_value.cpp 20-25: [reference_or_value<T>(object)] *)
Definition reference_or_value (t : function_type) (place : nat) (f : F) : stored := if can_store_copy t then Value f else Reference place.
(** value_wrapper.cpp 20-25, std::reference_wrapper::get *)
Definition stored_get (s : ranges) (x : stored) : option F :=
  match x with Value f => Some f | Reference place => s place end.

Record iterator : Type := Iterator { base : nat; traits : stored }.
(** adapt.cpp 71-82 with 38-44 for transform and transform_dereference: the traits are the function and have its size (an object
    without members has size 1) and its triviality. *)
Definition transform_begin (t : function_type) (s : ranges) (place : nat) : option iterator :=
  match s place with
  | Some f => Some (Iterator 0 (reference_or_value t place f))
  | None => None
  end.
(** transform.cpp 100-102 and 81, generate.cpp 203-204: transform_non_idempotent and generate_n_idempotent keep a
    stored_function<Function const>; stored_function.cpp 15-20: a function that can be called when it is const. Such a
    range cannot be copied, only moved. *)
Definition non_idempotent_begin (t : function_type) (s : ranges) (place : nat) : option iterator :=
  match s place with
  | Some f => Some (Iterator 0 (reference_or_value (const_ t) place f))
  | None => None
  end.
(** default_adapt_traits.cpp: default_add *)
Definition advance (it : iterator) (n : nat) : iterator := Iterator (base it + n) (traits it).
(** adapt_iterator.cpp 141-143, transform.cpp 43-50 and 71-78; [None] is undefined behaviour *)
Definition dereference (elements : list A) (s : ranges) (it : iterator) : option B :=
  match nth_error elements (base it), stored_get s (traits it) with
  | Some a, Some f => Some (apply f a)
  | _, _ => None
  end.

(** What a program does with range objects. A range of an lvalue has a reference as a member, so it cannot be assigned to. *)
Inductive event : Type :=
  | Made (place : nat) (f : F)              (* transform(source, f) *)
  | Copied (from to : nat)                  (* auto to = from; *)
  | Moved (from to : nat)                   (* auto to = std::move(from); *)
  | Destroyed (place : nat).
(** [None]: the program uses a range that does not live, or constructs one where another lives. *)
Definition free (s : ranges) (place : nat) : bool := match s place with None => true | Some _ => false end.
Definition step (e : event) (s : ranges) : option ranges :=
  match e with
  | Made place f => if free s place then Some (put place (Some f) s) else None
  | Copied from to =>
      match s from with Some f => if free s to then Some (put to (Some f) s) else None | None => None end
  | Moved from to =>
      match s from with Some f => if free s to then Some (put to (Some f) (put from (Some (moved f)) s)) else None | None => None end
  | Destroyed place => if free s place then None else Some (put place None s)
  end.
Fixpoint run (es : list event) (s : ranges) : option ranges :=
  match es with
  | [] => Some s
  | e :: es => match step e s with Some s' => run es s' | None => None end
  end.
End Iterators.
