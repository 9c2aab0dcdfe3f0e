(** * Arrays of a fixed size (containers/array.cpp, to_array.cpp)

    The functions that make arrays run on the storage of Mem.v: the array is a block that holds exactly its elements. The comparisons
    and indexes need no storage: there an array is the list of its elements, an array with several sizes a list of lists. *)

From Coq Require Import List Arith Bool.
From Verif Require Import Mem Vec Sequence.
Import ListNotations.

Section Making.
Context {V : Type} (moved : V -> V).
Local Notation M := (M V).

(** An expression that initializes an element: a value that is made when it is needed, or an object in memory, named so that it is
    copied or so that it is moved from. *)
Inductive expression : Type := Prvalue (v : V) | Lvalue (b i : nat) | Xvalue (b i : nat).
(** std::move. For a prvalue it names a temporary, whose end nobody sees. *)
Definition std_move (e : expression) : expression := match e with Lvalue b i => Xvalue b i | e => e end.
(** The constructor of the element. It may throw, also when it moves; then the source keeps its value (a simplification: a
    move constructor could throw after it has changed the source). *)
Definition value_of {X} (e : expression) : M X V :=
  match e with
  | Prvalue v => may_throw ;;; ret v
  | Lvalue b i => v <- load (Some b) i ;; may_throw ;;; ret v
  | Xvalue b i => v <- load (Some b) i ;; may_throw ;;; store (Some b) i (moved v) ;;; ret v
  end.
Definition initialize {X} (p : ptr) (i : nat) (e : expression) : M X unit :=
  require_raw p i ;;; v <- value_of e ;; begin_life p i v.
(** The elements of an array are destroyed in reverse. *)
Fixpoint destroy_down {X} (p : ptr) (n : nat) : M X unit :=
  match n with
  | 0 => ret tt
  | S n => destroy p n ;;; destroy_down p n
  end.
(** Aggregate initialization ([dcl.init.aggr]) of m_value (array.cpp 64): the clauses are evaluated in order, each together with the
    construction of its element; an exception destroys the elements there are. *)
Fixpoint aggregate {X} (p : ptr) (done : nat) (clauses : list (M X expression)) : M X unit :=
  match clauses with
  | [] => ret tt
  | c :: clauses => rethrow_after (e <- c ;; initialize p done e) (destroy_down p done) ;;; aggregate p (S done) clauses
  end.
(** array<T, n>(...): its storage, which goes when the initialization throws *)
Definition new_array {X} (clauses : list (M X expression)) : M X nat :=
  b <- new_block (length clauses) ;;
  rethrow_after (aggregate (Some b) 0 clauses) (deallocate (Some b) (length clauses)) ;;;
  ret b.

(** A range whose size the compiler knows: what [*it] is at each position. [container]: is_container<Source>, which is true only for
    a container that is given as an rvalue. *)
Record source : Type := Source { container : bool; elements : list expression }.
(** The iterator [it] is the state: how often it was incremented. Reading or incrementing it at the end is undefined. *)
Definition read (s : source) : M nat expression :=
  pos <- get ;;
  match nth_error (elements s) pos with
  | Some e => ret (if container s then std_move e else e)
  | None => bad Outside
  end.
Definition advance (s : source) : M nat unit :=
  pos <- get ;;
  if pos <? length (elements s) then put (S pos) else bad Outside.
(** to_array.cpp 28-42 (to_array, 43-54, only chooses the type of the elements) *)
Definition to_array (s : source) : M nat nat :=
  let size := length (elements s) in
  if size =? 0 then new_array []
  else
    put 0 ;;;
    new_array (read s :: repeat (advance s ;;; read s) (size - 1)).
(** make_array_n (to_array.cpp 60-72). The value is the object [i] of the block [b]; [rvalue]: it is given as an rvalue that is not
    const. *)
Definition make_array_n {X} (size : nat) (b i : nat) (rvalue : bool) : M X nat :=
  if size =? 0 then new_array []
  else new_array (repeat (ret (Lvalue b i)) (size - 1) ++ [ret (if rvalue then Xvalue b i else Lvalue b i)]).

End Making.
Arguments expression : clear implicits.
Arguments source : clear implicits.

(** ** Arrays with one or several sizes, as values *)

(** array.cpp 28-35: array<T, n, rest...> is an array of array<T, rest...>. *)
Fixpoint nested (T : Type) (k : nat) : Type :=
  match k with
  | 0 => T
  | S k => list (nested T k)
  end.
(** The defaulted operator<=> (array.cpp 53) compares the elements of m_value in order until two differ; for an array without elements
    it compares nothing (70-72, 86). *)
Fixpoint memberwise {T} (cmp : T -> T -> ordering) (xs ys : list T) : ordering :=
  match xs, ys with
  | x :: xs, y :: ys => if differs (cmp x y) then cmp x y else memberwise cmp xs ys
  | _, _ => Equivalent
  end.
Fixpoint three_way {T} (cmp : T -> T -> ordering) (k : nat) : nested T k -> nested T k -> ordering :=
  match k with
  | 0 => cmp
  | S k => memberwise (three_way cmp k)
  end.
(** A defaulted operator<=> also declares a defaulted operator== (array.cpp 53, 86). *)
Fixpoint members_equal {T} (eqb : T -> T -> bool) (xs ys : list T) : bool :=
  match xs, ys with
  | x :: xs, y :: ys => if eqb x y then members_equal eqb xs ys else false
  | _, _ => true
  end.
Fixpoint array_equal {T} (eqb : T -> T -> bool) (k : nat) : nested T k -> nested T k -> bool :=
  match k with
  | 0 => eqb
  | S k => members_equal (array_equal eqb k)
  end.
(** operator[] (array.cpp 51), applied once for each size; [None]: the index is not less than the size. get (109-120) is the same with
    a constant. *)
Fixpoint subscript {T} (k : nat) : nested T k -> list nat -> option T :=
  match k with
  | 0 => fun a path => match path with [] => Some a | _ => None end
  | S k => fun a path =>
      match path with
      | [] => None
      | i :: path => match nth_error a i with Some a => subscript k a path | None => None end
      end
  end.

(** Which of the conversions to std::span is chosen for an array of [n] elements of type T, and whether its body compiles.
    [const]: the array is const. The target is span<T const, n> for a const array and span<T, n> for one that is not. The bodies
    (array.cpp 55-60, 88-93) return a span of these elements; only a span of elements that are not const converts to span<T, n>. *)
Inductive span_elements : Type := Mutable | Const.
Definition span_body (n : nat) (const : bool) : span_elements :=
  if n =? 0 then Const                       (* 89 and 92 *)
  else if const then Const else Mutable.     (* 56 and 59 *)
Definition span_compiles (n : nat) (const : bool) : bool :=
  match const, span_body n const with
  | false, Const => false
  | _, _ => true
  end.
