(** * tv::variant

    Alternatives are numbered from 0, as in the code. A living alternative is a pair: its
    number and its value. What depends on the type of an alternative (its type, whether its
    operations may throw, its equality) is given as a function of the number. *)

From Coq Require Import List Arith Bool.
From Verif Require Import Mem.
Import ListNotations.

(** ** visit.cpp *)

(** tv/visit.cpp 103-164, the search for the active alternative of one variant: a switch over 16 cases whose default
    searches again with a larger offset. [n] alternatives; [search] is the index
    of the variant. [None] is std::unreachable. [fuel] bounds the template recursion (each step
    raises the offset by 16); visit_one starts it with more than enough. *)
Fixpoint visit_search (fuel n search offset : nat) : option nat :=
  match fuel with
  | 0 => None
  | S fuel =>
      (* this_search is an integer in [0 - offset, n - 1 - offset]; a negative value goes to default *)
      if (offset <=? search) && (search - offset <? 16) then
        let case := search - offset in
        if n - 1 <? offset + case then None (* if constexpr (max_value < index) std::unreachable() *)
        else Some (offset + case)
      else
        if n - 1 <? offset + 16 then None
        else visit_search fuel n search (offset + 16)
  end.
Definition visit_one (n search : nat) : option nat := visit_search (S n) n search 0.

(** tv/visit.cpp 82-89, 103-164: the variants are searched from left to right; each is replaced in the argument
    list by its active element; when none is left the function is called with the elements. [variants]: for each
    variant the number of alternatives and its index. The result is the list of alternatives the function is
    called with. *)
Fixpoint visit_implementation (variants : list (nat * nat)) (elements : list nat) : option (list nat) :=
  match variants with
  | [] => Some elements
  | (n, search) :: rest =>
      match visit_one n search with
      | None => None
      | Some i => visit_implementation rest (elements ++ [i])
      end
  end.
(** tv/visit.cpp 166-190 *)
Definition visit (variants : list (nat * nat)) : option (list nat) := visit_implementation variants [].

(** ** get_index.cpp 15-31: the position of a type in a list of types. A fold over the pack with a flag. *)
Definition get_index (t : nat) (ts : list nat) : nat :=
  snd (fold_left (fun s t' => match s with
                              | (false, value) => (t =? t', S value)
                              | (true, value) => (true, value)
                              end) ts (false, 0)) - 1.

(** ** The variant *)

(** tv/variant.cpp 266-267: m_index, and the place of m_data, which is a block of one cell. *)
Record variant : Set := Variant { v_index : nat; v_at : nat }.

(** What the code asks about the types of the alternatives. *)
Record types (A : Type) : Type := Types {
  count : nat;                          (* sizeof...(Ts) *)
  type_of : nat -> nat;                 (* the type of an alternative, as a number *)
  nothrow_copy : nat -> bool;           (* std::is_nothrow_copy_constructible_v *)
  nothrow_move : nat -> bool;           (* std::is_nothrow_move_constructible_v *)
  nothrow_copy_assign : nat -> bool;
  nothrow_move_assign : nat -> bool;
  equal : nat -> A -> A -> bool         (* operator== of the alternative *)
}.
Arguments count {A}. Arguments type_of {A}. Arguments nothrow_copy {A}. Arguments nothrow_move {A}.
Arguments nothrow_copy_assign {A}. Arguments nothrow_move_assign {A}. Arguments equal {A}.

(** [noexcept(b)] on a function; an operation that may throw unless it is known not to. *)
Definition noexcept_if {V X B} (b : bool) (m : M V X B) : M V X B := if b then noexcept m else m.
Definition throws_unless {V X} (nothrow : bool) : M V X unit := if nothrow then ret tt else may_throw.

Section Model.
Context {A : Type} (moved : A -> A) (T : types A).
Local Notation V := (nat * A)%type.
Local Notation M := (M V).

Local Notation "x <- m ;; k" := (bind m (fun x => k)) (at level 60, m at next level, right associativity).
Local Notation "m ;;; k" := (bind m (fun _ => k)) (at level 60, right associativity).

Definition all_alternatives (p : nat -> bool) : bool := forallb p (seq 0 (count T)).

(** tv/variadic_union.cpp 47-54: member [k] of the union; reading a member that is not active is undefined. *)
Definition member {X} (at_ k : nat) : M X A :=
  c <- load (Some at_) 0 ;;
  if fst c =? k then ret (snd c) else bad Dead.
Definition set_member {X} (at_ k : nat) (a : A) : M X unit :=
  member at_ k ;;; store (Some at_) 0 (k, a).
(** bounded/destroy.cpp 14-16 on member [k] *)
Definition destroy_member {X} (at_ k : nat) : M X unit :=
  member at_ k ;;; destroy (Some at_) 0.

(** A construct function, with [noexcept(value_t(construct()))]: it makes a value on its own, or copies or moves from
    alternative [k] of the variant whose data is at [at_] (value_to_function.cpp 12-31 of a reference to it). A move
    that throws leaves its source as it was. *)
Inductive creator : Type :=
| Make (nothrow : bool) (a : A)
| CopyFrom (nothrow : bool) (at_ k : nat)
| MoveFrom (nothrow : bool) (at_ k : nat).
Definition creator_nothrow (c : creator) : bool :=
  match c with Make b _ | CopyFrom b _ _ | MoveFrom b _ _ => b end.
Definition create {X} (c : creator) : M X A :=
  match c with
  | Make b a => throws_unless b ;;; ret a
  | CopyFrom b at_ k => a <- member at_ k ;; throws_unless b ;;; ret a
  | MoveFrom b at_ k => a <- member at_ k ;; throws_unless b ;;; set_member at_ k (moved a) ;;; ret a
  end.

(** bounded/construct_at.cpp on the union: member [k] becomes active. *)
Definition construct_member {X} (at_ k : nat) (make : M X A) : M X unit :=
  require_raw (Some at_) 0 ;;; a <- make ;; begin_life (Some at_) 0 (k, a).

(** visit(v, f) on one variant: the alternative it finds; std::unreachable is undefined. *)
Definition visited {X} (index : nat) : M X nat :=
  match visit_one (count T) index with
  | Some i => ret i
  | None => bad Broken
  end.

(** [visit( *this, bounded::destroy)] *)
Definition destroy_active : M variant unit :=
  o <- get ;; i <- visited (v_index o) ;; destroy_member (v_at o) i.

(** tv/variant.cpp 232-237. Returns a reference: the place and the alternative. *)
Definition replace_active_member (k : nat) (make : M variant A) : M variant (nat * nat) :=
  o <- get ;;
  put (Variant k (v_at o)) ;;;
  construct_member (v_at o) k make ;;;
  member (v_at o) k ;;;
  ret (v_at o, k).

(** tv/single_element_storage.cpp 17-32: automatic storage for one object. Its destructor destroys nothing, so the
    object must be gone when the storage ends. *)
Definition single_element_storage {X} (k : nat) (c : creator) : M X nat :=
  b <- new_block 1 ;;
  rethrow_after (construct_member b k (create c)) (deallocate (Some b) 1) ;;;
  ret b.
Definition end_of_storage : M nat unit := b <- get ;; deallocate (Some b) 1.

(** tv/variant.cpp 216-229 *)
Definition emplace_impl (k : nat) (c : creator) (destroy_old : M variant unit) : M variant (nat * nat) :=
  if creator_nothrow c then
    destroy_old ;;; replace_active_member k (create c)
  else
    with_local (single_element_storage k c) end_of_storage
      (on_fst destroy_old ;;;
       p <- get ;;
       on_fst (replace_active_member k (c <- relocate (Some (snd p)) 0 ;; ret (snd c)))).

(** tv/variant.cpp 195-201 *)
Definition emplace (k : nat) (c : creator) : M variant (nat * nat) := emplace_impl k c destroy_active.

(** tv/variant.cpp 80-116: a variant constructed with alternative [k]. *)
Definition construct (k : nat) (c : creator) : M unit variant :=
  b <- new_block 1 ;;
  rethrow_after (construct_member b k (create c)) (deallocate (Some b) 1) ;;;
  ret (Variant k b).

(** tv/variant.cpp 179-182 *)
Definition destruct : M variant unit :=
  destroy_active ;;; o <- get ;; deallocate (Some (v_at o)) 1.

(** tv/variant.cpp 239-249: m_index is copied, the union starts raw, then the active alternative of [other] is
    constructed. If that throws nothing is destroyed: the union has a destructor that does nothing. *)
Definition copy_move (creates : nat -> creator) (other : variant) : M unit variant :=
  b <- new_block 1 ;;
  i <- visited (v_index other) ;;
  rethrow_after (construct_member b i (create (creates i))) (deallocate (Some b) 1) ;;;
  ret (Variant i b).
(** tv/variant.cpp 119-126 *)
Definition copy_construct (other : variant) : M unit variant :=
  noexcept_if (all_alternatives (nothrow_copy T))
    (copy_move (fun i => CopyFrom (nothrow_copy T i) (v_at other) i) other).
(** tv/variant.cpp 129-136 *)
Definition move_construct (other : variant) : M unit variant :=
  noexcept_if (all_alternatives (nothrow_move T))
    (copy_move (fun i => MoveFrom (nothrow_move T i) (v_at other) i) other).

(** tv/variant.cpp 251-264, with tv/insert.cpp 18-20. [rhs] is a named parameter, so rhs.value() is the [const &] overload of
    tv/indexed_value.cpp 23-25, which returns an lvalue reference, and OPERATORS_FORWARD of it (static_cast to
    [decltype(x) &&]) is still an lvalue: the alternative is copied, also when [other] is an
    rvalue. Assignment of an alternative may throw, before it changes anything (simplification). *)
Definition assign (other : variant) : M variant unit :=
  o <- get ;;
  i <- visited (v_index o) ;;
  j <- visited (v_index other) ;;
  if i =? j then
    member (v_at o) i ;;;
    a <- member (v_at other) j ;;
    throws_unless (nothrow_copy_assign T j) ;;;
    set_member (v_at o) i a
  else
    emplace j (CopyFrom (nothrow_copy T j) (v_at other) j) ;;;
    o <- get ;;
    put (Variant j (v_at o)).
(** tv/variant.cpp 138-146 *)
Definition copy_assign (other : variant) : M variant unit :=
  noexcept_if (all_alternatives (nothrow_copy_assign T) && all_alternatives (nothrow_copy T)) (assign other).
(** tv/variant.cpp 149-157 *)
Definition move_assign (other : variant) : M variant unit :=
  noexcept_if (all_alternatives (nothrow_move_assign T) && all_alternatives (nothrow_move T)) (assign other).

(** tv/variant.cpp 159-177: assignment of a value of type [t]; [c] is the value_to_function of it. When the
    active alternative has that type, the assignment may throw before it changes anything. *)
Definition assign_value (t : nat) (c : creator) (nothrow_assign : bool) : M variant unit :=
  o <- get ;;
  i <- visited (v_index o) ;;
  if type_of T i =? t then
    member (v_at o) i ;;;
    a <- create (match c with
                 | Make _ a => Make nothrow_assign a
                 | CopyFrom _ at_ k => CopyFrom nothrow_assign at_ k
                 | MoveFrom _ at_ k => MoveFrom nothrow_assign at_ k
                 end) ;;
    set_member (v_at o) i a
  else
    emplace_impl (get_index t (map (type_of T) (seq 0 (count T)))) c
      (o <- get ;; destroy_member (v_at o) i) ;;;
    ret tt.

(** tv/variant.cpp 184-186 *)
Definition index : M variant nat := o <- get ;; ret (v_index o).
(** tv/variant.cpp 189-193 *)
Definition subscript (k : nat) : M variant A := o <- get ;; member (v_at o) k.

(** tv/variant.cpp 43-52, 203-207: visit_with_index of both, equality_visitor. *)
Definition equals (lhs rhs : variant) : M unit bool :=
  i <- visited (v_index lhs) ;;
  j <- visited (v_index rhs) ;;
  a <- member (v_at lhs) i ;;
  b <- member (v_at rhs) j ;;
  ret (if i =? j then equal T i a b else false).
(** tv/variant.cpp 54-63, 208-213: comparison with a value of type [t]. *)
Definition equals_value (lhs : variant) (t : nat) (b : A) : M unit bool :=
  i <- visited (v_index lhs) ;;
  a <- member (v_at lhs) i ;;
  ret (if type_of T i =? t then equal T i a b else false).

End Model.
