(** * The comparison operators of containers

    Models containers/compare_container.cpp and the comparison of containers/map_value_type.cpp. A container is the range of its elements
    (Range.v); both sides have the same type. [eq] and [cmp] are == and <=> of the elements. [fuel] bounds the loops. *)

From Coq Require Import List ZArith Bool.
From Verif Require Import Range Sequence.

Section Operators.
Context {I A : Type} (fuel : nat).

(** operator== of the three bases (compare_container.cpp 19-22, 38-41 and 53-56) *)
Definition operator_equal (eq : A -> A -> bool) (lhs rhs : range I A) : res bool := equal lhs rhs fuel eq.
(** a != b is !(a == b), by the rules of the language. *)
Definition operator_not_equal (eq : A -> A -> bool) (lhs rhs : range I A) : res bool :=
  let* b := operator_equal eq lhs rhs in Val (negb b).

(** operator<=> of lexicographical_comparison::base (compare_container.cpp 34-37), which every container of the library uses, and of
    shortlex_comparison::base (49-52), which needs a size. *)
Definition operator_three_way (cmp : A -> A -> ordering) (lhs rhs : range I A) : res ordering := lexicographical_compare lhs rhs fuel cmp.
Definition operator_three_way_shortlex (cmp : A -> A -> ordering) (lhs rhs : range I A) : option (res ordering) := shortlex_compare lhs rhs fuel cmp.

(** a < b is (a <=> b) < 0, by the rules of the language, and so on. *)
Inductive relation_operator := Op_less | Op_less_equal | Op_greater | Op_greater_equal.
Definition against_zero (op : relation_operator) (o : ordering) : bool :=
  match op, o with
  | Op_less, Less => true
  | Op_less_equal, (Less | Equivalent) => true
  | Op_greater, Greater => true
  | Op_greater_equal, (Greater | Equivalent) => true
  | _, _ => false
  end.
Definition operator_relation (op : relation_operator) (cmp : A -> A -> ordering) (lhs rhs : range I A) : res bool :=
  let* o := operator_three_way cmp lhs rhs in Val (against_zero op o).
End Operators.

(** The defaulted operator<=> of map_value_type (map_value_type.cpp 22) and the operator== declared with it: key, then mapped, in the order
    of the members (31-32). An element is a pair of both. *)
Section MapValue.
Context {K T : Type}.
Definition map_value_three_way (cmp_key : K -> K -> ordering) (cmp_mapped : T -> T -> ordering) (lhs rhs : K * T) : ordering :=
  let result := cmp_key (fst lhs) (fst rhs) in
  if differs result then result else cmp_mapped (snd lhs) (snd rhs).
Definition map_value_equal (eq_key : K -> K -> bool) (eq_mapped : T -> T -> bool) (lhs rhs : K * T) : bool :=
  eq_key (fst lhs) (fst rhs) && eq_mapped (snd lhs) (snd rhs).
End MapValue.
