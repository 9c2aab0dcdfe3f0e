(** * sum, product and accumulate of ranges of bounded integers

    Models containers/algorithms/accumulate.cpp on the list of elements that the range-based for loop sees (Range.v, visit). [V] is
    the type of the elements, [Init] that of the initial value, and [N] is integer<0, n> with the largest value [n] of
    difference_type. *)

From Coq Require Import ZArith Bool List.
From Verif Require Import Cxx Core Arith Funcs.
Import ListNotations.
Open Scope Z_scope.

(** accumulate.cpp 31-43 *)
Definition sum_type (Init V N : bty) : option bty :=
  let? (P, _) := multiply V N (lo V) (lo N) in
  let? (R, _) := plus Init P (lo Init) (lo P) in
  Some R.
(** accumulate.cpp 45-57 *)
Definition product_type (Init V N : bty) : option bty :=
  let? (P, _) := pow V N (lo V) (lo N) in
  let? (R, _) := multiply Init P (lo Init) (lo P) in
  Some R.

(** accumulate.cpp 69: result = assume_in_range<Result>(function(result, value)) *)
Definition accumulate_step (op : bty -> bty -> Z -> Z -> result) (R V : bty) (x v : Z) : result :=
  then_ (op R V x v) (fun T z => then_ (assume_in_range_to R (Bounded T) z) (assign_result R)).
(** accumulate.cpp 66-74 *)
Fixpoint accumulate_loop (op : bty -> bty -> Z -> Z -> result) (R V : bty) (x : Z) (values : list Z) : result :=
  match values with
  | [] => Some (R, Ok x)
  | v :: values => then_ (accumulate_step op R V x v) (fun _ z => accumulate_loop op R V z values)
  end.
(** accumulate.cpp 63-75 for a Result that is a bounded integer. The body of the loop has to compile for an empty range, too. *)
Definition accumulate (op : bty -> bty -> Z -> Z -> result) (R Init V : bty) (initial : Z) (values : list Z) : result :=
  let? c := convert R (Bounded Init) initial in
  let? _ := accumulate_step op R V (lo R) (lo V) in
  match c with
  | Ok x => accumulate_loop op R V x values
  | o => Some (R, o)
  end.

(** accumulate.cpp 78-84 with std::plus and std::multiplies *)
Definition accumulate_plus (Init V N : bty) (initial : Z) (values : list Z) : result :=
  let? R := sum_type Init V N in accumulate plus R Init V initial values.
Definition accumulate_multiplies (Init V N : bty) (initial : Z) (values : list Z) : result :=
  let? R := product_type Init V N in accumulate multiply R Init V initial values.
(** accumulate.cpp 87-94 and 114-120 *)
Definition sum (V N : bty) (values : list Z) : result :=
  let? zero := constant_t (lit 0) in accumulate_plus zero V N 0 values.
(** accumulate.cpp 96-103 and 131-137 *)
Definition product (V N : bty) (values : list Z) : result :=
  let? one := constant_t (lit 1) in accumulate_multiplies one V N 1 values.
(** accumulate.cpp 105-112 and 122-129: the user gives the type of the result. *)
Definition sum_as (R V : bty) (values : list Z) : result :=
  let? zero := constant_t (lit 0) in accumulate plus R zero V 0 values.
Definition product_as (R V : bty) (values : list Z) : result :=
  let? one := constant_t (lit 1) in accumulate multiply R one V 1 values.
