(** * The type of an index into a range, and the index that containers::at passes to operator[]

    containers/index_type.cpp, containers/at.cpp. A size type is a built-in or a bounded integer type. The element access itself
    is Sequence.v. *)

From Coq Require Import ZArith Bool.
From Verif Require Import Cxx Core Arith Funcs.
Open Scope Z_scope.

(** 0_bi and 1_bi *)
Definition zero_bi : bty := Bty (lit 0) (lit 0).
Definition one_bi : bty := Bty (lit 1) (lit 1).

(** index_type.cpp 15-31. numeric_traits::max_value of a bounded integer type is the constant with that value. *)
Definition to_index_type (size : ity) : option ity :=
  match size with
  | Builtin t => Some (Builtin t)
  | Bounded B =>
      let? (M, _) := minus (Bty (bmax B) (bmax B)) one_bi (hi B) 1 in
      let? R := mk_integer (lit 0) (normalize (bmin M)) in
      Some (Bounded R)
  end.

(** bounded::integer(value) *)
Definition integer_of (T : ity) (x : Z) : result :=
  let? D := deduced T in
  let? o := convert D T x in
  Some (D, o).

(** static_cast to a built-in type or, implicitly converting, to a bounded one; the value of the result *)
Definition cast_to (T : ity) (B : bty) (x : Z) : option (outcome Z) :=
  match T with
  | Builtin t => Some (do v <- to_builtin t (Bounded B) x; Ok (vl v))
  | Bounded R => convert R (Bounded B) x
  end.
(** [f] is instantiated for the type whatever the outcome is. *)
Definition then_cast (r : result) (f : bty -> Z -> option (outcome Z)) : option (outcome Z) :=
  let? (R, o) := r in
  match o with
  | Ok z => f R z
  | UB => let? _ := f R (lo R) in Some UB
  | Throw => let? _ := f R (lo R) in Some Throw
  end.

(** at.cpp 24-31: the index that operator[] gets; [size] and [index] are the types of the size and of the argument. *)
Definition at_index (size index : ity) (n i : Z) : option (outcome Z) :=
  let? T := to_index_type size in
  then_cast
    (then_ (integer_of index i) (fun I i =>
     then_ (then_ (integer_of size n) (fun S n => minus S one_bi n 1)) (fun M m =>
     check_in_range (Bounded I) (Bounded zero_bi) (Bounded M) i 0 m)))
    (fun R r => cast_to T R r).

(** at.cpp 33-37: index_t(index), where a bounded index type is converted implicitly and a built-in one explicitly *)
Definition at_index_unchecked (size index : ity) (i : Z) : option (outcome Z) :=
  let? T := to_index_type size in
  match T with
  | Builtin t => Some (do v <- to_builtin t index i; Ok (vl v))
  | Bounded R => convert R index i
  end.
