(** * What min, max and extreme refer to (bounded/minmax.cpp, bounded/common_type_and_value_category.cpp)

    Funcs.v models which value these functions select. This file adds the value categories: whether the result is a new object or a
    reference, and to which object. *)

From Coq Require Import List ZArith Bool.
From Verif Require Import Cxx Core Arith Funcs.
Import ListNotations.

(** ** common_type_and_value_category.cpp *)
Section Category.
Context {B : Type} (eqb : B -> B -> bool).

Inductive reference : Set := NoReference | LvalueReference | RvalueReference.
(** A type: its name without const, volatile and reference, and these. Arrays and functions, which std::decay changes, are not
    modelled. *)
Record ctype : Type := CType { base : B; is_const : bool; is_volatile : bool; ref : reference }.
Definition is_lvalue_reference (t : ctype) : bool := match ref t with LvalueReference => true | _ => false end.
Definition is_rvalue_reference (t : ctype) : bool := match ref t with RvalueReference => true | _ => false end.
(** 12-17: common_cv of the types without their references *)
Definition common_const (ts : list ctype) : bool := existsb is_const ts.
Definition common_volatile (ts : list ctype) : bool := existsb is_volatile ts.
(** 19-39 *)
Definition add_common_cv_reference (target : B) (ts : list ctype) : ctype :=
  let same_base_type := forallb (fun t => eqb target (base t)) ts in
  if same_base_type && forallb is_rvalue_reference ts then CType target (common_const ts) (common_volatile ts) RvalueReference
  else if same_base_type && forallb is_lvalue_reference ts then CType target (common_const ts) (common_volatile ts) LvalueReference
  else CType target false false NoReference.
(** 41-42; [common] is std::common_type *)
Definition common_type_and_value_category (common : list B -> B) (ts : list ctype) : ctype :=
  add_common_cv_reference (common (map base ts)) ts.
End Category.
Arguments ctype : clear implicits.
Arguments CType {B}.

(** ** Arguments and results *)

(** An object: one of the arguments the caller gave, or a temporary that the variadic function made in its own return statement (minmax.cpp
    112-118). Such a temporary is destroyed when that function returns. *)
Inductive object : Set := Argument (i : nat) | Temporary (k : nat).
(** An argument of one of the functions: an lvalue or an rvalue. volatile is not modelled. *)
Record operand {B V : Type} : Type := Operand { o_type : B; o_const : bool; o_lvalue : bool; o_object : object; o_value : V }.
(** What a function returns: a new object ([None]) or a reference, and the value that is there when the function still runs. *)
Record answer {B V : Type} : Type := Answer { a_type : B; a_const : bool; a_lvalue : bool; a_object : option object; a_value : V }.
Arguments operand : clear implicits.
Arguments answer : clear implicits.
Arguments Operand {B V}.
Arguments Answer {B V}.

Section Extreme.
Context {B V : Type}.

(** The type that a forwarding reference deduces: T & for an lvalue and T, not T &&, for an rvalue. *)
Definition deduced_type (o : operand B V) : ctype B :=
  CType (o_type o) (o_const o) false (if o_lvalue o then LvalueReference else NoReference).
(** A function that returns its parameter (minmax.cpp 77, 79, 99-101) *)
Definition itself (o : operand B V) : answer B V := Answer (o_type o) (o_const o) (o_lvalue o) (Some (o_object o)) (o_value o).
(** minmax.cpp 31-39, for types other than two bounded integers. [common]: std::common_type. [convert]: the conversion of a value
    to another type. [compare]: the comparison function, called with two arguments of any types. *)
Definition extreme_any (eqb : B -> B -> bool) (common : list B -> B) (convert : B -> B -> V -> V) (compare : operand B V -> operand B V -> bool)
    (lhs rhs : operand B V) : answer B V :=
  let result := common_type_and_value_category eqb common [deduced_type lhs; deduced_type rhs] in
  let chosen := if compare rhs lhs then rhs else lhs in
  match ref result with
  | NoReference => Answer (base result) false false None (convert (o_type chosen) (base result) (o_value chosen))
  | LvalueReference => Answer (base result) (is_const result) true (Some (o_object chosen)) (o_value chosen)
  | RvalueReference => Answer (base result) (is_const result) false (Some (o_object chosen)) (o_value chosen)
  end.

(** The conditional operator ([expr.cond]) on two operands of the same type, each named as an lvalue or an xvalue: two lvalues and two
    xvalues stay so; an xvalue converts to a reference to const, so that a const lvalue and an xvalue give a const lvalue; a
    lvalue that is not const and an xvalue give a new object. *)
Definition conditional (second third : operand B V) (b : bool) : answer B V :=
  let chosen := if b then second else third in
  let refers lvalue := Answer (o_type chosen) (o_const second || o_const third) lvalue (Some (o_object chosen)) (o_value chosen) in
  match o_lvalue second, o_lvalue third with
  | true, true => refers true
  | false, false => refers false
  | true, false => if o_const second then refers true else Answer (o_type chosen) (o_const third) false None (o_value chosen)
  | false, true => if o_const third then refers true else Answer (o_type chosen) (o_const second) false None (o_value chosen)
  end.

(** The result of a call as the argument of the next one; a new object is a temporary of this call of the variadic function. *)
Definition pass (k : nat) (a : answer B V) : operand B V :=
  match a_object a with
  | Some o => Operand (a_type a) (a_const a) (a_lvalue a) o (a_value a)
  | None => Operand (a_type a) (a_const a) false (Temporary k) (a_value a)
  end.
(** minmax.cpp 98-120. [two]: extreme_value for two arguments; [None]: it does not compile. *)
Fixpoint extreme_function (two : operand B V -> operand B V -> option (outcome (answer B V))) (k : nat) (t1 : operand B V) (ts : list (operand B V)) :
    option (outcome (answer B V)) :=
  match ts with
  | [] => Some (Ok (itself t1))
  | [t2] => two t1 t2
  | t2 :: ts =>
      match two t1 t2 with
      | Some (Ok a) => extreme_function two (S k) (pass k a) ts
      | r => r
      end
  end.
End Extreme.

(** minmax.cpp 56-86, for two bounded integers and std::less or std::greater *)
Definition extreme_bounded (c : order) (lhs rhs : operand bty Z) : option (outcome (answer bty Z)) :=
  let A := o_type lhs in
  let B := o_type rhs in
  let? mn := select c (bmin A) (bmin B) in
  let? mx := select c (bmax A) (bmax B) in
  let? T := mk_integer mn mx in
  let compare := before c (Bounded B) (Bounded A) (o_value rhs) (o_value lhs) in
  if bty_eqb T A && bty_eqb A B
  then Some (do b <- compare; Ok (conditional rhs lhs b))
  else if negb (overlapping_integer (Bounded B) (bmin T) (bmax T)) then Some (Ok (itself lhs))
  else if negb (overlapping_integer (Bounded A) (bmin T) (bmax T)) then Some (Ok (itself rhs))
  else
    let? u := unchecked T (Bounded B) (o_value rhs) in
    let? v := unchecked T (Bounded A) (o_value lhs) in
    Some (do b <- compare; do z <- (if b then u else v); Ok (Answer T false false None z)).

(** minmax.cpp 121-129. The arguments are the objects [Argument 0], [Argument 1], ... *)
Definition extreme_of (c : order) (t : operand bty Z) (ts : list (operand bty Z)) : option (outcome (answer bty Z)) :=
  extreme_function (extreme_bounded c) 0 t ts.
Definition extreme_of_any {B V : Type} (eqb : B -> B -> bool) (common : list B -> B) (convert : B -> B -> V -> V) (compare : operand B V -> operand B V -> bool)
    (t : operand B V) (ts : list (operand B V)) : option (outcome (answer B V)) :=
  extreme_function (fun l r => Some (Ok (extreme_any eqb common convert compare l r))) 0 t ts.
(** Using the result after the call: a reference to a destroyed temporary is undefined. *)
Definition use {B V} (a : answer B V) : outcome V :=
  match a_object a with
  | Some (Temporary _) => UB
  | _ => Ok (a_value a)
  end.
