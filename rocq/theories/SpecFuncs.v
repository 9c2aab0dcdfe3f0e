(** * Specifications of expressions and update histories

    What an expression or a history of updates means in mathematics. *)

From Coq Require Import ZArith Bool List.
From Verif Require Import Cxx Core Spec Arith Funcs.
Import ListNotations.
Open Scope Z_scope.

(** The mathematical value of an expression; [None] if it divides by zero. *)
Definition lift1 (f : Z -> Z) (a : option Z) : option Z :=
  match a with Some x => Some (f x) | None => None end.
Definition lift2 (f : Z -> Z -> Z) (a b : option Z) : option Z :=
  match a, b with Some x, Some y => Some (f x y) | _, _ => None end.
Definition lift_div (f : Z -> Z -> Z) (a b : option Z) : option Z :=
  match a, b with
  | Some x, Some y => if y =? 0 then None else Some (f x y)
  | _, _ => None
  end.

Fixpoint math (env : nat -> Z) (e : expr) : option Z :=
  match e with
  | EVar n => Some (env n)
  | EConst z => Some z
  | ENeg a => lift1 Z.opp (math env a)
  | EAbs a => lift1 Z.abs (math env a)
  | EAdd a b => lift2 Z.add (math env a) (math env b)
  | ESub a b => lift2 Z.sub (math env a) (math env b)
  | EMul a b => lift2 Z.mul (math env a) (math env b)
  | EDiv a b => lift_div Z.quot (math env a) (math env b)
  | EMod a b => lift_div Z.rem (math env a) (math env b)
  | EMin a b => lift2 Z.min (math env a) (math env b)
  | EMax a b => lift2 Z.max (math env a) (math env b)
  end.

(** Constants written in the expression fit in 128 bits. *)
Fixpoint constants_ok (e : expr) : Prop :=
  match e with
  | EVar _ => True
  | EConst z => ty_min I128 <= z <= ty_max U128
  | ENeg a | EAbs a => constants_ok a
  | EAdd a b | ESub a b | EMul a b | EDiv a b | EMod a b | EMin a b | EMax a b =>
      constants_ok a /\ constants_ok b
  end.

(** The products of values of these types are never below -2^127 (see C04). *)
Definition products_ok (A B : bty) : Prop :=
  forall x y, holds_value A x -> holds_value B y -> ty_min I128 <= x * y.

(** The operands of multiplications have types with [products_ok] and no remainder is
    taken by -1: the cases in which C04 and C06 fail of the code. *)
Fixpoint avoids_defects (G : nat -> bty) (env : nat -> Z) (e : expr) : Prop :=
  match e with
  | EVar _ | EConst _ => True
  | ENeg a | EAbs a => avoids_defects G env a
  | EMul a b =>
      avoids_defects G env a /\ avoids_defects G env b /\
      forall A B oa ob, eval G env a = Some (A, oa) -> eval G env b = Some (B, ob) -> products_ok A B
  | EMod a b =>
      avoids_defects G env a /\ avoids_defects G env b /\ math env b <> Some (-1)
  | EAdd a b | ESub a b | EDiv a b | EMin a b | EMax a b =>
      avoids_defects G env a /\ avoids_defects G env b
  end.

(** The mathematical effect of an update on a variable with value [x]. *)
Definition math_update (u : update) (x : Z) : option Z :=
  match u with
  | UAssign _ y => Some y
  | UAdd _ y => Some (x + y)
  | USub _ y => Some (x - y)
  | UMul _ y => Some (x * y)
  | UDiv _ y => if y =? 0 then None else Some (Z.quot x y)
  | UMod _ y => if y =? 0 then None else Some (Z.rem x y)
  | UInc => Some (x + 1)
  | UDec => Some (x - 1)
  end.

(** A history of updates of a variable restricted to [l, h]: [None] once a value
    leaves the range or a division by zero happens. *)
Fixpoint math_run (l h : Z) (us : list update) (x : Z) : option Z :=
  match us with
  | [] => Some x
  | u :: us' =>
      match math_update u x with
      | Some z => if (l <=? z) && (z <=? h) then math_run l h us' z else None
      | None => None
      end
  end.

(** The right operand of an update is a value of its type, and the update avoids the
    cases in which C04 and C06 fail of the code. *)
Definition update_ok (A : bty) (u : update) : Prop :=
  match u with
  | UAssign T y => ivalid T /\ iholds T y
  | UAdd B y | USub B y | UDiv B y => valid B /\ holds_value B y
  | UMul B y => valid B /\ holds_value B y /\ products_ok A B
  | UMod B y => valid B /\ holds_value B y /\ y <> -1
  | UInc | UDec => True
  end.
