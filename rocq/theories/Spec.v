(** * Specification vocabulary for bounded::integer

    The words the property statements use. Nothing here depends on how the
    library computes anything: only the type bounds written by the user, the
    built-in types of the platform and mathematical integers appear. *)

From Coq Require Import ZArith List.
From Verif Require Import Cxx Core.
Import ListNotations.
Open Scope Z_scope.

(** The built-in type [t] can hold every integer of [l, h]. *)
Definition holds (t : cty) (l h : Z) : Prop := ty_min t <= l /\ h <= ty_max t.

(** [l, h] is a non-empty range and some built-in type can hold it. *)
Definition representable (l h : Z) : Prop := l <= h /\ exists t, holds t l h.

(** integer<bmin, bmax> is a type the compiler accepts. *)
Definition valid (B : bty) : Prop :=
  wf_tv (bmin B) /\ wf_tv (bmax B) /\ mk_integer (bmin B) (bmax B) = Some B.

(** [x] is a value of the type. *)
Definition holds_value (B : bty) (x : Z) : Prop := lo B <= x <= hi B.

(** The same for built-in or bounded types. *)
Definition ivalid (T : ity) : Prop :=
  match T with Builtin _ => True | Bounded B => valid B end.
Definition ilo (T : ity) : Z := match T with Builtin t => ty_min t | Bounded B => lo B end.
Definition ihi (T : ity) : Z := match T with Builtin t => ty_max t | Bounded B => hi B end.
Definition iholds (T : ity) (x : Z) : Prop := ilo T <= x <= ihi T.

(** [l, h] is the smallest interval containing all integers with property [P]. *)
Definition tightest (P : Z -> Prop) (l h : Z) : Prop :=
  P l /\ P h /\ forall z, P z -> l <= z <= h.

(** The results [f x y] over all operand values of types [A] and [B] for which the
    operation is defined. *)
Definition results (A B : bty) (defined : Z -> Z -> Prop) (f : Z -> Z -> Z) (z : Z) : Prop :=
  exists x y, holds_value A x /\ holds_value B y /\ defined x y /\ z = f x y.
Definition results1 (A : bty) (f : Z -> Z) (z : Z) : Prop :=
  exists x, holds_value A x /\ z = f x.

Definition always (x y : Z) : Prop := True.
Definition nonzero_divisor (x y : Z) : Prop := y <> 0.

(** A binary operator applied to operands [x] of type [A] and [y] of type [B] gives
    exactly the mathematical result, without undefined behaviour, in a valid type
    whose bounds are the smallest that contain every possible result. *)
Definition exact2 (A B : bty) (x y : Z) (defined : Z -> Z -> Prop) (f : Z -> Z -> Z)
    (R : bty) (o : outcome Z) : Prop :=
  valid R /\ o = Ok (f x y) /\ tightest (results A B defined f) (lo R) (hi R).
Definition exact1 (A : bty) (x : Z) (f : Z -> Z) (R : bty) (o : outcome Z) : Prop :=
  valid R /\ o = Ok (f x) /\ tightest (results1 A f) (lo R) (hi R).

(** Operands whose comparison the library controls, or that the language itself
    compares mathematically: two built-in integers of different signedness are
    compared after conversion to a common type, which must be signed (C++
    [expr.arith.conv]) for no value to change. *)
Definition comparable (A B : ity) : Prop :=
  match A, B with
  | Builtin a, Builtin b => is_signed a = is_signed b \/ is_signed (uac a b) = true
  | _, _ => True
  end.

(** At least one operand is a bounded integer, so that the library's operator and not
    the language's is used. *)
Definition one_bounded (A B : ity) : Prop :=
  match A, B with Builtin _, Builtin _ => False | _, _ => True end.

(** [z] is a value of one of the types. *)
Definition union_of (Ts : list bty) (z : Z) : Prop := exists T, In T Ts /\ holds_value T z.

(** The least and the greatest element of a list. *)
Definition least (z : Z) (l : list Z) : Prop := In z l /\ forall w, In w l -> z <= w.
Definition greatest (z : Z) (l : list Z) : Prop := In z l /\ forall w, In w l -> w <= z.
