(** * Properties C01-C06 and C22: the arithmetic operators

    Vocabulary in Spec.v. [exact2 A B x y defined f R o] says: the result type R is
    valid, the run-time outcome is exactly [f x y] with no undefined behaviour, and
    the bounds of R are the smallest interval containing [f x' y'] for all operand
    values x' of A and y' of B with [defined x' y']. *)

From Coq Require Import ZArith Lia Bool List.
From Verif Require Import Cxx Core Spec Arith ArithProofs.
Import ListNotations.
Open Scope Z_scope.

Ltac concrete :=
  cbv zeta; unfold valid, holds_value, wf_tv;
  repeat match goal with |- _ /\ _ => split end;
  try (vm_compute; (reflexivity || congruence || (intros; discriminate))).

(** ** C01 *)
Theorem C01_addition : forall A B x y,
  valid A -> valid B -> holds_value A x -> holds_value B y ->
  (forall R o, plus A B x y = Some (R, o) ->
     exact2 A B x y always Z.add R o /\ lo R = lo A + lo B /\ hi R = hi A + hi B) /\
  ((exists R o, plus A B x y = Some (R, o)) <-> representable (lo A + lo B) (hi A + hi B)).
Proof. exact add_exact. Qed.
Print Assumptions C01_addition.

Example C01_example :
  let A := Bty (lit 1) (lit 10) in let B := Bty (lit (-3)) (lit 11) in
  valid A /\ valid B /\ holds_value A 9 /\ holds_value B 4 /\
  plus A B 9 4 = Some (Bty (lit (-2)) (lit 21), Ok 13).
Proof. concrete. Qed.

(** ** C02 *)
Theorem C02_subtraction : forall A B x y,
  valid A -> valid B -> holds_value A x -> holds_value B y ->
  (forall R o, minus A B x y = Some (R, o) ->
     exact2 A B x y always Z.sub R o /\ lo R = lo A - hi B /\ hi R = hi A - lo B) /\
  ((exists R o, minus A B x y = Some (R, o)) <->
     representable (- hi B) (- lo B) /\ representable (lo A - hi B) (hi A - lo B)).
Proof. exact sub_exact. Qed.
Print Assumptions C02_subtraction.

Example C02_example :
  let A := Bty (lit 1) (lit 10) in let B := Bty (lit (-3)) (lit 11) in
  valid A /\ valid B /\ holds_value A 9 /\ holds_value B 4 /\
  minus A B 9 4 = Some (Bty (lit (-10)) (lit 13), Ok 5).
Proof. concrete. Qed.

(** ** C03 *)
Theorem C03_negation : forall A x, valid A -> holds_value A x ->
  (forall R o, negate A x = Some (R, o) ->
     exact1 A x Z.opp R o /\ lo R = - hi A /\ hi R = - lo A) /\
  ((exists R o, negate A x = Some (R, o)) <-> representable (- hi A) (- lo A)).
Proof. exact neg_exact. Qed.
Print Assumptions C03_negation.

(** The most negative 128-bit value. *)
Example C03_example :
  let A := Bty (TV I128 (ty_min I128)) (lit (-1)) in
  valid A /\ holds_value A (ty_min I128) /\
  negate A (ty_min I128) = Some (Bty (lit 1) (TV U128 (2 ^ 127)), Ok (2 ^ 127)).
Proof. concrete. Qed.

(** ** C04: multiplication. The full property

      forall A B x y R o, valid A -> valid B -> holds_value A x -> holds_value B y ->
      multiply A B x y = Some (R, o) -> exact2 A B x y always Z.mul R o

    is false of the code ([C04_multiplication_refuted]): the overflow test lets
    products between -2^128 and -2^127 through. It holds for all operand types whose
    products are never below -2^127. *)
Theorem C04_multiplication_partial : forall A B x y,
  valid A -> valid B -> holds_value A x -> holds_value B y ->
  (forall x' y', holds_value A x' -> holds_value B y' -> ty_min I128 <= x' * y') ->
  (forall R o, multiply A B x y = Some (R, o) -> exact2 A B x y always Z.mul R o) /\
  ((exists R o, multiply A B x y = Some (R, o)) <->
   (exists l h, tightest (results A B always Z.mul) l h /\ representable l h)).
Proof. exact mul_exact. Qed.
Print Assumptions C04_multiplication_partial.

Example C04_example :
  let A := Bty (lit 1) (lit 10) in let B := Bty (lit (-3)) (lit 11) in
  valid A /\ valid B /\ holds_value A 9 /\ holds_value B 4 /\
  (forall x' y', holds_value A x' -> holds_value B y' -> ty_min I128 <= x' * y') /\
  multiply A B 9 4 = Some (Bty (lit (-30)) (lit 110), Ok 36).
Proof.
  concrete. intros x' y' [? ?] [? ?]. unfold lo, hi in *. cbn [bmin bmax lit vl ty_min] in *. nia.
Qed.

Theorem C04_multiplication_refuted : exists A B x y R o,
  valid A /\ valid B /\ holds_value A x /\ holds_value B y /\
  multiply A B x y = Some (R, o) /\ o = Ok 2 /\ x * y < 0.
Proof.
  exists (Bty (TV I128 (2 ^ 127 - 1)) (TV I128 (2 ^ 127 - 1))), (Bty (lit (-2)) (lit (-2))),
    (2 ^ 127 - 1), (-2).
  eexists _, _. concrete.
Qed.
Print Assumptions C04_multiplication_refuted.

(** ** C05 *)
Theorem C05_division : forall A B x y,
  valid A -> valid B -> holds_value A x -> holds_value B y -> y <> 0 ->
  (forall R o, divide A B x y = Some (R, o) -> exact2 A B x y nonzero_divisor Z.quot R o) /\
  ((exists R o, divide A B x y = Some (R, o)) <->
   lo B <> 0 /\ hi B <> 0 /\
   exists l h, tightest (results A B nonzero_divisor Z.quot) l h /\
     representable (Z.min l (Z.min (lo A) (lo B))) (Z.max h (Z.max (hi A) (hi B)))).
Proof. exact div_exact. Qed.
Print Assumptions C05_division.

(** INT_MIN / -1 *)
Example C05_example :
  let A := Bty (lit (ty_min I32)) (lit 5) in let B := Bty (lit (-7)) (lit 3) in
  valid A /\ valid B /\ holds_value A (ty_min I32) /\ holds_value B (-1) /\ (-1) <> 0 /\
  divide A B (ty_min I32) (-1) =
    Some (Bty (lit (ty_min I32)) (TV I128 (2 ^ 31)), Ok (2 ^ 31)).
Proof. concrete. Qed.

(** ** C06: remainder. The full property is false of the code: INT_MIN % -1 is
    evaluated in int and overflows ([C06_remainder_refuted]). It holds in every
    other case. *)
Theorem C06_remainder_partial : forall A B x y,
  valid A -> valid B -> holds_value A x -> holds_value B y -> y <> 0 ->
  ~ (y = -1 /\ exists t, is_signed t = true /\ x = ty_min t) ->
  (forall R o, modulus A B x y = Some (R, o) -> exact2 A B x y nonzero_divisor Z.rem R o) /\
  ((exists R o, modulus A B x y = Some (R, o)) <->
   exists l h, tightest (results A B nonzero_divisor Z.rem) l h /\
     representable (Z.min l (Z.min (lo A) (lo B))) (Z.max h (Z.max (hi A) (hi B)))).
Proof. exact mod_exact. Qed.
Print Assumptions C06_remainder_partial.

Example C06_example :
  let A := Bty (lit (-54)) (lit (-6)) in let B := Bty (lit 17) (lit 23) in
  valid A /\ valid B /\ holds_value A (-33) /\ holds_value B 20 /\ 20 <> 0 /\
  ~ (20 = -1 /\ exists t, is_signed t = true /\ -33 = ty_min t) /\
  modulus A B (-33) 20 = Some (Bty (lit (-22)) (lit 0), Ok (-13)).
Proof. concrete. intros [H _]. discriminate. Qed.

Theorem C06_remainder_refuted : exists A B x y R,
  valid A /\ valid B /\ holds_value A x /\ holds_value B y /\ y <> 0 /\
  modulus A B x y = Some (R, UB).
Proof.
  exists (Bty (lit (ty_min I32)) (lit 0)), (Bty (lit (-1)) (lit (-1))), (ty_min I32), (-1).
  eexists. concrete.
Qed.
Print Assumptions C06_remainder_refuted.

(** ** C22: shifts and bitwise and. False in general (refutations below); proved
    for the operand types given by the hypotheses. *)
Theorem C22_left_shift_partial : forall A B x y,
  valid A -> valid B -> holds_value A x -> holds_value B y ->
  0 <= lo B -> hi B < 128 -> ~ (lo A = 0 /\ hi A = 0) -> (0 <= lo A \/ lo B = hi B) ->
  ty_min I128 <= lo A * 2 ^ lo B -> hi A * 2 ^ hi B <= ty_max I128 -> hi A <= ty_max I128 ->
  exists R o, left_shift A B x y = Some (R, o) /\
    exact2 A B x y always (fun a b => a * 2 ^ b) R o.
Proof. exact shl_exact. Qed.
Print Assumptions C22_left_shift_partial.

Example C22_left_shift_example :
  let A := Bty (lit 0) (lit 2) in let B := Bty (lit 0) (lit 60) in
  valid A /\ valid B /\ holds_value A 1 /\ holds_value B 3 /\
  0 <= lo B /\ hi B < 128 /\ ~ (lo A = 0 /\ hi A = 0) /\ (0 <= lo A \/ lo B = hi B) /\
  ty_min I128 <= lo A * 2 ^ lo B /\ hi A * 2 ^ hi B <= ty_max I128 /\ hi A <= ty_max I128.
Proof. concrete.
  - intros [_ H]. discriminate.
  - left. vm_compute. congruence.
Qed.

Theorem C22_right_shift_partial : forall A B x y,
  valid A -> valid B -> holds_value A x -> holds_value B y ->
  0 <= lo B -> hi B < 128 -> (0 <= lo A \/ lo B = hi B) -> hi A <= ty_max I128 ->
  y < 32 \/ 2 ^ y <= hi A ->
  exists R o, right_shift A B x y = Some (R, o) /\
    exact2 A B x y always (fun a b => a / 2 ^ b) R o.
Proof. exact shr_exact. Qed.
Print Assumptions C22_right_shift_partial.

Example C22_right_shift_example :
  let A := Bty (lit 100) (lit 100) in let B := Bty (lit 0) (lit 50) in
  valid A /\ valid B /\ holds_value A 100 /\ holds_value B 1 /\
  0 <= lo B /\ hi B < 128 /\ (0 <= lo A \/ lo B = hi B) /\ hi A <= ty_max I128 /\
  (1 < 32 \/ 2 ^ 1 <= hi A).
Proof. concrete; left; vm_compute; congruence. Qed.

Theorem C22_and_partial : forall A B x y,
  valid A -> valid B -> holds_value A x -> holds_value B y ->
  0 <= lo A -> 0 <= lo B ->
  exists R, bitwise_and A B x y = Some (R, Ok (Z.land x y)) /\ valid R /\
    lo R <= Z.land x y <= hi R /\ lo R = 0 /\ hi R = Z.min (hi A) (hi B).
Proof. exact and_exact. Qed.
Print Assumptions C22_and_partial.

Example C22_and_example :
  let A := Bty (lit 0) (lit 200) in let B := Bty (lit 1) (lit 1000) in
  valid A /\ valid B /\ holds_value A 170 /\ holds_value B 999 /\ 0 <= lo A /\ 0 <= lo B /\
  bitwise_and A B 170 999 = Some (Bty (lit 0) (lit 200), Ok 162).
Proof. concrete. Qed.

(** constant<2^100> << constant<40> is constant<0>. *)
Theorem C22_left_shift_refuted : exists A B x y R o,
  valid A /\ valid B /\ holds_value A x /\ holds_value B y /\ 0 <= y /\
  left_shift A B x y = Some (R, Ok o) /\ o <> x * 2 ^ y.
Proof.
  exists (Bty (TV I128 (2 ^ 100)) (TV I128 (2 ^ 100))), (Bty (lit 40) (lit 40)), (2 ^ 100), 40. eexists _, _. concrete.
Qed.
Print Assumptions C22_left_shift_refuted.

(** constant<100> >> integer<0, 50>(40) shifts an int by 40. *)
Theorem C22_right_shift_refuted : exists A B x y R,
  valid A /\ valid B /\ holds_value A x /\ holds_value B y /\ 0 <= lo A /\ 0 <= lo B /\
  right_shift A B x y = Some (R, UB).
Proof.
  exists (Bty (lit 100) (lit 100)), (Bty (lit 0) (lit 50)), 100, 40. eexists. concrete.
Qed.
Print Assumptions C22_right_shift_refuted.

(** integer<-5, 5>(-1) & integer<-5, 5>(-1) stores -1 in integer<0, 5>. *)
Theorem C22_and_refuted : exists A B x y R o,
  valid A /\ valid B /\ holds_value A x /\ holds_value B y /\
  bitwise_and A B x y = Some (R, Ok o) /\ ~ (lo R <= o <= hi R).
Proof.
  exists (Bty (lit (-5)) (lit 5)), (Bty (lit (-5)) (lit 5)), (-1), (-1). eexists _, _.
  concrete. intros [H _]. apply H. reflexivity.
Qed.
Print Assumptions C22_and_refuted.
