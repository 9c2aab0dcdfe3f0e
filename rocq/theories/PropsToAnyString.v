(** * Property C128: containers::to_string

    Vocabulary in Spec.v and SpecText.v ([canonical]: the decimal numeral without leading zeros). *)

From Coq Require Import List Bool ZArith Lia.
From Verif Require Import Cxx Core Spec Arith Funcs SpecText TextLemmas2 ToAnyString ToAnyStringProofs PropsText PropsStreamInt.
Import ListNotations.
Open Scope Z_scope.

(** For every type whose absolute value exists, and every value: the canonical numeral. *)
Theorem C128_to_string : forall A x, valid A -> holds_value A x ->
  0 <= lo A \/ representable (- hi A) (- lo A) ->
  exists s, to_any_string A x = Some (Ok s) /\ canonical s x.
Proof. exact to_any_string_spec. Qed.
Print Assumptions C128_to_string.

(** The other types are rejected by the compiler. *)
Theorem C128_compiles : forall A x, valid A -> holds_value A x ->
  (to_any_string A x <> None <-> 0 <= lo A \/ representable (- hi A) (- lo A)).
Proof. exact to_any_string_compiles. Qed.
Print Assumptions C128_compiles.

(** Built-in integers, the smallest value of each type included. *)
Theorem C128_builtin : forall t x, ty_min t <= x <= ty_max t -> t <> I128 ->
  exists s, to_any_string_builtin t x = Some (Ok s) /\ canonical s x.
Proof. exact to_any_string_builtin_spec. Qed.
Print Assumptions C128_builtin.

(** Different values have different strings, whatever their types are; equal values have the same string. *)
Theorem C128_injective : forall A x s B y t, valid A -> holds_value A x -> valid B -> holds_value B y ->
  to_any_string A x = Some (Ok s) -> to_any_string B y = Some (Ok t) -> (s = t <-> x = y).
Proof.
  assert (forall A x s, valid A -> holds_value A x -> to_any_string A x = Some (Ok s) -> canonical s x) as K.
  { intros A x s HA Hx E. destruct (to_any_string_spec A x HA Hx) as (s' & E' & C).
    - apply (to_any_string_compiles A x HA Hx). congruence.
    - rewrite E' in E. injection E as <-. exact C. }
  intros A x s B y t HA Hx HB Hy Es Et. pose proof (K _ _ _ HA Hx Es) as C1. pose proof (K _ _ _ HB Hy Et) as C2. split.
  - intros <-. clear - C1 C2. destruct C1 as [(P1 & N1 & D1 & _)|(L1 & t1 & E1 & N1 & D1 & _)], C2 as [(P2 & N2 & D2 & _)|(L2 & t2 & E2 & N2 & D2 & _)].
    + exact (decimal_fun _ _ _ D1 D2).
    + subst s. inversion D1. lia.
    + subst s. inversion D2. lia.
    + rewrite E1 in E2. injection E2 as <-. pose proof (decimal_fun _ _ _ D1 D2). lia.
  - intros <-. exact (C16_canonical_unique _ _ _ C1 C2).
Qed.
Print Assumptions C128_injective.

(** Reading the string back with to_integer gives the value. *)
Theorem C128_round_trip : forall A x s R o, valid A -> holds_value A x ->
  to_any_string A x = Some (Ok s) -> to_integer_as A s = Some (R, o) -> o = Ok x.
Proof.
  intros A x s R o HA Hx E Er. destruct (to_any_string_spec A x HA Hx) as (s' & E' & C).
  { apply (to_any_string_compiles A x HA Hx). congruence. }
  rewrite E' in E. injection E as <-.
  destruct (C15_to_integer_type A s' R o HA (canonical_chars _ _ C) Er) as (_ & K & _). apply K. split; [|exact Hx].
  destruct C as [(P & N & D & _)|(L & t & -> & N & D & _)]; [left; auto|right].
  split; [unfold holds_value in Hx; lia|]. exists t. auto.
Qed.
Print Assumptions C128_round_trip.

(** "Every bounded integer has a string": integer<-2^127, 1> has none, and neither has a 128-bit signed integer. *)
Theorem C128_every_type_refuted :
  (exists A x, valid A /\ holds_value A x /\ to_any_string A x = None) /\
  (exists x, ty_min I128 <= x <= ty_max I128 /\ to_any_string_builtin I128 x = None).
Proof.
  split.
  - exists (Bty (TV I128 (ty_min I128)) (lit 1)), 1. split; [concrete_valid|]. split; [split; vm_compute; congruence|]. vm_compute. reflexivity.
  - exists 5. split; [split; vm_compute; congruence|]. vm_compute. reflexivity.
Qed.
Print Assumptions C128_every_type_refuted.

Example C128_example :
  let A := Bty (lit (-100)) (lit 300) in
  valid A /\ holds_value A (-42) /\ representable (- hi A) (- lo A) /\
  to_any_string A (-42) = Some (Ok [45; 52; 50]) /\ to_any_string A 0 = Some (Ok [48]) /\
  to_integer_as A [45; 52; 50] = Some (A, Ok (-42)) /\
  to_any_string_builtin I8 (-128) = Some (Ok [45; 49; 50; 56]).
Proof.
  cbv zeta. split; [concrete_valid|]. split; [split; vm_compute; congruence|].
  split; [split; [vm_compute; congruence|exists I32; split; vm_compute; congruence]|].
  repeat match goal with |- _ /\ _ => split end; vm_compute; reflexivity.
Qed.
