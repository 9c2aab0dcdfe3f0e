(** * C139: iterators and ranges for the standard library *)

From Coq Require Import List ZArith Bool Lia.
From Verif Require Import Range SpecRange RangeProofs Pieces Legacy LegacyProofs.
Import ListNotations.
Local Open Scope Z_scope.

(** legacy_range of a range has the same elements, and its iterators can do what those of the range can do. *)
Theorem C139_range : forall I A (r : range I A) xs e, lists r xs -> Z.of_nat (length xs) < 2 ^ 63 -> legacy_range r = Some e ->
  exists l, e = Val l /\ lists l xs /\ abilities l = [true; true; has (prev r); has (plus r); backward r; has (minus r); has (order r); has (minus r)].
Proof. intros I A. exact legacy_range_lists. Qed.
Print Assumptions C139_range.
Theorem C139_range_exists : forall I A (r : range I A), last r <> None -> same r <> None -> legacy_range r <> None.
Proof. intros I A r H1 H2. unfold legacy_range. destruct (last r), (same r); congruence. Qed.
Print Assumptions C139_range_exists.
(** Each position of a range that is wrapped acts as the position, with the elements and positions of the range. *)
Theorem C139_iterator : forall I A (r : range I A) it xs, lists_at r it xs -> Z.of_nat (length xs) < 2 ^ 63 ->
  lists_at (legacy_operations r) (fun i => wrap (it i)) xs.
Proof. intros I A. exact legacy_lists_at. Qed.
Print Assumptions C139_iterator.

(** An iterator that was constructed without a value (for iterator types that have no default constructor): all such are equal, with
    difference 0, adding 0 does nothing, and its address is null. It is equal to no iterator into a range. *)
Theorem C139_default : forall I A (r : range I A) o, default_construct (always_exists false true) = Some o ->
  (forall same, legacy_same same o o = Val true /\ (forall it, legacy_same same o (wrap it) = Val false /\ legacy_same same (wrap it) o = Val false)) /\
  (forall minus, legacy_minus minus o o = Val 0) /\ (forall order, legacy_order order o o = Val Eq) /\
  (forall plus, legacy_plus r plus o 0 = Val o) /\ (forall P (to_address : I -> P), legacy_to_address to_address o = None) /\
  (forall J (f : I -> J), convert false f o = Val None).
Proof. intros I A r o H. injection H as <-. repeat split. Qed.
Print Assumptions C139_default.
(** Everything else with it is undefined. *)
Theorem C139_default_undefined : forall I A (r : range I A) o, default_construct (always_exists false true) = Some o ->
  legacy_get r o = Undefined /\ legacy_next r o = Undefined /\ (forall prev, legacy_prev prev o = Undefined) /\
  (forall plus d, d <> 0 -> legacy_plus r plus o d = Undefined) /\
  (forall minus it, legacy_minus minus o (wrap it) = Undefined /\ legacy_minus minus (wrap it) o = Undefined) /\
  (forall order it, legacy_order order o (wrap it) = Undefined /\ legacy_order order (wrap it) o = Undefined).
Proof.
  intros I A r o H. injection H as <-. repeat split. intros plus d Hd. unfold legacy_plus. now rewrite (proj2 (Z.eqb_neq d 0) Hd).
Qed.
Print Assumptions C139_default_undefined.
(** The conversion to another iterator type converts the iterator. *)
Theorem C139_convert : forall I J always (f : I -> J) it, convert always f (wrap it) = Val (wrap (f it)).
Proof. reflexivity. Qed.
Print Assumptions C139_convert.

(** *** False of the code *)
(** Forward iterators of the standard library can be constructed without a value. A legacy_iterator can not when the iterator inside can,
    for instance a pointer. *)
Theorem C139_default_constructor_refuted : ~ (forall default_constructible, exists o, @default_construct nat (always_exists default_constructible true) = Some o).
Proof. intros H. destruct (H true) as (o & E). discriminate E. Qed.
Print Assumptions C139_default_constructor_refuted.
(** A legacy_iterator without a value can be converted to every type to which one with a value can. It is undefined if the iterator in the target
    has a default constructor and the one in the source does not. *)
Theorem C139_convert_refuted : ~ (forall source target o (f : nat -> nat), default_construct (always_exists source true) = Some o ->
  exists o', convert (always_exists target true) f o = Val o').
Proof. intros H. destruct (H false true None (fun n => n) eq_refl) as (o & E). discriminate E. Qed.
Print Assumptions C139_convert_refuted.

Example C139_example : let r := array_range 10 [3; 1; 4] in
  lists r [3; 1; 4] /\ exists l, legacy_range r = Some (Val l) /\ size l = Some (Val 3) /\
  (let* o := first l in let* o := match plus l with Some f => f o 2 | None => Undefined end in get l o) = Val 4.
Proof.
  cbv zeta. split; [now apply array_lists|]. eexists. split; [reflexivity|]. split; reflexivity.
Qed.
