(** * Sums and products of ranges and ranges that call a function: properties C112 and C114

    Vocabulary in Spec.v, SpecRange.v and SpecSequence.v. *)

From Coq Require Import List ZArith Bool Lia.
From Verif Require Import Cxx Core Spec CoreLemmas Arith Funcs NumProofs Accumulate AccumulateProofs Range SpecRange SpecSequence Generate GenerateProofs PropsCore.
Import ListNotations.
Local Open Scope Z_scope.

(** ** C112. accumulate, sum and product of the elements [values], whose type is [V]. [N] is integer<0, n>, [n] being the largest
    value of difference_type. The full property
      (forall values of the range, sum is their sum, in a type that holds it)
    is false of the code ([C112_sum_refuted]): the type of the sum is that of a product (C04). *)
Theorem C112_sum_partial : forall Init V N initial values R o,
  valid Init -> valid V -> valid N -> lo N = 0 -> ty_min I128 <= lo V * hi N ->
  holds_value Init initial -> Forall (holds_value V) values -> Z.of_nat (length values) <= hi N ->
  accumulate_plus Init V N initial values = Some (R, o) ->
  valid R /\ o = Ok (fold_right Z.add initial values) /\ holds_value R (fold_right Z.add initial values).
Proof.
  intros Init V N initial values R o HI HV HN HN0 Hm Hi Hv Hl H.
  destruct (accumulate_plus_exact Init V N initial values R o HI HV HN HN0 Hm Hi Hv Hl H) as (-> & E & Hh).
  destruct (sum_type_bounds _ _ _ _ HI HV HN HN0 Hm E) as [HR _].
  replace (fold_right Z.add initial values) with (initial + total values); [auto|]. clear. unfold total. induction values; cbn; lia.
Qed.
Print Assumptions C112_sum_partial.
Theorem C112_sum_of_range_partial : forall V N values R o,
  valid V -> valid N -> lo N = 0 -> ty_min I128 <= lo V * hi N -> Forall (holds_value V) values -> Z.of_nat (length values) <= hi N ->
  sum V N values = Some (R, o) ->
  valid R /\ o = Ok (fold_right Z.add 0 values) /\ holds_value R (fold_right Z.add 0 values).
Proof.
  intros V N values R o HV HN HN0 Hm Hv Hl H. unfold sum in H. destruct zero_valid as (zero & E & Hz & Hz0 & Hz1). rewrite E in H. cbn [obind] in H.
  apply (C112_sum_partial zero V N 0 values R o); auto. unfold holds_value. lia.
Qed.
Print Assumptions C112_sum_of_range_partial.
(** Elements -2, and a difference_type that goes up to 2^127 - 1: the type of the sum is integer<0, 2>. *)
Theorem C112_sum_refuted : exists V N values R o,
  valid V /\ valid N /\ lo N = 0 /\ Forall (holds_value V) values /\ Z.of_nat (length values) <= hi N /\
  sum V N values = Some (R, o) /\ o = UB /\ lo R = 0 /\ hi R = 2.
Proof.
  exists (Bty (lit (-2)) (lit (-2))), (Bty (lit 0) (TV I128 (2 ^ 127 - 1))), [-2]. do 2 eexists.
  split; [vm_compute; repeat split; congruence|]. split; [vm_compute; repeat split; congruence|]. split; [reflexivity|].
  split; [repeat constructor; vm_compute; congruence|]. split; [vm_compute; congruence|]. split; [vm_compute; reflexivity|]. vm_compute. auto.
Qed.
Print Assumptions C112_sum_refuted.
(** The type of the sum is as narrow as the sizes allow: it holds the sum of no element and of n elements that are all least or all
    largest, and nothing that lies outside. *)
Theorem C112_sum_type : forall Init V N R,
  valid Init -> valid V -> valid N -> lo N = 0 -> ty_min I128 <= lo V * hi N -> sum_type Init V N = Some R ->
  lo R = lo Init + Z.min 0 (lo V * hi N) /\ hi R = hi Init + Z.max 0 (hi V * hi N).
Proof. exact sum_type_tight. Qed.
Print Assumptions C112_sum_type.
(** With a type of the result that the user gives: the sum, if every sum of the first elements is in it, and undefined otherwise. *)
Theorem C112_sum_as : forall R V values T o,
  valid R -> valid V -> Forall (holds_value V) values -> sum_as R V values = Some (T, o) ->
  T = R /\
  ((forall k, holds_value R (fold_right Z.add 0 (firstn k values))) -> o = Ok (fold_right Z.add 0 values)) /\
  ((exists k, ~ holds_value R (fold_right Z.add 0 (firstn k values))) -> o = UB).
Proof.
  intros R V values T o HR HV Hv H. unfold sum_as in H. destruct zero_valid as (zero & E & Hz & Hz0 & Hz1). rewrite E in H. cbn [obind] in H.
  apply accumulate_inv in H as (L1 & L2 & H); auto; [|unfold holds_value; lia]. rewrite Hz0 in L1. rewrite Hz1 in L2.
  assert (holds_value R 0) as H0 by (split; lia).
  destruct (loop_all Arith.plus Z.add R V HR (plus_exactly R V HR HV) values 0 T o H0 Hv H) as (-> & Hok & Hub). split; [reflexivity|]. split.
  - intros Hall. rewrite Hok; [now rewrite fold_add|]. intros k. rewrite fold_add. apply Hall.
  - intros [k Hk]. apply Hub. exists k. now rewrite fold_add.
Qed.
Print Assumptions C112_sum_as.
Theorem C112_product : forall Init V N initial values R o,
  valid Init -> valid V -> valid N -> lo N = 0 -> 0 <= lo Init ->
  holds_value Init initial -> Forall (holds_value V) values -> Z.of_nat (length values) <= hi N ->
  accumulate_multiplies Init V N initial values = Some (R, o) ->
  valid R /\ o = Ok (fold_right Z.mul initial values) /\ holds_value R (fold_right Z.mul initial values).
Proof.
  intros Init V N initial values R o HI HV HN HN0 Hi0 Hi Hv Hl H.
  destruct (accumulate_multiplies_exact Init V N initial values R o HI HV HN HN0 Hi0 Hi Hv Hl H) as (-> & E & Hh).
  destruct (product_type_bounds _ _ _ _ HI HV HN HN0 Hi0 E) as [HR _].
  replace (fold_right Z.mul initial values) with (initial * product_of values); [auto|]. clear. unfold product_of. induction values; cbn; lia.
Qed.
Print Assumptions C112_product.
Theorem C112_product_of_range : forall V N values R o,
  valid V -> valid N -> lo N = 0 -> Forall (holds_value V) values -> Z.of_nat (length values) <= hi N ->
  product V N values = Some (R, o) ->
  valid R /\ o = Ok (fold_right Z.mul 1 values) /\ holds_value R (fold_right Z.mul 1 values).
Proof.
  intros V N values R o HV HN HN0 Hv Hl H. unfold product in H. destruct one_valid as (one & E & Hz & Hz0 & Hz1). rewrite E in H. cbn [obind] in H.
  apply (C112_product one V N 1 values R o); auto; [lia|]. unfold holds_value. lia.
Qed.
Print Assumptions C112_product_of_range.
(** The type of a step of the product is that of a product (C04). *)
Theorem C112_product_as_partial : forall R V values T o,
  valid R -> valid V -> (forall x y, holds_value R x -> holds_value V y -> ty_min I128 <= x * y) ->
  Forall (holds_value V) values -> product_as R V values = Some (T, o) ->
  T = R /\
  ((forall k, holds_value R (fold_right Z.mul 1 (firstn k values))) -> o = Ok (fold_right Z.mul 1 values)) /\
  ((exists k, ~ holds_value R (fold_right Z.mul 1 (firstn k values))) -> o = UB).
Proof.
  intros R V values T o HR HV Hm Hv H. unfold product_as in H. destruct one_valid as (one & E & Hz & Hz0 & Hz1). rewrite E in H. cbn [obind] in H.
  apply accumulate_inv in H as (L1 & L2 & H); auto; [|unfold holds_value; lia]. rewrite Hz0 in L1. rewrite Hz1 in L2.
  assert (holds_value R 1) as H0 by (split; lia).
  destruct (loop_all multiply Z.mul R V HR (multiply_exactly R V HR HV Hm) values 1 T o H0 Hv H) as (-> & Hok & Hub). split; [reflexivity|].
  assert (forall l, fold_left Z.mul l 1 = fold_right Z.mul 1 l) as El by (intros l; rewrite fold_mul; apply Z.mul_1_l). split.
  - intros Hall. rewrite Hok; [now rewrite El|]. intros k. rewrite El. apply Hall.
  - intros [k Hk]. apply Hub. exists k. now rewrite El.
Qed.
Print Assumptions C112_product_as_partial.
(** The product of elements whose type holds zero or less is not accepted. *)
Theorem C112_product_rejected : forall V N values, valid V -> valid N -> lo N = 0 -> lo V <= 0 -> product V N values = None.
Proof.
  intros V N values HV HN HN0 Hl. unfold product. destruct one_valid as (one & E & Hz & Hz0 & Hz1). rewrite E. cbn [obind].
  unfold accumulate_multiplies. destruct (product_type one V N) as [R|] eqn:ER; [|reflexivity].
  destruct (product_type_bounds one V N R) as (_ & Hp & _); auto; lia.
Qed.
Print Assumptions C112_product_rejected.
Example C112_example :
  let V := Bty (lit (-3)) (lit 9) in let N := Bty (lit 0) (lit 7) in let P := Bty (lit 1) (lit 9) in
  valid V /\ valid N /\ valid P /\ Forall (holds_value V) [9; -3; 4; 0] /\ Forall (holds_value P) [9; 3; 4] /\
  (exists R, sum V N [9; -3; 4; 0] = Some (R, Ok 10) /\ lo R = -21 /\ hi R = 63) /\
  (exists R, product P N [9; 3; 4] = Some (R, Ok 108) /\ lo R = 1 /\ hi R = 4782969) /\
  sum_as V V [9; -3; 3] = Some (V, Ok 9) /\ sum_as V V [9; 1; -3] = Some (V, UB) /\
  product_as V V [-3; -3; 1] = Some (V, Ok 9) /\ product_as V V [-3; 2] = Some (V, UB).
Proof.
  cbv zeta. do 3 (split; [vm_compute; repeat split; congruence|]). do 2 (split; [repeat constructor; vm_compute; congruence|]).
  split; [eexists; split; [vm_compute; reflexivity|vm_compute; auto]|]. split; [eexists; split; [vm_compute; reflexivity|vm_compute; auto]|].
  vm_compute. auto.
Qed.

(** ** C114. generate, generate_n, generate_until, generate_n_idempotent, indexed_generate_n and repeat_n: a for loop over the range
    makes just the calls of the function that it should, in order. *)
Theorem C114_generate : forall W A (f : W -> option A * W) w xs w' cache fuel,
  calls_until_none f w xs w' -> (length xs < fuel)%nat -> run fuel (generate f) (cache, w) = Val (xs, (None, w')).
Proof. intros. now apply generate_run. Qed.
Print Assumptions C114_generate.
Theorem C114_generate_n : forall W A (f : W -> A * W) n max w xs w' fuel,
  calls f n w xs w' -> Z.of_nat n <= max -> (n < fuel)%nat -> run fuel (generate_n max (Z.of_nat n) f) w = Val (xs, w').
Proof. intros. now apply generate_n_run. Qed.
Print Assumptions C114_generate_n.
Theorem C114_generate_until : forall W A (f : W -> A * W) is_done w xs w' fuel,
  calls_until_done f is_done w xs w' -> (length xs < fuel)%nat -> run fuel (generate_until f is_done) w = Val (xs, w').
Proof. intros. now apply generate_until_run. Qed.
Print Assumptions C114_generate_until.
Theorem C114_repeat_n : forall A max n (value : A), Z.of_nat n <= max ->
  lists (repeat_n max (Z.of_nat n) value) (repeat value n) /\ random_access (repeat_n max (Z.of_nat n) value).
Proof. intros A max n value H. split; [now apply repeat_lists|reflexivity]. Qed.
Print Assumptions C114_repeat_n.
Theorem C114_generate_n_idempotent : forall A max n (value : A), Z.of_nat n <= max ->
  lists (generate_n_idempotent max (Z.of_nat n) value) (repeat value n) /\ random_access (generate_n_idempotent max (Z.of_nat n) value).
Proof. intros A max n value H. split; [now apply repeat_lists|reflexivity]. Qed.
Print Assumptions C114_generate_n_idempotent.
Theorem C114_indexed : forall A max n (f : Z -> A), Z.of_nat n <= max ->
  random_access (indexed_generate_n max (Z.of_nat n) f) /\
  exists xs, lists (indexed_generate_n max (Z.of_nat n) f) xs /\ length xs = n /\
    forall i, (i < n)%nat -> nth_error xs i = Some (f (Z.of_nat i)).
Proof.
  intros A max n f H. split; [reflexivity|]. eexists. split; [now apply indexed_lists|]. rewrite map_length, seq_length. split; [reflexivity|].
  intros i Hi. rewrite nth_error_map, (nth_error_nth' _ 0%nat) by (now rewrite seq_length). now rewrite seq_nth by exact Hi.
Qed.
Print Assumptions C114_indexed.
(** A counter that is the whole of what the functions change. *)
Definition counted (w : Z) : Z * Z := (10 * w, w + 1).
Definition up_to_three (w : Z) : option Z * Z := (if w <? 3 then Some w else None, w + 1).
Example C114_example :
  calls counted 3 5 [50; 60; 70] 8 /\ run 20 (generate_n 4 3 counted) 5 = Val ([50; 60; 70], 8) /\
  calls_until_none up_to_three 0 [0; 1; 2] 4 /\ run 20 (generate up_to_three) (None, 0) = Val ([0; 1; 2], (None, 4)) /\
  calls_until_done counted (fun w => (7 <=? w, w)) 5 [50; 60] 7 /\ run 20 (generate_until counted (fun w => (7 <=? w, w))) 5 = Val ([50; 60], 7) /\
  visit 20 (repeat_n 5 3 8) = Val [8; 8; 8] /\ visit 20 (indexed_generate_n 5 4 Z.square) = Val [0; 1; 4; 9].
Proof.
  split; [repeat (econstructor; [vm_compute; reflexivity|]); constructor|]. split; [vm_compute; reflexivity|].
  split; [repeat (eapply until_some; [vm_compute; reflexivity|]); constructor; vm_compute; reflexivity|]. split; [vm_compute; reflexivity|].
  split; [do 2 (eapply done_later; [vm_compute; reflexivity|vm_compute; reflexivity|]); constructor; vm_compute; reflexivity|].
  vm_compute. auto.
Qed.
