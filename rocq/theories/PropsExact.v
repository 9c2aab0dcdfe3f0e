(** * Exactly when: the properties C04 and C27 where they fail *)

From Coq Require Import ZArith List Lia Znumtheory.
From Verif Require Import Cxx CxxLemmas Core Spec CoreLemmas Arith ArithLemmas ArithProofs FuncLemmas FuncLemmas3 CoreProofs.
From Verif Require PropsArith.
Local Open Scope Z_scope.

(** ** C04. The product of two types that can be multiplied at all is right for all values exactly when no product is below -2^127. *)
Theorem C04_multiplication_exactly : forall A B, valid A -> valid B ->
  (exists x y R o, holds_value A x /\ holds_value B y /\ multiply A B x y = Some (R, o)) ->
  ((forall x y R o, holds_value A x -> holds_value B y -> multiply A B x y = Some (R, o) -> exact2 A B x y always Z.mul R o) <->
   (forall x y, holds_value A x -> holds_value B y -> ty_min I128 <= x * y)).
Proof.
  intros A B HA HB (x0 & y0 & R0 & o0 & Hx0 & Hy0 & E0). split.
  - intros H x y Hx Hy. destruct (H _ _ _ _ Hx0 Hy0 E0) as (HR & _ & (_ & _ & HT)).
    assert (Hr : lo R0 <= x * y) by (apply HT; exists x, y; repeat split; auto; apply Hx || apply Hy).
    pose proof (proj1 (und_valid _ HR)) as Hu.
    assert (ty_min I128 <= ty_min (und R0)) by (destruct (und R0); vm_compute; discriminate). unfold holds in Hu. lia.
  - intros H x y R o Hx Hy E. now apply (PropsArith.C04_multiplication_partial A B x y HA HB Hx Hy H).
Qed.
Print Assumptions C04_multiplication_exactly.

(** Both sides of it: types for which it is right and types for which it is not. *)
Example C04_exactly_example :
  let A := Bty (lit 1) (lit 10) in let B := Bty (lit (-3)) (lit 11) in
  let C := Bty (TV I128 (2 ^ 127 - 1)) (TV I128 (2 ^ 127 - 1)) in let D := Bty (lit (-2)) (lit (-2)) in
  valid A /\ valid B /\ valid C /\ valid D /\
  (exists x y R o, holds_value A x /\ holds_value B y /\ multiply A B x y = Some (R, o)) /\
  (exists x y R o, holds_value C x /\ holds_value D y /\ multiply C D x y = Some (R, o)) /\
  (forall x y, holds_value A x -> holds_value B y -> ty_min I128 <= x * y) /\ ~ (forall x y, holds_value C x -> holds_value D y -> ty_min I128 <= x * y).
Proof.
  cbv zeta. split; [repeat split; vm_compute; congruence|]. split; [repeat split; vm_compute; congruence|].
  split; [repeat split; vm_compute; congruence|]. split; [repeat split; vm_compute; congruence|].
  split. { exists 9, 4. eexists _, _. (split; [split; vm_compute; discriminate|]). (split; [split; vm_compute; discriminate|]). vm_compute. reflexivity. }
  split. { exists (2 ^ 127 - 1), (-2). eexists _, _. (split; [split; vm_compute; discriminate|]). (split; [split; vm_compute; discriminate|]). vm_compute. reflexivity. }
  split.
  - intros x y [H1 H2] [H3 H4]. cbn in *. assert (-30 <= x * y) by nia. assert (ty_min I128 <= -30) by (vm_compute; discriminate). lia.
  - intros H. specialize (H (2 ^ 127 - 1) (-2)). apply H; [split; vm_compute; discriminate|split; vm_compute; discriminate|]. vm_compute. reflexivity.
Qed.

(** ** C27. For every divisor but 0: round_up_divide gives a value of its type, and this value is the quotient rounded up exactly when the divisor is positive, and
    the sum of both is positive or x - 1 is a multiple of it, or when the divisor is negative, the sum is at most 1 and neither x nor x - 1 is a multiple of it. *)
Definition rounded_up (x y q : Z) : Prop := y * y * (q - 1) < x * y <= y * y * q.

Lemma round_up_value A B x y R o : valid A -> valid B -> holds_value A x -> holds_value B y -> y <> 0 ->
  round_up_divide A B x y = Some (R, o) -> valid R /\ o = Ok (Z.quot (x + y - 1) y) /\ holds_value R (Z.quot (x + y - 1) y).
Proof.
  intros HA HB Hx Hy P1 H. unfold round_up_divide in H.
  rewrite constant_t_lit in H by (cbn; lia). cbn [obind] in H.
  assert (fits (cst 1) 1) as F1 by (split; [apply valid_cst, in128_1 | apply holds_cst]).
  apply (then_exact _ _ _ _ (x + y)) in H.
  2:{ intros T o1 E. exact (plus_sound _ _ _ _ _ _ (conj HA Hx) (conj HB Hy) E). }
  destruct H as (S & FS & H).
  apply (then_exact _ _ _ _ (x + y - 1)) in H.
  2:{ intros T o1 E. exact (minus_sound _ _ _ _ _ _ FS F1 E). }
  destruct H as (D & FD & H).
  apply divide_sound in H; auto; [|now split].
  destruct (Z.eqb_spec y 0); [lia|]. destruct H as [V [-> Hq]]. auto.
Qed.
Lemma quotient_rounded_up x y : y <> 0 ->
  rounded_up x y (Z.quot (x + y - 1) y) <->
  0 < y /\ (0 < x + y \/ (y | x - 1)) \/ y < 0 /\ x + y <= 1 /\ ~ (y | x) /\ ~ (y | x - 1).
Proof.
  intros Hy. unfold rounded_up. set (q := Z.quot (x + y - 1) y). set (r := Z.rem (x + y - 1) y).
  assert (E : x = y * q + r - y + 1) by (pose proof (Z.quot_rem' (x + y - 1) y); unfold q, r; lia).
  assert (D1 : (y | x - 1) <-> (y | r)).
  { split; intros [k Hk]; [exists (k - q + 1); replace r with (x - 1 - y * q + y) by lia|exists (k + q - 1); replace (x - 1) with (y * q + r - y) by lia]; rewrite Hk; ring. }
  assert (D0 : (y | x) <-> (y | r + 1)).
  { split; intros [k Hk].
    - exists (k - q + 1). replace (r + 1) with (x - y * q + y) by lia. rewrite Hk. ring.
    - exists (k + q - 1). replace x with (r + 1 + y * q - y) by lia. rewrite Hk. ring. }
  set (t := r - y + 1). assert (Hx : x * y = y * y * q + t * y) by (unfold t; rewrite E; ring).
  assert (Hl : y * y * (q - 1) < x * y <= y * y * q <-> - (y * y) < t * y <= 0) by (rewrite Hx; replace (y * y * (q - 1)) with (y * y * q - y * y) by ring; lia).
  rewrite Hl. clear Hl Hx.
  assert (Hr : 0 <= x + y - 1 -> 0 <= r < Z.abs y) by (intros H; pose proof (Z.rem_bound_abs (x + y - 1) y Hy); pose proof (Z.rem_nonneg (x + y - 1) y Hy H); unfold r; lia).
  assert (Hr' : x + y - 1 <= 0 -> - Z.abs y < r <= 0) by (intros H; pose proof (Z.rem_bound_abs (x + y - 1) y Hy); pose proof (Z.rem_nonpos (x + y - 1) y Hy H); unfold r; lia).
  assert (D : forall z, - Z.abs y < z < Z.abs y -> ((y | z) <-> z = 0)).
  { intros z Hz. split; [|intros ->; apply Z.divide_0_r]. intros Hd. destruct (Z.eq_dec z 0) as [|Hnz]; [assumption|].
    pose proof (Z.divide_pos_le (Z.abs y) (Z.abs z) ltac:(lia) (proj2 (Z.divide_abs_l _ _) (proj2 (Z.divide_abs_r _ _) Hd))). lia. }
  destruct (Z_lt_le_dec y 0) as [Hn|Hp].
  - assert (Ht : forall t, - (y * y) < t * y <= 0 <-> 0 <= t < - y) by (clear - Hn; intros t; split; intros; nia). rewrite Ht. unfold t.
    destruct (Z_lt_le_dec 0 (x + y - 1)) as [Hs|Hs]; [lia|]. specialize (Hr' Hs). rewrite D1, D0, (D r) by lia.
    assert (H1 : (y | r + 1) <-> r + 1 = 0 \/ r = 0 /\ y = -1).
    { split.
      - intros Hd. destruct (Z.eq_dec r 0) as [->|]; [|left; apply D; [lia|exact Hd]]. right. split; [reflexivity|].
        apply Z.divide_abs_l in Hd. pose proof (Z.divide_pos_le (Z.abs y) (0 + 1) ltac:(lia) Hd). lia.
      - intros [->|[-> ->]]; [apply Z.divide_0_r|]. exists (-1). reflexivity. }
    rewrite H1. lia.
  - assert (Ht : forall t, - (y * y) < t * y <= 0 <-> - y < t <= 0) by (clear - Hp Hy; intros t; split; intros; nia). rewrite Ht. unfold t.
    destruct (Z_lt_le_dec (x + y - 1) 0) as [Hs|Hs].
    + specialize (Hr' ltac:(lia)). rewrite D1, (D r) by lia. lia.
    + specialize (Hr Hs). lia.
Qed.

Theorem C27_round_up_exactly : forall A B x y R o,
  valid A -> valid B -> holds_value A x -> holds_value B y -> y <> 0 ->
  round_up_divide A B x y = Some (R, o) ->
  valid R /\ exists q, o = Ok q /\ holds_value R q /\
  (rounded_up x y q <-> 0 < y /\ (0 < x + y \/ (y | x - 1)) \/ y < 0 /\ x + y <= 1 /\ ~ (y | x) /\ ~ (y | x - 1)).
Proof.
  intros A B x y R o HA HB Hx Hy Hy0 H. destruct (round_up_value A B x y R o HA HB Hx Hy Hy0 H) as (HR & -> & Hq).
  split; [exact HR|]. eexists. split; [reflexivity|]. split; [exact Hq|]. now apply quotient_rounded_up.
Qed.
Print Assumptions C27_round_up_exactly.

Example C27_exactly_example :
  let A := Bty (lit (-20)) (lit 20) in let B := Bty (lit (-7)) (lit (-4)) in let C := Bty (lit 1) (lit 6) in
  valid A /\ valid B /\ valid C /\
  (exists R, round_up_divide A B (-9) (-4) = Some (R, Ok 3)) /\ rounded_up (-9) (-4) 3 /\ ~ (-4 | -9) /\ ~ (-4 | -9 - 1) /\
  (exists R, round_up_divide A B (-8) (-4) = Some (R, Ok 3)) /\ ~ rounded_up (-8) (-4) 3 /\
  (exists R, round_up_divide A C (-9) 5 = Some (R, Ok (-1))) /\ rounded_up (-9) 5 (-1).
Proof.
  cbv zeta. split; [repeat split; vm_compute; congruence|]. split; [repeat split; vm_compute; congruence|]. split; [repeat split; vm_compute; congruence|].
  split; [eexists; vm_compute; reflexivity|]. split; [unfold rounded_up; lia|]. split; [intros [k Hk]; lia|]. split; [intros [k Hk]; lia|].
  split; [eexists; vm_compute; reflexivity|]. split; [unfold rounded_up; lia|]. split; [eexists; vm_compute; reflexivity|unfold rounded_up; lia].
Qed.
