(** * Property C06, exactly: when a remainder is right

    The property is false of the code for one dividend and one divisor. This theorem
    says which: the compiler accepts the same types as the property says, the bounds
    are always right, and the remainder is right unless the divisor is -1 and the
    dividend is the smallest value of the built-in type C++ computes in. *)

From Coq Require Import ZArith Lia Bool List.
From Verif Require Import Cxx CxxLemmas Core CoreLemmas Spec Arith ArithLemmas ArithProofs PropsExactShift.
Import ListNotations.
Open Scope Z_scope.

Theorem C06_remainder_exactly : forall A B x y,
  valid A -> valid B -> holds_value A x -> holds_value B y -> y <> 0 ->
  (forall R o, modulus A B x y = Some (R, o) ->
    valid R /\ tightest (results A B nonzero_divisor Z.rem) (lo R) (hi R) /\
    (y = -1 /\ x = - 2 ^ (width3 R A B - 1) -> o = UB) /\
    (~ (y = -1 /\ x = - 2 ^ (width3 R A B - 1)) -> right_answer R o (Z.rem x y))) /\
  ((exists R o, modulus A B x y = Some (R, o)) <->
   exists l h, tightest (results A B nonzero_divisor Z.rem) l h /\
     representable (Z.min l (Z.min (lo A) (lo B))) (Z.max h (Z.max (hi A) (hi B)))).
Proof.
  intros A B x y HA HB Hx Hy N.
  destruct (modulus_spec A B x y HA HB Hx Hy N) as [(l & h & T & ->) | [C ->]].
  - pose proof T as T0. apply (tightest_ext _ _ _ _ (rems_results A B)) in T.
    unfold mod_common. rewrite lo_bt, hi_bt. split.
    + intros R o H. apply if_some_inv in H. destruct H as [Rb E]. apply pair_equal_spec in E. destruct E as [<- <-].
      rewrite !lo_bt, !hi_bt.
      assert (l <= Z.rem x y <= h) as Hr.
      { destruct T0 as (_ & _ & T3). apply T3. exists x, y. unfold holds_value in *. auto. }
      split; [apply valid_bt, reprb_spec; eapply reprb_mono; [exact Rb | lia ..]|].
      split; [exact T|]. unfold width3. rewrite lo_bt, hi_bt.
      apply reprb_spec in Rb. destruct (und_bounds _ _ Rb) as (U1 & U2 & U3).
      pose proof (width_und _ _ Rb) as W. set (t := und (bt _ _)) in *. clearbody t.
      unfold holds_value in Hx, Hy.
      assert (ty_min (promote t) <= x <= ty_max (promote t)) as PX by (apply promote_range; lia).
      rewrite <- W. clear W. split.
      * intros [-> E]. cbn [Z.eqb andb Pos.eqb].
        assert (in_ty (promote t) (- x) = false) as ->; [|reflexivity].
        rewrite E. assert (ty_min t <= -1) as PM by lia. clear - PM. destruct t; cbn in *; try lia; reflexivity.
      * intros Q. unfold right_answer, holds_value. rewrite lo_bt, hi_bt. split; [|exact Hr].
        destruct (Z.eqb_spec y (-1)) as [-> | ]; [|reflexivity]. cbn [andb].
        destruct (in_ty (promote t) (- x)) eqn:IT; [reflexivity|]. exfalso. apply Q. split; [reflexivity|].
        assert (~ (ty_min (promote t) <= - x <= ty_max (promote t))) as NI
          by (rewrite <- in_ty_spec; congruence).
        assert (ty_min t <= -1) as PM by lia.
        clear - NI PX PM. destruct t; cbn [promote ty_min ty_max is_signed ty_bits] in *; try lia; cbn in *; lia.
    + apply pair_some_iff. rewrite reprb_spec. rewrite <- !Z.min_assoc, <- !Z.max_assoc. split.
      * intros H. eauto.
      * intros (l' & h' & T' & R). destruct (tightest_unique _ _ _ _ _ T T') as [-> ->]. exact R.
  - split; [discriminate|]. split; [intros (? & ? & ?); discriminate|].
    intros (l & h & T & R). exfalso. apply C. apply representable_spec in R.
    apply valid_le in HA. apply valid_le in HB. unfold common_ok. cbn in *. lia.
Qed.
Print Assumptions C06_remainder_exactly.

(** The smallest value of a signed char is divided in int, so that it has the right
    remainder. The smallest int is divided in int, and has none, unless the types of
    the operands together need more than an int. *)
Example C06_exactly_cases :
  (exists R, modulus (Bty (lit (-128)) (lit 127)) (Bty (lit (-1)) (lit 1)) (-128) (-1) = Some (R, Ok 0)) /\
  (exists R, modulus (Bty (lit (- 2 ^ 31)) (lit 0)) (Bty (lit (-1)) (lit (-1))) (- 2 ^ 31) (-1) = Some (R, UB)) /\
  (exists R, modulus (Bty (lit (- 2 ^ 31)) (TV I128 (2 ^ 40))) (Bty (lit (-1)) (lit (-1))) (- 2 ^ 31) (-1) = Some (R, Ok 0)).
Proof.
  split; [eexists; vm_compute; reflexivity|]. split; eexists; vm_compute; reflexivity.
Qed.
