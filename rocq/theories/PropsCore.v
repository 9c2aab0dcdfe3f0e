(** * Properties C07-C14, C24, C25, C27-C29

    Vocabulary in Spec.v and SpecFuncs.v. [Bounded B] is the type integer<lo B, hi B>
    and [Builtin t] a built-in integer type; [iholds T x] says that x is a value of the
    type T. [Some] is a call that compiles, [Ok] a call that ends normally. *)

From Coq Require Import ZArith Lia Bool List Permutation.
From Verif Require Import Cxx Core Spec Arith Funcs SpecFuncs CoreProofs PropsArith.
Import ListNotations.
Open Scope Z_scope.

Ltac concrete2 :=
  cbv zeta; unfold ivalid, iholds, valid, holds_value, wf_tv, comparable, one_bounded;
  repeat match goal with |- _ /\ _ => split end;
  try exact I;
  try match goal with
  | |- Forall _ _ => idtac
  | |- products_ok _ _ => idtac
  | |- _ => vm_compute; (reflexivity || congruence || (intros; discriminate))
  end.

(** ** C07 *)
Theorem C07_comparison : forall A B x y,
  ivalid A -> ivalid B -> iholds A x -> iholds B y -> one_bounded A B ->
  equal A B x y = Ok (x =? y) /\ less A B x y = Ok (x <? y) /\ less_equal A B x y = Ok (x <=? y) /\
  greater A B x y = Ok (y <? x) /\ greater_equal A B x y = Ok (y <=? x) /\
  compare A B x y = Ok (x ?= y).
Proof. exact comparison_exact. Qed.
Print Assumptions C07_comparison.

(** -1 against the largest unsigned value. *)
Example C07_example :
  let A := Bounded (Bty (lit (-1)) (lit 5)) in let B := Builtin U128 in
  ivalid A /\ ivalid B /\ iholds A (-1) /\ iholds B (ty_max U128) /\ one_bounded A B /\
  less A B (-1) (ty_max U128) = Ok true.
Proof. concrete2. Qed.

(** ** C08 *)
Theorem C08_implicit_conversion : forall B T x, valid B -> ivalid T -> iholds T x ->
  ((exists o, convert B T x = Some o) <-> (forall v, iholds T v -> holds_value B v)) /\
  (forall o, convert B T x = Some o -> exists s, o = Ok s /\ value B s = Ok (TV (und B) x)).
Proof. exact convert_exact. Qed.
Print Assumptions C08_implicit_conversion.

Theorem C08_unchecked_conversion : forall B T x,
  valid B -> ivalid T -> iholds T x -> holds_value B x ->
  exists s, unchecked B T x = Some (Ok s) /\ value B s = Ok (TV (und B) x).
Proof. exact unchecked_exact. Qed.
Print Assumptions C08_unchecked_conversion.

Example C08_example :
  let B := Bty (lit (-500)) (lit 500) in let T := Bounded (Bty (lit 0) (lit 255)) in
  valid B /\ ivalid T /\ iholds T 200 /\ holds_value B 200 /\ convert B T 200 = Some (Ok 200) /\
  convert B (Builtin U16) 200 = None.
Proof. concrete2. Qed.

(** ** C09. The full property has no [comparable] hypotheses; without them it is false
    of the code ([C09_check_refuted]): with built-in arguments of different signedness
    the language's own comparison is used. *)
Theorem C09_check_partial : forall T Tmin Tmax x mn mx R o,
  ivalid T -> ivalid Tmin -> ivalid Tmax -> iholds T x -> iholds Tmin mn -> iholds Tmax mx ->
  comparable Tmin T -> comparable T Tmax ->
  check_in_range T Tmin Tmax x mn mx = Some (R, o) ->
  (mn <= x <= mx -> o = Ok x /\ valid R /\ holds_value R x) /\
  (~ (mn <= x <= mx) -> o = Throw).
Proof. exact check_exact. Qed.
Print Assumptions C09_check_partial.

Example C09_example :
  let T := Builtin I64 in let Tmin := Bounded (Bty (lit (-5)) (lit (-5))) in let Tmax := Builtin I8 in
  ivalid T /\ ivalid Tmin /\ ivalid Tmax /\ iholds T 200 /\ iholds Tmin (-5) /\ iholds Tmax 100 /\
  comparable Tmin T /\ comparable T Tmax /\
  check_in_range T Tmin Tmax 200 (-5) 100 = Some (Bty (lit (-5)) (lit 127), Throw).
Proof. concrete2. left. reflexivity. Qed.

Theorem C09_check_refuted : exists T Tmin Tmax x mn mx R o,
  ivalid T /\ ivalid Tmin /\ ivalid Tmax /\ iholds T x /\ iholds Tmin mn /\ iholds Tmax mx /\
  check_in_range T Tmin Tmax x mn mx = Some (R, o) /\ ~ (mn <= x <= mx) /\ o <> Throw.
Proof.
  exists (Builtin I32), (Builtin U32), (Builtin U32), (-1), 0, (ty_max U32). eexists _, _.
  concrete2. intros [H _]. lia.
Qed.
Print Assumptions C09_check_refuted.

(** check_in_range<B>(x), B a bounded integer type. *)
Theorem C09_check_to : forall B T x, valid B -> ivalid T -> iholds T x ->
  ((exists R o, check_in_range_to B T x = Some (R, o)) <-> exists v, iholds T v /\ holds_value B v) /\
  (forall R o, check_in_range_to B T x = Some (R, o) ->
    R = B /\ (holds_value B x -> o = Ok x) /\ (~ holds_value B x -> o = Throw)).
Proof. exact check_to_exact. Qed.
Print Assumptions C09_check_to.

Example C09_check_to_example :
  let B := Bty (lit 1) (lit 6) in let T := Builtin I64 in
  valid B /\ ivalid T /\ iholds T 7 /\ ~ holds_value B 7 /\ check_in_range_to B T 7 = Some (B, Throw) /\
  check_in_range_to B T 6 = Some (B, Ok 6).
Proof. concrete2. intros [_ H]. apply H. reflexivity. Qed.

(** check_in_range<t>(x), t a built-in type. *)
Theorem C09_check_to_builtin_partial : forall t T x o,
  ivalid T -> iholds T x -> comparable T (Builtin t) ->
  check_in_range_to_builtin t T x = Some o ->
  (ty_min t <= x <= ty_max t -> o = Ok (TV t x)) /\ (~ (ty_min t <= x <= ty_max t) -> o = Throw).
Proof. exact check_to_builtin_exact. Qed.
Print Assumptions C09_check_to_builtin_partial.

Example C09_check_to_builtin_example :
  let T := Bounded (Bty (lit (-1)) (lit 300)) in
  ivalid T /\ iholds T (-1) /\ comparable T (Builtin U8) /\
  check_in_range_to_builtin U8 T (-1) = Some Throw /\ check_in_range_to_builtin U8 T 255 = Some (Ok (TV U8 255)).
Proof. concrete2. Qed.

(** check_in_range<unsigned>(-1) does not throw. *)
Theorem C09_check_to_builtin_refuted : exists t T x o,
  ivalid T /\ iholds T x /\ check_in_range_to_builtin t T x = Some o /\
  ~ (ty_min t <= x <= ty_max t) /\ o <> Throw.
Proof. exists U32, (Builtin I32), (-1). eexists. concrete2. intros [H _]. apply H. reflexivity. Qed.
Print Assumptions C09_check_to_builtin_refuted.

(** ** C10 *)
Theorem C10_clamp : forall V MN MX v mn mx, valid V -> valid MN -> valid MX ->
  holds_value V v -> holds_value MN mn -> holds_value MX mx -> mn <= mx ->
  exists R z, clamp V MN MX v mn mx = Some (R, Ok z) /\ valid R /\ holds_value R z /\
    (v < mn -> z = mn) /\ (mx < v -> z = mx) /\ (mn <= v <= mx -> z = v).
Proof. exact clamp_exact. Qed.
Print Assumptions C10_clamp.

Theorem C10_clamp_to : forall B T x, valid B -> ivalid T -> iholds T x ->
  exists R z, clamp_to B T x = Some (R, Ok z) /\ valid R /\ holds_value R z /\ holds_value B z /\
    (x < lo B -> z = lo B) /\ (hi B < x -> z = hi B) /\ (holds_value B x -> z = x).
Proof. exact clamp_to_exact. Qed.
Print Assumptions C10_clamp_to.

Example C10_example :
  let V := Bty (lit (-10)) (lit 100) in let M := Bty (lit 0) (lit 5) in let X := Bty (lit 3) (lit 50) in
  valid V /\ valid M /\ valid X /\ holds_value V 70 /\ holds_value M 2 /\ holds_value X 40 /\ 2 <= 40 /\
  clamp V M X 70 2 40 = Some (Bty (lit 0) (lit 50), Ok 40) /\
  clamp_to X (Builtin I8) (-7) = Some (Bty (lit 3) (lit 50), Ok 3).
Proof. concrete2. Qed.

(** ** C11. Assignment; then histories of updates. [math_run l h us x] is the value
    after the updates in mathematics, [None] if some value leaves [l, h] or a division
    by zero happens. The full property has no restriction on the updates beyond their
    operands being values of their types; [update_ok] also excludes the multiplications
    and remainders for which C04 and C06 fail of the code. *)
Theorem C11_assign : forall B T x, valid B -> ivalid T -> iholds T x ->
  ((exists o, assign B T x = Some o) <-> exists v, iholds T v /\ holds_value B v) /\
  (forall o, assign B T x = Some o -> (holds_value B x -> o = Ok x) /\ (~ holds_value B x -> o = UB)).
Proof. exact assign_exact. Qed.
Print Assumptions C11_assign.

Theorem C11_history_partial : forall A us x R o,
  valid A -> holds_value A x -> Forall (update_ok A) us ->
  run_updates A us x = Some (R, o) ->
  R = A /\ o = match math_run (lo A) (hi A) us x with Some z => Ok z | None => UB end.
Proof. exact history_exact. Qed.
Print Assumptions C11_history_partial.

(** The invariant of the object. *)
Theorem C11_invariant_partial : forall A us x R z,
  valid A -> holds_value A x -> Forall (update_ok A) us ->
  run_updates A us x = Some (R, Ok z) -> holds_value A z.
Proof.
  intros A us x R z HA Hx HU H. destruct (history_exact _ _ _ _ _ HA Hx HU H) as [_ E].
  destruct (math_run (lo A) (hi A) us x) as [w|] eqn:M; [|discriminate].
  injection E as ->. exact (math_run_inv _ _ _ _ _ Hx M).
Qed.
Print Assumptions C11_invariant_partial.

Theorem C11_postfix : forall A x, valid A -> holds_value A x ->
  (forall o, post_increment A x = Some o ->
     (x < hi A -> o = Ok (x, x + 1)) /\ (x = hi A -> o = UB)) /\
  (forall o, post_decrement A x = Some o ->
     (lo A < x -> o = Ok (x, x - 1)) /\ (x = lo A -> o = UB)).
Proof. exact postfix_exact. Qed.
Print Assumptions C11_postfix.

Definition C11_history : list update :=
  [UAdd (Bty (lit 0) (lit 30)) 20; UMul (Bty (lit (-3)) (lit 3)) (-2); UInc;
   UMod (Bty (lit 5) (lit 9)) 8; UAssign (Builtin I32) 77; UDiv (Bty (lit 2) (lit 4)) 3; UDec;
   USub (Bty (lit 0) (lit 50)) 50].
Example C11_example :
  let A := Bty (lit (-100)) (lit 100) in
  valid A /\ holds_value A 3 /\ Forall (update_ok A) C11_history /\
  run_updates A C11_history 3 = Some (A, Ok (-26)).
Proof.
  concrete2. unfold C11_history.
  repeat (apply Forall_cons; [|]); try apply Forall_nil; cbn [update_ok]; concrete2; try discriminate.
  unfold products_ok, holds_value, lo, hi. cbn [bmin bmax lit vl ty_min]. intros. nia.
Qed.

(** ** C12 *)
Theorem C12_min : forall A x rest, valid A -> holds_value A x ->
  Forall (fun a => valid (fst a) /\ holds_value (fst a) (snd a)) rest ->
  exists R z, min_n A x rest = Some (R, Ok z) /\ valid R /\ holds_value R z /\
    least z (x :: map snd rest) /\
    least (lo R) (lo A :: map (fun a => lo (fst a)) rest) /\
    least (hi R) (hi A :: map (fun a => hi (fst a)) rest).
Proof. exact (extreme_exact ByLess). Qed.
Print Assumptions C12_min.

Theorem C12_max : forall A x rest, valid A -> holds_value A x ->
  Forall (fun a => valid (fst a) /\ holds_value (fst a) (snd a)) rest ->
  exists R z, max_n A x rest = Some (R, Ok z) /\ valid R /\ holds_value R z /\
    greatest z (x :: map snd rest) /\
    greatest (lo R) (lo A :: map (fun a => lo (fst a)) rest) /\
    greatest (hi R) (hi A :: map (fun a => hi (fst a)) rest).
Proof. exact (extreme_exact ByGreater). Qed.
Print Assumptions C12_max.

(** Any strict weak order: the result is not preceded by any argument, and precedes
    every argument that comes before it in the list. *)
Theorem C12_first_wins : forall (T : Type) (cmp : T -> T -> bool),
  (forall a, cmp a a = false) -> (forall a b, cmp a b = true -> cmp b a = false) ->
  (forall a b c, cmp a b = true -> cmp b c = true -> cmp a c = true) ->
  (forall a b c, cmp a b = false -> cmp b c = false -> cmp a c = false) ->
  forall ts t, exists pre post, t :: ts = pre ++ extreme_generic cmp t ts :: post /\
    (forall u, In u (t :: ts) -> cmp u (extreme_generic cmp t ts) = false) /\
    (forall u, In u pre -> cmp (extreme_generic cmp t ts) u = true).
Proof. intros T. exact extreme_generic_first. Qed.
Print Assumptions C12_first_wins.

Example C12_example :
  let A := Bty (lit 0) (lit 100) in
  let rest := [(Bty (lit (-5)) (lit 50), 7); (Bty (lit 3) (lit 4), 4)] in
  valid A /\ holds_value A 70 /\
  Forall (fun a => valid (fst a) /\ holds_value (fst a) (snd a)) rest /\
  min_n A 70 rest = Some (Bty (lit (-5)) (lit 4), Ok 4) /\
  max_n A 70 rest = Some (Bty (lit 3) (lit 100), Ok 70).
Proof. concrete2. repeat (apply Forall_cons; [|]); try apply Forall_nil; cbn [fst snd]; concrete2. Qed.
Example C12_first_wins_example :
  let cmp (a b : Z * Z) := fst a <? fst b in
  (forall a, cmp a a = false) /\ (forall a b, cmp a b = true -> cmp b a = false) /\
  (forall a b c, cmp a b = true -> cmp b c = true -> cmp a c = true) /\
  (forall a b c, cmp a b = false -> cmp b c = false -> cmp a c = false) /\
  extreme_generic cmp (2, 0) [(1, 1); (1, 2); (5, 3)] = (1, 1).
Proof. cbv zeta. repeat split; intros; lia. Qed.

(** ** C13 *)
Theorem C13_abs : forall A x, valid A -> holds_value A x ->
  (forall R o, abs A x = Some (R, o) -> exact1 A x Z.abs R o) /\
  ((exists R o, abs A x = Some (R, o)) <-> 0 <= lo A \/ representable (- hi A) (- lo A)).
Proof. exact abs_exact. Qed.
Print Assumptions C13_abs.

Example C13_example :
  let A := Bty (TV I64 (ty_min I64)) (lit 5) in let A' := Bty (TV I128 (ty_min I64)) (lit 5) in
  valid A' /\ holds_value A' (ty_min I64) /\
  abs A' (ty_min I64) = Some (Bty (lit 0) (TV I128 (2 ^ 63)), Ok (2 ^ 63)).
Proof. concrete2. Qed.

(** ** C14 *)
Theorem C14_storage : forall B x, valid B -> holds_value B x ->
  holds (und B) (lo B) (hi B) /\ (forall t, holds t (lo B) (hi B) -> ty_bits (und B) <= ty_bits t) /\
  value B x = Ok (TV (und B) x).
Proof.
  intros B x H Hx. split; [now apply und_valid|]. split; [|now apply value_valid].
  intros t. now apply storage_minimal.
Qed.
Print Assumptions C14_storage.

(** The ranges that are accepted are those some built-in type can hold. *)
Theorem C14_accepted : forall a b, wf_tv a -> wf_tv b ->
  (exists B, mk_integer (normalize a) (normalize b) = Some B /\ lo B = vl a /\ hi B = vl b) <->
  representable (vl a) (vl b).
Proof. exact accept_iff. Qed.
Print Assumptions C14_accepted.

Example C14_example :
  let B := Bty (lit 0) (lit 256) in
  valid B /\ holds_value B 256 /\ und B = I16 /\
  mk_integer (normalize (TV I8 (-1))) (normalize (TV U128 (ty_max U128))) = None.
Proof. concrete2. Qed.

(** ** C24. The full property has no [avoids_defects] hypothesis: it excludes the
    multiplications and remainders for which C04 and C06 fail of the code. [math env e]
    is the mathematical value of the expression, [None] if a divisor is zero. *)
Theorem C24_expressions_partial : forall G env e,
  (forall n, valid (G n) /\ holds_value (G n) (env n)) -> constants_ok e -> avoids_defects G env e ->
  forall R o, eval G env e = Some (R, o) ->
  valid R /\ match math env e with Some z => o = Ok z /\ holds_value R z | None => o = UB end.
Proof. exact eval_exact. Qed.
Print Assumptions C24_expressions_partial.

(** (v0 * v1 - 7) / max(v2, 2) % 9 *)
Definition C24_expr : expr :=
  EMod (EDiv (ESub (EMul (EVar 0) (EVar 1)) (EConst 7)) (EMax (EVar 2) (EConst 2))) (EConst 9).
Definition C24_types (n : nat) : bty :=
  match n with 0%nat => Bty (lit (-1000)) (lit 1000) | 1%nat => Bty (lit 0) (TV I128 (2 ^ 40)) | _ => Bty (lit 0) (lit 9) end.
Definition C24_env (n : nat) : Z := match n with 0%nat => -999 | 1%nat => 2 ^ 40 | _ => 1 end.
Example C24_example :
  (forall n, valid (C24_types n) /\ holds_value (C24_types n) (C24_env n)) /\
  constants_ok C24_expr /\ avoids_defects C24_types C24_env C24_expr /\
  eval C24_types C24_env C24_expr =
    Some (Bty (lit (-8)) (lit 8), Ok (Z.rem (Z.quot (-999 * 2 ^ 40 - 7) 2) 9)).
Proof.
  split; [|split; [|split]].
  - intros [|[|n]]; cbn [C24_types C24_env]; concrete2.
  - cbn. lia.
  - cbn [C24_expr avoids_defects]. repeat split; auto.
    + intros A B oa ob EA EB. cbn in EA, EB. injection EA as <- _. injection EB as <- _.
      unfold products_ok, holds_value, lo, hi. cbn [bmin bmax lit vl ty_min]. intros. nia.
    + cbn. discriminate.
  - vm_compute. reflexivity.
Qed.

(** The defect of C04 inside an expression. *)
Theorem C24_expressions_refuted : exists G env e R o,
  (forall n, valid (G n) /\ holds_value (G n) (env n)) /\ constants_ok e /\
  eval G env e = Some (R, o) /\ exists z, math env e = Some z /\ o <> Ok z.
Proof.
  exists (fun _ => Bty (TV I128 (2 ^ 127 - 1)) (TV I128 (2 ^ 127 - 1))), (fun _ => 2 ^ 127 - 1),
    (EMul (EVar 0) (EConst (-2))). eexists _, _. split; [|split; [|split]].
  - intros _. concrete2.
  - cbn. lia.
  - vm_compute. reflexivity.
  - eexists. split; [vm_compute; reflexivity | vm_compute; congruence].
Qed.
Print Assumptions C24_expressions_refuted.

(** ** C25 *)
Theorem C25_common_type : forall A rest, valid A -> Forall valid rest ->
  (forall C, common_type_n A rest = Some C ->
     valid C /\ tightest (union_of (A :: rest)) (lo C) (hi C) /\
     forall T x, In T (A :: rest) -> holds_value T x -> convert C (Bounded T) x = Some (Ok x)) /\
  ((exists C, common_type_n A rest = Some C) <->
   exists l h, tightest (union_of (A :: rest)) l h /\ representable l h).
Proof. exact common_exact. Qed.
Print Assumptions C25_common_type.

Theorem C25_order : forall A rest A' rest', valid A -> Forall valid rest ->
  Permutation (A :: rest) (A' :: rest') -> common_type_n A rest = common_type_n A' rest'.
Proof. exact common_perm. Qed.
Print Assumptions C25_order.

Theorem C25_grouping : forall A l1 B l2 C1 C2,
  valid A -> valid B -> Forall valid l1 -> Forall valid l2 ->
  common_type_n A l1 = Some C1 -> common_type_n B l2 = Some C2 ->
  common_type C1 C2 = common_type_n A (l1 ++ B :: l2).
Proof. exact common_assoc. Qed.
Print Assumptions C25_grouping.

Example C25_example :
  let A := Bty (lit 1) (lit 10) in let B := Bty (lit (-3)) (lit 0) in let C := Bty (lit 5) (lit 99) in
  valid A /\ valid B /\ valid C /\ common_type_n A [B; C] = Some (Bty (lit (-3)) (lit 99)) /\
  common_type_n C [A] = Some (Bty (lit 1) (lit 99)).
Proof. concrete2. Qed.

(** ** C27. The full property, for all y <> 0, is false of the code
    ([C27_round_up_refuted]). *)
Theorem C27_round_up_partial : forall A B x y R o,
  valid A -> valid B -> holds_value A x -> holds_value B y -> 0 < y -> 0 < x + y ->
  round_up_divide A B x y = Some (R, o) ->
  valid R /\ exists q, o = Ok q /\ holds_value R q /\ y * (q - 1) < x <= y * q.
Proof. exact round_up_exact. Qed.
Print Assumptions C27_round_up_partial.

Example C27_example :
  let A := Bty (lit (-4)) (lit 10) in let B := Bty (lit 1) (lit 6) in
  valid A /\ valid B /\ holds_value A 7 /\ holds_value B 3 /\ 0 < 3 /\ 0 < 7 + 3 /\
  round_up_divide A B 7 3 = Some (Bty (lit (-4)) (lit 15), Ok 3).
Proof. concrete2. Qed.

(** round_up_divide(-4, 2) is -1. *)
Theorem C27_round_up_refuted : exists A B x y R q,
  valid A /\ valid B /\ holds_value A x /\ holds_value B y /\ 0 < y /\
  round_up_divide A B x y = Some (R, Ok q) /\ ~ (y * (q - 1) < x <= y * q).
Proof.
  exists (Bty (lit (-4)) (lit (-4))), (Bty (lit 2) (lit 2)), (-4), 2. eexists _, _.
  concrete2. lia.
Qed.
Print Assumptions C27_round_up_refuted.

(** ** C28. Binary minus between a bounded and a built-in integer comes from the
    external operators library, modelled as [a + -b]; with a built-in right operand
    the negation is the language's own, which is exact only if [-y] is a value of the
    promoted type. *)
Theorem C28_plus : forall A B x y o, ivalid A -> ivalid B -> iholds A x -> iholds B y ->
  mixed plus A B x y = Some o -> exists t, o = Ok (TV t (x + y)) /\ ty_min t <= x + y <= ty_max t.
Proof. exact mixed_plus. Qed.
Print Assumptions C28_plus.

Theorem C28_multiply_partial : forall A B x y o, ivalid A -> ivalid B -> iholds A x -> iholds B y ->
  (forall x' y', iholds A x' -> iholds B y' -> ty_min I128 <= x' * y') ->
  mixed multiply A B x y = Some o -> exists t, o = Ok (TV t (x * y)) /\ ty_min t <= x * y <= ty_max t.
Proof. exact mixed_multiply. Qed.
Print Assumptions C28_multiply_partial.

Theorem C28_divide : forall A B x y o, ivalid A -> ivalid B -> iholds A x -> iholds B y -> y <> 0 ->
  mixed divide A B x y = Some o ->
  exists t, o = Ok (TV t (Z.quot x y)) /\ ty_min t <= Z.quot x y <= ty_max t.
Proof. exact mixed_divide. Qed.
Print Assumptions C28_divide.

Theorem C28_modulus_partial : forall A B x y o,
  ivalid A -> ivalid B -> iholds A x -> iholds B y -> y <> 0 -> y <> -1 ->
  mixed modulus A B x y = Some o ->
  exists t, o = Ok (TV t (Z.rem x y)) /\ ty_min t <= Z.rem x y <= ty_max t.
Proof. exact mixed_modulus. Qed.
Print Assumptions C28_modulus_partial.

Theorem C28_minus_partial : forall A B x y o, ivalid A -> ivalid B -> iholds A x -> iholds B y ->
  (match B with Builtin b => in_ty (promote b) (- y) = true | Bounded _ => True end) ->
  mixed_minus A B x y = Some o -> exists t, o = Ok (TV t (x - y)) /\ ty_min t <= x - y <= ty_max t.
Proof. exact mixed_minus_exact. Qed.
Print Assumptions C28_minus_partial.

Example C28_example :
  let A := Bounded (Bty (lit (-100)) (lit 100)) in let B := Builtin I32 in
  ivalid A /\ ivalid B /\ iholds A (-63) /\ iholds B 10 /\ in_ty (promote I32) (-10) = true /\
  mixed plus A B (-63) 10 = Some (Ok (TV I64 (-53))) /\
  mixed multiply A B (-63) 10 = Some (Ok (TV I64 (-630))) /\
  mixed divide A B (-63) 10 = Some (Ok (TV I8 (-6))) /\
  mixed modulus A B (-63) 10 = Some (Ok (TV I8 (-3))) /\
  mixed_minus A B (-63) 10 = Some (Ok (TV I64 (-73))).
Proof. concrete2. Qed.

(** integer<0, 10>(5) - 3u *)
Theorem C28_minus_refuted : exists A B x y o,
  ivalid A /\ ivalid B /\ iholds A x /\ iholds B y /\
  mixed_minus A B x y = Some (Ok o) /\ vl o <> x - y.
Proof.
  exists (Bounded (Bty (lit 0) (lit 10))), (Builtin U32), 5, 3. eexists. concrete2.
Qed.
Print Assumptions C28_minus_refuted.

(** ** C29 *)
Theorem C29_increase_min : forall n A x, wf_tv n -> valid A -> holds_value A x ->
  ((exists R o, increase_min n A x = Some (R, o)) <-> vl n <= hi A) /\
  (forall R o, increase_min n A x = Some (R, o) ->
     valid R /\ lo R = Z.max (vl n) (lo A) /\ hi R = hi A /\
     (vl n <= x -> o = Ok x) /\ (x < vl n -> o = UB)).
Proof. exact increase_min_exact. Qed.
Print Assumptions C29_increase_min.

Theorem C29_decrease_max : forall n A x, wf_tv n -> valid A -> holds_value A x ->
  ((exists R o, decrease_max n A x = Some (R, o)) <-> lo A <= vl n) /\
  (forall R o, decrease_max n A x = Some (R, o) ->
     valid R /\ lo R = lo A /\ hi R = Z.min (vl n) (hi A) /\
     (x <= vl n -> o = Ok x) /\ (vl n < x -> o = UB)).
Proof. exact decrease_max_exact. Qed.
Print Assumptions C29_decrease_max.

Theorem C29_increase_min_unchecked : forall n A x R o,
  wf_tv n -> valid A -> holds_value A x -> vl n <= x -> increase_min_unchecked n A x = Some (R, o) ->
  valid R /\ lo R = Z.max (vl n) (lo A) /\ hi R = hi A /\ o = Ok x.
Proof. exact increase_min_unchecked_exact. Qed.
Print Assumptions C29_increase_min_unchecked.

Theorem C29_decrease_max_unchecked : forall n A x R o,
  wf_tv n -> valid A -> holds_value A x -> x <= vl n -> decrease_max_unchecked n A x = Some (R, o) ->
  valid R /\ lo R = lo A /\ hi R = Z.min (vl n) (hi A) /\ o = Ok x.
Proof. exact decrease_max_unchecked_exact. Qed.
Print Assumptions C29_decrease_max_unchecked.

(** With built-in arguments the comparisons are the language's, see C09. *)
Theorem C29_assume_partial : forall T Tmin Tmax x mn mx R o,
  ivalid T -> ivalid Tmin -> ivalid Tmax -> iholds T x -> iholds Tmin mn -> iholds Tmax mx ->
  comparable T Tmin -> comparable Tmax T ->
  assume_in_range T Tmin Tmax x mn mx = Some (R, o) ->
  valid R /\ lo R = Z.max (ilo Tmin) (ilo T) /\ hi R = Z.min (ihi Tmax) (ihi T) /\
  (mn <= x <= mx -> o = Ok x /\ holds_value R x) /\ (~ (mn <= x <= mx) -> o = UB).
Proof. exact assume_exact. Qed.
Print Assumptions C29_assume_partial.

Theorem C29_assume_to : forall B T x R o, valid B -> ivalid T -> iholds T x ->
  assume_in_range_to B T x = Some (R, o) ->
  valid R /\ lo R = Z.max (lo B) (ilo T) /\ hi R = Z.min (hi B) (ihi T) /\
  (holds_value B x -> o = Ok x /\ holds_value R x) /\ (~ holds_value B x -> o = UB).
Proof. exact assume_to_exact. Qed.
Print Assumptions C29_assume_to.

Theorem C29_assume_to_builtin : forall t T x, ivalid T -> iholds T x ->
  exists o, assume_in_range_to_builtin t T x = Some o /\
    (ty_min t <= x <= ty_max t -> o = Ok (TV t x)) /\ (~ (ty_min t <= x <= ty_max t) -> o = UB).
Proof. exact assume_to_builtin_exact. Qed.
Print Assumptions C29_assume_to_builtin.

Example C29_example :
  let A := Bty (lit (-10)) (lit 20) in
  wf_tv (lit 3) /\ valid A /\ holds_value A 5 /\
  increase_min (lit 3) A 5 = Some (Bty (lit 3) (lit 20), Ok 5) /\
  increase_min (lit 3) A 2 = Some (Bty (lit 3) (lit 20), UB) /\
  decrease_max (lit 7) A 5 = Some (Bty (lit (-10)) (lit 7), Ok 5) /\
  assume_in_range (Bounded A) (Builtin I8) (Builtin I8) 5 0 9 = Some (A, Ok 5) /\
  assume_in_range_to (Bty (lit 0) (lit 6)) (Builtin I64) 5 = Some (Bty (lit 0) (lit 6), Ok 5) /\
  assume_in_range_to_builtin U8 (Builtin I64) 300 = Some UB.
Proof. concrete2. Qed.
