(** * Properties C28 and C68, exactly

    The operators on a bounded and a built-in integer, and the radix sort keys of characters: what happens where the properties
    are false of the code. *)

From Coq Require Import ZArith Lia Bool List.
From Verif Require Import Cxx CxxLemmas Core CoreLemmas Spec Arith ArithLemmas ArithProofs Funcs FuncLemmas CoreProofs.
From Verif Require Import PropsExactShift PropsExactRemainder RadixKey RadixKeyProofs.
Import ListNotations.
Open Scope Z_scope.

(** The built-in result is the exact value. *)
Definition exact_builtin (o : outcome tval) (z : Z) : Prop := exists t, o = Ok (TV t z) /\ ty_min t <= z <= ty_max t.

(** ** C28. Subtracting a built-in integer [y] of the type [b]: C++ negates [y] in the promoted type.
    Where the negation is a value of that type the difference is right. Otherwise it is undefined
    if the type is signed, and if it is not the difference is too large by 2^32, 2^64 or 2^128. *)
Theorem C28_minus_exactly : forall A b x y o, ivalid A -> iholds A x -> ty_min b <= y <= ty_max b ->
  mixed_minus A (Builtin b) x y = Some o ->
  (ty_min (promote b) <= - y <= ty_max (promote b) -> exact_builtin o (x - y)) /\
  (is_signed (promote b) = true -> y = ty_min (promote b) -> o = UB) /\
  (is_signed (promote b) = false -> 0 < y -> exact_builtin o (x - y + 2 ^ ty_bits (promote b))) /\
  (ty_min (promote b) <= - y <= ty_max (promote b) \/
   is_signed (promote b) = true /\ y = ty_min (promote b) \/ is_signed (promote b) = false /\ 0 < y).
Proof.
  intros A b x y o HA Hx Hy H. split; [|split; [|split]].
  - intros Q. eapply (mixed_minus_exact A (Builtin b)); eauto; [exact I|]. now apply in_ty_spec.
  - intros S ->. unfold mixed_minus in H.
    assert (cneg (TV b (ty_min (promote b))) = UB) as E.
    { unfold cneg, arith. cbn [ty vl]. rewrite S. clear - S. destruct b; cbn in *; try discriminate; reflexivity. }
    rewrite E in H. destruct (mixed plus A (Builtin (promote b)) x 0); cbn [obind] in H; [now injection H as <-|discriminate].
  - intros S P. unfold mixed_minus in H.
    assert (cneg (TV b y) = Ok (TV (promote b) (- y + 2 ^ ty_bits (promote b)))) as E.
    { unfold cneg, arith. cbn [ty vl]. rewrite S. do 2 f_equal.
      rewrite (wrap_at _ _ (-1)); [|clear - S P Hy; destruct b; cbn in *; try discriminate; lia].
      clear - S. destruct b; cbn in *; try discriminate; lia. }
    rewrite E in H. cbn [vl] in H.
    replace (x - y + 2 ^ ty_bits (promote b)) with (x + (- y + 2 ^ ty_bits (promote b))) by lia.
    unfold exact_builtin. apply (mixed_plus A (Builtin (promote b)) _ _ _ HA) in H; auto; [exact I|].
    unfold iholds. cbn [ilo ihi]. clear - S P Hy. destruct b; cbn in *; try discriminate; lia.
  - clear - Hy. destruct b; cbn in *; lia.
Qed.
Print Assumptions C28_minus_exactly.

Lemma rem_between a b : b <> 0 -> Z.min a 0 <= Z.rem a b <= Z.max a 0.
Proof.
  intros N. rewrite <- (Z.rem_abs_r a b) by exact N. assert (0 < Z.abs b) as P by lia.
  destruct (Z.le_gt_cases 0 a).
  - pose proof (Z.rem_le a (Z.abs b)). pose proof (Z.rem_nonneg a (Z.abs b)). lia.
  - pose proof (Z.rem_le (- a) (Z.abs b)). pose proof (Z.rem_nonneg (- a) (Z.abs b)).
    rewrite Z.rem_opp_l in * by lia. lia.
Qed.

Lemma width_same l h1 h2 : l < 0 -> Z.max h1 0 = Z.max h2 0 -> width l h1 = width l h2.
Proof.
  intros L E. unfold width. replace (0 <=? l) with false by lia. cbn [andb]. rewrite !orb_false_r.
  replace (h1 <? 2 ^ 31) with (h2 <? 2 ^ 31) by (destruct (Z.ltb_spec h2 (2 ^ 31)), (Z.ltb_spec h1 (2 ^ 31)); try reflexivity; exfalso; lia).
  replace (h1 <? 2 ^ 63) with (h2 <? 2 ^ 63) by (destruct (Z.ltb_spec h2 (2 ^ 63)), (Z.ltb_spec h1 (2 ^ 63)); try reflexivity; exfalso; lia).
  reflexivity.
Qed.

(** Remainders: [width] is that of the smallest type containing the types of the operands. *)
Theorem C28_modulus_exactly : forall A B x y o, ivalid A -> ivalid B -> iholds A x -> iholds B y -> y <> 0 ->
  mixed modulus A B x y = Some o ->
  let w := width (Z.min (ilo A) (ilo B)) (Z.max (ihi A) (ihi B)) in
  (y = -1 /\ x = - 2 ^ (w - 1) -> o = UB) /\ (~ (y = -1 /\ x = - 2 ^ (w - 1)) -> exact_builtin o (Z.rem x y)).
Proof.
  intros A B x y o HA HB Hx Hy N H w. unfold mixed in H. rewrite !deduced_spec in H by auto. cbn [obind] in H.
  destruct (modulus _ _ x y) as [[R r]|] eqn:E; cbn [obind] in H; [|discriminate].
  pose proof (valid_deduced A HA) as VA. pose proof (valid_deduced B HB) as VB.
  set (DA := bt (ilo A) (ihi A)) in *. set (DB := bt (ilo B) (ihi B)) in *.
  assert (lo DA = ilo A) as LA by apply lo_bt. assert (hi DA = ihi A) as UA by apply hi_bt.
  assert (lo DB = ilo B) as LB by apply lo_bt. assert (hi DB = ihi B) as UB by apply hi_bt.
  clearbody DA DB. unfold iholds in *.
  destruct (C06_remainder_exactly DA DB x y VA VB) as [K _]; [unfold holds_value; lia..|].
  destruct (K _ _ E) as (VR & T & Bad & Good). clear K E.
  assert (y = -1 -> width3 R DA DB = w) as W.
  { intros ->. destruct T as ((a1 & b1 & A1 & B1 & C1 & D1) & (a2 & b2 & A2 & B2 & C2 & D2) & _).
    unfold holds_value, nonzero_divisor in *.
    pose proof (rem_between a1 b1 C1). pose proof (rem_between a2 b2 C2).
    unfold w, width3. replace (Z.min (Z.min (lo R) (lo DA)) (lo DB)) with (Z.min (ilo A) (ilo B)) by lia.
    apply width_same; lia. }
  injection H as <-. split.
  - intros Q. assert (y = -1) as Y by tauto. rewrite <- (W Y) in Q. rewrite (Bad Q). reflexivity.
  - intros Q. destruct Good as [-> Hr].
    { intros G. apply Q. destruct G as [Y G]. split; [exact Y|]. rewrite <- (W Y). exact G. }
    cbn [bind]. rewrite value_valid by auto. exists (und R). split; [reflexivity|].
    destruct (und_valid _ VR). unfold holds_value in Hr. lia.
Qed.
Print Assumptions C28_modulus_exactly.

(** What the compiler accepts does not depend on the values. *)
Lemma construct_accepts R t v v' S o : construct_unchecked R t v = Some (S, o) -> exists o', construct_unchecked R t v' = Some (S, o').
Proof. unfold construct_unchecked. destruct (guard _); intros H; [|discriminate H]. injection H as <- _. eexists. reflexivity. Qed.
Lemma obind_accepts X Y Z (a : option X) (f : X -> option Y) (g : X -> option Z) (P : Y -> Z -> Prop) :
  (forall x y, f x = Some y -> exists z, g x = Some z /\ P y z) -> forall y, obind a f = Some y -> exists z, obind a g = Some z /\ P y z.
Proof. intros H y E. destruct a as [x|]; [exact (H x y E)|discriminate E]. Qed.
Lemma multiply_accepts A B x y x' y' R o : multiply A B x y = Some (R, o) -> exists o', multiply A B x' y' = Some (R, o').
Proof.
  intros H. assert (exists z, multiply A B x' y' = Some z /\ fst (R, o) = fst z) as ([R' o'] & E & F).
  { revert H. generalize (R, o). unfold multiply. do 5 (apply obind_accepts; intros ?).
    intros [S u] H. match goal with |- exists z, construct_unchecked _ _ ?v = _ /\ _ => destruct (construct_accepts _ _ _ v _ _ H) as [o' E] end.
    exists (S, o'). split; [exact E|reflexivity]. }
  cbn [fst] in F. subst R'. eauto.
Qed.

(** Multiplication: the compiler accepts these types and all products are right, or there is a product below -2^127, as in C04. *)
Theorem C28_multiply_exactly : forall A B, ivalid A -> ivalid B ->
  (exists x y o, iholds A x /\ iholds B y /\ mixed multiply A B x y = Some o) ->
  ((forall x y o, iholds A x -> iholds B y -> mixed multiply A B x y = Some o -> exact_builtin o (x * y)) <->
   (forall x y, iholds A x -> iholds B y -> ty_min I128 <= x * y)).
Proof.
  intros A B HA HB (x0 & y0 & o0 & Hx0 & Hy0 & E0). split.
  - intros H x y Hx Hy.
    assert (exists o, mixed multiply A B x y = Some o) as [o E].
    { clear H. unfold mixed in E0 |- *. rewrite !deduced_spec in E0 |- * by auto. cbn [obind] in E0 |- *.
      destruct (multiply _ _ x0 y0) as [[R r]|] eqn:E; [|discriminate E0].
      destruct (multiply_accepts _ _ _ _ x y _ _ E) as [r' ->]. cbn [obind]. eauto. }
    destruct (H _ _ _ Hx Hy E) as (t & _ & T). assert (ty_min I128 <= ty_min t) by (destruct t; vm_compute; discriminate). lia.
  - intros H x y o Hx Hy E. exact (mixed_multiply A B x y o HA HB Hx Hy H E).
Qed.
Print Assumptions C28_multiply_exactly.

(** ** C68. The keys of characters are in the order of the values except that the negative ones come last. *)
Theorem C68_character_exactly : forall t a b, wf_tv (TV t a) -> wf_tv (TV t b) ->
  exists ka kb, integer_key true (TV t a) = Ok ka /\ integer_key true (TV t b) = Ok kb /\
    ty ka = make_unsigned t /\ ty kb = make_unsigned t /\ wf_tv ka /\ wf_tv kb /\
    (vl ka < vl kb <-> (a < 0 <-> b < 0) /\ a < b \/ b < 0 <= a).
Proof.
  intros t a b Ha Hb. rewrite !character_key_spec by assumption. cbn [ty vl]. unfold wf_tv in *. cbn [ty vl] in *.
  eexists _, _. split; [reflexivity|]. split; [reflexivity|]. cbn [ty vl]. split; [reflexivity|]. split; [reflexivity|].
  destruct (Z.ltb_spec a 0), (Z.ltb_spec b 0); destruct t; cbn in *; lia.
Qed.
Print Assumptions C68_character_exactly.

Example exactly_mixed_cases :
  let A := Bounded (Bty (lit 0) (lit 10)) in
  mixed_minus A (Builtin I32) 5 3 = Some (Ok (TV I64 2)) /\
  mixed_minus A (Builtin I32) 5 (- 2 ^ 31) = Some UB /\
  mixed_minus A (Builtin I8) 5 (- 2 ^ 7) = Some (Ok (TV I64 133)) /\
  mixed_minus A (Builtin U32) 5 3 = Some (Ok (TV U64 (2 + 2 ^ 32))) /\
  mixed modulus (Builtin I32) (Bounded (Bty (lit (-1)) (lit (-1)))) (- 2 ^ 31) (-1) = Some UB /\
  mixed modulus (Builtin I64) (Bounded (Bty (lit (-1)) (lit (-1)))) (- 2 ^ 31) (-1) = Some (Ok (TV I8 0)) /\
  integer_key true (TV I8 (-2)) = Ok (TV U8 254) /\ integer_key true (TV I8 (-1)) = Ok (TV U8 255) /\ integer_key true (TV I8 65) = Ok (TV U8 65).
Proof. repeat split; vm_compute; reflexivity. Qed.
