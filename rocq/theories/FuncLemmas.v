(** * Reductions of the functions of Funcs.v to mathematics *)

From Coq Require Import ZArith Lia Bool List.
From Verif Require Import Cxx CxxLemmas Core Spec CoreLemmas Arith ArithLemmas ArithProofs Funcs.
Import ListNotations.
Open Scope Z_scope.

Ltac Zify.zify_post_hook ::= idtac.

Definition cst (z : Z) : bty := bt z z.

Lemma in128_repr z : in128 z -> representable z z.
Proof. rewrite representable_spec. unfold in128. cbn. lia. Qed.
Lemma in128_reprb z : in128 z -> reprb z z = true.
Proof. intros. apply reprb_spec. now apply in128_repr. Qed.
Lemma valid_cst z : in128 z -> valid (cst z).
Proof. intros. apply valid_bt. now apply in128_repr. Qed.
Lemma holds_cst z : holds_value (cst z) z.
Proof. unfold holds_value, cst. rewrite lo_bt, hi_bt. lia. Qed.
Lemma const_of_nt z : const_of (nt z) = Bounded (cst z). Proof. reflexivity. Qed.
Lemma in128_small z : ty_min I32 <= z <= ty_max I32 -> in128 z.
Proof. unfold in128. cbn. lia. Qed.
Lemma lit_nt z : ty_min I32 <= z <= ty_max I32 -> lit z = nt z.
Proof.
  intros H. unfold nt, norm_ty. destruct (in_ty I32 z) eqn:E; [reflexivity|].
  pose proof (in_ty_spec I32 z). rewrite E in H0. assert (false = true) by tauto. discriminate.
Qed.

Lemma constant_t_spec v : wf_tv v -> constant_t v = Some (cst (vl v)).
Proof.
  intros H. unfold constant_t. rewrite mk_integer_norm by auto.
  rewrite in128_reprb by now apply wf_in128. reflexivity.
Qed.
Lemma constant_t_nt z : in128 z -> constant_t (nt z) = Some (cst z).
Proof. intros. rewrite constant_t_spec by now apply nt_wf. reflexivity. Qed.
Lemma constant_t_lit z : ty_min I32 <= z <= ty_max I32 -> constant_t (lit z) = Some (cst z).
Proof. intros. rewrite constant_t_spec; auto. Qed.

Lemma hv_range B x : valid B -> holds_value B x -> iholds (Bounded B) x.
Proof. auto. Qed.

Lemma is_constant_valid B : valid B -> is_constant B = (lo B =? hi B).
Proof. intros H. destruct (valid_inv _ H) as [_ E]. rewrite E at 1. apply is_constant_bt. Qed.

Lemma same_bounded_valid A B : valid A -> valid B ->
  same_bounded (Bounded A) (Bounded B) = (lo A =? lo B) && (hi A =? hi B).
Proof.
  intros HA HB. destruct (valid_bounds _ HA) as (_ & _ & _ & E1 & E2).
  destruct (valid_bounds _ HB) as (_ & _ & _ & E3 & E4).
  unfold same_bounded. rewrite E1, E2, E3, E4. unfold tval_eqb. cbn [ty vl nt].
  destruct (Z.eqb_spec (lo A) (lo B)) as [->|N1]; cbn [andb].
  - destruct (cty_eqb_reflect (norm_ty (lo B)) (norm_ty (lo B))); [|congruence]. cbn [andb].
    destruct (Z.eqb_spec (hi A) (hi B)) as [->|N2]; cbn [andb]; [|apply andb_false_r].
    destruct (cty_eqb_reflect (norm_ty (hi B)) (norm_ty (hi B))); [reflexivity|congruence].
  - now rewrite andb_false_r.
Qed.

Lemma bt_ext A B : valid A -> valid B -> lo A = lo B -> hi A = hi B -> A = B.
Proof.
  intros HA HB E1 E2. destruct (valid_inv _ HA) as [_ ->]. destruct (valid_inv _ HB) as [_ ->]. congruence.
Qed.

Lemma store_valid B T x : valid B -> ivalid T -> iholds T x -> holds_value B x ->
  store B T x = Ok x.
Proof.
  intros HB HT Hx Hb. destruct (valid_inv _ HB) as [R E]. rewrite E. apply store_spec; auto.
Qed.

Lemma overlap_valid B T : valid B -> ivalid T ->
  overlapping_integer T (bmin B) (bmax B) = (ilo T <=? hi B) && (lo B <=? ihi T).
Proof. intros (W1 & W2 & _) HT. now apply overlapping_spec. Qed.
Lemma bounded_by_valid B T : valid B -> ivalid T ->
  bounded_by_range T (bmin B) (bmax B) = (lo B <=? ilo T) && (ihi T <=? hi B).
Proof. intros (W1 & W2 & _) HT. now apply bounded_by_spec. Qed.

Lemma ivalid_le T : ivalid T -> ilo T <= ihi T.
Proof. intros H. apply (irepresentable T H). Qed.

Lemma convert_spec B T x : valid B -> ivalid T -> iholds T x ->
  convert B T x = if (lo B <=? ilo T) && (ihi T <=? hi B) then Some (Ok x) else None.
Proof.
  intros HB HT Hx. unfold convert. rewrite bounded_by_valid by auto.
  destruct (Z.leb_spec (lo B) (ilo T)), (Z.leb_spec (ihi T) (hi B)); cbn [andb guard obind]; auto.
  f_equal. apply store_valid; auto. unfold iholds, holds_value in *. lia.
Qed.
Lemma convert_some B T x y : valid B -> ivalid T ->
  is_some (convert B T x) = is_some (convert B T y).
Proof. intros. unfold convert. destruct (bounded_by_range _ _ _); reflexivity. Qed.

Lemma unchecked_spec B T x : valid B -> ivalid T -> iholds T x ->
  unchecked B T x =
  if (ilo T <=? hi B) && (lo B <=? ihi T) then Some (store B T x) else None.
Proof.
  intros HB HT Hx. unfold unchecked. rewrite overlap_valid by auto.
  destruct ((ilo T <=? hi B) && (lo B <=? ihi T)); reflexivity.
Qed.

Definition isect_lo (T Tmin : ity) : Z := Z.max (ilo Tmin) (ilo T).
Definition isect_hi (T Tmax : ity) : Z := Z.min (ihi Tmax) (ihi T).

Lemma assume_impl_spec T Tmin Tmax x : ivalid T -> ivalid Tmin -> ivalid Tmax -> iholds T x ->
  assume_in_range_impl T Tmin Tmax x =
  if isect_lo T Tmin <=? isect_hi T Tmax
  then Some (bt (isect_lo T Tmin) (isect_hi T Tmax), store (bt (isect_lo T Tmin) (isect_hi T Tmax)) T x)
  else None.
Proof.
  intros HT H1 H2 Hx. unfold assume_in_range_impl. rewrite assume_type_spec by auto.
  fold (isect_lo T Tmin). fold (isect_hi T Tmax).
  pose proof (irepresentable _ HT) as RT.
  destruct (Z.leb_spec (isect_lo T Tmin) (isect_hi T Tmax)) as [L|L].
  - assert (reprb (isect_lo T Tmin) (isect_hi T Tmax) = true) as R.
    { eapply reprb_mono; [apply reprb_spec; exact RT | unfold isect_lo; lia | unfold isect_hi; lia | lia]. }
    rewrite R. cbn [obind]. apply reprb_spec in R. rewrite unchecked_spec; auto using valid_bt.
    rewrite lo_bt, hi_bt.
    assert ((ilo T <=? isect_hi T Tmax) && (isect_lo T Tmin <=? ihi T) = true) as ->.
    { unfold isect_lo, isect_hi in *. lia. }
    reflexivity.
  - assert (reprb (isect_lo T Tmin) (isect_hi T Tmax) = false) as ->; [|reflexivity].
    unfold reprb. lia.
Qed.

Lemma isect_repr T Tmin Tmax : ivalid T -> isect_lo T Tmin <= isect_hi T Tmax ->
  representable (isect_lo T Tmin) (isect_hi T Tmax).
Proof.
  intros HT L. apply reprb_spec.
  eapply reprb_mono; [apply reprb_spec; apply (irepresentable _ HT) | unfold isect_lo; lia | unfold isect_hi; lia | lia].
Qed.

Lemma isect_store T Tmin Tmax x : ivalid T -> iholds T x -> ilo Tmin <= x <= ihi Tmax ->
  store (bt (isect_lo T Tmin) (isect_hi T Tmax)) T x = Ok x.
Proof.
  intros HT Hx H. assert (isect_lo T Tmin <= x <= isect_hi T Tmax) as Hi
    by (unfold isect_lo, isect_hi, iholds in *; lia).
  apply store_spec; auto. apply isect_repr; auto. lia.
Qed.

(** assume_in_range, for comparable arguments. *)
Lemma assume_spec T Tmin Tmax x mn mx : ivalid T -> ivalid Tmin -> ivalid Tmax ->
  iholds T x -> iholds Tmin mn -> iholds Tmax mx -> comparable T Tmin -> comparable Tmax T ->
  assume_in_range T Tmin Tmax x mn mx =
  if isect_lo T Tmin <=? isect_hi T Tmax
  then Some (bt (isect_lo T Tmin) (isect_hi T Tmax),
             if (mn <=? x) && (x <=? mx) then Ok x else UB)
  else None.
Proof.
  intros HT H1 H2 Hx Hn Hm C1 C2. unfold assume_in_range. rewrite assume_impl_spec by auto.
  destruct (isect_lo T Tmin <=? isect_hi T Tmax); cbn [obind]; [|reflexivity].
  f_equal. f_equal. rewrite !less_spec by auto. cbn [bind].
  destruct (Z.ltb_spec x mn), (Z.ltb_spec mx x), (Z.leb_spec mn x), (Z.leb_spec x mx);
    cbn [orb andb]; try lia; auto.
  apply isect_store; auto. unfold iholds in *. lia.
Qed.

Lemma assign_spec B T x : valid B -> ivalid T -> iholds T x ->
  assign B T x =
  if (ilo T <=? hi B) && (lo B <=? ihi T)
  then Some (if (lo B <=? x) && (x <=? hi B) then Ok x else UB)
  else None.
Proof.
  intros HB HT Hx. unfold assign. pose proof (valid_bounds _ HB) as (I1 & I2 & L & E1 & E2).
  rewrite is_constant_valid by auto.
  destruct (same_bounded T (Bounded B)) eqn:Es.
  { destruct (same_bounded_spec _ _ Es) as (C & -> & EC). injection EC as <-.
    unfold iholds, ilo, ihi in *.
    destruct (Z.leb_spec (lo B) (hi B)); [|lia]. cbn [andb].
    assert ((lo B <=? x) && (x <=? hi B) = true) as -> by lia.
    destruct (Z.eqb_spec (lo B) (hi B)); [|reflexivity]. f_equal. f_equal. lia. }
  clear Es. rewrite overlap_valid by auto.
  destruct ((ilo T <=? hi B) && (lo B <=? ihi T)) eqn:O; cbn [guard obind]; [|reflexivity].
  destruct (Z.eqb_spec (lo B) (hi B)) as [E|N].
  - rewrite equal_spec; auto.
    2:{ unfold iholds, ilo, ihi. lia. }
    cbn [bind]. destruct (Z.eqb_spec x (lo B)).
    + assert ((lo B <=? x) && (x <=? hi B) = true) as -> by lia. congruence.
    + assert ((lo B <=? x) && (x <=? hi B) = false) as -> by lia. reflexivity.
  - rewrite E1, E2. change (Bounded (Bty (nt (lo B)) (nt (lo B)))) with (Bounded (cst (lo B))).
    change (Bounded (Bty (nt (hi B)) (nt (hi B)))) with (Bounded (cst (hi B))).
    rewrite assume_spec; auto using (valid_cst : forall z, in128 z -> ivalid (Bounded (cst z))).
    2,3: apply holds_cst.
    assert (isect_lo T (Bounded (cst (lo B))) <=? isect_hi T (Bounded (cst (hi B))) = true) as Hi.
    { unfold isect_lo, isect_hi, ilo at 1, ihi at 1, cst. rewrite lo_bt, hi_bt.
      pose proof (ivalid_le T HT). lia. }
    rewrite Hi. cbn [obind].
    assert (valid (bt (isect_lo T (Bounded (cst (lo B)))) (isect_hi T (Bounded (cst (hi B)))))) as V.
    { apply valid_bt. apply isect_repr; auto. lia. }
    rewrite <- E1, <- E2.
    rewrite bounded_by_valid; auto.
    cbn [ilo ihi]. rewrite lo_bt, hi_bt.
    assert ((lo B <=? isect_lo T (Bounded (cst (lo B)))) && (isect_hi T (Bounded (cst (hi B))) <=? hi B) = true) as ->.
    { unfold isect_lo, isect_hi. cbn [ilo ihi]. unfold cst. rewrite lo_bt, hi_bt. lia. }
    cbn [guard obind]. f_equal.
    destruct ((lo B <=? x) && (x <=? hi B)) eqn:In; cbn [bind]; [|reflexivity].
    apply store_valid; auto; unfold holds_value; [|lia].
    unfold iholds in *. cbn [ilo ihi]. rewrite lo_bt, hi_bt.
    unfold isect_lo, isect_hi. cbn [ilo ihi]. unfold cst. rewrite lo_bt, hi_bt. lia.
Qed.

Lemma deduced_spec T : ivalid T -> deduced T = Some (bt (ilo T) (ihi T)).
Proof.
  intros H. unfold deduced. rewrite imin_spec, imax_spec by auto.
  rewrite mk_integer_nt by auto using ilo_in128, ihi_in128.
  now rewrite (proj2 (reprb_spec _ _) (irepresentable T H)).
Qed.

Lemma check_spec T Tmin Tmax x mn mx : ivalid T -> ivalid Tmin -> ivalid Tmax ->
  iholds T x -> iholds Tmin mn -> iholds Tmax mx -> comparable Tmin T -> comparable T Tmax ->
  check_in_range T Tmin Tmax x mn mx =
  if isect_lo T Tmin <=? isect_hi T Tmax
  then Some (bt (isect_lo T Tmin) (isect_hi T Tmax),
             if (mn <=? x) && (x <=? mx) then Ok x else Throw)
  else None.
Proof.
  intros HT H1 H2 Hx Hn Hm C1 C2. unfold check_in_range. rewrite assume_impl_spec by auto.
  destruct (isect_lo T Tmin <=? isect_hi T Tmax); cbn [obind]; [|reflexivity].
  f_equal. f_equal. rewrite !less_equal_spec by auto. cbn [bind].
  destruct (Z.leb_spec mn x); cbn [andb]; [|reflexivity].
  destruct (Z.leb_spec x mx); auto.
  apply isect_store; auto. unfold iholds in *. lia.
Qed.

(** ** Casts *)
Ltac isimp := unfold isect_lo, isect_hi, iholds, holds_value in *; cbn [ilo ihi] in *;
  unfold cst in *; rewrite ?lo_bt, ?hi_bt in *.

Lemma increase_min_spec n A x : wf_tv n -> valid A -> holds_value A x ->
  increase_min n A x =
  if vl n <=? hi A
  then Some (bt (Z.max (vl n) (lo A)) (hi A), if vl n <=? x then Ok x else UB) else None.
Proof.
  intros Hn HA Hx. unfold increase_min.
  destruct (valid_bounds _ HA) as (I1 & I2 & L & E1 & E2). pose proof HA as (W1 & W2 & _).
  destruct (safe_max_spec _ _ Hn W1) as (S1 & S2 & _). fold (lo A) in S1.
  rewrite constant_t_spec by auto. rewrite constant_t_spec by auto. cbn [obind].
  fold (hi A). rewrite S1. unfold cst. rewrite !lo_bt.
  assert (in128 (Z.max (vl n) (lo A))) as I3 by (rewrite <- S1; now apply wf_in128).
  rewrite assume_spec; auto; try apply holds_cst; try (now apply (valid_cst (Z.max (vl n) (lo A))));
    try (now apply (valid_cst (hi A))).
  unfold isect_lo, isect_hi. cbn [ilo ihi]. rewrite !lo_bt, !hi_bt. unfold holds_value in Hx.
  replace (Z.max (Z.max (vl n) (lo A)) (lo A)) with (Z.max (vl n) (lo A)) by lia.
  rewrite Z.min_id.
  destruct (Z.leb_spec (vl n) (hi A)).
  - destruct (Z.leb_spec (Z.max (vl n) (lo A)) (hi A)); [|lia].
    destruct (Z.leb_spec (Z.max (vl n) (lo A)) x), (Z.leb_spec x (hi A)), (Z.leb_spec (vl n) x); try lia; reflexivity.
  - destruct (Z.leb_spec (Z.max (vl n) (lo A)) (hi A)); [lia|reflexivity].
Qed.

Lemma decrease_max_spec n A x : wf_tv n -> valid A -> holds_value A x ->
  decrease_max n A x =
  if lo A <=? vl n
  then Some (bt (lo A) (Z.min (vl n) (hi A)), if x <=? vl n then Ok x else UB) else None.
Proof.
  intros Hn HA Hx. unfold decrease_max.
  destruct (valid_bounds _ HA) as (I1 & I2 & L & E1 & E2). pose proof HA as (W1 & W2 & _).
  destruct (safe_min_spec _ _ Hn W2) as (S1 & S2 & _). fold (hi A) in S1.
  rewrite constant_t_spec by auto. rewrite constant_t_spec by auto. cbn [obind].
  fold (lo A). rewrite S1. unfold cst. rewrite !lo_bt.
  assert (in128 (Z.min (vl n) (hi A))) as I3 by (rewrite <- S1; now apply wf_in128).
  rewrite assume_spec; auto; try apply holds_cst; try (now apply (valid_cst (Z.min (vl n) (hi A))));
    try (now apply (valid_cst (lo A))).
  unfold isect_lo, isect_hi. cbn [ilo ihi]. rewrite !lo_bt, !hi_bt. unfold holds_value in Hx.
  replace (Z.min (Z.min (vl n) (hi A)) (hi A)) with (Z.min (vl n) (hi A)) by lia.
  rewrite Z.max_id.
  destruct (Z.leb_spec (lo A) (vl n)).
  - destruct (Z.leb_spec (lo A) (Z.min (vl n) (hi A))); [|lia].
    destruct (Z.leb_spec (lo A) x), (Z.leb_spec x (Z.min (vl n) (hi A))), (Z.leb_spec x (vl n)); try lia; reflexivity.
  - destruct (Z.leb_spec (lo A) (Z.min (vl n) (hi A))); [lia|reflexivity].
Qed.

Lemma increase_min_unchecked_spec n A x : wf_tv n -> valid A -> holds_value A x ->
  increase_min_unchecked n A x =
  if vl n <=? hi A
  then Some (bt (Z.max (vl n) (lo A)) (hi A), store (bt (Z.max (vl n) (lo A)) (hi A)) (Bounded A) x)
  else None.
Proof.
  intros Hn HA Hx. unfold increase_min_unchecked.
  destruct (valid_bounds _ HA) as (I1 & I2 & L & E1 & E2). pose proof HA as (W1 & W2 & _).
  destruct (safe_max_spec _ _ Hn W1) as (S1 & S2 & _). fold (lo A) in S1.
  rewrite normalize_spec by auto. rewrite E2, S1.
  assert (in128 (Z.max (vl n) (lo A))) as I3 by (rewrite <- S1; now apply wf_in128).
  rewrite mk_integer_nt by auto.
  pose proof (valid_repr _ HA) as RA. apply reprb_spec in RA.
  destruct (Z.leb_spec (vl n) (hi A)) as [Le|Gt].
  - assert (reprb (Z.max (vl n) (lo A)) (hi A) = true) as R by (eapply reprb_mono; [exact RA | lia ..]).
    rewrite R. cbn [obind]. apply reprb_spec in R. rewrite unchecked_spec; auto using valid_bt.
    cbn [ilo ihi]. rewrite lo_bt, hi_bt.
    assert ((lo A <=? hi A) && (Z.max (vl n) (lo A) <=? hi A) = true) as -> by lia. reflexivity.
  - assert (reprb (Z.max (vl n) (lo A)) (hi A) = false) as -> by (unfold reprb; lia). reflexivity.
Qed.

Lemma decrease_max_unchecked_spec n A x : wf_tv n -> valid A -> holds_value A x ->
  decrease_max_unchecked n A x =
  if lo A <=? vl n
  then Some (bt (lo A) (Z.min (vl n) (hi A)), store (bt (lo A) (Z.min (vl n) (hi A))) (Bounded A) x)
  else None.
Proof.
  intros Hn HA Hx. unfold decrease_max_unchecked.
  destruct (valid_bounds _ HA) as (I1 & I2 & L & E1 & E2). pose proof HA as (W1 & W2 & _).
  destruct (safe_min_spec _ _ Hn W2) as (S1 & S2 & _). fold (hi A) in S1.
  rewrite normalize_spec by auto. rewrite E1, S1.
  assert (in128 (Z.min (vl n) (hi A))) as I3 by (rewrite <- S1; now apply wf_in128).
  rewrite mk_integer_nt by auto.
  pose proof (valid_repr _ HA) as RA. apply reprb_spec in RA.
  destruct (Z.leb_spec (lo A) (vl n)) as [Le|Gt].
  - assert (reprb (lo A) (Z.min (vl n) (hi A)) = true) as R by (eapply reprb_mono; [exact RA | lia ..]).
    rewrite R. cbn [obind]. apply reprb_spec in R. rewrite unchecked_spec; auto using valid_bt.
    cbn [ilo ihi]. rewrite lo_bt, hi_bt.
    assert ((lo A <=? Z.min (vl n) (hi A)) && (lo A <=? hi A) = true) as -> by lia. reflexivity.
  - assert (reprb (lo A) (Z.min (vl n) (hi A)) = false) as -> by (unfold reprb; lia). reflexivity.
Qed.

Lemma iholds_deduced T x : iholds T x -> iholds (Bounded (bt (ilo T) (ihi T))) x.
Proof. unfold iholds. cbn [ilo ihi]. rewrite lo_bt, hi_bt. auto. Qed.

Lemma const_min B : valid B -> const_of (bmin B) = Bounded (cst (lo B)) /\ valid (cst (lo B)).
Proof. intros H. destruct (valid_bounds _ H) as (I1 & I2 & L & -> & E2). split; [reflexivity|now apply valid_cst]. Qed.
Lemma const_max B : valid B -> const_of (bmax B) = Bounded (cst (hi B)) /\ valid (cst (hi B)).
Proof. intros H. destruct (valid_bounds _ H) as (I1 & I2 & L & E1 & ->). split; [reflexivity|now apply valid_cst]. Qed.
Lemma bmin_cst B : valid B -> Bty (bmin B) (bmin B) = cst (lo B).
Proof. intros H. destruct (valid_bounds _ H) as (I1 & I2 & L & -> & E2). reflexivity. Qed.
Lemma bmax_cst B : valid B -> Bty (bmax B) (bmax B) = cst (hi B).
Proof. intros H. destruct (valid_bounds _ H) as (I1 & I2 & L & E1 & ->). reflexivity. Qed.

Lemma valid_deduced T : ivalid T -> valid (bt (ilo T) (ihi T)).
Proof. intros H. apply valid_bt. now apply irepresentable. Qed.

Lemma assume_to_spec B T x : valid B -> ivalid T -> iholds T x ->
  assume_in_range_to B T x =
  if (ilo T <=? hi B) && (lo B <=? ihi T)
  then Some (bt (Z.max (lo B) (ilo T)) (Z.min (hi B) (ihi T)),
             if (lo B <=? x) && (x <=? hi B) then Ok x else UB)
  else None.
Proof.
  intros HB HT Hx. unfold assume_in_range_to. rewrite deduced_spec by auto. cbn [obind].
  destruct (const_min B HB) as [-> V1]. destruct (const_max B HB) as [-> V2].
  rewrite assume_impl_spec by auto.
  pose proof (ivalid_le _ HT). pose proof (valid_le _ HB).
  replace (isect_lo T (Bounded (cst (lo B)))) with (Z.max (lo B) (ilo T)) by reflexivity.
  replace (isect_hi T (Bounded (cst (hi B)))) with (Z.min (hi B) (ihi T)) by reflexivity.
  assert ((Z.max (lo B) (ilo T) <=? Z.min (hi B) (ihi T)) = (ilo T <=? hi B) && (lo B <=? ihi T)) as -> by lia.
  destruct ((ilo T <=? hi B) && (lo B <=? ihi T)) eqn:O; cbn [obind]; [|reflexivity].
  f_equal. f_equal.
  rewrite !less_spec; auto using iholds_deduced, holds_cst; try apply valid_deduced; auto; try apply holds_cst.
  cbn [bind].
  destruct (Z.ltb_spec x (lo B)), (Z.ltb_spec (hi B) x), (Z.leb_spec (lo B) x), (Z.leb_spec x (hi B));
    cbn [orb andb]; try lia; auto.
  apply store_spec; auto; unfold iholds in *; [|lia].
  apply reprb_spec. pose proof (irepresentable _ HT) as RT. apply reprb_spec in RT.
  eapply reprb_mono; [exact RT | lia ..].
Qed.

Lemma check_to_spec B T x : valid B -> ivalid T -> iholds T x ->
  check_in_range_to B T x =
  if (ilo T <=? hi B) && (lo B <=? ihi T)
  then Some (B, if (lo B <=? x) && (x <=? hi B) then Ok x else Throw)
  else None.
Proof.
  intros HB HT Hx. unfold check_in_range_to.
  destruct (const_min B HB) as [-> V1]. destruct (const_max B HB) as [-> V2].
  rewrite check_spec; auto; try apply holds_cst.
  pose proof (ivalid_le _ HT). pose proof (valid_le _ HB).
  replace (isect_lo T (Bounded (cst (lo B)))) with (Z.max (lo B) (ilo T)) by reflexivity.
  replace (isect_hi T (Bounded (cst (hi B)))) with (Z.min (hi B) (ihi T)) by reflexivity.
  assert ((Z.max (lo B) (ilo T) <=? Z.min (hi B) (ihi T)) = (ilo T <=? hi B) && (lo B <=? ihi T)) as -> by lia.
  destruct ((ilo T <=? hi B) && (lo B <=? ihi T)) eqn:O; cbn [then_ obind]; [|reflexivity].
  assert (representable (Z.max (lo B) (ilo T)) (Z.min (hi B) (ihi T))) as R.
  { apply reprb_spec. pose proof (irepresentable _ HT) as RT. apply reprb_spec in RT.
    eapply reprb_mono; [exact RT | lia ..]. }
  assert (forall z, Z.max (lo B) (ilo T) <= z <= Z.min (hi B) (ihi T) ->
    convert B (Bounded (bt (Z.max (lo B) (ilo T)) (Z.min (hi B) (ihi T)))) z = Some (Ok z)) as CV.
  { intros z Hz. rewrite convert_spec; auto; [|exact (valid_bt _ _ R)].
    cbn [ilo ihi]. rewrite lo_bt, hi_bt.
    assert ((lo B <=? Z.max (lo B) (ilo T)) && (Z.min (hi B) (ihi T) <=? hi B) = true) as -> by lia. reflexivity. }
  destruct ((lo B <=? x) && (x <=? hi B)) eqn:In.
  - rewrite CV; [reflexivity|]. unfold iholds in Hx. lia.
  - rewrite CV; [reflexivity|]. rewrite lo_bt. destruct R. lia.
Qed.

Lemma assume_to_builtin_spec t T x : ivalid T -> iholds T x ->
  assume_in_range_to_builtin t T x =
  Some (if (ty_min t <=? x) && (x <=? ty_max t) then Ok (TV t x) else UB).
Proof.
  intros HT Hx. unfold assume_in_range_to_builtin. rewrite (deduced_spec T) by auto.
  rewrite (deduced_spec (Builtin t)) by exact I. cbn [obind ilo ihi]. f_equal.
  assert (ty_min t <= ty_max t) by (destruct t; cbn; lia).
  assert (valid (bt (ty_min t) (ty_max t))) as Vt by apply (valid_deduced (Builtin t) I).
  pose proof (valid_deduced T HT) as VT.
  rewrite !less_spec; auto using iholds_deduced;
    try (unfold iholds; cbn [ilo ihi]; rewrite lo_bt, hi_bt; lia).
  cbn [bind]. rewrite to_builtin_spec by auto.
  destruct (Z.ltb_spec x (ty_min t)), (Z.ltb_spec (ty_max t) x), (Z.leb_spec (ty_min t) x), (Z.leb_spec x (ty_max t));
    cbn [orb andb]; try lia; auto. now rewrite wrap_id by lia.
Qed.

Lemma check_to_builtin_spec t T x : ivalid T -> iholds T x -> comparable T (Builtin t) ->
  check_in_range_to_builtin t T x =
  if (ilo T <=? ty_max t) && (ty_min t <=? ihi T)
  then Some (if (ty_min t <=? x) && (x <=? ty_max t) then Ok (TV t x) else Throw) else None.
Proof.
  intros HT Hx C. unfold check_in_range_to_builtin.
  assert (ty_min t <= ty_max t) by (destruct t; cbn; lia).
  assert (comparable (Builtin t) T) as C'.
  { destruct T; [|exact I]. destruct C as [C|C]; [now left|right].
    rewrite <- C. f_equal. apply (usual_sym (TV t 0) (TV t0 0)). }
  rewrite check_spec; auto; try exact I; try (unfold iholds; cbn [ilo ihi]; lia).
  pose proof (ivalid_le _ HT).
  unfold isect_lo, isect_hi. cbn [ilo ihi].
  assert ((Z.max (ty_min t) (ilo T) <=? Z.min (ty_max t) (ihi T)) = (ilo T <=? ty_max t) && (ty_min t <=? ihi T)) as -> by lia.
  destruct ((ilo T <=? ty_max t) && (ty_min t <=? ihi T)) eqn:O; cbn [obind]; [|reflexivity].
  f_equal.
  destruct ((ty_min t <=? x) && (x <=? ty_max t)) eqn:In; cbn [bind]; [|reflexivity].
  rewrite to_builtin_spec.
  - now rewrite wrap_id by lia.
  - cbn [ivalid]. apply valid_bt. apply reprb_spec. pose proof (irepresentable _ HT) as RT. apply reprb_spec in RT.
    eapply reprb_mono; [exact RT | lia ..].
  - unfold iholds in *. cbn [ilo ihi]. rewrite lo_bt, hi_bt. lia.
Qed.
