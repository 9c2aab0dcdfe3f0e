(** * Reductions: compound assignment, min/max, clamp, abs, expressions *)

From Coq Require Import ZArith Lia Bool List Permutation.
From Verif Require Import Cxx CxxLemmas Core Spec CoreLemmas Arith ArithLemmas ArithProofs Funcs FuncLemmas.
Import ListNotations.
Open Scope Z_scope.

Ltac Zify.zify_post_hook ::= idtac.

(** ** then_ *)
Lemma then_ok R z f : then_ (Some (R, Ok z)) f = f R z. Proof. reflexivity. Qed.

(** ** min and max *)
Lemma iholds_cst z : iholds (Bounded (cst z)) z.
Proof. apply holds_cst. Qed.

Lemma before_spec c A B x y : valid A -> valid B -> holds_value A x -> holds_value B y ->
  before c (Bounded A) (Bounded B) x y =
  Ok (match c with ByLess => x <? y | ByGreater => y <? x end).
Proof.
  intros. destruct c; cbn [before]; [apply less_spec | apply greater_spec]; auto.
Qed.

Definition pick (c : order) (a b : Z) : Z :=
  match c with ByLess => Z.min a b | ByGreater => Z.max a b end.

Lemma select_spec c a b : in128 a -> in128 b -> select c (nt a) (nt b) = Some (nt (pick c a b)).
Proof.
  intros Ha Hb. unfold select. rewrite !const_of_nt. cbn [vl nt].
  rewrite before_spec by (auto using valid_cst, holds_cst).
  cbn [ct obind]. rewrite !normalize_nt by auto. f_equal. destruct c; cbn [pick].
  - destruct (Z.ltb_spec b a); f_equal; lia.
  - destruct (Z.ltb_spec a b); f_equal; lia.
Qed.

Lemma pick_repr c A B : valid A -> valid B ->
  reprb (pick c (lo A) (lo B)) (pick c (hi A) (hi B)) = true.
Proof.
  intros HA HB. pose proof (valid_repr _ HA) as RA. pose proof (valid_repr _ HB) as RB.
  apply reprb_spec in RA, RB. unfold reprb in *. destruct c; cbn [pick]; lia.
Qed.

Lemma extreme2_spec c A B x y : valid A -> valid B -> holds_value A x -> holds_value B y ->
  extreme2 c A B x y =
  Some (bt (pick c (lo A) (lo B)) (pick c (hi A) (hi B)), Ok (pick c x y)).
Proof.
  intros HA HB Hx Hy. unfold extreme2.
  destruct (valid_bounds _ HA) as (I1 & I2 & L & -> & ->).
  destruct (valid_bounds _ HB) as (I3 & I4 & L' & -> & ->).
  rewrite !select_spec by auto. cbn [obind].
  assert (in128 (pick c (lo A) (lo B))) as J1 by (unfold in128 in *; destruct c; cbn [pick]; lia).
  assert (in128 (pick c (hi A) (hi B))) as J2 by (unfold in128 in *; destruct c; cbn [pick]; lia).
  rewrite mk_integer_nt by auto. pose proof (pick_repr c A B HA HB) as R. rewrite R. cbn [obind].
  apply reprb_spec in R. pose proof (valid_bt _ _ R) as V.
  unfold bty_eqb. rewrite !same_bounded_valid by auto.
  rewrite !overlap_valid by auto. cbn [ilo ihi]. rewrite !lo_bt, !hi_bt.
  rewrite before_spec by auto. cbn [bind].
  unfold holds_value in *.
  match goal with |- (if ?b then _ else _) = _ => destruct b eqn:S end.
  { assert (lo A = lo B /\ hi A = hi B) as [EL EH] by lia.
    assert (A = bt (pick c (lo A) (lo B)) (pick c (hi A) (hi B))) as EA.
    { apply bt_ext; auto; rewrite ?lo_bt, ?hi_bt; destruct c; cbn [pick]; lia. }
    rewrite <- EA. f_equal. f_equal. f_equal.
    destruct c; cbn [pick]; [destruct (Z.ltb_spec y x) | destruct (Z.ltb_spec x y)]; lia. }
  match goal with |- context [negb (?b)] => destruct b eqn:O1 end; cbn [negb].
  2:{ assert (A = bt (pick c (lo A) (lo B)) (pick c (hi A) (hi B))) as EA.
      { apply bt_ext; auto; rewrite ?lo_bt, ?hi_bt; destruct c; cbn [pick] in *; lia. }
      rewrite <- EA. f_equal. f_equal. f_equal. destruct c; cbn [pick] in *; lia. }
  match goal with |- context [negb (?b)] => destruct b eqn:O2 end; cbn [negb].
  2:{ assert (B = bt (pick c (lo A) (lo B)) (pick c (hi A) (hi B))) as EB.
      { apply bt_ext; auto; rewrite ?lo_bt, ?hi_bt; destruct c; cbn [pick] in *; lia. }
      rewrite <- EB. f_equal. f_equal. f_equal. destruct c; cbn [pick] in *; lia. }
  rewrite !unchecked_spec by auto. cbn [ilo ihi]. rewrite !lo_bt, !hi_bt.
  rewrite O1, O2. cbn [obind]. f_equal. f_equal.
  destruct c; cbn [pick] in *.
  - destruct (Z.ltb_spec y x).
    + rewrite store_valid; auto; [f_equal; lia|]. unfold holds_value. rewrite lo_bt, hi_bt. lia.
    + rewrite store_valid; auto; [f_equal; lia|]. unfold holds_value. rewrite lo_bt, hi_bt. lia.
  - destruct (Z.ltb_spec x y).
    + rewrite store_valid; auto; [f_equal; lia|]. unfold holds_value. rewrite lo_bt, hi_bt. lia.
    + rewrite store_valid; auto; [f_equal; lia|]. unfold holds_value. rewrite lo_bt, hi_bt. lia.
Qed.

Definition arg_ok (a : bty * Z) : Prop := valid (fst a) /\ holds_value (fst a) (snd a).

Lemma pick_bt_valid c A B : valid A -> valid B ->
  valid (bt (pick c (lo A) (lo B)) (pick c (hi A) (hi B))).
Proof. intros. apply valid_bt, reprb_spec. now apply pick_repr. Qed.

Lemma pick_holds c A B x y : holds_value A x -> holds_value B y ->
  holds_value (bt (pick c (lo A) (lo B)) (pick c (hi A) (hi B))) (pick c x y).
Proof. unfold holds_value. rewrite lo_bt, hi_bt. destruct c; cbn [pick]; lia. Qed.

Lemma extreme_n_spec c rest : forall A x, valid A -> holds_value A x -> Forall arg_ok rest ->
  extreme_n c (Some (A, Ok x)) rest =
  Some (bt (fold_left (pick c) (map (fun a => lo (fst a)) rest) (lo A))
           (fold_left (pick c) (map (fun a => hi (fst a)) rest) (hi A)),
        Ok (fold_left (pick c) (map snd rest) x)).
Proof.
  induction rest as [|[B y] rest IH]; intros A x HA Hx F.
  - cbn. destruct (valid_inv _ HA) as [_ E]. now rewrite <- E.
  - inversion F as [|? ? [HB Hy] F']; subst. cbn [fst snd] in HB, Hy.
    cbn [extreme_n]. rewrite then_ok, extreme2_spec by auto.
    rewrite IH by (auto using pick_bt_valid, pick_holds).
    rewrite lo_bt, hi_bt. reflexivity.
Qed.

(** ** clamp *)
Lemma clamp_spec V MN MX v mn mx : valid V -> valid MN -> valid MX ->
  holds_value V v -> holds_value MN mn -> holds_value MX mx ->
  clamp V MN MX v mn mx =
  Some (bt (Z.min (Z.max (lo V) (lo MN)) (lo MX)) (Z.min (Z.max (hi V) (hi MN)) (hi MX)),
        Ok (Z.min (Z.max v mn) mx)).
Proof.
  intros. unfold clamp. rewrite extreme2_spec by auto. rewrite then_ok.
  rewrite extreme2_spec; auto using pick_bt_valid, pick_holds.
Qed.

Lemma clamp_to_spec B T x : valid B -> ivalid T -> iholds T x ->
  clamp_to B T x =
  Some (bt (Z.min (Z.max (ilo T) (lo B)) (hi B)) (Z.min (Z.max (ihi T) (lo B)) (hi B)),
        Ok (Z.min (Z.max x (lo B)) (hi B))).
Proof.
  intros HB HT Hx. unfold clamp_to. rewrite deduced_spec by auto. cbn [obind].
  pose proof (valid_deduced T HT) as V.
  rewrite convert_spec by auto. rewrite lo_bt, hi_bt, !Z.leb_refl. cbn [andb obind].
  rewrite then_ok. rewrite bmin_cst, bmax_cst by auto.
  destruct (valid_bounds _ HB) as (I1 & I2 & _).
  rewrite clamp_spec; auto using valid_cst, holds_cst.
Qed.

(** ** abs *)
Lemma abs_spec A x : valid A -> holds_value A x ->
  abs A x =
  if (0 <=? lo A) || reprb (- hi A) (- lo A)
  then Some (if 0 <=? lo A then bt (lo A) (hi A)
             else if hi A <=? 0 then bt (- hi A) (- lo A)
             else bt 0 (Z.max (hi A) (- lo A)), Ok (Z.abs x))
  else None.
Proof.
  intros HA Hx. unfold abs.
  destruct (const_min A HA) as [-> V1]. destruct (const_max A HA) as [-> V2].
  assert (in128 0) as I0 by (unfold in128; cbn; lia).
  rewrite (lit_nt 0) by (cbn; lia). rewrite const_of_nt.
  pose proof (valid_cst 0 I0) as V0.
  rewrite greater_equal_spec by (auto; try apply iholds_cst; try exact V0).
  rewrite less_equal_spec by (auto; try apply iholds_cst; try exact V0).
  cbn [ct obind]. unfold holds_value in Hx.
  destruct (Z.leb_spec 0 (lo A)); cbn [orb].
  - destruct (valid_inv _ HA) as [_ E]. rewrite <- E. f_equal. f_equal. f_equal. lia.
  - rewrite negate_spec by auto.
    destruct (Z.leb_spec (hi A) 0).
    { destruct (reprb (- hi A) (- lo A)); auto. f_equal. f_equal. f_equal. lia. }
    destruct (reprb (- hi A) (- lo A)) eqn:R; cbn [then_ obind]; [|reflexivity].
    apply reprb_spec in R. pose proof (valid_bt _ _ R) as VN.
    assert (holds_value (bt (- hi A) (- lo A)) (- x)) as HN
      by (unfold holds_value; rewrite lo_bt, hi_bt; lia).
    rewrite extreme2_spec by auto. cbn [then_ obind]. rewrite !lo_bt, !hi_bt. cbn [pick].
    pose proof (pick_bt_valid ByGreater A _ HA VN) as VM. rewrite lo_bt, hi_bt in VM. cbn [pick] in VM.
    assert (holds_value (bt (Z.max (lo A) (- hi A)) (Z.max (hi A) (- lo A))) (Z.max x (- x))) as HM
      by (unfold holds_value; rewrite lo_bt, hi_bt; lia).
    rewrite increase_min_unchecked_spec by (auto; apply (nt_wf 0 I0)).
    rewrite lo_bt, hi_bt. change (vl (nt 0)) with 0.
    destruct (Z.leb_spec 0 (Z.max (hi A) (- lo A))); [|lia].
    replace (Z.max 0 (Z.max (lo A) (- hi A))) with 0 by lia.
    f_equal. f_equal. rewrite store_valid; auto; [f_equal; lia| |].
    + apply valid_bt. apply reprb_spec. apply reprb_spec in R.
      pose proof (valid_repr _ HA) as RA. apply reprb_spec in RA.
      unfold reprb in *. cbn [ty_min ty_max] in *. lia.
    + unfold holds_value. rewrite lo_bt, hi_bt. lia.
Qed.

(** ** Compound assignment *)
Lemma assign_result_spec A R r : valid A -> valid R -> holds_value R r ->
  assign_result A R r =
  if (lo R <=? hi A) && (lo A <=? hi R)
  then Some (A, if (lo A <=? r) && (r <=? hi A) then Ok r else UB) else None.
Proof.
  intros HA HR Hr. unfold assign_result. rewrite assign_spec by auto. cbn [ilo ihi].
  destruct ((lo R <=? hi A) && (lo A <=? hi R)); reflexivity.
Qed.

Lemma then_inv r f T o : then_ r f = Some (T, o) ->
  exists R o', r = Some (R, o') /\
    match o' with Ok z => f R z = Some (T, o) | _ => o <> Ok 0 /\ (forall z, o <> Ok z) end.
Proof.
  unfold then_. destruct r as [[R o']|]; cbn [obind]; [|discriminate].
  intros H. exists R, o'. split; auto.
  destruct o'; auto; destruct (f R (lo R)) as [[T' ?]|]; cbn [obind] in H; try discriminate;
    injection H as <- <-; split; intros; congruence.
Qed.

Lemma then_type r f T o : then_ r f = Some (T, o) ->
  exists R z o', f R z = Some (T, o').
Proof.
  unfold then_. destruct r as [[R o']|]; cbn [obind]; [|discriminate].
  destruct o'; eauto; destruct (f R (lo R)) as [[T' ?]|] eqn:E; cbn [obind]; try discriminate;
    intros H; injection H as <- <-; eauto.
Qed.

(** If [op] gives the exact value [z] in its result type, the compound assignment
    stores [z] or is undefined. *)
Lemma compound_exact op A B x y z R o :
  valid A -> compound op A B x y = Some (R, o) ->
  (forall T o', op A B x y = Some (T, o') -> valid T /\ holds_value T z /\ o' = Ok z) ->
  R = A /\ o = if (lo A <=? z) && (z <=? hi A) then Ok z else UB.
Proof.
  intros HA H Hop. unfold compound in H. destruct (op A B x y) as [[T o']|] eqn:E.
  - destruct (Hop T o' eq_refl) as (V & Hz & ->). rewrite then_ok in H.
    rewrite assign_result_spec in H by auto.
    destruct ((lo T <=? hi A) && (lo A <=? hi T)); [|discriminate].
    apply (f_equal (fun o => match o with Some p => p | None => (A, UB) end)) in H.
    apply pair_equal_spec in H. destruct H as [<- <-]. auto.
  - discriminate.
Qed.

(** ** Division by a zero value *)
Lemma construct_inv R t o T r : construct_unchecked R t o = Some (T, r) ->
  T = R /\ r = (do w <- o; store R (Builtin t) (vl w)).
Proof.
  unfold construct_unchecked. destruct (guard _); cbn [obind]; [|discriminate].
  intros H. injection H as <- <-. auto.
Qed.

Lemma cdiv_zero t a : cdiv a (TV t 0) = UB.
Proof.
  unfold cdiv. cbn [vl]. assert (wrap (usual a (TV t 0)) 0 = 0) as ->; [|reflexivity].
  apply wrap_id. destruct (usual a (TV t 0)); cbn; lia.
Qed.
Lemma cmod_zero t a : cmod a (TV t 0) = UB.
Proof.
  unfold cmod. cbn [vl]. assert (wrap (usual a (TV t 0)) 0 = 0) as ->; [|reflexivity].
  apply wrap_id. destruct (usual a (TV t 0)); cbn; lia.
Qed.
Lemma wrap_zero t : wrap t 0 = 0.
Proof. apply wrap_id. destruct t; cbn; lia. Qed.

Lemma divide_by_zero A B x R o : valid A -> valid B -> holds_value A x -> holds_value B 0 ->
  divide A B x 0 = Some (R, o) -> o = UB.
Proof.
  intros HA HB Hx Hy. unfold divide.
  destruct (guard (negb (ceq (bmin B) (lit 0)))); cbn [obind]; [|discriminate].
  destruct (guard (negb (ceq (bmax B) (lit 0)))); cbn [obind]; [|discriminate].
  destruct (constant_value (bmin A)); cbn [obind]; [|discriminate].
  destruct (constant_value (bmax A)); cbn [obind]; [|discriminate].
  destruct (constant_value (bmin B)); cbn [obind]; [|discriminate].
  destruct (constant_value (bmax B)); cbn [obind]; [|discriminate].
  destruct (divides_operator_range _ _ _ _) as [[mn mx]|]; cbn [obind]; [|discriminate].
  destruct (mk_integer _ _) as [T|]; cbn [obind]; [|discriminate].
  destruct (determine_type _ _) as [ct|]; cbn [obind]; [|discriminate].
  intros H. apply construct_inv in H. destruct H as [_ ->].
  rewrite !to_builtin_spec by auto. cbn [bind]. rewrite wrap_zero, cdiv_zero. reflexivity.
Qed.

Lemma modulus_by_zero A B x R o : valid A -> valid B -> holds_value A x -> holds_value B 0 ->
  modulus A B x 0 = Some (R, o) -> o = UB.
Proof.
  intros HA HB Hx Hy. unfold modulus.
  destruct (modulus_operator_range _ _ _ _) as [[mn mx]|]; cbn [obind]; [|discriminate].
  destruct (mk_integer _ _) as [T|]; cbn [obind]; [|discriminate].
  destruct (common_type_n _ _) as [ct|]; cbn [obind]; [|discriminate].
  intros H. apply construct_inv in H. destruct H as [_ ->].
  rewrite !to_builtin_spec by auto. cbn [bind]. rewrite wrap_zero, cmod_zero. reflexivity.
Qed.

Lemma exact2_ok A B x y (d : Z -> Z -> Prop) f R o : holds_value A x -> holds_value B y -> d x y ->
  exact2 A B x y d f R o -> valid R /\ holds_value R (f x y) /\ o = Ok (f x y).
Proof.
  intros Hx Hy D (V & E & T1 & T2 & T3). split; [exact V|]. split; [|exact E].
  apply T3. unfold results. eauto 7.
Qed.

Lemma exact1_ok A x f R o : holds_value A x ->
  exact1 A x f R o -> valid R /\ holds_value R (f x) /\ o = Ok (f x).
Proof.
  intros Hx (V & E & T1 & T2 & T3). split; [exact V|]. split; [|exact E].
  apply T3. unfold results1. eauto 7.
Qed.

(** ** Common types of several types *)
Lemma common_type_n_spec rest : forall A, valid A -> Forall valid rest ->
  common_type_n A rest =
  if reprb (fold_left Z.min (map lo rest) (lo A)) (fold_left Z.max (map hi rest) (hi A))
  then Some (bt (fold_left Z.min (map lo rest) (lo A)) (fold_left Z.max (map hi rest) (hi A)))
  else None.
Proof.
  assert (forall l a, fold_left Z.min l a <= a) as Fmin.
  { induction l as [|b l IH]; intros a; cbn [fold_left]; [lia|]. specialize (IH (Z.min a b)). lia. }
  assert (forall l a, a <= fold_left Z.max l a) as Fmax.
  { induction l as [|b l IH]; intros a; cbn [fold_left]; [lia|]. specialize (IH (Z.max a b)). lia. }
  induction rest as [|B rest IH]; intros A HA F.
  - cbn. rewrite (proj2 (reprb_spec _ _) (valid_repr _ HA)).
    destruct (valid_inv _ HA) as [_ E]. now rewrite <- E.
  - inversion F as [|? ? HB F']; subst. cbn [common_type_n map fold_left].
    rewrite common_type_spec by auto.
    destruct (reprb (Z.min (lo A) (lo B)) (Z.max (hi A) (hi B))) eqn:R; cbn [obind].
    + apply reprb_spec in R. rewrite IH; auto using valid_bt.
    + destruct (reprb (fold_left Z.min _ _) _) eqn:R'; auto. exfalso.
      assert (reprb (Z.min (lo A) (lo B)) (Z.max (hi A) (hi B)) = true); [|congruence].
      pose proof (valid_le _ HA). pose proof (valid_le _ HB).
      eapply reprb_mono; [exact R' | apply Fmin | apply Fmax | lia].
Qed.
