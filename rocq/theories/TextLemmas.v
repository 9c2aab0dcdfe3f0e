(** * Parsing and printing of decimal numerals *)

From Coq Require Import ZArith Lia Bool List.
From Verif Require Import Cxx CxxLemmas Core Spec CoreLemmas Arith ArithLemmas ArithProofs
  Funcs SpecFuncs SpecText FuncLemmas FuncLemmas2 FuncLemmas3 CoreProofs.
Import ListNotations.
Open Scope Z_scope.

Ltac Zify.zify_post_hook ::= idtac.

(** ** One digit *)
Definition is_digit (c : Z) : bool := (48 <=? c) && (c <=? 57).

Lemma digit_t_bt : digit_t = bt 0 9. Proof. reflexivity. Qed.
Lemma repr_small l h : l <= h -> ty_min I32 <= l -> h <= ty_max I32 -> representable l h.
Proof. intros. split; auto. exists I32. split; auto. Qed.
Lemma valid_digit : valid (bt 0 9).
Proof. apply valid_bt, repr_small; cbn; lia. Qed.

Lemma as_digit_spec c : ty_min I8 <= c <= ty_max I8 ->
  as_digit c = Some (bt 0 9, if is_digit c then Ok (c - 48) else Throw).
Proof.
  intros Hc. unfold as_digit.
  assert (csub (TV I8 c) (TV I8 48) = Ok (TV I32 (c - 48))) as ->.
  { unfold csub, arith. change (usual (TV I8 c) (TV I8 48)) with I32. cbn [vl is_signed].
    cbn in Hc. rewrite !wrap_id by (cbn; lia).
    rewrite (proj2 (in_ty_spec I32 (c - 48))) by (cbn; lia). reflexivity. }
  cbn [vl]. rewrite !lit_nt by (cbn; lia). rewrite !const_of_nt.
  assert (valid (cst 0) /\ valid (cst 9)) as [V0 V9] by (split; apply valid_cst; unfold in128; cbn; lia).
  rewrite check_spec; auto; try exact I; try apply holds_cst; [|unfold iholds; cbn [ilo ihi]; cbn in Hc |- *; lia].
  unfold isect_lo, isect_hi. cbn [ilo ihi]. unfold cst. rewrite lo_bt, hi_bt.
  replace (Z.max 0 (ty_min I32)) with 0 by reflexivity. replace (Z.min 9 (ty_max I32)) with 9 by reflexivity.
  change (0 <=? 9) with true. cbn iota.
  rewrite digit_t_bt. unfold is_digit.
  assert ((0 <=? c - 48) && (c - 48 <=? 9) = (48 <=? c) && (c <=? 57)) as -> by lia.
  pose proof valid_digit as VD.
  assert (forall z, 0 <= z <= 9 -> convert (bt 0 9) (Bounded (bt 0 9)) z = Some (Ok z)) as CV.
  { intros z Hz. rewrite convert_spec; auto. }
  destruct ((48 <=? c) && (c <=? 57)) eqn:E; cbn [then_ obind].
  - rewrite CV by lia. reflexivity.
  - rewrite lo_bt, CV by lia. reflexivity.
Qed.

Lemma cst_bounds z : lo (cst z) = z /\ hi (cst z) = z.
Proof. split; reflexivity. Qed.

(** ** The loop body *)
Section Body.
Variable m : Z.
Hypothesis Hm : in128 m.
Hypothesis Pm : 0 <= m.

Lemma repr_0m : representable 0 m.
Proof. clear -Hm Pm. apply representable_spec. unfold in128 in Hm. cbn in Hm |- *. lia. Qed.
Lemma valid_P : valid (bt 0 m). Proof. apply valid_bt, repr_0m. Qed.

Lemma mul_ten : mul_lo (bt 0 m) (cst 10) = 0 /\ mul_hi (bt 0 m) (cst 10) = 10 * m.
Proof. clear Hm. unfold mul_lo, mul_hi, min4, max4, cst. rewrite !lo_bt, !hi_bt. lia. Qed.

Lemma reprb_0 h : 0 <= h -> reprb 0 h = (h <=? ty_max U128).
Proof. clear. intros. unfold reprb. change (ty_max I128) with (2 ^ 127 - 1). change (ty_max U128) with (2 ^ 128 - 1). change (ty_min I128) with (- 2 ^ 127). lia. Qed.

Lemma body_spec p c : 0 <= p <= m -> ty_min I8 <= c <= ty_max I8 ->
  to_integer_body (bt 0 m) (cst m) p c =
  if 10 * m + 9 <=? ty_max U128
  then Some (bt 0 m, if is_digit c && (10 * p + (c - 48) <=? m) then Ok (10 * p + (c - 48)) else Throw)
  else None.
Proof.
  intros Hp Hc. unfold to_integer_body. rewrite constant_t_lit by (cbn; lia). cbn [obind].
  assert (valid (cst 10)) as V10 by (apply valid_cst; unfold in128; cbn; lia).
  assert (holds_value (bt 0 m) p) as HP by (unfold holds_value; rewrite lo_bt, hi_bt; lia).
  destruct mul_ten as [ML MH].
  rewrite multiply_spec; auto using valid_P, holds_cst; [|rewrite ML; cbn; lia].
  rewrite ML, MH. rewrite reprb_0 by lia.
  destruct (Z.leb_spec (10 * m) (ty_max U128)) as [L1|L1].
  2:{ destruct (Z.leb_spec (10 * m + 9) (ty_max U128)); [lia|reflexivity]. }
  rewrite then_ok. rewrite as_digit_spec by auto.
  assert (valid (bt 0 (10 * m))) as VS by (apply valid_bt, reprb_spec; rewrite reprb_0 by lia; lia).
  assert (holds_value (bt 0 (10 * m)) (p * 10)) as HS by (unfold holds_value; rewrite lo_bt, hi_bt; lia).
  pose proof valid_digit as VD.
  (* the continuation for any digit *)
  assert (forall d, 0 <= d <= 9 ->
    then_ (plus (bt 0 (10 * m)) (bt 0 9) (p * 10) d) (fun Q q =>
      then_ (check_in_range (Bounded Q) (const_of (lit 0)) (Bounded (cst m)) q 0 (lo (cst m))) (fun R r =>
        assign_result (bt 0 m) R r)) =
    if 10 * m + 9 <=? ty_max U128
    then Some (bt 0 m, if 10 * p + d <=? m then Ok (10 * p + d) else Throw) else None) as K.
  { intros d Hd. rewrite plus_spec by auto.
    rewrite !lo_bt, !hi_bt. change (0 + 0) with 0. rewrite reprb_0 by lia.
    destruct (Z.leb_spec (10 * m + 9) (ty_max U128)) as [L2|L2]; [|reflexivity].
    rewrite then_ok. rewrite lit_nt by (cbn; lia). rewrite const_of_nt.
    assert (valid (bt 0 (10 * m + 9))) as VQ by (apply valid_bt, reprb_spec; rewrite reprb_0 by lia; lia).
    assert (valid (cst 0)) as V0 by (apply valid_cst; unfold in128; cbn; lia).
    assert (iholds (Bounded (bt 0 (10 * m + 9))) (p * 10 + d)) as HQ
      by (unfold iholds; cbn [ilo ihi]; rewrite lo_bt, hi_bt; lia).
    assert (iholds (Bounded (cst m)) m) as HM by apply holds_cst.
    rewrite (proj1 (cst_bounds m)). rewrite check_spec; auto; try apply holds_cst; try (now apply valid_cst).
    unfold isect_lo, isect_hi. cbn [ilo ihi]. unfold cst. rewrite !lo_bt, !hi_bt.
    change (Z.max 0 0) with 0. replace (Z.min m (10 * m + 9)) with m by lia.
    destruct (Z.leb_spec 0 m); [|lia].
    assert (forall r, 0 <= r <= m -> assign_result (bt 0 m) (bt 0 m) r = Some (bt 0 m, Ok r)) as AR.
    { intros r Hr. rewrite assign_result_spec by auto using valid_P.
      rewrite !lo_bt, !hi_bt. assert ((0 <=? m) && (0 <=? m) = true) as -> by lia.
      assert ((0 <=? r) && (r <=? m) = true) as -> by lia. reflexivity. }
    replace (p * 10 + d) with (10 * p + d) by lia.
    destruct (Z.leb_spec 0 (10 * p + d)); [|lia]. cbn [andb].
    destruct (Z.leb_spec (10 * p + d) m); cbn [then_ obind].
    - now rewrite AR by lia.
    - rewrite lo_bt. now rewrite AR by lia. }
  destruct (is_digit c) eqn:D; cbn [andb].
  - unfold is_digit in D. rewrite then_ok. apply K. lia.
  - unfold then_ at 1. cbn [obind]. rewrite lo_bt. rewrite K by lia.
    destruct (10 * m + 9 <=? ty_max U128); reflexivity.
Qed.

Fixpoint horner (p : Z) (s : list Z) : option Z :=
  match s with
  | [] => Some p
  | c :: s' => if is_digit c && (10 * p + (c - 48) <=? m) then horner (10 * p + (c - 48)) s' else None
  end.

Definition parsed (o : option Z) : outcome Z := match o with Some v => Ok v | None => Throw end.

Lemma fold_throw s : 10 * m + 9 <= ty_max U128 -> Forall (fun c => ty_min I8 <= c <= ty_max I8) s ->
  fold_left (fun acc c => then_ acc (fun _ p => to_integer_body (bt 0 m) (cst m) p c)) s (Some (bt 0 m, Throw)) =
  Some (bt 0 m, Throw).
Proof.
  intros L F. induction F as [|c s Hc F IH]; [reflexivity|]. cbn [fold_left].
  unfold then_ at 2. cbn [obind]. rewrite lo_bt, body_spec by (auto; lia).
  destruct (Z.leb_spec (10 * m + 9) (ty_max U128)); [|lia]. cbn [obind]. exact IH.
Qed.

Lemma fold_body s : forall p, 0 <= p <= m -> 10 * m + 9 <= ty_max U128 ->
  Forall (fun c => ty_min I8 <= c <= ty_max I8) s ->
  fold_left (fun acc c => then_ acc (fun _ p => to_integer_body (bt 0 m) (cst m) p c)) s (Some (bt 0 m, Ok p)) =
  Some (bt 0 m, parsed (horner p s)).
Proof.
  induction s as [|c s IH]; intros p Hp L F; [reflexivity|].
  inversion F as [|? ? Hc F']; subst. cbn [fold_left horner]. rewrite then_ok, body_spec by auto.
  destruct (Z.leb_spec (10 * m + 9) (ty_max U128)); [|lia].
  destruct (is_digit c) eqn:D; cbn [andb]; [|now apply fold_throw].
  destruct (Z.leb_spec (10 * p + (c - 48)) m); [|now apply fold_throw].
  apply IH; auto. unfold is_digit in D. lia.
Qed.

Lemma decimal_nonneg s v : decimal s v -> 0 <= v < 10 ^ Z.of_nat (length s).
Proof.
  induction 1 as [|c s v Hc D IH]; [cbn; lia|].
  cbn [length]. rewrite Nat2Z.inj_succ, Z.pow_succ_r by lia.
  assert (0 < 10 ^ Z.of_nat (length s)) by (apply Z.pow_pos_nonneg; lia). nia.
Qed.

Lemma horner_spec s : forall p q, 0 <= p ->
  (horner p s = Some q <->
   exists v, decimal s v /\ q = p * 10 ^ Z.of_nat (length s) + v /\ (s <> [] -> q <= m)).
Proof.
  induction s as [|c s IH]; intros p q Hp; cbn [horner].
  - split.
    + intros E. injection E as <-. exists 0. split; [constructor|]. split; [cbn; lia | congruence].
    + intros (v & D & -> & _). inversion D; subst. f_equal. cbn. lia.
  - assert (0 < 10 ^ Z.of_nat (length s)) as PP by (apply Z.pow_pos_nonneg; lia).
    cbn [length]. rewrite Nat2Z.inj_succ, Z.pow_succ_r by lia. split.
    + intros E. destruct (is_digit c) eqn:D; cbn [andb] in E; [|discriminate]. unfold is_digit in D.
      destruct (Z.leb_spec (10 * p + (c - 48)) m) as [L|]; [|discriminate].
      apply IH in E; [|lia]. destruct E as (v & Dv & -> & Lv).
      exists ((c - 48) * 10 ^ Z.of_nat (length s) + v). split; [constructor; auto; lia|].
      split; [ring|]. intros _. destruct s as [|c' s'].
      * inversion Dv; subst. cbn [length Z.of_nat]. rewrite Z.pow_0_r. lia.
      * apply Lv. congruence.
    + intros (v & Dv & -> & Lv). inversion Dv as [|? ? w Hc Dw]; subst.
      pose proof (decimal_nonneg _ _ Dw) as Bw.
      specialize (Lv ltac:(congruence)).
      assert (is_digit c = true) as -> by (unfold is_digit; lia). cbn [andb].
      assert (10 * p + (c - 48) <= m) as L by nia.
      destruct (Z.leb_spec (10 * p + (c - 48)) m); [|lia].
      apply IH; [lia|]. exists w. split; auto. split; [ring|]. intros _. lia.
Qed.

End Body.

Lemma horner0 m s q : 0 <= m -> s <> [] -> (horner m 0 s = Some q <-> decimal s q /\ q <= m).
Proof.
  intros Hm N. rewrite horner_spec by lia. split.
  - intros (v & D & -> & L). rewrite Z.mul_0_l, Z.add_0_l in *. auto.
  - intros [D L]. exists q. rewrite Z.mul_0_l, Z.add_0_l. auto.
Qed.

Definition chars (s : list Z) : Prop := Forall (fun c => ty_min I8 <= c <= ty_max I8) s.

Lemma positive_spec mx s : wf_tv mx -> 0 <= vl mx -> chars s ->
  to_integer_positive mx s =
  if 10 * vl mx + 9 <=? ty_max U128
  then Some (bt 0 (vl mx), parsed (horner (vl mx) 0 s)) else None.
Proof.
  intros W P F. unfold to_integer_positive. pose proof (wf_in128 _ W) as I.
  rewrite lit_nt by (cbn; lia). rewrite normalize_spec by auto.
  rewrite mk_integer_nt; auto; [|unfold in128; cbn; lia].
  pose proof (repr_0m _ I P) as R. rewrite (proj2 (reprb_spec _ _) R). cbn [obind].
  rewrite constant_t_spec by auto. cbn [obind].
  rewrite body_spec; auto; [|lia|cbn; lia].
  destruct (Z.leb_spec (10 * vl mx + 9) (ty_max U128)) as [L|L]; cbn [is_some guard obind]; [|reflexivity].
  rewrite const_of_nt. assert (valid (cst 0)) as V0 by (apply valid_cst; unfold in128; cbn; lia).
  rewrite convert_spec; auto using valid_P; [|apply holds_cst].
  cbn [ilo ihi]. unfold cst. rewrite !lo_bt, !hi_bt.
  assert ((0 <=? 0) && (0 <=? vl mx) = true) as -> by lia. cbn [obind].
  apply fold_body; auto. lia.
Qed.

Lemma conditional_spec b A B oa ob : valid A -> valid B ->
  (forall z, oa = Ok z -> holds_value A z) -> (forall z, ob = Ok z -> holds_value B z) ->
  conditional (Ok b) (Some (A, oa)) (Some (B, ob)) =
  if reprb (Z.min (lo A) (lo B)) (Z.max (hi A) (hi B))
  then Some (bt (Z.min (lo A) (lo B)) (Z.max (hi A) (hi B)), if b : bool then oa else ob) else None.
Proof.
  intros VA VB HA HB. unfold conditional. cbn [obind]. rewrite common_type_spec by auto.
  destruct (reprb _ _) eqn:R; cbn [obind]; [|reflexivity]. apply reprb_spec in R.
  pose proof (valid_bt _ _ R) as VC.
  assert (forall D z, valid (bt (Z.min (lo A) (lo B)) (Z.max (hi A) (hi B))) -> valid D -> holds_value D z -> Z.min (lo A) (lo B) <= lo D -> hi D <= Z.max (hi A) (hi B) ->
    convert (bt (Z.min (lo A) (lo B)) (Z.max (hi A) (hi B))) (Bounded D) z = Some (Ok z)) as CV.
  { clear. intros D z VC VD Hz L1 L2. rewrite convert_spec by auto. cbn [ilo ihi]. rewrite lo_bt, hi_bt.
    assert ((Z.min (lo A) (lo B) <=? lo D) && (hi D <=? Z.max (hi A) (hi B)) = true) as -> by lia. reflexivity. }
  destruct (fits_lo A VA) as [_ LA]. destruct (fits_lo B VB) as [_ LB].
  pose proof (fits_lo A VA) as [_ FA]. pose proof (fits_lo B VB) as [_ FB].
  rewrite (CV A) by (auto; lia). rewrite (CV B) by (auto; lia). cbn [is_some guard obind bind].
  f_equal. f_equal. destruct b.
  - destruct oa; cbn [bind]; auto. rewrite CV by (auto; lia). reflexivity.
  - destruct ob; cbn [bind]; auto. rewrite CV by (auto; lia). reflexivity.
Qed.

Lemma horner_bounds m s : forall p q, 0 <= p <= m -> horner m p s = Some q -> 0 <= q <= m.
Proof.
  induction s as [|c s IH]; intros p q Hp H; cbn [horner] in H; [injection H as <-; auto|].
  destruct (is_digit c) eqn:D; cbn [andb] in H; [|discriminate]. unfold is_digit in D.
  destruct (Z.leb_spec (10 * p + (c - 48)) m); [|discriminate]. eapply IH; [|exact H]. lia.
Qed.

Definition split_sign (s : list Z) : bool * list Z :=
  match s with c :: t => if c =? 45 then (true, t) else (false, s) | [] => (false, s) end.
Definition is_nil {A} (l : list A) : bool := match l with [] => true | _ => false end.

Lemma signed_spec mx s : wf_tv mx -> 0 <= vl mx -> chars s ->
  to_integer_signed mx s =
  if 10 * vl mx + 9 <=? ty_max U128
  then Some (bt (- vl mx) (vl mx),
    if fst (split_sign s) && is_nil (snd (split_sign s)) then Throw
    else parsed (option_map (fun q => if fst (split_sign s) then - q else q) (horner (vl mx) 0 (snd (split_sign s)))))
  else None.
Proof.
  intros W P F. unfold to_integer_signed. fold (split_sign s).
  assert (chars (snd (split_sign s))) as F'.
  { destruct s as [|c t]; cbn [split_sign]; auto. destruct (c =? 45); auto. now inversion F. }
  destruct (split_sign s) as [neg t]. cbn [fst snd] in *.
  rewrite positive_spec by auto.
  destruct (Z.leb_spec (10 * vl mx + 9) (ty_max U128)) as [L|L]; cbn [obind]; [|reflexivity].
  pose proof (wf_in128 _ W) as I. pose proof (valid_P _ I P) as VP.
  assert (vl mx <= ty_max I128) as LM.
  { revert L. change (ty_max U128) with (2 ^ 128 - 1). change (ty_max I128) with (2 ^ 127 - 1). clear. lia. }
  assert (valid (bt (- vl mx) 0)) as VN.
  { apply valid_bt, representable_spec. revert LM P. change (ty_max I128) with (2 ^ 127 - 1).
    change (ty_min I128) with (- 2 ^ 127). clear. lia. }
  assert (forall p, 0 <= p <= vl mx ->
    conditional (Ok neg) (negate (bt 0 (vl mx)) p) (Some (bt 0 (vl mx), Ok p)) =
    Some (bt (- vl mx) (vl mx), Ok (if neg then - p else p))) as K.
  { intros p Hp.
    assert (holds_value (bt 0 (vl mx)) p) as Hh by (unfold holds_value; rewrite lo_bt, hi_bt; exact Hp).
    rewrite negate_spec by auto. rewrite lo_bt, hi_bt. change (- 0) with 0.
    assert (reprb (- vl mx) 0 = true) as ->.
    { unfold reprb. revert LM P. change (ty_max I128) with (2 ^ 127 - 1).
      change (ty_min I128) with (- 2 ^ 127). clear. lia. }
    rewrite conditional_spec; auto.
    - rewrite !lo_bt, !hi_bt. replace (Z.min (- vl mx) 0) with (- vl mx) by lia.
      replace (Z.max 0 (vl mx)) with (vl mx) by lia.
      assert (reprb (- vl mx) (vl mx) = true) as ->.
      { unfold reprb. revert LM P. change (ty_max I128) with (2 ^ 127 - 1).
        change (ty_min I128) with (- 2 ^ 127). clear. lia. }
      now destruct neg.
    - intros z E. injection E as <-. unfold holds_value. rewrite lo_bt, hi_bt. lia.
    - intros z E. injection E as <-. auto. }
  fold (is_nil t). pose proof (horner_bounds (vl mx) t 0) as HB.
  destruct (neg && is_nil t).
  { cbn [then_ obind]. rewrite lo_bt, K by lia. reflexivity. }
  destruct (horner (vl mx) 0 t) as [q|]; cbn [parsed option_map then_ obind].
  - rewrite K; [reflexivity|]. apply HB; [lia|auto].
  - rewrite lo_bt, K by lia. reflexivity.
Qed.

Lemma abs_wf v : wf_tv v -> wf_tv (TV U128 (Z.abs (vl v))).
Proof.
  intros W. apply wf_in128 in W. unfold wf_tv, holds, in128 in *. cbn [ty vl].
  revert W. change (ty_max U128) with (2 ^ 128 - 1). change (ty_min I128) with (- 2 ^ 127).
  change (ty_min U128) with 0. clear. lia.
Qed.

(** ** to_integer *)
Definition bound_of (mn mx : Z) : Z := if mn <? 0 then Z.max (Z.abs mn) (Z.abs mx) else mx.

Lemma to_integer_shape mn mx s : wf_tv mn -> wf_tv mx -> vl mn <= vl mx -> chars s ->
  to_integer mn mx s =
  let M := bound_of (vl mn) (vl mx) in
  if 10 * M + 9 <=? ty_max U128
  then Some (bt (vl mn) (vl mx),
    if is_nil s then Throw else
    let v := if vl mn <? 0
      then (if fst (split_sign s) && is_nil (snd (split_sign s)) then None
            else option_map (fun q => if fst (split_sign s) then - q else q) (horner M 0 (snd (split_sign s))))
      else horner M 0 s in
    match v with
    | Some v => if (vl mn <=? v) && (v <=? vl mx) then Ok v else Throw
    | None => Throw
    end)
  else None.
Proof.
  intros W1 W2 L F. cbv zeta. unfold to_integer. rewrite !constant_t_spec by auto. cbn [obind].
  pose proof (wf_in128 _ W1) as I1. pose proof (wf_in128 _ W2) as I2.
  rewrite clt0_spec by auto. unfold bound_of.
  assert (valid (cst (vl mn))) as Vn by now apply valid_cst.
  assert (valid (cst (vl mx))) as Vx by now apply valid_cst.
  assert (forall l h r, valid (bt l h) -> l <= r <= h -> l <= vl mn -> vl mx <= h ->
    check_in_range (Bounded (bt l h)) (Bounded (cst (vl mn))) (Bounded (cst (vl mx))) r (lo (cst (vl mn))) (lo (cst (vl mx))) =
    Some (bt (vl mn) (vl mx), if (vl mn <=? r) && (r <=? vl mx) then Ok r else Throw)) as K.
  { intros l h r V Hr L1 L2. rewrite !(proj1 (cst_bounds _)).
    rewrite check_spec; auto; try apply holds_cst.
    unfold isect_lo, isect_hi. cbn [ilo ihi]. unfold cst. rewrite !lo_bt, !hi_bt.
    replace (Z.max (vl mn) l) with (vl mn) by lia. replace (Z.min (vl mx) h) with (vl mx) by lia.
    destruct (Z.leb_spec (vl mn) (vl mx)); [reflexivity|lia]. }
  assert (forall l h o, valid (bt l h) -> l <= vl mn -> vl mx <= h -> (forall q, o = Some q -> l <= q <= h) ->
    then_ (Some (bt l h, match s with [] => Throw | _ => parsed o end)) (fun J r =>
      check_in_range (Bounded J) (Bounded (cst (vl mn))) (Bounded (cst (vl mx))) r (lo (cst (vl mn))) (lo (cst (vl mx)))) =
    Some (bt (vl mn) (vl mx), if is_nil s then Throw else
      match o with Some v => if (vl mn <=? v) && (v <=? vl mx) then Ok v else Throw | None => Throw end)) as K2.
  { intros l h o V L1 L2 Ho. assert (l <= h) as Llh by lia.
    destruct s as [|c s']; [|destruct o as [q|]]; cbn [is_nil parsed then_ obind].
    - rewrite K by (auto; rewrite lo_bt; lia). reflexivity.
    - rewrite K by auto. reflexivity.
    - rewrite K by (auto; rewrite lo_bt; lia). reflexivity. }
  destruct (Z.ltb_spec (vl mn) 0) as [N|N].
  - rewrite !safe_abs_spec by auto. cbn [ct obind].
    set (M := Z.max (Z.abs (vl mn)) (Z.abs (vl mx))).
    assert (wf_tv (TV U128 (Z.abs (vl mn))) /\ wf_tv (TV U128 (Z.abs (vl mx)))) as [A1 A2].
    { split; apply abs_wf; auto. }
    assert ((if clt (TV U128 (Z.abs (vl mn))) (TV U128 (Z.abs (vl mx))) then TV U128 (Z.abs (vl mx))
             else TV U128 (Z.abs (vl mn))) = TV U128 M) as ->.
    { rewrite clt_nonneg by (auto; cbn [vl]; lia). cbn [vl]. unfold M.
      destruct (Z.ltb_spec (Z.abs (vl mn)) (Z.abs (vl mx))); f_equal; lia. }
    assert (wf_tv (TV U128 M)) as WM.
    { unfold M. destruct (Z.max_spec (Z.abs (vl mn)) (Z.abs (vl mx))) as [[_ ->]|[_ ->]]; auto. }
    assert (0 <= M) as PM by (unfold M; lia).
    rewrite signed_spec by auto. cbn [vl].
    destruct (Z.leb_spec (10 * M + 9) (ty_max U128)) as [LM|]; cbn [obind]; [|reflexivity].
    set (o := if fst (split_sign s) && is_nil (snd (split_sign s)) then None
      else option_map (fun q => if fst (split_sign s) then - q else q) (horner M 0 (snd (split_sign s)))).
    replace (if fst (split_sign s) && is_nil (snd (split_sign s)) then Throw else _) with (parsed o)
      by (unfold o; now destruct (fst (split_sign s) && is_nil (snd (split_sign s)))).
    apply K2; try (unfold M; lia).
    + apply valid_bt, representable_spec. revert LM PM. change (ty_max I128) with (2 ^ 127 - 1).
      change (ty_min I128) with (- 2 ^ 127). change (ty_max U128) with (2 ^ 128 - 1). clear. lia.
    + unfold o. intros q E. destruct (_ && _); [discriminate|].
      destruct (horner M 0 _) as [p|] eqn:H; cbn [option_map] in E; [|discriminate].
      apply horner_bounds in H; [|lia]. injection E as <-. destruct (fst _); lia.
  - rewrite positive_spec by (auto; lia).
    destruct (Z.leb_spec (10 * vl mx + 9) (ty_max U128)) as [LM|]; cbn [obind]; [|reflexivity].
    apply K2; auto; try lia.
    + apply valid_P; auto; lia.
    + intros q E. apply horner_bounds in E; lia.
Qed.

Lemma split_sign_spec s : s <> [] ->
  (exists t, s = 45 :: t /\ split_sign s = (true, t)) \/ (hd 0 s <> 45 /\ split_sign s = (false, s)).
Proof.
  destruct s as [|c t]; [congruence|]. intros _. cbn [split_sign hd].
  destruct (Z.eqb_spec c 45) as [->|N]; [left; eauto|right; auto].
Qed.

Lemma decimal_hd s v : s <> [] -> decimal s v -> 48 <= hd 0 s <= 57.
Proof. intros N D. inversion D; subst; [congruence|]. auto. Qed.

Lemma decimal_le s v : decimal s v -> 0 <= v.
Proof. intros D. apply decimal_nonneg in D. lia. Qed.

Lemma to_integer_exact mn mx s R o : wf_tv mn -> wf_tv mx -> vl mn <= vl mx -> chars s ->
  to_integer mn mx s = Some (R, o) ->
  R = bt (vl mn) (vl mx) /\
  (forall v, o = Ok v <-> numeral (vl mn < 0) s v /\ vl mn <= v <= vl mx) /\
  (o = Throw \/ exists v, o = Ok v).
Proof.
  intros W1 W2 L F H. rewrite to_integer_shape in H by auto. cbv zeta in H.
  set (M := bound_of (vl mn) (vl mx)) in *.
  destruct (10 * M + 9 <=? ty_max U128); [|discriminate].
  apply (f_equal (fun o => match o with Some p => p | None => (bt 0 0, UB) end)) in H.
  apply pair_equal_spec in H. destruct H as [<- <-]. split; [reflexivity|].
  assert (vl mn < 0 -> forall v, vl mn <= v <= vl mx -> Z.abs v <= M) as BM.
  { intros N v Hv. unfold M, bound_of. destruct (Z.ltb_spec (vl mn) 0); lia. }
  assert (0 <= vl mn -> M = vl mx) as BP.
  { intros N. unfold M, bound_of. destruct (Z.ltb_spec (vl mn) 0); lia. }
  assert (0 <= M) as PM.
  { unfold M, bound_of. destruct (Z.ltb_spec (vl mn) 0); lia. }
  destruct s as [|c0 s0] eqn:Es; cbn [is_nil].
  { split; [|auto]. intros v. split; [discriminate|]. intros [[[N _]|(_ & t & E & _)] _]; congruence. }
  rewrite <- Es in *. assert (s <> []) as Ns by congruence. clear Es c0 s0.
  set (w := if vl mn <? 0 then _ else _).
  assert (forall v, vl mn <= v <= vl mx -> (w = Some v <-> numeral (vl mn < 0) s v)) as K.
  { intros v Hv. unfold w. unfold numeral. destruct (Z.ltb_spec (vl mn) 0) as [N|N].
    - destruct (split_sign_spec s Ns) as [(t & -> & E)|(Nh & E)]; rewrite E; cbn [fst snd andb].
      + destruct t as [|c t]; cbn [is_nil].
        * split; [discriminate|]. intros [[_ D]|(_ & t & E' & Nt & _)].
          -- apply decimal_hd in D; [cbn in D; lia|congruence].
          -- injection E' as <-. congruence.
        * split.
          -- intros HS. right. split; [auto|]. exists (c :: t). split; [auto|]. split; [congruence|].
             destruct (horner M 0 (c :: t)) as [q|] eqn:Hh; cbn [option_map] in HS; [|discriminate].
             injection HS as <-. rewrite Z.opp_involutive. apply horner0 in Hh; [tauto|auto|congruence].
          -- intros [[_ D]|(_ & t' & E' & Nt & D)].
             ++ apply decimal_hd in D; [cbn in D; lia|congruence].
             ++ injection E' as <-. specialize (BM N v Hv).
                rewrite (proj2 (horner0 M (c :: t) (- v) PM Nt)); [cbn; f_equal; lia|].
                split; auto. lia.
      + split.
        * intros HS. left. split; [auto|].
          destruct (horner M 0 s) as [q|] eqn:Hh; cbn [option_map] in HS; [|discriminate].
          injection HS as <-. apply horner0 in Hh; tauto.
        * intros [[_ D]|(_ & t' & -> & Nt & D)]; [|cbn in Nh; lia]. specialize (BM N v Hv).
          rewrite (proj2 (horner0 M s v PM Ns)); [reflexivity|]. split; auto. lia.
    - rewrite horner0 by auto. rewrite BP by auto. split; [tauto|].
      intros [[_ D]|(A & _)]; [|lia]. split; [auto|lia]. }
  clearbody w. destruct w as [q|].
  - destruct (Z.leb_spec (vl mn) q), (Z.leb_spec q (vl mx)); cbn [andb].
    1: { split; [|eauto]. intros v. split.
      - intros E. injection E as <-. split; [|lia]. apply K; auto.
      - intros [D B]. apply K in D; [|auto]. congruence. }
    all: split; [|auto]; intros v; (split; [discriminate|]); intros [D B]; apply K in D; [|auto];
      injection D as ->; lia.
  - split; [|auto]. intros v. split; [discriminate|]. intros [D B]. apply K in D; [|auto]. discriminate.
Qed.

Lemma to_integer_accepts mn mx s : wf_tv mn -> wf_tv mx -> vl mn <= vl mx -> chars s ->
  (to_integer mn mx s <> None <-> 10 * bound_of (vl mn) (vl mx) + 9 <= ty_max U128).
Proof.
  intros. rewrite to_integer_shape by auto. cbv zeta.
  destruct (Z.leb_spec (10 * bound_of (vl mn) (vl mx) + 9) (ty_max U128)); split; intros; try congruence; lia.
Qed.
