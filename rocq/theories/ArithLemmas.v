(** * The arithmetic operators reduced to mathematics *)

From Coq Require Import ZArith Lia Bool List ZifyBool.
From Verif Require Import Cxx CxxLemmas Core Spec CoreLemmas Arith.
Import ListNotations.
Open Scope Z_scope.

Ltac Zify.zify_post_hook ::= idtac.

Lemma wf_TV t z : wf_tv (TV t z) <-> ty_min t <= z <= ty_max t.
Proof. reflexivity. Qed.

Lemma construct_ok l h t z : representable l h -> l <= z <= h ->
  ty_min t <= z <= ty_max t ->
  construct_unchecked (bt l h) t (Ok (TV t z)) = Some (bt l h, Ok z).
Proof.
  intros R Hz Ht. pose proof (unchecked_builtin l h t z R Hz Ht) as U.
  unfold unchecked in U. unfold construct_unchecked.
  destruct (overlapping_integer _ _ _); cbn [guard obind] in *; [|discriminate].
  cbn [bind vl]. congruence.
Qed.

(** The type part of [construct_unchecked] when the value is undefined. *)
Lemma construct_type l h t o : representable l h ->
  (exists z, l <= z <= h /\ ty_min t <= z <= ty_max t) ->
  construct_unchecked (bt l h) t o = Some (bt l h, do w <- o; store (bt l h) (Builtin t) (vl w)).
Proof.
  intros R [z [Hz Ht]]. pose proof (unchecked_builtin l h t z R Hz Ht) as U.
  unfold unchecked in U. unfold construct_unchecked.
  destruct (overlapping_integer _ _ _); cbn [guard obind] in *; [|discriminate]. reflexivity.
Qed.

Lemma u128_nonsigned t : is_signed t = false -> t = promote t -> True. Proof. auto. Qed.

Lemma cast_u128_vl v : vl (cast U128 v) = vl v mod ty_card U128.
Proof. unfold cast, wrap. cbn [vl ty_min]. rewrite Z.sub_0_r. lia. Qed.

Lemma wrap_u128 z : wrap U128 z = z mod ty_card U128.
Proof. unfold wrap. cbn [ty_min]. rewrite Z.sub_0_r. lia. Qed.

Lemma cadd_u128 a b : cadd (TV U128 a) (TV U128 b) = Ok (TV U128 (wrap U128 (a + b))).
Proof.
  unfold cadd, usual, arith. cbn [ty vl]. change (uac U128 U128) with U128. cbn [is_signed].
  rewrite !wrap_u128. now rewrite <- Zplus_mod.
Qed.

Lemma cmul_u128 a b : cmul (TV U128 a) (TV U128 b) = Ok (TV U128 (wrap U128 (a * b))).
Proof.
  unfold cmul, usual, arith. cbn [ty vl]. change (uac U128 U128) with U128. cbn [is_signed].
  rewrite !wrap_u128. now rewrite <- Zmult_mod.
Qed.

Lemma cneg_u128 a : cneg (TV U128 a) = Ok (TV U128 (wrap U128 (- a))).
Proof. reflexivity. Qed.

Lemma wrap_u128_add a b : wrap U128 (wrap U128 a + wrap U128 b) = wrap U128 (a + b).
Proof. rewrite !wrap_u128. now rewrite <- Zplus_mod. Qed.
Lemma wrap_u128_mul a b : wrap U128 (wrap U128 a * wrap U128 b) = wrap U128 (a * b).
Proof. rewrite !wrap_u128. now rewrite <- Zmult_mod. Qed.
Lemma wrap_u128_neg a : wrap U128 (- wrap U128 a) = wrap U128 (- a).
Proof.
  rewrite !wrap_u128. rewrite <- (Z.sub_0_l (a mod _)), <- (Z.sub_0_l a).
  rewrite (Zminus_mod 0 (a mod _)), (Zminus_mod 0 a), Zmod_mod. reflexivity.
Qed.

(** Adding or removing one multiple of 2^128. *)
Lemma wrap_u128_up a : - ty_card U128 <= a < 0 -> wrap U128 a = a + ty_card U128.
Proof. intros. apply wrap_eq; [cbn in *; lia | exists (-1); lia]. Qed.
Lemma wrap_u128_down a : ty_card U128 <= a < 2 * ty_card U128 -> wrap U128 a = a - ty_card U128.
Proof. intros. apply wrap_eq; [cbn in *; lia | exists 1; lia]. Qed.
Lemma wrap_i128_u128 a : wrap I128 (wrap U128 a) = wrap I128 a.
Proof. apply wrap_wrap. cbn. lia. Qed.

Lemma cgt_smax v : wf_tv v -> cgt v max_signed = (ty_max I128 <? vl v).
Proof.
  destruct v as [t z]. unfold wf_tv, cgt, clt, max_signed, usual. cbn [ty vl]. intros H.
  rewrite !wrap_id; auto; destruct t; cbn in *; lia.
Qed.

Lemma cge_u128 a b : ty_min U128 <= a <= ty_max U128 -> ty_min U128 <= b <= ty_max U128 ->
  cge (TV U128 a) (TV U128 b) = (b <=? a).
Proof. intros. unfold cge, cle, usual. cbn [ty vl]. change (uac U128 U128) with U128. now rewrite !wrap_id. Qed.
Lemma cle_u128 a b : ty_min U128 <= a <= ty_max U128 -> ty_min U128 <= b <= ty_max U128 ->
  cle (TV U128 a) (TV U128 b) = (a <=? b).
Proof. intros. unfold cle, usual. cbn [ty vl]. change (uac U128 U128) with U128. now rewrite !wrap_id. Qed.

Lemma in128_dec z : {in128 z} + {~ in128 z}.
Proof.
  unfold in128. destruct (Z_le_dec (ty_min I128) z), (Z_le_dec z (ty_max U128));
  [left; split; auto | right; tauto ..].
Qed.

Lemma safer_add_spec l r : wf_tv l -> wf_tv r ->
  match safer_add l r with
  | Some v => wf_tv v /\ vl v = vl l + vl r
  | None => ~ in128 (vl l + vl r)
  end.
Proof.
  intros Hl Hr. pose proof (wf_in128 _ Hl) as Bl. pose proof (wf_in128 _ Hr) as Br.
  unfold safer_add, cast. rewrite cadd_u128, wrap_u128_add. cbn [ct obind vl].
  rewrite !cge0_spec, !cgt0_spec, !cgt_smax by (auto; apply wrap_wf || apply wrap_range).
  set (s := vl l + vl r) in *. unfold in128 in *. cbn [vl].
  destruct ((0 <=? vl l) && (0 <=? vl r)) eqn:E1.
  - rewrite !cge_u128 by apply wrap_range.
    rewrite !(wrap_id U128 (vl _)) by (cbn in *; lia).
    destruct (Z_le_dec s (ty_max U128)).
    + rewrite wrap_id by (cbn in *; lia).
      assert ((vl l <=? s) && (vl r <=? s) = true) as -> by lia. cbn [guard obind].
      split; [apply wf_TV; cbn in *; lia | reflexivity].
    + rewrite wrap_u128_down by (cbn in *; lia).
      assert ((vl l <=? s - ty_card U128) && (vl r <=? s - ty_card U128) = false) as ->
        by (cbn in *; lia). cbn [guard obind]. lia.
  - destruct ((_ <? vl l) || (_ <? vl r)) eqn:E2.
    + rewrite wrap_id by (cbn in *; lia). split; [apply wf_TV; cbn in *; lia | reflexivity].
    + rewrite wrap_i128_u128.
      destruct (Z_le_dec (ty_min I128) s).
      * rewrite (wrap_id I128) by (cbn in *; lia).
        assert ((0 <? vl l) || (0 <? vl r) || (ty_max I128 <? wrap U128 s) = true) as ->.
        { destruct (Z_lt_dec s 0); [rewrite wrap_u128_up by (cbn in *; lia)|]; cbn in *; lia. }
        cbn [guard obind]. split; [apply wf_TV; cbn in *; lia | reflexivity].
      * assert ((0 <? vl l) || (0 <? vl r) || (ty_max I128 <? wrap U128 s) = false) as ->.
        { rewrite wrap_u128_up by (cbn in *; lia). cbn in *; lia. }
        cbn [guard obind]. lia.
Qed.

Lemma not_in128_l l h : ~ in128 l -> reprb l h = false.
Proof. unfold in128, reprb. cbn. lia. Qed.
Lemma not_in128_r l h : ~ in128 h -> reprb l h = false.
Proof. unfold in128, reprb. cbn. lia. Qed.

Lemma hv_iholds B x : holds_value B x -> iholds (Bounded B) x.
Proof. exact (fun H => H). Qed.

(** The common run-time pattern: a modular umax_t computation cast to the storage
    type of the result. *)
Lemma umax_finish l h z : representable l h -> l <= z <= h ->
  construct_unchecked (bt l h) (und (bt l h))
    (Ok (cast (und (bt l h)) (TV U128 (wrap U128 z)))) = Some (bt l h, Ok z).
Proof.
  intros R Hz. destruct (und_bounds l h R) as (A & B & C).
  unfold cast. cbn [vl]. rewrite wrap_wrap by (destruct (und (bt l h)); cbn; lia).
  rewrite wrap_id by lia. apply construct_ok; auto; lia.
Qed.

Lemma plus_spec A B x y : valid A -> valid B -> holds_value A x -> holds_value B y ->
  plus A B x y =
  if reprb (lo A + lo B) (hi A + hi B)
  then Some (bt (lo A + lo B) (hi A + hi B), Ok (x + y)) else None.
Proof.
  intros HA HB Hx Hy. unfold plus.
  rewrite !to_builtin_spec by (auto using hv_iholds). cbn [bind].
  rewrite cadd_u128, wrap_u128_add. cbn [bind].
  destruct HA as (W1 & W2 & _), HB as (W3 & W4 & _).
  pose proof (safer_add_spec _ _ W1 W3) as S1. pose proof (safer_add_spec _ _ W2 W4) as S2.
  unfold lo, hi, holds_value in *.
  destruct (safer_add (bmin A) (bmin B)) as [v1|]; cbn [obind];
    [|now rewrite (not_in128_l _ _ S1)].
  destruct (safer_add (bmax A) (bmax B)) as [v2|]; cbn [obind];
    [|now rewrite (not_in128_r _ _ S2)].
  destruct S1 as [F1 E1], S2 as [F2 E2]. rewrite mk_integer_norm by auto. rewrite E1, E2.
  destruct (reprb _ _) eqn:R; [|reflexivity]. cbn [obind].
  apply umax_finish; [now apply reprb_spec | unfold lo, hi in *; lia].
Qed.

(** ** Negation *)
Lemma safer_negation_spec v : wf_tv v ->
  match safer_negation v with
  | Some w => wf_tv w /\ vl w = - vl v
  | None => ~ in128 (- vl v)
  end.
Proof.
  intros H. pose proof (wf_in128 _ H) as Bv. unfold in128 in Bv.
  unfold safer_negation, cast. rewrite cneg_u128, wrap_u128_neg. cbn [ct obind vl].
  rewrite cle0_spec by auto. destruct (Z.leb_spec (vl v) 0).
  - rewrite wrap_id by (cbn in *; lia). split; [apply wf_TV; cbn in *; lia | reflexivity].
  - rewrite cneg_u128. cbn [ct obind]. rewrite wrap_i128_u128.
    replace (wrap U128 (- wrap U128 (ty_min I128))) with 170141183460469231731687303715884105728
      by (vm_compute; reflexivity).
    rewrite cle_nonneg by first [assumption | apply wf_TV; cbn; lia | cbn [vl]; lia]. cbn [vl].
    destruct (Z.leb_spec (vl v) 170141183460469231731687303715884105728); cbn [guard obind].
    + rewrite wrap_id by (cbn in *; lia). split; [apply wf_TV; cbn in *; lia | reflexivity].
    + unfold in128. cbn. lia.
Qed.

Lemma promoted_unsigned_spec t : promote (promoted_unsigned t) = promoted_unsigned t /\
  is_signed (promoted_unsigned t) = false /\ ty_bits t <= ty_bits (promoted_unsigned t).
Proof. destruct t; cbn; repeat split; lia. Qed.

Lemma unsigned_neg t a : is_signed t = false -> wrap t (- wrap t a) = wrap t (- a).
Proof.
  intros _. destruct (wrap_congr t a) as [k ->].
  replace (- (a + k * ty_card t)) with (- a + (- k) * ty_card t) by ring. apply wrap_card.
Qed.

Lemma negate_spec A x : valid A -> holds_value A x ->
  negate A x =
  if reprb (- hi A) (- lo A) then Some (bt (- hi A) (- lo A), Ok (- x)) else None.
Proof.
  intros HA Hx. unfold negate.
  pose proof HA as HA'. destruct HA' as (W1 & W2 & _).
  pose proof (safer_negation_spec _ W2) as S1. pose proof (safer_negation_spec _ W1) as S2.
  unfold holds_value, lo, hi in *.
  destruct (safer_negation (bmax A)) as [v1|]; cbn [obind]; [|now rewrite (not_in128_l _ _ S1)].
  destruct (safer_negation (bmin A)) as [v2|]; cbn [obind]; [|now rewrite (not_in128_r _ _ S2)].
  destruct S1 as [F1 E1], S2 as [F2 E2]. rewrite mk_integer_norm by auto. rewrite E1, E2.
  destruct (reprb _ _) eqn:R; [|reflexivity]. cbn [obind]. apply reprb_spec in R.
  set (l := - vl (bmax A)) in *. set (h := - vl (bmin A)) in *.
  rewrite to_builtin_spec by (auto; exact Hx). cbn [bind].
  destruct (promoted_unsigned_spec (und (bt l h))) as (P1 & P2 & P3).
  unfold cneg. cbn [ty vl]. rewrite P1. unfold arith. rewrite P2. cbn [bind].
  rewrite unsigned_neg by auto. destruct (und_bounds l h R) as (B1 & B2 & B3).
  unfold cast. cbn [vl]. rewrite wrap_wrap by auto. rewrite wrap_id by lia.
  apply construct_ok; auto; lia.
Qed.

(** ** Subtraction *)
Lemma minus_spec A B x y : valid A -> valid B -> holds_value A x -> holds_value B y ->
  minus A B x y =
  if reprb (- hi B) (- lo B) && reprb (lo A - hi B) (hi A - lo B)
  then Some (bt (lo A - hi B) (hi A - lo B), Ok (x - y)) else None.
Proof.
  intros HA HB Hx Hy. unfold minus. rewrite negate_spec by auto.
  destruct (reprb (- hi B) (- lo B)) eqn:R; cbn [then_ obind andb]; [|reflexivity].
  apply reprb_spec in R. unfold holds_value in *.
  rewrite plus_spec; auto using valid_bt.
  unfold holds_value. rewrite lo_bt, hi_bt. lia.
Qed.

(** ** Multiplication *)
Lemma div_le_self a b : 0 <= a -> 0 < b -> 0 <= a / b <= a.
Proof.
  intros Ha Hb. split; [apply Z.div_pos; lia|].
  apply Z.div_le_upper_bound; [lia|]. nia.
Qed.

Lemma cdiv_u128 a b : ty_min U128 <= a <= ty_max U128 -> ty_min U128 <= b <= ty_max U128 ->
  b <> 0 -> cdiv (TV U128 a) (TV U128 b) = Ok (TV U128 (a / b)).
Proof.
  intros Ha Hb N. unfold cdiv, usual. cbn [ty vl]. change (uac U128 U128) with U128.
  rewrite !wrap_id by auto. cbn in Ha, Hb. destruct (Z.eqb_spec b 0); [lia|].
  unfold arith. cbn [is_signed]. rewrite Z.quot_div_nonneg by lia. rewrite wrap_id; auto.
  cbn. pose proof (div_le_self a b). lia.
Qed.

Lemma ceq_u128 a b : ty_min U128 <= a <= ty_max U128 -> ty_min U128 <= b <= ty_max U128 ->
  ceq (TV U128 a) (TV U128 b) = (a =? b).
Proof. intros. unfold ceq, usual. cbn [ty vl]. change (uac U128 U128) with U128. now rewrite !wrap_id. Qed.

(** The overflow test of safer_multiply: for positive [a] and non-negative [b]
    below 2^128, dividing the truncated product detects overflow. *)
Lemma overflow_test a b : 0 < a <= ty_max U128 -> 0 <= b <= ty_max U128 ->
  (wrap U128 (a * b) / a =? b) = (a * b <=? ty_max U128).
Proof.
  intros Ha Hb. destruct (Z.leb_spec (a * b) (ty_max U128)) as [H | H].
  - rewrite wrap_id by (split; [cbn; nia | exact H]).
    rewrite Z.mul_comm, Z.div_mul by lia. apply Z.eqb_refl.
  - apply Z.eqb_neq. intros E.
    assert (a * b <= wrap U128 (a * b)).
    { rewrite <- E at 1. apply Z.mul_div_le. lia. }
    pose proof (wrap_range U128 (a * b)). lia.
Qed.

Lemma safer_multiply_spec l r : wf_tv l -> wf_tv r ->
  match safer_multiply l r with
  | Some v => wf_tv v /\ Z.abs (vl l * vl r) <= ty_max U128 /\
              vl v = (if vl l * vl r <? 0 then wrap I128 (vl l * vl r) else vl l * vl r)
  | None => ty_max U128 < Z.abs (vl l * vl r)
  end.
Proof.
  intros Hl Hr. pose proof (wf_in128 _ Hl) as Bl. pose proof (wf_in128 _ Hr) as Br.
  unfold in128 in *.
  unfold safer_multiply, cast. rewrite cmul_u128, wrap_u128_mul. cbn [ct obind vl].
  rewrite !cneg_u128, !wrap_u128_neg. cbn [ct obind vl]. rewrite !clt0_spec, !cgt0_spec by auto.
  generalize dependent (vl l). generalize dependent (vl r). clear l r Hl Hr. intros r Br l Bl.
  assert (forall z, 0 <= z <= ty_max U128 -> wrap U128 z = z) as Wp
    by (intros; apply wrap_id; cbn in *; lia).
  destruct (Z.ltb_spec l 0), (Z.ltb_spec r 0); cbn [xorb].
  - (* both negative *)
    destruct (Z.ltb_spec 0 l); [lia|].
    rewrite !(Wp (- l)), !(Wp (- r)) by (cbn in *; lia).
    rewrite cdiv_u128 by (try apply wrap_range; cbn in *; lia). cbn [ct obind].
    rewrite ceq_u128.
    2: { pose proof (wrap_range U128 (l * r)).
         pose proof (div_le_self (wrap U128 (l * r)) (- l)). cbn in *. lia. }
    2: { cbn in *. lia. }
    replace (l * r) with ((- l) * (- r)) by ring.
    rewrite overflow_test by (cbn in *; lia).
    rewrite Z.abs_eq by nia.
    destruct (Z.leb_spec (- l * - r) (ty_max U128)); cbn [guard obind]; [|lia].
    rewrite Wp by nia. destruct (Z.ltb_spec (- l * - r) 0); [nia|].
    repeat split; auto; try apply wf_TV; cbn in *; nia.
  - (* l negative, r not *)
    destruct (Z.ltb_spec 0 l); [lia|]. destruct (Z.ltb_spec 0 r).
    + rewrite !(Wp (- l)), !(Wp r) by (cbn in *; lia).
      rewrite cdiv_u128 by (try apply wrap_range; cbn in *; lia). cbn [ct obind].
      replace (- (l * r)) with (r * - l) by ring.
      rewrite ceq_u128.
      2: { pose proof (wrap_range U128 (r * - l)).
         pose proof (div_le_self (wrap U128 (r * - l)) (r)). cbn in *. lia. }
      2: { cbn in *. lia. }
      rewrite overflow_test by (cbn in *; lia).
      rewrite Z.abs_neq by nia. replace (- (l * r)) with (r * - l) by ring.
      destruct (Z.leb_spec (r * - l) (ty_max U128)); cbn [guard obind]; [|lia].
      destruct (Z.ltb_spec (l * r) 0); [|nia].
      rewrite wrap_i128_u128. repeat split; auto; try apply wrap_range.
    + assert (r = 0) as -> by lia. rewrite Z.mul_0_r. cbn [obind Z.mul].
      rewrite ?(wrap_id U128 0), ?(wrap_id I128 0) by (cbn; lia).
      repeat split; try apply wf_TV; cbn; lia.
  - (* r negative, l not *)
    destruct (Z.ltb_spec 0 l).
    + rewrite !(Wp (- r)), !(Wp l) by (cbn in *; lia).
      rewrite cdiv_u128 by (try apply wrap_range; cbn in *; lia). cbn [ct obind].
      replace (- (l * r)) with (l * - r) by ring.
      rewrite ceq_u128.
      2: { pose proof (wrap_range U128 (l * - r)).
         pose proof (div_le_self (wrap U128 (l * - r)) (l)). cbn in *. lia. }
      2: { cbn in *. lia. }
      rewrite overflow_test by (cbn in *; lia).
      rewrite Z.abs_neq by nia. replace (- (l * r)) with (l * - r) by ring.
      destruct (Z.leb_spec (l * - r) (ty_max U128)); cbn [guard obind]; [|lia].
      destruct (Z.ltb_spec (l * r) 0); [|nia].
      rewrite wrap_i128_u128. repeat split; auto; try apply wrap_range.
    + assert (l = 0) as -> by lia. destruct (Z.ltb_spec 0 r); [lia|]. cbn [obind Z.mul].
      rewrite ?(wrap_id U128 0), ?(wrap_id I128 0) by (cbn; lia).
      repeat split; try apply wf_TV; cbn; lia.
  - (* neither negative *)
    destruct (Z.ltb_spec 0 l).
    + rewrite !(Wp l), !(Wp r) by (cbn in *; lia).
      rewrite cdiv_u128 by (try apply wrap_range; cbn in *; lia). cbn [ct obind].
      rewrite ceq_u128.
      2: { pose proof (wrap_range U128 (l * r)).
         pose proof (div_le_self (wrap U128 (l * r)) (l)). cbn in *. lia. }
      2: { cbn in *. lia. }
      rewrite overflow_test by (cbn in *; lia). rewrite Z.abs_eq by nia.
      destruct (Z.leb_spec (l * r) (ty_max U128)); cbn [guard obind]; [|lia].
      rewrite Wp by nia. destruct (Z.ltb_spec (l * r) 0); [nia|].
      repeat split; auto; try apply wf_TV; cbn in *; nia.
    + assert (l = 0) as -> by lia. cbn [obind Z.mul].
      rewrite ?(wrap_id U128 0), ?(wrap_id I128 0) by (cbn; lia).
      repeat split; try apply wf_TV; cbn; lia.
Qed.

Definition min4 (a b c d : Z) : Z := Z.min (Z.min (Z.min a b) c) d.
Definition max4 (a b c d : Z) : Z := Z.max (Z.max (Z.max a b) c) d.

Lemma safe_min_n_spec a l : wf_tv a -> Forall wf_tv l ->
  wf_tv (safe_min_n a l) /\ vl (safe_min_n a l) = fold_left Z.min (map vl l) (vl a).
Proof.
  intros Ha Hl. revert a Ha. induction Hl; intros a Ha; [split; [exact Ha | reflexivity]|].
  cbn [safe_min_n fold_left map]. destruct (safe_min_spec a x Ha H) as (E & W & _).
  destruct (IHHl _ W) as [W' E']. split; [exact W'|]. unfold safe_min_n in E'.
  rewrite E', E. reflexivity.
Qed.
Lemma safe_max_n_spec a l : wf_tv a -> Forall wf_tv l ->
  wf_tv (safe_max_n a l) /\ vl (safe_max_n a l) = fold_left Z.max (map vl l) (vl a).
Proof.
  intros Ha Hl. revert a Ha. induction Hl; intros a Ha; [split; [exact Ha | reflexivity]|].
  cbn [safe_max_n fold_left map]. destruct (safe_max_spec a x Ha H) as (E & W & _).
  destruct (IHHl _ W) as [W' E']. split; [exact W'|]. unfold safe_max_n in E'.
  rewrite E', E. reflexivity.
Qed.

(** The extreme products are at the corners. *)
Lemma corner_bounds a b c d x y : a <= x <= b -> c <= y <= d ->
  min4 (a * c) (a * d) (b * c) (b * d) <= x * y <= max4 (a * c) (a * d) (b * c) (b * d).
Proof.
  intros Hx Hy. unfold min4, max4.
  assert (Z.min (a * y) (b * y) <= x * y <= Z.max (a * y) (b * y))
    by (destruct (Z_le_dec 0 y); nia).
  assert (Z.min (a * c) (a * d) <= a * y <= Z.max (a * c) (a * d))
    by (destruct (Z_le_dec 0 a); nia).
  assert (Z.min (b * c) (b * d) <= b * y <= Z.max (b * c) (b * d))
    by (destruct (Z_le_dec 0 b); nia).
  lia.
Qed.

Definition mul_lo (A B : bty) : Z :=
  min4 (lo A * lo B) (lo A * hi B) (hi A * lo B) (hi A * hi B).
Definition mul_hi (A B : bty) : Z :=
  max4 (lo A * lo B) (lo A * hi B) (hi A * lo B) (hi A * hi B).

Lemma multiply_spec A B x y : valid A -> valid B -> holds_value A x -> holds_value B y ->
  ty_min I128 <= mul_lo A B ->
  multiply A B x y =
  if reprb (mul_lo A B) (mul_hi A B)
  then Some (bt (mul_lo A B) (mul_hi A B), Ok (x * y)) else None.
Proof.
  intros HA HB Hx Hy Hmin. unfold multiply.
  rewrite !to_builtin_spec by (auto using hv_iholds). cbn [bind].
  rewrite cmul_u128, wrap_u128_mul. cbn [bind].
  destruct HA as (W1 & W2 & _), HB as (W3 & W4 & _).
  pose proof (corner_bounds _ _ _ _ _ _ Hx Hy) as CB.
  change (min4 _ _ _ _) with (mul_lo A B) in CB. change (max4 _ _ _ _) with (mul_hi A B) in CB.
  assert (forall l r, wf_tv l -> wf_tv r -> mul_lo A B <= vl l * vl r <= mul_hi A B ->
    match safer_multiply l r with
    | Some v => wf_tv v /\ vl v = vl l * vl r
    | None => reprb (mul_lo A B) (mul_hi A B) = false
    end) as S.
  { intros l r Wl Wr C. pose proof (safer_multiply_spec l r Wl Wr) as M.
    destruct (safer_multiply l r).
    - destruct M as (F & Ab & E). split; auto. rewrite E. destruct (Z.ltb_spec (vl l * vl r) 0); auto.
      apply wrap_id. cbn in *. lia.
    - unfold reprb. cbn in *. lia. }
  pose proof (S _ _ W1 W3) as S0. pose proof (S _ _ W1 W4) as S1.
  pose proof (S _ _ W2 W3) as S2. pose proof (S _ _ W2 W4) as S3. clear S.
  assert (mul_lo A B = min4 (vl (bmin A) * vl (bmin B)) (vl (bmin A) * vl (bmax B))
            (vl (bmax A) * vl (bmin B)) (vl (bmax A) * vl (bmax B))) as EL by reflexivity.
  assert (mul_hi A B = max4 (vl (bmin A) * vl (bmin B)) (vl (bmin A) * vl (bmax B))
            (vl (bmax A) * vl (bmin B)) (vl (bmax A) * vl (bmax B))) as EH by reflexivity.
  destruct (safer_multiply (bmin A) (bmin B)) as [p0|];
    [|rewrite S0; [reflexivity | unfold min4, max4 in *; lia]].
  destruct (safer_multiply (bmin A) (bmax B)) as [p1|];
    [|rewrite S1; [reflexivity | unfold min4, max4 in *; lia]].
  destruct (safer_multiply (bmax A) (bmin B)) as [p2|];
    [|rewrite S2; [reflexivity | unfold min4, max4 in *; lia]].
  destruct (safer_multiply (bmax A) (bmax B)) as [p3|];
    [|rewrite S3; [reflexivity | unfold min4, max4 in *; lia]].
  cbn [obind].
  destruct S0 as [F0 E0]; [unfold min4, max4 in *; lia|].
  destruct S1 as [F1 E1]; [unfold min4, max4 in *; lia|].
  destruct S2 as [F2 E2]; [unfold min4, max4 in *; lia|].
  destruct S3 as [F3 E3]; [unfold min4, max4 in *; lia|].
  destruct (safe_min_n_spec p0 [p1; p2; p3]) as [G1 G2]; auto.
  destruct (safe_max_n_spec p0 [p1; p2; p3]) as [G3 G4]; auto.
  rewrite mk_integer_norm by auto. rewrite G2, G4. cbn [map fold_left].
  rewrite E0, E1, E2, E3.
  change (reprb _ _) with (reprb (mul_lo A B) (mul_hi A B)).
  change (bt (Z.min _ _) (Z.max _ _)) with (bt (mul_lo A B) (mul_hi A B)).
  destruct (reprb _ _) eqn:R; [|reflexivity]. cbn [obind].
  apply umax_finish; [now apply reprb_spec | lia].
Qed.

(** ** Division *)
Lemma constant_value_spec z : in128 z ->
  exists t, constant_value (nt z) = Some (TV t z) /\ wf_tv (TV t z).
Proof.
  intros H. unfold constant_value. rewrite normalize_nt by auto.
  rewrite determine_type_spec by auto using nt_wf. cbn [vl nt].
  assert (representable z z) as R by (apply representable_spec; unfold in128 in H; cbn in *; lia).
  rewrite (und_storage z z R). cbn [obind]. destruct (und_bounds z z R) as (A & _ & B).
  exists (und (bt z z)). rewrite cast_id by (cbn [vl nt]; lia). split; auto. apply wf_TV. lia.
Qed.

Lemma safe_abs_spec v : wf_tv v -> safe_abs v = Ok (TV U128 (Z.abs (vl v))).
Proof.
  intros H. pose proof (wf_in128 _ H) as B. unfold in128 in B. unfold safe_abs.
  rewrite clt0_spec by auto. unfold cast. rewrite cneg_u128, wrap_u128_neg.
  destruct (Z.ltb_spec (vl v) 0).
  - rewrite wrap_id by (cbn in *; lia). now rewrite Z.abs_neq by lia.
  - rewrite wrap_id by (cbn in *; lia). now rewrite Z.abs_eq by lia.
Qed.

(** Truncating division in terms of magnitudes. *)
Lemma quot_abs l r : r <> 0 ->
  Z.quot l r = if xorb (l <? 0) (r <? 0) then - (Z.abs l / Z.abs r) else Z.abs l / Z.abs r.
Proof.
  intros N. destruct (Z.ltb_spec l 0), (Z.ltb_spec r 0); cbn [xorb].
  - rewrite !Z.abs_neq by lia. rewrite <- Z.quot_div_nonneg by lia. now rewrite Z.quot_opp_opp.
  - rewrite Z.abs_neq, Z.abs_eq by lia. rewrite <- Z.quot_div_nonneg by lia.
    rewrite Z.quot_opp_l by lia. lia.
  - rewrite Z.abs_eq, Z.abs_neq by lia. rewrite <- Z.quot_div_nonneg by lia.
    rewrite Z.quot_opp_r by lia. lia.
  - rewrite !Z.abs_eq by lia. now rewrite <- Z.quot_div_nonneg by lia.
Qed.

Lemma safer_divide_spec l r : wf_tv l -> wf_tv r -> vl r <> 0 ->
  exists v, safer_divide l r = Some v /\ wf_tv v /\
    (ty_min I128 <= Z.quot (vl l) (vl r) -> vl v = Z.quot (vl l) (vl r)).
Proof.
  intros Hl Hr N. unfold safer_divide.
  pose proof (wf_in128 _ Hl) as Bl. pose proof (wf_in128 _ Hr) as Br. unfold in128 in *.
  rewrite !safe_abs_spec, !clt0_spec by auto. cbn [ct obind].
  rewrite cdiv_u128 by (cbn in *; lia). cbn [ct obind].
  rewrite (quot_abs (vl l) (vl r)) by auto.
  pose proof (div_le_self (Z.abs (vl l)) (Z.abs (vl r)) ltac:(lia) ltac:(lia)) as D.
  destruct (xorb _ _) eqn:X.
  - rewrite cneg_u128. cbn [ct obind]. eexists. split; [reflexivity|].
    split; [apply wrap_wf|]. unfold cast. cbn [vl]. rewrite wrap_i128_u128. intros G.
    apply wrap_id. cbn in *. lia.
  - eexists. split; [reflexivity|]. split; [apply wf_TV; cbn in *; lia | reflexivity].
Qed.

Definition pos_qlo (a b c d : Z) : Z := if a <? 0 then Z.quot a c else Z.quot a d.
Definition pos_qhi (a b c d : Z) : Z := if b <? 0 then Z.quot b d else Z.quot b c.
Definition neg_qlo (a b c d : Z) : Z := if 0 <=? b then Z.quot b d else Z.quot b c.
Definition neg_qhi (a b c d : Z) : Z := if 0 <=? a then Z.quot a c else Z.quot a d.
Definition div_lo (a b c d : Z) : Z :=
  if 1 <=? c then pos_qlo a b c d
  else if d <=? -1 then neg_qlo a b c d
  else Z.min (pos_qlo a b 1 d) (neg_qlo a b c (-1)).
Definition div_hi (a b c d : Z) : Z :=
  if 1 <=? c then pos_qhi a b c d
  else if d <=? -1 then neg_qhi a b c d
  else Z.max (pos_qhi a b 1 d) (neg_qhi a b c (-1)).

Lemma neg_pos_lo a b c d : d <> 0 -> c <> 0 -> neg_qlo a b c d = - pos_qhi a b (- d) (- c).
Proof.
  intros. unfold neg_qlo, pos_qhi.
  destruct (Z.leb_spec 0 b), (Z.ltb_spec b 0); try lia; rewrite Z.quot_opp_r by lia; lia.
Qed.
Lemma neg_pos_hi a b c d : d <> 0 -> c <> 0 -> neg_qhi a b c d = - pos_qlo a b (- d) (- c).
Proof.
  intros. unfold neg_qhi, pos_qlo.
  destruct (Z.leb_spec 0 a), (Z.ltb_spec a 0); try lia; rewrite Z.quot_opp_r by lia; lia.
Qed.

Lemma pos_q_bounds a b c d x y : a <= x <= b -> 1 <= c -> c <= y <= d ->
  pos_qlo a b c d <= Z.quot x y <= pos_qhi a b c d.
Proof.
  intros Hx Hc Hy. unfold pos_qlo, pos_qhi.
  pose proof (Z.quot_le_mono a x y ltac:(lia) ltac:(lia)).
  pose proof (Z.quot_le_mono x b y ltac:(lia) ltac:(lia)).
  split.
  - destruct (Z.ltb_spec a 0).
    + pose proof (Z.quot_le_compat_l (- a) c y ltac:(lia) ltac:(lia)) as Q.
      rewrite !Z.quot_opp_l in Q by lia. lia.
    + pose proof (Z.quot_le_compat_l a y d ltac:(lia) ltac:(lia)). lia.
  - destruct (Z.ltb_spec b 0).
    + pose proof (Z.quot_le_compat_l (- b) y d ltac:(lia) ltac:(lia)) as Q.
      rewrite !Z.quot_opp_l in Q by lia. lia.
    + pose proof (Z.quot_le_compat_l b c y ltac:(lia) ltac:(lia)). lia.
Qed.

Lemma neg_q_bounds a b c d x y : a <= x <= b -> d <= -1 -> c <= y <= d ->
  neg_qlo a b c d <= Z.quot x y <= neg_qhi a b c d.
Proof.
  intros Hx Hd Hy. rewrite neg_pos_lo, neg_pos_hi by lia.
  pose proof (pos_q_bounds a b (- d) (- c) x (- y) Hx ltac:(lia) ltac:(lia)) as P.
  rewrite Z.quot_opp_r in P by lia. lia.
Qed.

Lemma div_bounds a b c d x y : a <= x <= b -> c <= y <= d -> y <> 0 ->
  div_lo a b c d <= Z.quot x y <= div_hi a b c d.
Proof.
  intros Hx Hy N. unfold div_lo, div_hi.
  destruct (Z.leb_spec 1 c); [apply pos_q_bounds; lia|].
  destruct (Z.leb_spec d (-1)); [apply neg_q_bounds; lia|].
  destruct (Z_lt_dec 0 y).
  - pose proof (pos_q_bounds a b 1 d x y). lia.
  - pose proof (neg_q_bounds a b c (-1) x y). lia.
Qed.

(** The bounds are quotients of operand values. *)
Definition quot_of (a b c d z : Z) : Prop :=
  exists x y, a <= x <= b /\ c <= y <= d /\ y <> 0 /\ z = Z.quot x y.

Lemma pos_q_attained a b c d : a <= b -> 1 <= c <= d ->
  quot_of a b c d (pos_qlo a b c d) /\ quot_of a b c d (pos_qhi a b c d).
Proof.
  intros. unfold pos_qlo, pos_qhi, quot_of.
  split; [destruct (a <? 0); [exists a, c | exists a, d]
         |destruct (b <? 0); [exists b, d | exists b, c]]; repeat split; lia.
Qed.
Lemma neg_q_attained a b c d : a <= b -> c <= d <= -1 ->
  quot_of a b c d (neg_qlo a b c d) /\ quot_of a b c d (neg_qhi a b c d).
Proof.
  intros. unfold neg_qlo, neg_qhi, quot_of.
  split; [destruct (0 <=? b); [exists b, d | exists b, c]
         |destruct (0 <=? a); [exists a, c | exists a, d]]; repeat split; lia.
Qed.
Lemma quot_of_mono a b c d c' d' z : quot_of a b c' d' z -> c <= c' -> d' <= d -> quot_of a b c d z.
Proof. intros (x & y & ? & ? & ? & ?) ? ?. exists x, y. repeat split; auto; lia. Qed.

Lemma div_attained a b c d : a <= b -> c <= d -> c <> 0 -> d <> 0 ->
  quot_of a b c d (div_lo a b c d) /\ quot_of a b c d (div_hi a b c d).
Proof.
  intros Hab Hcd N1 N2. unfold div_lo, div_hi.
  destruct (Z.leb_spec 1 c); [apply pos_q_attained; lia|].
  destruct (Z.leb_spec d (-1)); [apply neg_q_attained; lia|].
  destruct (pos_q_attained a b 1 d) as [P1 P2]; try lia.
  destruct (neg_q_attained a b c (-1)) as [M1 M2]; try lia.
  split.
  - destruct (Z.min_spec (pos_qlo a b 1 d) (neg_qlo a b c (-1))) as [[_ ->] | [_ ->]];
      eapply quot_of_mono; eauto; lia.
  - destruct (Z.max_spec (pos_qhi a b 1 d) (neg_qhi a b c (-1))) as [[_ ->] | [_ ->]];
      eapply quot_of_mono; eauto; lia.
Qed.

(** Operands that share a built-in type have quotients above -2^127 - 1. *)
Definition common_ok (a b c d : Z) : Prop :=
  0 <= a /\ 0 <= c \/ b <= ty_max I128 /\ d <= ty_max I128.

Lemma quot_lower a b c d x y : in128 a -> in128 b -> in128 c -> in128 d -> common_ok a b c d ->
  a <= x <= b -> c <= y <= d -> y <> 0 -> ty_min I128 <= Z.quot x y.
Proof.
  unfold in128, common_ok. intros. rewrite quot_abs by auto.
  pose proof (div_le_self (Z.abs x) (Z.abs y) ltac:(lia) ltac:(lia)).
  destruct (Z.ltb_spec x 0), (Z.ltb_spec y 0); cbn in *; lia.
Qed.

Lemma positive_divisor_spec (lmin lmax rmin rmax : tval) :
  wf_tv lmin -> wf_tv lmax -> wf_tv rmin -> wf_tv rmax -> 1 <= vl rmin <= vl rmax ->
  vl lmin <= vl lmax ->
  exists mn mx, positive_divisor_division lmin lmax rmin rmax = Some (mn, mx) /\
    wf_tv mn /\ wf_tv mx /\
    (common_ok (vl lmin) (vl lmax) (vl rmin) (vl rmax) ->
     vl mn = pos_qlo (vl lmin) (vl lmax) (vl rmin) (vl rmax) /\
     vl mx = pos_qhi (vl lmin) (vl lmax) (vl rmin) (vl rmax)).
Proof.
  intros W1 W2 W3 W4 Hr Hl. unfold positive_divisor_division, pos_qlo, pos_qhi.
  rewrite !clt0_spec by auto.
  set (dl := if vl lmin <? 0 then rmin else rmax). set (dh := if vl lmax <? 0 then rmax else rmin).
  assert (wf_tv dl /\ vl rmin <= vl dl <= vl rmax) as [Wl Dl]
    by (subst dl; destruct (vl lmin <? 0); auto with zarith).
  assert (wf_tv dh /\ vl rmin <= vl dh <= vl rmax) as [Wh Dh]
    by (subst dh; destruct (vl lmax <? 0); auto with zarith).
  destruct (safer_divide_spec lmin dl W1 Wl ltac:(lia)) as (v1 & -> & F1 & E1).
  destruct (safer_divide_spec lmax dh W2 Wh ltac:(lia)) as (v2 & -> & F2 & E2).
  cbn [obind]. exists v1, v2. split; [auto|]. split; [auto|]. split; [auto|]. intros C. split.
  - rewrite E1; [subst dl; destruct (vl lmin <? 0); reflexivity|].
    apply (quot_lower (vl lmin) (vl lmax) (vl rmin) (vl rmax)); auto using wf_in128; lia.
  - rewrite E2; [subst dh; destruct (vl lmax <? 0); reflexivity|].
    apply (quot_lower (vl lmin) (vl lmax) (vl rmin) (vl rmax)); auto using wf_in128; lia.
Qed.

Lemma negative_divisor_spec (lmin lmax rmin rmax : tval) :
  wf_tv lmin -> wf_tv lmax -> wf_tv rmin -> wf_tv rmax -> vl rmin <= vl rmax <= -1 ->
  vl lmin <= vl lmax ->
  exists mn mx, negative_divisor_division lmin lmax rmin rmax = Some (mn, mx) /\
    wf_tv mn /\ wf_tv mx /\
    (common_ok (vl lmin) (vl lmax) (vl rmin) (vl rmax) ->
     vl mn = neg_qlo (vl lmin) (vl lmax) (vl rmin) (vl rmax) /\
     vl mx = neg_qhi (vl lmin) (vl lmax) (vl rmin) (vl rmax)).
Proof.
  intros W1 W2 W3 W4 Hr Hl. unfold negative_divisor_division, neg_qlo, neg_qhi.
  rewrite !cge0_spec by auto.
  set (dh := if 0 <=? vl lmax then rmax else rmin). set (dl := if 0 <=? vl lmin then rmin else rmax).
  assert (wf_tv dl /\ vl rmin <= vl dl <= vl rmax) as [Wl Dl]
    by (subst dl; destruct (0 <=? vl lmin); auto with zarith).
  assert (wf_tv dh /\ vl rmin <= vl dh <= vl rmax) as [Wh Dh]
    by (subst dh; destruct (0 <=? vl lmax); auto with zarith).
  destruct (safer_divide_spec lmax dh W2 Wh ltac:(lia)) as (v1 & -> & F1 & E1).
  destruct (safer_divide_spec lmin dl W1 Wl ltac:(lia)) as (v2 & -> & F2 & E2).
  cbn [obind]. exists v1, v2. split; [auto|]. split; [auto|]. split; [auto|]. intros C. split.
  - rewrite E1; [subst dh; destruct (0 <=? vl lmax); reflexivity|].
    apply (quot_lower (vl lmin) (vl lmax) (vl rmin) (vl rmax)); auto using wf_in128; lia.
  - rewrite E2; [subst dl; destruct (0 <=? vl lmin); reflexivity|].
    apply (quot_lower (vl lmin) (vl lmax) (vl rmin) (vl rmax)); auto using wf_in128; lia.
Qed.

Lemma common_ok_mono a b c d c' d' : common_ok a b c d -> c <= d ->
  (c' = c \/ (c' = 1 /\ 1 <= d)) -> (d' = d \/ (d' = -1 /\ c <= -1)) -> common_ok a b c' d'.
Proof. unfold common_ok. cbn. lia. Qed.

Lemma divides_range_spec (lmin lmax rmin rmax : tval) :
  wf_tv lmin -> wf_tv lmax -> wf_tv rmin -> wf_tv rmax ->
  vl lmin <= vl lmax -> vl rmin <= vl rmax -> vl rmin <> 0 -> vl rmax <> 0 ->
  exists mn mx, divides_operator_range lmin lmax rmin rmax = Some (mn, mx) /\
    wf_tv mn /\ wf_tv mx /\
    (common_ok (vl lmin) (vl lmax) (vl rmin) (vl rmax) ->
     vl mn = div_lo (vl lmin) (vl lmax) (vl rmin) (vl rmax) /\
     vl mx = div_hi (vl lmin) (vl lmax) (vl rmin) (vl rmax)).
Proof.
  intros W1 W2 W3 W4 Hl Hr N1 N2. unfold divides_operator_range.
  destruct (constant_value_spec 1) as (t1 & C1 & G1); [unfold in128; cbn; lia|].
  destruct (constant_value_spec (-1)) as (t2 & C2 & G2); [unfold in128; cbn; lia|].
  change (lit 1) with (nt 1). change (lit (-1)) with (nt (-1)). rewrite C1, C2. cbn [obind].
  rewrite !safe_compare_spec by auto. cbn [vl]. rewrite ord_lt_compare, ord_le_compare.
  unfold div_lo, div_hi.
  destruct (Z.ltb_spec (vl rmin) 1); cbn [negb].
  - destruct (Z.leb_spec 1 (vl rmin)); [lia|].
    destruct (Z.leb_spec (vl rmax) (-1)).
    + apply negative_divisor_spec; auto; lia.
    + destruct (positive_divisor_spec lmin lmax (TV t1 1) rmax) as (p1 & p2 & -> & F1 & F2 & E);
        auto; [cbn [vl]; lia|].
      destruct (negative_divisor_spec lmin lmax rmin (TV t2 (-1))) as (n1 & n2 & -> & F3 & F4 & E');
        auto; [cbn [vl]; lia|].
      cbn [obind vl] in *.
      destruct (safe_min_spec p1 n1) as (M1 & M2 & _); auto.
      destruct (safe_max_spec p2 n2) as (M3 & M4 & _); auto.
      eexists _, _. split; [reflexivity|]. split; [auto|]. split; [auto|]. intros C.
      destruct E as [E1 E2]; [eapply common_ok_mono; eauto; lia|].
      destruct E' as [E3 E4]; [eapply common_ok_mono; eauto; lia|].
      rewrite M1, M3, E1, E2, E3, E4. auto.
  - destruct (Z.leb_spec 1 (vl rmin)); [|lia]. apply positive_divisor_spec; auto; lia.
Qed.

Lemma uac_self t : uac t t = promote t.
Proof. destruct t; reflexivity. Qed.

Lemma cdiv_self t x y : ty_min t <= x <= ty_max t -> ty_min t <= y <= ty_max t -> y <> 0 ->
  ty_min t <= Z.quot x y <= ty_max t ->
  cdiv (TV t x) (TV t y) = Ok (TV (promote t) (Z.quot x y)).
Proof.
  intros Hx Hy N Hq. unfold cdiv, usual. cbn [ty vl]. rewrite uac_self.
  rewrite !wrap_id by now apply promote_range. destruct (Z.eqb_spec y 0); [lia|].
  now rewrite arith_ok by now apply promote_range.
Qed.

Definition div_common_lo (A B : bty) : Z :=
  Z.min (Z.min (div_lo (lo A) (hi A) (lo B) (hi B)) (lo A)) (lo B).
Definition div_common_hi (A B : bty) : Z :=
  Z.max (Z.max (div_hi (lo A) (hi A) (lo B) (hi B)) (hi A)) (hi B).

Lemma divide_zero A B x y : valid B -> lo B = 0 \/ hi B = 0 -> divide A B x y = None.
Proof.
  intros (W3 & W4 & _) H. unfold divide. rewrite !ceq0_spec by auto. unfold lo, hi in H.
  destruct (Z.eqb_spec (vl (bmin B)) 0); cbn [negb guard obind]; auto.
  destruct (Z.eqb_spec (vl (bmax B)) 0); cbn [negb guard obind]; auto. lia.
Qed.

Lemma divide_spec A B x y : valid A -> valid B -> holds_value A x -> holds_value B y ->
  y <> 0 -> lo B <> 0 -> hi B <> 0 ->
  divide A B x y =
  if reprb (div_common_lo A B) (div_common_hi A B)
  then Some (bt (div_lo (lo A) (hi A) (lo B) (hi B)) (div_hi (lo A) (hi A) (lo B) (hi B)),
             Ok (Z.quot x y)) else None.
Proof.
  intros HA HB Hx Hy Ny N1 N2. unfold divide.
  destruct (valid_inv _ HA) as [RA EA]. destruct (valid_inv _ HB) as [RB EB].
  pose proof HA as (W1 & W2 & _). pose proof HB as (W3 & W4 & _).
  rewrite !ceq0_spec by auto. fold (lo B) (hi B).
  destruct (Z.eqb_spec (lo B) 0); [lia|]. destruct (Z.eqb_spec (hi B) 0); [lia|].
  cbn [negb guard obind]. unfold holds_value in *.
  destruct (representable_in128 _ _ RA) as [IA1 IA2]. destruct (representable_in128 _ _ RB) as [IB1 IB2].
  assert (bmin A = nt (lo A)) as -> by (now rewrite EA at 1).
  assert (bmax A = nt (hi A)) as -> by (now rewrite EA at 1).
  assert (bmin B = nt (lo B)) as -> by (now rewrite EB at 1).
  assert (bmax B = nt (hi B)) as -> by (now rewrite EB at 1).
  destruct (constant_value_spec (lo A) IA1) as (t1 & -> & G1).
  destruct (constant_value_spec (hi A) IA2) as (t2 & -> & G2).
  destruct (constant_value_spec (lo B) IB1) as (t3 & -> & G3).
  destruct (constant_value_spec (hi B) IB2) as (t4 & -> & G4). cbn [obind].
  destruct (divides_range_spec _ _ _ _ G1 G2 G3 G4) as (mn & mx & -> & F1 & F2 & E);
    cbn [vl]; auto; try lia. cbn [obind vl] in *.
  rewrite mk_integer_norm by auto.
  destruct (safe_min_n_spec mn [nt (lo A); nt (lo B)]) as [S1 S2]; auto using nt_wf.
  destruct (safe_max_n_spec mx [nt (hi A); nt (hi B)]) as [S3 S4]; auto using nt_wf.
  rewrite determine_type_spec by auto. rewrite S2, S4. cbn [map fold_left]. rewrite !nt_vl.
  destruct (div_bounds (lo A) (hi A) (lo B) (hi B) x y Hx Hy Ny) as [Q1 Q2].
  assert (common_ok (lo A) (hi A) (lo B) (hi B) \/ ~ common_ok (lo A) (hi A) (lo B) (hi B)) as [C | C]
    by (unfold common_ok; lia).
  - destruct (E C) as [E1 E2]. rewrite E1, E2.
    fold (div_common_lo A B). fold (div_common_hi A B).
    destruct (reprb (div_common_lo A B) (div_common_hi A B)) eqn:R.
    + assert (reprb (div_lo (lo A) (hi A) (lo B) (hi B)) (div_hi (lo A) (hi A) (lo B) (hi B)) = true) as RR
        by (unfold reprb, div_common_lo, div_common_hi in *; lia).
      rewrite RR. cbn [obind]. apply reprb_spec in R. apply reprb_spec in RR.
      rewrite (und_storage _ _ R). cbn [obind].
      destruct (und_bounds _ _ R) as (U1 & U2 & U3).
      set (t := und (bt _ _)) in *.
      rewrite !to_builtin_spec by (auto; exact Hx || exact Hy). cbn [bind].
      unfold div_common_lo, div_common_hi in U1, U3.
      rewrite !wrap_id by lia. rewrite cdiv_self by lia.
      apply construct_ok; auto. apply promote_range. lia.
    + destruct (reprb (div_lo _ _ _ _) _); cbn [obind]; [|reflexivity].
      assert (storage (div_common_lo A B) (div_common_hi A B) = None) as ->; [|reflexivity].
      destruct (storage _ _) eqn:ST; auto. exfalso.
      assert (div_common_lo A B <= div_common_hi A B) as Hle
        by (unfold div_common_lo, div_common_hi; lia).
      assert (representable (div_common_lo A B) (div_common_hi A B)) as RR
        by (apply storage_representable; eauto).
      apply reprb_spec in RR. congruence.
  - assert (reprb (div_common_lo A B) (div_common_hi A B) = false) as ->.
    { unfold reprb, div_common_lo, div_common_hi, common_ok in *. lia. }
    destruct (reprb (vl mn) (vl mx)); cbn [obind]; [|reflexivity].
    match goal with |- context [storage ?a ?b] => assert (storage a b = None) as -> end;
      [|reflexivity].
    destruct (storage _ _) as [t|] eqn:ST; auto. exfalso.
    apply storage_some in ST. rewrite !in_ty_spec in ST. unfold common_ok in C.
    destruct t; cbn in *; lia.
Qed.

(** ** Modulus *)
Lemma mod_bounds x y : 0 <= x -> 1 <= y -> 0 <= x mod y <= Z.min x (y - 1).
Proof.
  intros. pose proof (Z.mod_pos_bound x y ltac:(lia)). pose proof (Z.mod_le x y ltac:(lia) ltac:(lia)). lia.
Qed.

Lemma modulo_round_spec dmin dmax d : 0 <= dmin <= dmax -> 1 <= d ->
  tightest (fun z => exists x, dmin <= x <= dmax /\ z = x mod d)
    (fst (modulo_round dmin dmax d)) (snd (modulo_round dmin dmax d)).
Proof.
  intros H Hd. unfold modulo_round, tightest. destruct (Z.eqb_spec (dmin / d) (dmax / d)) as [E | N].
  - cbn [fst snd]. repeat split.
    + exists dmin. split; [lia | reflexivity].
    + exists dmax. split; [lia | reflexivity].
    + destruct H0 as (x & Hx & ->).
      pose proof (Z.div_le_mono dmin x d ltac:(lia) ltac:(lia)).
      pose proof (Z.div_le_mono x dmax d ltac:(lia) ltac:(lia)).
      assert (x / d = dmin / d) by lia. rewrite !Z.mod_eq by lia. rewrite H2. lia.
    + destruct H0 as (x & Hx & ->).
      pose proof (Z.div_le_mono dmin x d ltac:(lia) ltac:(lia)).
      pose proof (Z.div_le_mono x dmax d ltac:(lia) ltac:(lia)).
      assert (x / d = dmax / d) by lia. rewrite !Z.mod_eq by lia. rewrite H2. lia.
  - cbn [fst snd].
    pose proof (Z.div_le_mono dmin dmax d ltac:(lia) ltac:(lia)).
    pose proof (Z.mul_div_le dmax d ltac:(lia)).
    assert (dmin < d * (dmax / d)).
    { pose proof (Z.mul_succ_div_gt dmin d ltac:(lia)). nia. }
    repeat split.
    + exists (d * (dmax / d)). split; [lia|]. rewrite Z.mul_comm, Z.mod_mul; lia.
    + exists (d * (dmax / d) - 1). split; [lia|].
      apply Z.mod_unique_pos with (dmax / d - 1); lia.
    + destruct H3 as (x & Hx & ->). apply (mod_bounds x d); lia.
    + destruct H3 as (x & Hx & ->). pose proof (mod_bounds x d). lia.
Qed.

Definition rem_of (dmin dmax p q z : Z) : Prop :=
  exists x y, dmin <= x <= dmax /\ p <= y <= q /\ z = x mod y.

Lemma tightest_extend dmin dmax p d cmin cmax rmin rmax :
  p < d -> tightest (rem_of dmin dmax p (d - 1)) cmin cmax ->
  tightest (fun z => exists x, dmin <= x <= dmax /\ z = x mod d) rmin rmax ->
  tightest (rem_of dmin dmax p d) (Z.min cmin rmin) (Z.max cmax rmax).
Proof.
  intros Hpd (C1 & C2 & C3) (R1 & R2 & R3). unfold tightest. repeat split.
  - destruct (Z.min_spec cmin rmin) as [[_ ->] | [_ ->]].
    + destruct C1 as (x & y & ? & ? & ?). exists x, y. repeat split; auto; lia.
    + destruct R1 as (x & ? & ?). exists x, d. repeat split; auto; lia.
  - destruct (Z.max_spec cmax rmax) as [[_ ->] | [_ ->]].
    + destruct R2 as (x & ? & ?). exists x, d. repeat split; auto; lia.
    + destruct C2 as (x & y & ? & ? & ?). exists x, y. repeat split; auto; lia.
  - destruct H as (x & y & ? & ? & ->). destruct (Z.eq_dec y d).
    + subst y. specialize (R3 (x mod d) ltac:(eauto)). lia.
    + specialize (C3 (x mod y) ltac:(exists x, y; repeat split; lia)). lia.
  - destruct H as (x & y & ? & ? & ->). destruct (Z.eq_dec y d).
    + subst y. specialize (R3 (x mod d) ltac:(eauto)). lia.
    + specialize (C3 (x mod y) ltac:(exists x, y; repeat split; lia)). lia.
Qed.

Lemma tightest_one dmin dmax p rmin rmax :
  tightest (fun z => exists x, dmin <= x <= dmax /\ z = x mod p) rmin rmax ->
  tightest (rem_of dmin dmax p p) rmin rmax.
Proof.
  intros (R1 & R2 & R3). unfold tightest. split; [|split].
  - destruct R1 as (x & ? & ?). exists x, p. repeat split; auto; lia.
  - destruct R2 as (x & ? & ?). exists x, p. repeat split; auto; lia.
  - intros z (x & y & ? & ? & ->). assert (y = p) as -> by lia. apply R3. eauto.
Qed.

Lemma sign_free_spec dmin dmax p q : 0 <= dmin <= dmax -> dmax <= ty_max U128 ->
  1 <= p <= q -> q <= ty_max U128 ->
  exists m M, sign_free_value dmin dmax p q = Some (m, M) /\
    tightest (rem_of dmin dmax p q) m M.
Proof.
  intros Hd Hdm Hp Hq. unfold sign_free_value. destruct (Z.ltb_spec dmax p).
  - exists dmin, dmax. split; [reflexivity|]. unfold tightest, rem_of. split; [|split].
    + exists dmin, p. repeat split; try lia. now rewrite Z.mod_small by lia.
    + exists dmax, p. repeat split; try lia. now rewrite Z.mod_small by lia.
    + intros z (x & y & ? & ? & ->). rewrite Z.mod_small; lia.
  - pose (Inv := fun s : Z * (Z * Z) => p <= fst s <= q /\
      ((fst s = p /\ snd s = (ty_max U128, 0)) \/
       (p < fst s /\ tightest (rem_of dmin dmax p (fst s - 1)) (fst (snd s)) (snd (snd s))))).
    pose (Post := fun r : Z * Z => tightest (rem_of dmin dmax p q) (fst r) (snd r)).
    pose (m := fun s : Z * (Z * Z) => q - fst s).
    destruct (loop_total Inv Post m (sign_free_step dmin dmax q))
      with (p := 340282366920938463463374607431768211456%positive) (s := (p, (ty_max U128, 0)))
      as ([r1 r2] & -> & HP).
    + intros s [Hs _]. unfold m. lia.
    + intros [d [cmin cmax]] [Hs HI]. cbn [fst snd] in Hs, HI. unfold sign_free_step.
      rewrite (wrap_id U128 (q - 1)) by (cbn in *; lia).
      destruct (negb (cmin =? 0) || _) eqn:G.
      * pose proof (modulo_round_spec dmin dmax d ltac:(lia) ltac:(lia)) as MR.
        destruct (modulo_round dmin dmax d) as [rmin rmax]. cbn [fst snd] in MR.
        assert (tightest (rem_of dmin dmax p d) (Z.min cmin rmin) (Z.max cmax rmax)) as T.
        { destruct HI as [[-> E] | [Lt T]].
          - injection E as -> ->. pose proof MR as (R1 & R2 & R3).
            destruct R1 as (x1 & Hx1 & R1). destruct R2 as (x2 & Hx2 & R2).
            pose proof (mod_bounds x1 p ltac:(lia) ltac:(lia)).
            pose proof (mod_bounds x2 p ltac:(lia) ltac:(lia)).
            rewrite Z.min_r by (cbn in Hdm; lia). rewrite Z.max_r by lia. apply tightest_one; auto.
          - apply tightest_extend; auto. }
        destruct (Z.eqb_spec d q).
        -- subst d. exact T.
        -- rewrite wrap_id by (cbn in *; lia). unfold Inv, m. cbn [fst snd].
           split; [|lia]. split; [lia|]. right. split; [lia|].
           replace (d + 1 - 1) with d by lia. exact T.
      * destruct HI as [[-> E] | [Lt (T1 & T2 & T3)]].
        { injection E as -> ->. exfalso. cbn in G. discriminate. }
        unfold Post. cbn [fst snd]. unfold tightest. split; [|split].
        -- destruct T1 as (x & y & ? & ? & ?). exists x, y. repeat split; auto; lia.
        -- destruct T2 as (x & y & ? & ? & ?). exists x, y. repeat split; auto; lia.
        -- intros z (x & y & Hx & Hy & ->). pose proof (mod_bounds x y ltac:(lia) ltac:(lia)). lia.
    + unfold Inv. cbn [fst snd]. split; [lia|]. left. auto.
    + unfold m. cbn [fst snd]. cbn in *. lia.
    + exists r1, r2. split; [reflexivity | exact HP].
Qed.

(** Remainders of the library's operands. *)
Definition rems (a b c d z : Z) : Prop :=
  exists x y, a <= x <= b /\ c <= y <= d /\ y <> 0 /\ z = Z.rem x y.

Lemma rem_abs x y : y <> 0 ->
  Z.rem x y = if x <? 0 then - (Z.abs x mod Z.abs y) else Z.abs x mod Z.abs y.
Proof.
  intros N. destruct (Z.ltb_spec x 0).
  - rewrite Z.abs_neq by lia. rewrite <- Z.rem_mod_nonneg by lia.
    rewrite <- (Z.opp_involutive x) at 1. rewrite Z.rem_opp_l by lia. f_equal.
    symmetry. now apply Z.rem_abs_r.
  - rewrite Z.abs_eq by lia. rewrite <- Z.rem_mod_nonneg by lia.
    symmetry. now apply Z.rem_abs_r.
Qed.

Definition abs_lo (c d : Z) : Z := if 0 <? c then c else if d <? 0 then - d else 1.
Definition abs_hi (c d : Z) : Z := Z.max (Z.abs c) (Z.abs d).

(** The magnitudes of the non-zero divisors fill [abs_lo, abs_hi]. *)
Lemma abs_divisor c d y : c <= y <= d -> y <> 0 -> abs_lo c d <= Z.abs y <= abs_hi c d.
Proof. unfold abs_lo, abs_hi. destruct (Z.ltb_spec 0 c), (Z.ltb_spec d 0); lia. Qed.
Lemma abs_divisor_all c d p : c <= d -> abs_lo c d <= p <= abs_hi c d ->
  exists y, c <= y <= d /\ y <> 0 /\ Z.abs y = p.
Proof.
  unfold abs_lo, abs_hi. intros H Hp. destruct (Z.ltb_spec 0 c), (Z.ltb_spec d 0).
  - lia.
  - exists p. lia.
  - exists (- p). lia.
  - destruct (Z_le_dec p d); [exists p; lia | exists (- p); lia].
Qed.

Lemma modulus_range_spec a b c d :
  in128 a -> in128 b -> in128 c -> in128 d -> a <= b -> c <= d -> ~ (c = 0 /\ d = 0) ->
  match modulus_operator_range (nt a) (nt b) (nt c) (nt d) with
  | Some (mn, mx) => wf_tv mn /\ wf_tv mx /\ tightest (rems a b c d) (vl mn) (vl mx)
  | None => ~ common_ok a b c d
  end.
Proof.
  intros Ia Ib Ic Id Hab Hcd Nz. unfold modulus_operator_range, cast.
  rewrite !safe_abs_spec by auto using nt_wf.
  change (lit 0) with (nt 0).
  rewrite !safe_compare_spec by (auto using nt_wf; apply nt_wf; unfold in128; cbn; lia).
  rewrite !ord_lt_compare, !ord_gt_compare. rewrite !nt_vl.
  rewrite cneg_u128, wrap_u128_neg. cbn [ct obind vl].
  assert (forall (P : Z -> option (tval * tval)),
    P (if 0 <? c then wrap U128 c else if d <? 0 then wrap U128 (- d) else 1) = P (abs_lo c d)) as EP.
  { intros P. f_equal. unfold abs_lo. unfold in128 in *.
    destruct (Z.ltb_spec 0 c); [apply wrap_id; cbn in *; lia|].
    destruct (Z.ltb_spec d 0); [apply wrap_id; cbn in *; lia | reflexivity]. }
  match goal with |- context [sign_free_value _ _ ?e _] =>
    replace e with (abs_lo c d) by (symmetry; apply (f_equal (fun o => match o with Some (v, _) => vl v | None => 0 end) (EP (fun z => Some (TV I8 z, TV I8 z)))))
  end.
  clear EP. fold (abs_hi c d).
  set (p := abs_lo c d). set (q := abs_hi c d).
  assert (1 <= p <= q /\ q <= ty_max U128) as [Hp Hq].
  { unfold p, q, abs_lo, abs_hi, in128 in *. destruct (Z.ltb_spec 0 c), (Z.ltb_spec d 0); cbn in *; lia. }
  set (n1 := if b <? 0 then Z.abs b else 0). set (n2 := if a <? 0 then Z.abs a else 0).
  set (p1 := if a <? 0 then 0 else a). set (p2 := if b <? 0 then 0 else b).
  assert (0 <= n1 <= n2 /\ n2 <= ty_max I128 + 1) as [Hn Hn'].
  { unfold n1, n2, in128 in *. destruct (Z.ltb_spec b 0), (Z.ltb_spec a 0); cbn in *; lia. }
  assert (0 <= p1 <= p2 /\ p2 <= ty_max U128) as [Hpp Hpp'].
  { unfold p1, p2, in128 in *. destruct (Z.ltb_spec b 0), (Z.ltb_spec a 0); cbn in *; lia. }
  destruct (sign_free_spec n1 n2 p q Hn) as (nm & nM & -> & TN); auto; [cbn in *; lia|].
  destruct (sign_free_spec p1 p2 p q Hpp) as (pm & pM & -> & TP); auto.
  cbn [obind fst snd].
  rewrite cneg_u128. cbn [ct obind vl].
  replace (wrap U128 (- wrap U128 (ty_min I128))) with 170141183460469231731687303715884105728
    by (vm_compute; reflexivity).
  assert (0 <= nm <= nM /\ nM <= n2) as [Bn Bn'].
  { destruct TN as (T1 & T2 & T3). pose proof (T3 _ T1) as T1'. pose proof (T3 _ T2) as T2'.
    destruct T1 as (x1 & y1 & ? & ? & ->). destruct T2 as (x2 & y2 & ? & ? & ->).
    pose proof (mod_bounds x1 y1). pose proof (mod_bounds x2 y2). lia. }
  assert (0 <= pm <= pM /\ pM <= p2) as [Bp Bp'].
  { destruct TP as (T1 & T2 & T3). pose proof (T3 _ T1) as T1'. pose proof (T3 _ T2) as T2'.
    destruct T1 as (x1 & y1 & ? & ? & ->). destruct T2 as (x2 & y2 & ? & ? & ->).
    pose proof (mod_bounds x1 y1). pose proof (mod_bounds x2 y2). lia. }
  assert (negb (a <? 0) || (nM <=? 170141183460469231731687303715884105728) = true) as -> by (cbn in *; lia).
  cbn [guard obind].
  (* the only rejection: a magnitude of 2^127 *)
  assert (nM = ty_max I128 + 1 -> ~ common_ok a b c d) as Rej.
  { intros E. destruct TN as (_ & T2 & _). destruct T2 as (x & y & Hx & Hy & Eq).
    pose proof (mod_bounds x y). unfold common_ok.
    unfold n2, q, abs_hi, in128 in *. destruct (Z.ltb_spec a 0); cbn in *; lia. }
  (* the exact range *)
  assert (tightest (rems a b c d) (if a <? 0 then - nM else pm) (if 0 <? b then pM else - nm)) as TR.
  { destruct TN as (N1 & N2 & N3). destruct TP as (P1 & P2 & P3).
    assert (forall z, a < 0 -> rem_of n1 n2 p q z -> rems a b c d (- z)) as Kn.
    { intros z Ha (x & y & Hx & Hy & ->).
      destruct (abs_divisor_all c d y Hcd Hy) as (y' & Hy' & Ny & Ey).
      exists (- x), y'. unfold n1, n2 in Hx.
      destruct (Z.ltb_spec a 0); [|lia].
      repeat split; auto; try (destruct (Z.ltb_spec b 0); lia).
      rewrite rem_abs by auto. rewrite Z.abs_opp, Ey.
      rewrite (Z.abs_eq x) by (destruct (Z.ltb_spec b 0); lia).
      destruct (Z.ltb_spec (- x) 0); [reflexivity|].
      assert (x = 0) as -> by (destruct (Z.ltb_spec b 0); lia).
      now rewrite Z.mod_0_l by lia. }
    assert (forall z, 0 <= b -> rem_of p1 p2 p q z -> rems a b c d z) as Kp.
    { intros z Hb (x & y & Hx & Hy & ->).
      destruct (abs_divisor_all c d y Hcd Hy) as (y' & Hy' & Ny & Ey).
      exists x, y'. unfold p1, p2 in Hx.
      destruct (Z.ltb_spec b 0); [lia|].
      repeat split; auto; try (destruct (Z.ltb_spec a 0); lia).
      rewrite rem_abs by auto. rewrite Ey.
      destruct (Z.ltb_spec x 0); [destruct (Z.ltb_spec a 0); lia|].
      now rewrite Z.abs_eq by lia. }
    split; [|split].
    - destruct (Z.ltb_spec a 0).
      + now apply Kn.
      + apply Kp; auto. lia.
    - destruct (Z.ltb_spec 0 b).
      + apply Kp; auto. lia.
      + destruct (Z.eq_dec a 0).
        * assert (b = 0) by lia. subst a b. cbn [Z.ltb Z.compare] in *.
          assert (nm = 0) as -> by (subst n2; cbn in *; lia).
          destruct (abs_divisor_all c d p Hcd ltac:(lia)) as (y' & Hy' & Ny & Ey).
          exists 0, y'. split; [lia|]. split; [auto|]. split; [auto|]. now rewrite Z.rem_0_l by lia.
        * apply Kn; auto. lia.
    - intros z (x & y & Hx & Hy & Ny & ->). rewrite rem_abs by auto.
      pose proof (abs_divisor c d y Hy Ny) as Ay. fold p q in Ay.
      pose proof (mod_bounds (Z.abs x) (Z.abs y) ltac:(lia) ltac:(lia)) as MB.
      destruct (Z.ltb_spec x 0).
      + assert (rem_of n1 n2 p q (Z.abs x mod Z.abs y)) as RO.
        { exists (Z.abs x), (Z.abs y). repeat split; try lia; unfold n1, n2;
            destruct (Z.ltb_spec b 0), (Z.ltb_spec a 0); lia. }
        specialize (N3 _ RO). destruct (Z.ltb_spec a 0); [|lia]. destruct (Z.ltb_spec 0 b); lia.
      + assert (rem_of p1 p2 p q (Z.abs x mod Z.abs y)) as RO.
        { exists (Z.abs x), (Z.abs y). repeat split; try lia; unfold p1, p2;
            destruct (Z.ltb_spec b 0), (Z.ltb_spec a 0); lia. }
        specialize (P3 _ RO). destruct (Z.ltb_spec 0 b); [destruct (Z.ltb_spec a 0); lia|].
        assert (x = 0) as -> by lia. cbn [Z.abs] in *. rewrite Z.mod_0_l in * by lia.
        destruct (Z.ltb_spec a 0).
        * assert (b = 0) by lia. subst b.
          assert (rem_of n1 n2 p q 0) as R0.
          { exists 0, p. split; [unfold n1; cbn [Z.ltb Z.compare]; lia|]. split; [lia|].
            now rewrite Z.mod_0_l by lia. }
          specialize (N3 _ R0). lia.
        * assert (a = 0) by lia. subst a. assert (b = 0) by lia. subst b.
          cbn [Z.ltb Z.compare] in *. subst n2. lia. }
  assert (nM <> ty_max I128 + 1 -> wrap I128 nM = nM /\ wrap I128 nm = nm) as Wn.
  { intros. split; apply wrap_id; cbn in *; lia. }
  destruct (Z.eq_dec nM (ty_max I128 + 1)) as [Eq | Ne].
  { (* rejected when the lower bound is needed; otherwise still fine *)
    assert (a < 0) as Ha.
    { destruct (Z.ltb_spec a 0); auto. unfold n2 in *. cbn in *. lia. }
    destruct (Z.ltb_spec a 0); [|lia]. cbn [orb].
    unfold cneg. cbn [ty vl promote]. rewrite Eq.
    replace (wrap I128 (ty_max I128 + 1)) with (ty_min I128) by (vm_compute; reflexivity).
    replace (arith I128 (- ty_min I128)) with (@UB tval) by (vm_compute; reflexivity).
    cbn [ct obind]. auto. }
  destruct (Wn Ne) as [W1 W2].
  unfold cneg. cbn [ty vl promote]. rewrite W1, W2.
  rewrite !(arith_ok I128) by (cbn in *; lia). cbn [ct obind vl].
  assert (forall z, 0 <= z <= ty_max U128 ->
    wrap (if z <=? ty_max I128 then I128 else U128) z = z) as WW.
  { intros z Hz. apply wrap_id. destruct (Z.leb_spec z (ty_max I128)); cbn in *; lia. }
  destruct (Z.ltb_spec a 0), (Z.ltb_spec 0 b); cbn [orb negb obind];
    (split; [apply wf_TV; apply wrap_range|]; split; [apply wf_TV; apply wrap_range|]);
    cbn [vl]; rewrite ?WW by (cbn in *; lia); rewrite ?(wrap_id I128 (- nM)), ?(wrap_id I128 (- nm)) by (cbn in *; lia);
    exact TR.
Qed.

Lemma valid_bounds B : valid B -> in128 (lo B) /\ in128 (hi B) /\ lo B <= hi B /\
  bmin B = nt (lo B) /\ bmax B = nt (hi B).
Proof.
  intros H. destruct (valid_inv _ H) as [R E]. destruct (representable_in128 _ _ R).
  split; [auto|]. split; [auto|]. split; [apply R|]. split; now rewrite E at 1.
Qed.

Lemma reprb_mono l h l' h' : reprb l h = true -> l <= l' -> h' <= h -> l' <= h' ->
  reprb l' h' = true.
Proof. unfold reprb. lia. Qed.

(** The common type of a result type and both operands. *)
Lemma common_type_3 l h A B : representable l h -> valid A -> valid B ->
  common_type_n (bt l h) [A; B] =
  if reprb (Z.min (Z.min l (lo A)) (lo B)) (Z.max (Z.max h (hi A)) (hi B))
  then Some (bt (Z.min (Z.min l (lo A)) (lo B)) (Z.max (Z.max h (hi A)) (hi B))) else None.
Proof.
  intros R HA HB. cbn [common_type_n]. rewrite common_type_spec by auto using valid_bt.
  rewrite lo_bt, hi_bt.
  destruct (valid_bounds _ HA) as (_ & _ & LA & _). destruct (valid_bounds _ HB) as (_ & _ & LB & _).
  pose proof (proj1 R) as LR.
  destruct (reprb (Z.min l (lo A)) (Z.max h (hi A))) eqn:E1; cbn [obind].
  - rewrite common_type_spec by (auto; apply valid_bt; now apply reprb_spec).
    rewrite lo_bt, hi_bt.
    now destruct (reprb (Z.min (Z.min l (lo A)) (lo B)) _).
  - destruct (reprb (Z.min (Z.min l (lo A)) (lo B)) _) eqn:E2; [|reflexivity].
    assert (reprb (Z.min l (lo A)) (Z.max h (hi A)) = true)
      by (eapply reprb_mono; [exact E2 | lia ..]). congruence.
Qed.

Lemma cmod_self t x y : ty_min t <= x <= ty_max t -> ty_min t <= y <= ty_max t -> y <> 0 ->
  cmod (TV t x) (TV t y) =
  if (y =? -1) && negb (in_ty (promote t) (- x)) then UB else Ok (TV (promote t) (Z.rem x y)).
Proof.
  intros Hx Hy N. unfold cmod, usual. cbn [ty vl]. rewrite uac_self.
  rewrite !wrap_id by now apply promote_range. destruct (Z.eqb_spec y 0); [lia|].
  destruct (Z.eqb_spec y (-1)) as [-> | N1].
  - change (-1) with (- (1)). rewrite Z.quot_opp_r, Z.quot_1_r by lia.
    cbn [andb]. destruct (in_ty (promote t) (- x)); reflexivity.
  - cbn [andb]. assert (in_ty (promote t) (Z.quot x y) = true) as ->; [|reflexivity].
    apply in_ty_spec. pose proof (promote_range t x Hx) as Px. pose proof (promote_range t y Hy) as Py.
    pose proof (ty_min_nonpos (promote t)). pose proof (ty_max_pos (promote t)).
    rewrite quot_abs by auto.
    pose proof (div_le_self (Z.abs x) (Z.abs y) ltac:(lia) ltac:(lia)) as D.
    destruct (Z.eq_dec y 1) as [-> | N2].
    { change (Z.abs 1) with 1 in *. rewrite Z.div_1_r in *.
      destruct (Z.ltb_spec x 0), (Z.ltb_spec 1 0); cbn [xorb]; lia. }
    assert (Z.abs x / Z.abs y <= Z.abs x / 2) as D2 by (apply Z.div_le_compat_l; lia).
    pose proof (Z.mul_div_le (Z.abs x) 2 ltac:(lia)).
    generalize dependent (Z.abs x / Z.abs y). intros k D D2.
    assert (k + k <= Z.abs x) as D3 by lia. clear - D D3 Px Py N N1 N2 Hx.
    destruct (Z.ltb_spec x 0), (Z.ltb_spec y 0); cbn [xorb]; destruct t;
      cbn [ty_min ty_max promote] in *; lia.
Qed.

Lemma tightest_unique P l h l' h' : tightest P l h -> tightest P l' h' -> l = l' /\ h = h'.
Proof. intros (A & B & C) (A' & B' & C'). pose proof (C _ A'). pose proof (C _ B'). pose proof (C' _ A). pose proof (C' _ B). lia. Qed.

Definition mod_common (A B : bty) (l h : Z) : bty :=
  bt (Z.min (Z.min l (lo A)) (lo B)) (Z.max (Z.max h (hi A)) (hi B)).

Lemma modulus_spec A B x y : valid A -> valid B -> holds_value A x -> holds_value B y -> y <> 0 ->
  (exists l h, tightest (rems (lo A) (hi A) (lo B) (hi B)) l h /\
    modulus A B x y =
    if reprb (lo (mod_common A B l h)) (hi (mod_common A B l h))
    then Some (bt l h,
               if (y =? -1) && negb (in_ty (promote (und (mod_common A B l h))) (- x)) then UB
               else Ok (Z.rem x y))
    else None) \/
  (~ common_ok (lo A) (hi A) (lo B) (hi B) /\ modulus A B x y = None).
Proof.
  intros HA HB Hx Hy N. unfold modulus.
  destruct (valid_bounds _ HA) as (IA1 & IA2 & LA & -> & ->).
  destruct (valid_bounds _ HB) as (IB1 & IB2 & LB & -> & ->).
  unfold holds_value in *.
  pose proof (modulus_range_spec (lo A) (hi A) (lo B) (hi B) IA1 IA2 IB1 IB2 LA LB ltac:(lia)) as MR.
  destruct (modulus_operator_range _ _ _ _) as [[mn mx]|]; [|right; auto].
  destruct MR as (W1 & W2 & T). left. exists (vl mn), (vl mx). split; [exact T|].
  cbn [obind]. rewrite mk_integer_norm by auto.
  set (l := vl mn) in *. set (h := vl mx) in *.
  assert (l <= Z.rem x y <= h) as Hr.
  { destruct T as (_ & _ & T3). apply T3. exists x, y. auto. }
  unfold mod_common. rewrite lo_bt, hi_bt.
  destruct (reprb l h) eqn:R; cbn [obind].
  - apply reprb_spec in R. rewrite common_type_3 by auto.
    destruct (reprb (Z.min _ _) _) eqn:R2; cbn [obind]; [|reflexivity].
    apply reprb_spec in R2. destruct (und_bounds _ _ R2) as (U1 & U2 & U3).
    set (t := und (bt _ _)) in *.
    rewrite !to_builtin_spec by (auto; exact Hx || exact Hy). cbn [bind].
    rewrite !wrap_id by lia. rewrite cmod_self by lia.
    destruct ((y =? -1) && _).
    + rewrite construct_type; auto. exists (Z.rem x y). split; auto. apply promote_range. lia.
    + apply construct_ok; auto. apply promote_range. lia.
  - assert (reprb (Z.min (Z.min l (lo A)) (lo B)) (Z.max (Z.max h (hi A)) (hi B)) = false) as ->;
      [|reflexivity].
    destruct (reprb (Z.min _ _) _) eqn:R2; auto.
    assert (reprb l h = true) by (eapply reprb_mono; [exact R2 | lia ..]). congruence.
Qed.

(** ** Shifts and bitwise and *)
Lemma cshl_i128 z v : 0 <= vl v < 128 ->
  cshl (TV I128 z) v = Ok (TV I128 (wrap I128 (z * 2 ^ vl v))).
Proof.
  intros H. unfold cshl. cbn [ty vl promote ty_bits].
  destruct (Z.leb_spec 0 (vl v)), (Z.ltb_spec (vl v) 128); try lia. reflexivity.
Qed.
Lemma cshr_i128 z v : 0 <= vl v < 128 ->
  cshr (TV I128 z) v = Ok (TV I128 (z / 2 ^ vl v)).
Proof.
  intros H. unfold cshr. cbn [ty vl promote ty_bits].
  destruct (Z.leb_spec 0 (vl v)), (Z.ltb_spec (vl v) 128); try lia. reflexivity.
Qed.

Lemma pow2_le_mono a b : a <= b -> 2 ^ a <= 2 ^ b.
Proof. intros. apply Z.pow_le_mono_r; lia. Qed.
Lemma pow2_pos n : 0 <= n -> 0 < 2 ^ n.
Proof. intros. apply Z.pow_pos_nonneg; lia. Qed.

(** A type that holds [2^y] or [-2^y] has more than [y] bits. *)
Lemma count_fits t y : 0 <= y -> 2 ^ y <= ty_max t \/ ty_min t <= - 2 ^ y -> y < ty_bits (promote t).
Proof.
  intros Hy H. destruct (Z_lt_dec y (ty_bits (promote t))); auto. exfalso.
  assert (2 ^ ty_bits (promote t) <= 2 ^ y) by (apply pow2_le_mono; lia).
  destruct t; cbn in *; lia.
Qed.

Lemma left_shift_spec A B x y : valid A -> valid B -> holds_value A x -> holds_value B y ->
  0 <= lo B -> hi B < 128 -> ~ (lo A = 0 /\ hi A = 0) -> (0 <= lo A \/ lo B = hi B) ->
  ty_min I128 <= lo A * 2 ^ lo B -> hi A * 2 ^ hi B <= ty_max I128 -> hi A <= ty_max I128 ->
  left_shift A B x y = Some (bt (lo A * 2 ^ lo B) (hi A * 2 ^ hi B), Ok (x * 2 ^ y)).
Proof.
  intros HA HB Hx Hy HlB HhB Nz Hs Hmin Hmax HA2. unfold left_shift.
  destruct (valid_bounds _ HA) as (IA1 & IA2 & LA & EA1 & EA2).
  destruct (valid_bounds _ HB) as (IB1 & IB2 & LB & EB1 & EB2).
  rewrite EA1, EA2, EB1, EB2. unfold holds_value, in128 in *.
  rewrite !cast_id by (rewrite nt_vl; cbn in *; lia). rewrite !nt_vl.
  rewrite !cshl_i128 by (rewrite nt_vl; lia). rewrite !nt_vl. cbn [ct obind].
  pose proof (pow2_pos (lo B) ltac:(lia)). pose proof (pow2_pos y ltac:(lia)).
  pose proof (pow2_pos (hi B) ltac:(lia)).
  pose proof (pow2_le_mono (lo B) y ltac:(lia)). pose proof (pow2_le_mono y (hi B) ltac:(lia)).
  assert (lo A * 2 ^ lo B <= x * 2 ^ y <= hi A * 2 ^ hi B) as Hr.
  { destruct Hs as [Hs | Hs].
    - split; apply Z.mul_le_mono_nonneg; lia.
    - replace y with (lo B) in * by lia. rewrite <- Hs in *. split; apply Z.mul_le_mono_nonneg_r; lia. }
  rewrite !wrap_id by (cbn in *; lia).
  rewrite mk_integer_norm by (apply wf_TV; cbn in *; lia). cbn [vl].
  assert (reprb (lo A * 2 ^ lo B) (hi A * 2 ^ hi B) = true) as R by (unfold reprb; cbn in *; lia).
  rewrite R. cbn [obind]. apply reprb_spec in R. rewrite common_type_3 by auto.
  assert (reprb (Z.min (Z.min (lo A * 2 ^ lo B) (lo A)) (lo B))
            (Z.max (Z.max (hi A * 2 ^ hi B) (hi A)) (hi B)) = true) as R2
    by (unfold reprb; cbn in *; lia).
  rewrite R2. cbn [obind]. apply reprb_spec in R2.
  destruct (und_bounds _ _ R2) as (U1 & U2 & U3). set (t := und (bt _ _)) in *.
  rewrite !to_builtin_spec by (auto; exact Hx || exact Hy). cbn [bind].
  rewrite !wrap_id by lia.
  assert (y < ty_bits (promote t)) as Hc.
  { apply count_fits; [lia|]. destruct (Z_le_dec 1 (hi A)).
    - left. assert (1 * 2 ^ hi B <= hi A * 2 ^ hi B) by (apply Z.mul_le_mono_nonneg_r; lia). lia.
    - right. destruct Hs as [Hs | Hs]; [lia|]. replace y with (lo B) by lia.
      assert (lo A * 2 ^ lo B <= (-1) * 2 ^ lo B) by (apply Z.mul_le_mono_nonneg_r; lia). lia. }
  unfold cshl. cbn [ty vl].
  destruct (Z.leb_spec 0 y), (Z.ltb_spec y (ty_bits (promote t))); try lia. cbn [andb].
  assert (ty_min (promote t) <= x * 2 ^ y <= ty_max (promote t)) as P by (apply promote_range; lia).
  rewrite wrap_id by auto. apply construct_ok; auto.
Qed.

Lemma right_shift_spec A B x y : valid A -> valid B -> holds_value A x -> holds_value B y ->
  0 <= lo B -> hi B < 128 -> (0 <= lo A \/ lo B = hi B) -> hi A <= ty_max I128 ->
  y < 32 \/ 2 ^ y <= hi A ->
  right_shift A B x y = Some (bt (lo A / 2 ^ hi B) (hi A / 2 ^ lo B), Ok (x / 2 ^ y)).
Proof.
  intros HA HB Hx Hy HlB HhB Hs HA2 Hc. unfold right_shift.
  destruct (valid_bounds _ HA) as (IA1 & IA2 & LA & EA1 & EA2).
  destruct (valid_bounds _ HB) as (IB1 & IB2 & LB & EB1 & EB2).
  rewrite EA1, EA2, EB1, EB2. unfold holds_value, in128 in *.
  rewrite !cast_id by (rewrite nt_vl; cbn in *; lia). rewrite !nt_vl.
  rewrite !cshr_i128 by (rewrite nt_vl; lia). rewrite !nt_vl. cbn [ct obind].
  pose proof (pow2_pos (lo B) ltac:(lia)). pose proof (pow2_pos y ltac:(lia)).
  pose proof (pow2_pos (hi B) ltac:(lia)).
  pose proof (pow2_le_mono (lo B) y ltac:(lia)). pose proof (pow2_le_mono y (hi B) ltac:(lia)).
  assert (forall z n, 0 <= n -> Z.min 0 z <= z / 2 ^ n <= Z.max 0 z) as Sh.
  { intros z n Hn. pose proof (pow2_pos n Hn).
    pose proof (Z.mul_div_le z (2 ^ n) ltac:(lia)). pose proof (Z.mul_succ_div_gt z (2 ^ n) ltac:(lia)).
    split; [destruct (Z_le_dec 0 z); [apply Z.le_trans with 0; [lia | apply Z.div_pos; lia] | nia]
           |destruct (Z_le_dec 0 z); nia]. }
  assert (lo A / 2 ^ hi B <= x / 2 ^ y <= hi A / 2 ^ lo B) as Hr.
  { pose proof (Z.div_le_mono (lo A) x (2 ^ y) ltac:(lia) ltac:(lia)).
    pose proof (Z.div_le_mono x (hi A) (2 ^ y) ltac:(lia) ltac:(lia)).
    destruct Hs as [Hs | Hs].
    - pose proof (Z.div_le_compat_l (lo A) (2 ^ y) (2 ^ hi B) ltac:(lia) ltac:(lia)).
      pose proof (Z.div_le_compat_l (hi A) (2 ^ lo B) (2 ^ y) ltac:(lia) ltac:(lia)). lia.
    - replace y with (lo B) in * by lia. rewrite <- Hs in *. lia. }
  pose proof (Sh (lo A) (hi B) ltac:(lia)). pose proof (Sh (hi A) (lo B) ltac:(lia)).
  rewrite mk_integer_norm by (apply wf_TV; cbn in *; lia). cbn [vl].
  assert (reprb (lo A / 2 ^ hi B) (hi A / 2 ^ lo B) = true) as R by (unfold reprb; cbn in *; lia).
  rewrite R. cbn [obind]. apply reprb_spec in R. rewrite common_type_3 by auto.
  assert (reprb (Z.min (Z.min (lo A / 2 ^ hi B) (lo A)) (lo B))
            (Z.max (Z.max (hi A / 2 ^ lo B) (hi A)) (hi B)) = true) as R2
    by (unfold reprb; cbn in *; lia).
  rewrite R2. cbn [obind]. apply reprb_spec in R2.
  destruct (und_bounds _ _ R2) as (U1 & U2 & U3). set (t := und (bt _ _)) in *.
  rewrite !to_builtin_spec by (auto; exact Hx || exact Hy). cbn [bind].
  rewrite !wrap_id by lia.
  assert (y < ty_bits (promote t)) as Hcc.
  { destruct Hc as [Hc | Hc]; [destruct t; cbn; lia | apply count_fits; [lia | left; lia]]. }
  unfold cshr. cbn [ty vl].
  destruct (Z.leb_spec 0 y), (Z.ltb_spec y (ty_bits (promote t))); try lia. cbn [andb].
  assert (ty_min (promote t) <= x / 2 ^ y <= ty_max (promote t)) as P by (apply promote_range; lia).
  apply construct_ok; auto.
Qed.

Lemma land_bounds x y : 0 <= x -> 0 <= y -> 0 <= Z.land x y <= Z.min x y.
Proof.
  intros Hx Hy. assert (0 <= Z.land x y) by (apply Z.land_nonneg; lia). split; auto.
  assert (forall a b, 0 <= a -> 0 <= b -> Z.land a b <= a) as L.
  { intros a b Ha Hb. apply Z.ldiff_le; [lia|]. 
    apply Z.bits_inj'. intros n Hn. rewrite Z.ldiff_spec, Z.land_spec, Z.bits_0.
    destruct (Z.testbit a n), (Z.testbit b n); reflexivity. }
  pose proof (L x y Hx Hy). pose proof (L y x Hy Hx). rewrite Z.land_comm in H1. lia.
Qed.

Lemma bitwise_and_spec A B x y : valid A -> valid B -> holds_value A x -> holds_value B y ->
  0 <= lo A -> 0 <= lo B ->
  bitwise_and A B x y = Some (bt 0 (Z.min (hi A) (hi B)), Ok (Z.land x y)).
Proof.
  intros HA HB Hx Hy PA PB. unfold bitwise_and.
  destruct (valid_bounds _ HA) as (IA1 & IA2 & LA & EA1 & EA2).
  destruct (valid_bounds _ HB) as (IB1 & IB2 & LB & EB1 & EB2).
  rewrite EA2, EB2. rewrite safe_compare_spec by auto using nt_wf. rewrite ord_lt_compare, !nt_vl.
  assert ((if hi B <? hi A then nt (hi B) else nt (hi A)) = nt (Z.min (hi A) (hi B))) as ->.
  { destruct (Z.ltb_spec (hi B) (hi A)); f_equal; lia. }
  unfold holds_value, in128 in *.
  change (lit 0) with (nt 0).
  rewrite mk_integer_norm by (apply nt_wf; unfold in128; cbn in *; lia). rewrite !nt_vl.
  assert (reprb 0 (Z.min (hi A) (hi B)) = true) as R by (unfold reprb; cbn in *; lia).
  rewrite R. cbn [obind]. apply reprb_spec in R. rewrite common_type_3 by auto.
  assert (reprb (Z.min (Z.min 0 (lo A)) (lo B)) (Z.max (Z.max (Z.min (hi A) (hi B)) (hi A)) (hi B)) = true) as R2
    by (unfold reprb; cbn in *; lia).
  rewrite R2. cbn [obind]. apply reprb_spec in R2.
  destruct (und_bounds _ _ R2) as (U1 & U2 & U3). set (t := und (bt _ _)) in *.
  rewrite !to_builtin_spec by (auto; exact Hx || exact Hy). cbn [bind].
  rewrite !wrap_id by lia. unfold cand, usual. cbn [ty vl]. rewrite uac_self.
  rewrite !wrap_id by (apply promote_range; lia).
  pose proof (land_bounds x y ltac:(lia) ltac:(lia)).
  apply construct_ok; auto; [lia | apply promote_range; lia].
Qed.
