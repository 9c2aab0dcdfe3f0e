(** * pow, log, digit counts and numeric limits *)

From Coq Require Import ZArith Lia Bool List.
From Verif Require Import Cxx CxxLemmas Core Spec CoreLemmas Arith ArithLemmas ArithProofs
  Funcs SpecFuncs SpecNum FuncLemmas FuncLemmas2 FuncLemmas3 CoreProofs TextLemmas TextLemmas2.
Import ListNotations.
Open Scope Z_scope.

Ltac Zify.zify_post_hook ::= idtac.

(** ** pow *)
Notation M128 := (2 ^ 128).
Lemma max_u128 : ty_max U128 = M128 - 1. Proof. reflexivity. Qed.

(** The overflow test of pow.cpp: the wrapped product divides back iff nothing wrapped. *)
Lemma overflow_test r b : 0 <= r < M128 -> 0 <= b < M128 ->
  (b =? 0) || (wrap U128 (r * b) / b =? r) = (r * b <? M128).
Proof.
  intros Hr Hb. rewrite wrap_mod. destruct (Z.eqb_spec b 0) as [->|N]; cbn [orb].
  - rewrite Z.mul_0_r. reflexivity.
  - destruct (Z.ltb_spec (r * b) M128) as [L|L].
    + rewrite Z.mod_small by nia. rewrite Z.div_mul by lia. apply Z.eqb_refl.
    + apply Z.eqb_neq. intros E.
      pose proof (Z.mul_div_le ((r * b) mod M128) b ltac:(lia)) as D. rewrite E in D.
      pose proof (Z.mod_eq (r * b) M128 ltac:(lia)) as ME.
      assert (1 <= r * b / M128) by (apply Z.div_le_lower_bound; lia). nia.
Qed.

Lemma pow_mono_r b m n : 1 <= b -> 0 <= m <= n -> b ^ m <= b ^ n.
Proof. intros. apply Z.pow_le_mono_r; lia. Qed.

Lemma pow_square_spec b e : 0 <= b < M128 -> 1 <= e < M128 ->
  exists r, loop 128 pow_square_step (b, e) = inr r /\
    ((r = UB /\ M128 <= b ^ e) \/
     exists b' e', r = Ok (b', e') /\ b' ^ e' = b ^ e /\ 0 <= b' < M128 /\ 1 <= e' < M128).
Proof.
  intros Hb He.
  apply (loop_total
    (fun s => fst s ^ snd s = b ^ e /\ 0 <= fst s < M128 /\ 1 <= snd s < M128)
    (fun r => (r = UB /\ M128 <= b ^ e) \/
     exists b' e', r = Ok (b', e') /\ b' ^ e' = b ^ e /\ 0 <= b' < M128 /\ 1 <= e' < M128)
    (fun s => Z.log2 (snd s))).
  - intros s _. apply Z.log2_nonneg.
  - intros [x n] (E & Hx & Hn). cbn [fst snd] in *. unfold pow_square_step.
    destruct (Z.eqb_spec (n mod 2) 0) as [Ev|Od].
    2:{ right. exists x, n. auto. }
    rewrite overflow_test by auto.
    assert (n = 2 * (n / 2)) as D by (pose proof (Z.div_mod n 2 ltac:(lia)); lia).
    assert (x ^ n = (x * x) ^ (n / 2)) as EP.
    { rewrite D at 1. rewrite Z.pow_mul_r by lia. now rewrite Z.pow_2_r. }
    destruct (Z.ltb_spec (x * x) M128) as [L|L].
    + assert (0 <= x * x) by nia. rewrite wrap_mod, Z.mod_small by lia. cbn [fst snd].
      split; [split; [congruence|]; lia|].
      rewrite D at 2. rewrite Z.log2_double by lia. lia.
    + left. split; [auto|]. rewrite <- E, EP.
      assert (x * x <= (x * x) ^ (n / 2)); [|lia].
      rewrite <- (Z.pow_1_r (x * x)) at 1. apply Z.pow_le_mono_r; lia.
  - cbn [fst snd]. auto.
  - cbn [snd]. assert (Z.log2 e < 128); [|lia]. apply Z.log2_lt_pow2; lia.
Qed.

Lemma pow_multiply_spec b e : 0 <= b < M128 -> 1 <= e < M128 ->
  exists r, loop (Z.to_pos e) (pow_multiply_step b e) (0, b) = inr r /\
    r = if b ^ e <? M128 then Ok (b ^ e) else UB.
Proof.
  intros Hb He.
  apply (loop_total
    (fun s => 0 <= fst s <= e - 1 /\ snd s = b ^ (fst s + 1) /\ 0 <= snd s < M128)
    (fun r => r = if b ^ e <? M128 then Ok (b ^ e) else UB)
    (fun s => e - 1 - fst s)).
  - intros [n r]. cbn [fst snd]. lia.
  - intros [n r] (Hn & E & Hr). cbn [fst snd] in *. unfold pow_multiply_step.
    assert (wrap U128 (e - 1) = e - 1) as -> by (rewrite wrap_mod; apply Z.mod_small; lia).
    destruct (Z.eqb_spec n (e - 1)) as [->|N].
    + replace (e - 1 + 1) with e in E by lia. rewrite <- E.
      destruct (Z.ltb_spec r M128); [auto|lia].
    + rewrite overflow_test by auto.
      assert (r * b = b ^ (n + 1 + 1)) as ES.
      { rewrite (Z.pow_add_r b (n + 1) 1) by lia. rewrite Z.pow_1_r. congruence. }
      destruct (Z.ltb_spec (r * b) M128) as [L|L].
      * assert (0 <= r * b) by nia.
        assert (wrap U128 (n + 1) = n + 1) as -> by (rewrite wrap_mod; apply Z.mod_small; lia).
        assert (wrap U128 (r * b) = r * b) as -> by (rewrite wrap_mod; apply Z.mod_small; lia). cbn [fst snd]. lia.
      * assert (1 <= b) by (destruct (Z.eq_dec b 0) as [->|]; lia).
        pose proof (pow_mono_r b (n + 1 + 1) e ltac:(lia) ltac:(lia)).
        destruct (Z.ltb_spec (b ^ e) M128); [lia|auto].
  - cbn [fst snd]. rewrite Z.pow_1_r. lia.
  - cbn [fst]. rewrite Z2Pos.id by lia. lia.
Qed.

Lemma pow_impl_spec b e : 0 <= b < M128 -> 0 <= e < M128 ->
  pow_impl b e =
  if (b =? 0) && (e =? 0) then UB else if b ^ e <? M128 then Ok (b ^ e) else UB.
Proof.
  intros Hb He. unfold pow_impl. destruct (Z.eqb_spec e 0) as [->|N].
  - rewrite andb_true_r. destruct (b =? 0); [reflexivity|]. rewrite Z.pow_0_r. reflexivity.
  - rewrite andb_false_r. destruct (pow_square_spec b e Hb ltac:(lia)) as (r & -> & [(-> & L)|(b' & e' & -> & E & Hb' & He')]).
    + destruct (Z.ltb_spec (b ^ e) M128); [lia|auto].
    + destruct (pow_multiply_spec b' e' Hb' He') as (r & -> & ->). now rewrite E.
Qed.

Definition pow_ok (A B : bty) : bool :=
  (0 <=? lo A) && (0 <=? lo B) && negb ((lo A =? 0) && (lo B =? 0)) && (hi A ^ hi B <? M128).

Lemma valid_max B : valid B -> hi B < M128.
Proof.
  intros V. destruct (valid_bounds _ V) as (_ & I & _). unfold in128 in I.
  rewrite max_u128 in I. lia.
Qed.

Lemma pow_le_mono a b x y : 0 <= a <= x -> 0 <= b <= y -> ~ (a = 0 /\ b = 0) -> a ^ b <= x ^ y.
Proof.
  intros Ha Hb N. destruct (Z.eq_dec a 0) as [->|].
  - rewrite Z.pow_0_l by lia. apply Z.pow_nonneg. lia.
  - transitivity (x ^ b); [apply Z.pow_le_mono_l; lia | apply Z.pow_le_mono_r; lia].
Qed.

Lemma pow_spec A B x y : valid A -> valid B -> holds_value A x -> holds_value B y ->
  pow A B x y =
  if pow_ok A B then Some (bt (lo A ^ lo B) (hi A ^ hi B), Ok (x ^ y)) else None.
Proof.
  intros VA VB Hx Hy. unfold pow. rewrite lit_nt by (cbn; lia). rewrite const_of_nt.
  assert (valid (cst 0)) as V0 by (apply valid_cst; unfold in128; cbn; lia).
  destruct (const_min _ VA) as [-> VcA]. destruct (const_min _ VB) as [-> VcB].
  rewrite !greater_equal_spec; auto; try apply holds_cst.
  cbn [ct obind]. unfold pow_ok, holds_value in *.
  pose proof (valid_max _ VA) as MA. pose proof (valid_max _ VB) as MB.
  pose proof (valid_le _ VA) as LA. pose proof (valid_le _ VB) as LB.
  destruct (Z.leb_spec 0 (lo B)) as [PB|]; cbn [guard obind andb];
    [|now rewrite andb_false_r].
  destruct (Z.leb_spec 0 (lo A)) as [PA|]; cbn [guard obind andb]; [|reflexivity].
  rewrite !wrap_mod, !Z.mod_small by lia. rewrite !pow_impl_spec by lia.
  destruct ((lo A =? 0) && (lo B =? 0)) eqn:Z0; cbn [negb andb ct obind]; [reflexivity|].
  assert (~ (lo A = 0 /\ lo B = 0)) as NZ by lia.
  assert ((hi A =? 0) && (hi B =? 0) = false) as -> by lia.
  pose proof (pow_le_mono _ _ _ _ (conj PA LA) (conj PB LB) NZ) as PL.
  destruct (Z.ltb_spec (hi A ^ hi B) M128) as [LH|LH].
  2:{ destruct (lo A ^ lo B <? M128); reflexivity. }
  destruct (Z.ltb_spec (lo A ^ lo B) M128) as [LL|LL]; [|lia]. cbn [ct obind].
  assert (0 <= lo A ^ lo B) as P0 by (apply Z.pow_nonneg; lia).
  assert (representable (lo A ^ lo B) (hi A ^ hi B)) as R.
  { apply representable_spec. split; [lia|]. right. rewrite max_u128. lia. }
  rewrite mk_integer_norm by (unfold wf_tv; cbn [ty vl ty_min]; rewrite max_u128; lia).
  cbn [vl]. rewrite (proj2 (reprb_spec _ _) R). cbn [obind].
  rewrite !to_builtin_spec by (auto using hv_iholds). cbn [bind vl].
  rewrite !wrap_mod, !Z.mod_small by lia. rewrite pow_impl_spec by lia.
  assert ((x =? 0) && (y =? 0) = false) as -> by lia.
  assert (lo A ^ lo B <= x ^ y) as B1 by (apply pow_le_mono; lia).
  assert (x ^ y <= hi A ^ hi B) as B2 by (apply pow_le_mono; lia).
  destruct (Z.ltb_spec (x ^ y) M128); [|lia]. cbn [bind].
  apply construct_ok; auto. cbn [ty_min]. rewrite max_u128. lia.
Qed.

(** ** log *)
Lemma is_log_unique b v k k' : 2 <= b -> 0 <= v -> is_log b v k -> is_log b v k' -> k = k'.
Proof.
  intros Hb Hv (P & Z0 & L) (P' & Z0' & L'). destruct (Z.eq_dec v 0) as [E|N]; [rewrite Z0, Z0'; auto|].
  specialize (L ltac:(lia)). specialize (L' ltac:(lia)).
  assert (k < k' + 1) by (apply (Z.pow_lt_mono_r_iff b); lia).
  assert (k' < k + 1) by (apply (Z.pow_lt_mono_r_iff b); lia). lia.
Qed.

Lemma cge_nonneg a b : wf_tv a -> wf_tv b -> 0 <= vl a -> 0 <= vl b -> cge a b = (vl b <=? vl a).
Proof. intros. unfold cge, cle. destruct (usual_nonneg b a) as [-> ->]; auto. Qed.
Lemma cdiv_nonneg a b : wf_tv a -> wf_tv b -> 0 <= vl a -> 0 < vl b ->
  exists t, cdiv a b = Ok (TV t (vl a / vl b)).
Proof.
  intros Wa Wb Pa Pb. unfold cdiv. destruct (usual_nonneg a b) as [Ea Eb]; auto; [lia|].
  rewrite Ea, Eb. destruct (Z.eqb_spec (vl b) 0); [lia|].
  rewrite Z.quot_div_nonneg by lia.
  assert (ty_min (usual a b) <= vl a / vl b <= ty_max (usual a b)) as B.
  { pose proof (wrap_range (usual a b) (vl a)) as Wr. rewrite Ea in Wr.
    assert (0 <= vl a / vl b) by (apply Z.div_pos; lia).
    assert (vl a / vl b <= vl a) by (apply Z.div_le_upper_bound; nia).
    pose proof (ty_min_nonpos (usual a b)). lia. }
  exists (usual a b). unfold arith. rewrite (proj2 (in_ty_spec _ _) B). rewrite wrap_id by auto.
  now destruct (is_signed (usual a b)).
Qed.

Lemma log_impl_spec v base : wf_tv v -> wf_tv base -> 0 <= vl v -> 2 <= vl base ->
  exists k, log_impl v base = Ok k /\ is_log (vl base) (vl v) k.
Proof.
  intros Wv Wb Pv Pb. unfold log_impl.
  assert (vl v < M128) as LV.
  { apply wf_in128 in Wv. unfold in128 in Wv. rewrite max_u128 in Wv. lia. }
  destruct (loop_total
    (fun s : tval * Z => ty (fst s) = ty v /\ wf_tv (fst s) /\ 0 <= vl (fst s) <= vl v /\ 0 <= snd s /\
      vl (fst s) = vl v / vl base ^ snd s /\ (0 < snd s -> 0 < vl (fst s)))
    (fun r => exists k, r = Ok k /\ is_log (vl base) (vl v) k)
    (fun s => Z.log2 (vl (fst s))) (log_step base)) with (p := 128%positive) (s := (v, 0))
    as (r & -> & k & -> & K).
  - intros s _. apply Z.log2_nonneg.
  - intros [u n] (T & W & B & Pn & E & NZ). cbn [fst snd] in *. unfold log_step.
    rewrite cge_nonneg by (auto; lia).
    destruct (Z.leb_spec (vl base) (vl u)) as [L|L].
    + destruct (cdiv_nonneg u base) as (t & ->); auto; try lia.
      assert (0 < vl u / vl base) as PQ by (apply Z.div_str_pos; lia).
      assert (2 * (vl u / vl base) <= vl u) as HQ.
      { pose proof (Z.mul_div_le (vl u) (vl base) ltac:(lia)). nia. }
      unfold cast. cbn [vl]. unfold wf_tv in W.
      rewrite wrap_id by (pose proof (ty_min_nonpos (ty u)); lia). cbn [fst snd ty vl].
      split.
      * split; [auto|]. split; [unfold wf_tv; cbn [ty vl]; pose proof (ty_min_nonpos (ty u)); lia|].
        split; [lia|]. split; [lia|]. split; [|lia].
        rewrite Z.pow_add_r, Z.pow_1_r by lia. rewrite E.
        rewrite Z.div_div; [auto| |lia]. pose proof (Z.pow_pos_nonneg (vl base) n); lia.
      * assert (Z.log2 (2 * (vl u / vl base)) <= Z.log2 (vl u)) by (apply Z.log2_le_mono; lia).
        rewrite Z.log2_double in H by lia. lia.
    + exists n. split; [auto|]. split; [auto|].
      assert (0 < vl base ^ n) as PP by (apply Z.pow_pos_nonneg; lia).
      pose proof (Z.mul_div_le (vl v) (vl base ^ n) PP) as D1.
      pose proof (Z.mul_succ_div_gt (vl v) (vl base ^ n) PP) as D2. rewrite <- E in D1, D2.
      split.
      * intros V0. destruct (Z.eq_dec n 0); [auto|]. specialize (NZ ltac:(lia)).
        rewrite V0 in E. rewrite Z.div_0_l in E by lia. lia.
      * intros PV. rewrite Z.pow_add_r, Z.pow_1_r by lia.
        destruct (Z.eq_dec n 0) as [->|]; [rewrite Z.pow_0_r in *; nia|]. specialize (NZ ltac:(lia)). nia.
  - cbn [fst snd]. rewrite Z.pow_0_r, Z.div_1_r. repeat split; auto; try apply Wv; lia.
  - cbn [fst]. destruct (Z.eq_dec (vl v) 0) as [->|]; [cbn; lia|]. apply Z.log2_lt_pow2; lia.
  - eauto.
Qed.

(** The value of the logarithm, as a function. *)
Definition flog (b v : Z) : Z :=
  match log_impl (TV U128 v) (TV U128 b) with Ok k => k | _ => 0 end.
Lemma flog_spec b v : 2 <= b < M128 -> 0 <= v < M128 -> is_log b v (flog b v).
Proof.
  intros Hb Hv. unfold flog.
  destruct (log_impl_spec (TV U128 v) (TV U128 b)) as (k & -> & K);
    try (unfold wf_tv; cbn [ty vl ty_min]; rewrite ?max_u128; lia). exact K.
Qed.
Lemma flog_eq b v k : 2 <= b < M128 -> 0 <= v < M128 -> is_log b v k -> k = flog b v.
Proof. intros. eapply is_log_unique; eauto; try lia. now apply flog_spec. Qed.
Lemma log_impl_flog v b : wf_tv v -> wf_tv b -> 0 <= vl v -> 2 <= vl b -> log_impl v b = Ok (flog (vl b) (vl v)).
Proof.
  intros Wv Wb Pv Pb. destruct (log_impl_spec v b) as (k & -> & K); auto. f_equal.
  apply wf_in128 in Wv, Wb. unfold in128 in *. rewrite max_u128 in *. apply flog_eq; auto; lia.
Qed.
Lemma flog_bounds b v : 2 <= b < M128 -> 0 <= v < M128 -> 0 <= flog b v <= 127.
Proof.
  intros Hb Hv. destruct (flog_spec b v Hb Hv) as (P & Z0 & L). split; [auto|].
  destruct (Z.eq_dec v 0); [lia|]. specialize (L ltac:(lia)).
  destruct (Z.le_gt_cases (flog b v) 127); [auto|exfalso].
  assert (M128 <= b ^ flog b v); [|lia].
  transitivity (2 ^ flog b v); [apply Z.pow_le_mono_r; lia|apply Z.pow_le_mono_l; lia].
Qed.
Lemma flog_mono b v w : 2 <= b < M128 -> 0 <= v <= w -> w < M128 -> flog b v <= flog b w.
Proof.
  intros Hb Hv Hw. destruct (flog_spec b v Hb ltac:(lia)) as (P & Z0 & L).
  destruct (flog_spec b w Hb ltac:(lia)) as (P' & Z0' & L').
  destruct (Z.eq_dec v 0); [lia|]. specialize (L ltac:(lia)). specialize (L' ltac:(lia)).
  assert (flog b v < flog b w + 1); [|lia]. apply (Z.pow_lt_mono_r_iff b); lia.
Qed.

Lemma as_unsigned_nonneg v : wf_tv v -> 0 <= vl v -> wf_tv (as_unsigned v) /\ vl (as_unsigned v) = vl v.
Proof.
  intros W P. unfold as_unsigned. split; [apply wrap_wf|]. unfold cast. cbn [vl].
  apply wrap_id. destruct v as [t z]. unfold wf_tv in W. cbn [ty vl] in *. destruct t; cbn in *; lia.
Qed.

Lemma log_spec ext A B x y : valid A -> valid B -> holds_value A x -> holds_value B y ->
  log ext A B x y =
  if (lo B =? hi B) && (1 <? lo B) && (0 <=? lo A)
  then Some (bt (flog (lo B) (lo A)) (flog (lo B) (hi A)), Ok (flog (lo B) x)) else None.
Proof.
  intros VA VB Hx Hy. unfold log. rewrite is_constant_valid by auto.
  destruct (Z.eqb_spec (lo B) (hi B)) as [CB|]; cbn [guard obind andb]; [|reflexivity].
  assert (y = lo B) as -> by (unfold holds_value in Hy; lia).
  rewrite !lit_nt by (cbn; lia). rewrite !const_of_nt.
  assert (valid (cst 0) /\ valid (cst 1) /\ valid (cst 2)) as (V0 & V1 & V2)
    by (repeat split; apply valid_cst; unfold in128; cbn; lia).
  rewrite greater_spec; auto; try apply holds_cst. cbn [ct obind].
  destruct (Z.ltb_spec 1 (lo B)) as [PB|]; cbn [guard obind andb]; [|reflexivity].
  destruct (const_min _ VA) as [-> VcA].
  rewrite greater_equal_spec; auto; try apply holds_cst. cbn [ct obind].
  destruct (Z.leb_spec 0 (lo A)) as [PA|]; cbn [guard obind andb]; [|reflexivity].
  pose proof (valid_le _ VA) as LA. pose proof (valid_max _ VA) as MA. pose proof (valid_max _ VB) as MB.
  unfold holds_value in Hx.
  assert (forall z, 0 <= z < M128 -> forall t, cast U128 (TV t z) = TV U128 z) as CU.
  { intros z Hz t. unfold cast. cbn [vl]. rewrite wrap_id; [auto|]. cbn [ty_min]. rewrite max_u128. lia. }
  assert (cast U128 (bmin A) = TV U128 (lo A)) as ->.
  { unfold lo in *. destruct (bmin A) as [t z]. cbn [vl] in *. apply CU. lia. }
  assert (cast U128 (bmax A) = TV U128 (hi A)) as ->.
  { unfold hi in *. destruct (bmax A) as [t z]. cbn [vl] in *. apply CU. lia. }
  assert (cast U128 (bmin B) = TV U128 (lo B)) as ->.
  { unfold lo in *. destruct (bmin B) as [t z]. cbn [vl] in *. apply CU. lia. }
  assert (cast U128 (bmax B) = TV U128 (lo B)) as ->.
  { rewrite CB. unfold hi in *. destruct (bmax B) as [t z]. cbn [vl] in *. apply CU. lia. }
  assert (forall z, 0 <= z < M128 -> wf_tv (TV U128 z)) as WU.
  { intros z Hz. unfold wf_tv. cbn [ty vl ty_min]. rewrite max_u128. lia. }
  rewrite !log_impl_flog by (auto using WU; cbn [vl]; try lia; apply WU; lia). cbn [vl ct obind].
  pose proof (flog_bounds (lo B) (lo A) ltac:(lia) ltac:(lia)) as F1.
  pose proof (flog_bounds (lo B) (hi A) ltac:(lia) ltac:(lia)) as F2.
  pose proof (flog_bounds (lo B) x ltac:(lia) ltac:(lia)) as F3.
  pose proof (flog_mono (lo B) (lo A) x ltac:(lia) ltac:(lia) ltac:(lia)) as G1.
  pose proof (flog_mono (lo B) x (hi A) ltac:(lia) ltac:(lia) ltac:(lia)) as G2.
  rewrite !lit_nt by (cbn; lia). rewrite mk_integer_nt by (unfold in128; cbn; lia).
  assert (representable (flog (lo B) (lo A)) (flog (lo B) (hi A))) as R by (apply repr_small; cbn; lia).
  rewrite (proj2 (reprb_spec _ _) R). cbn [obind].
  rewrite equal_spec; auto; try apply holds_cst. cbn [ct obind].
  assert (construct_unchecked (bt (flog (lo B) (lo A)) (flog (lo B) (hi A))) I32
     (Ok (lit (flog (lo B) x))) = Some (bt (flog (lo B) (lo A)) (flog (lo B) (hi A)), Ok (flog (lo B) x))) as CK.
  { apply construct_ok; auto; cbn; lia. }
  destruct ((lo B =? 2) && (ext || (ty_bits (und A) <? 128))) eqn:Two.
  - rewrite equal_spec; auto; try apply holds_cst. cbn [bind].
    destruct (Z.eqb_spec x 0) as [->|NX].
    + assert (0 = flog (lo B) 0) as E0 by (apply flog_eq; try lia; split; [lia|]; split; lia).
      rewrite <- E0 in CK. rewrite <- lit_nt by (cbn; lia). rewrite <- E0. exact CK.
    + rewrite value_valid by auto. cbn [bind].
      destruct (as_unsigned_nonneg (TV (und A) x)) as [WA EA].
      { pose proof (und_valid _ VA) as H. unfold holds in H. unfold wf_tv. cbn [ty vl]. lia. }
      { cbn [vl]. lia. }
      unfold bit_width. rewrite EA. cbn [vl]. destruct (Z.eqb_spec x 0); [lia|].
      replace (Z.log2 x + 1 - 1) with (flog (lo B) x); [exact CK|].
      symmetry. replace (Z.log2 x + 1 - 1) with (Z.log2 x) by lia.
      apply flog_eq; try lia. replace (lo B) with 2 by lia.
      split; [apply Z.log2_nonneg|]. split; [lia|]. intros PX.
      pose proof (Z.log2_spec x PX) as LS. now rewrite <- Z.add_1_r in LS.
  - rewrite !value_valid by auto. cbn [bind].
    destruct (as_unsigned_nonneg (TV (und A) x)) as [WA EA].
    { pose proof (und_valid _ VA) as H. unfold holds in H. unfold wf_tv. cbn [ty vl]. lia. }
    { cbn [vl]. lia. }
    destruct (as_unsigned_nonneg (TV (und B) (lo B))) as [WB EB].
    { pose proof (und_valid _ VB) as H. unfold holds in H. unfold wf_tv. cbn [ty vl]. lia. }
    { cbn [vl]. lia. }
    rewrite log_impl_flog by (auto; rewrite ?EA, ?EB; cbn [vl]; lia). cbn [bind].
    rewrite EA, EB. exact CK.
Qed.

(** ** Digit counts *)
Lemma log_cst ext v b : 0 <= v < M128 -> 2 <= b < M128 -> log ext (cst v) (cst b) v b = Some (cst (flog b v), Ok (flog b v)).
Proof.
  intros Hv Hb. assert (in128 v /\ in128 b) as [Iv Ib] by (unfold in128; rewrite max_u128; cbn; lia).
  rewrite log_spec by auto using valid_cst, holds_cst.
  unfold cst. rewrite !lo_bt, !hi_bt, Z.eqb_refl.
  destruct (Z.ltb_spec 1 b); [|lia]. destruct (Z.leb_spec 0 v); [|lia]. reflexivity.
Qed.
Lemma plus_cst a b : in128 a -> in128 b -> in128 (a + b) -> plus (cst a) (cst b) a b = Some (cst (a + b), Ok (a + b)).
Proof.
  intros. rewrite plus_spec by auto using valid_cst, holds_cst. unfold cst. rewrite !lo_bt, !hi_bt.
  now rewrite in128_reprb.
Qed.
Lemma negate_cst a : in128 a -> in128 (- a) -> negate (cst a) a = Some (cst (- a), Ok (- a)).
Proof.
  intros. rewrite negate_spec by auto using valid_cst, holds_cst. unfold cst. rewrite !lo_bt, !hi_bt.
  now rewrite in128_reprb.
Qed.

Definition slog (s b v : Z) : Z := if v =? 0 then 0 else if 0 <? v then flog b v else flog b (- v) + s.
Definition sgn_of (sign : count_sign) : Z := match sign with CountNegative => 1 | CountAll => 0 end.

Lemma in128_u z : 0 <= z < M128 -> in128 z.
Proof. unfold in128. rewrite max_u128. change (ty_min I128) with (- 2 ^ 127). lia. Qed.

Lemma safe_log_spec ext sign b v : in128 v -> 2 <= b < M128 ->
  safe_log ext sign (cst b) (nt v) = Some (cst (slog (sgn_of sign) b v), Ok (slog (sgn_of sign) b v)).
Proof.
  intros Iv Hb. unfold safe_log, slog. rewrite constant_t_nt by auto. cbn [obind].
  rewrite !(proj1 (cst_bounds _)).
  destruct (Z.eqb_spec v 0) as [->|N].
  { rewrite constant_t_lit by (cbn; lia). reflexivity. }
  assert (v < M128) as L by (unfold in128 in Iv; rewrite max_u128 in Iv; lia).
  destruct (Z.ltb_spec 0 v) as [P|P]; [apply log_cst; lia|].
  assert (0 <= - v < M128) as Bv.
  { unfold in128 in Iv. change (ty_min I128) with (- 2 ^ 127) in Iv. lia. }
  assert (0 <= sgn_of sign <= 1) as Bs by (destruct sign; cbn; lia).
  fold (sgn_of sign).
  rewrite constant_t_lit by (cbn in *; lia). cbn [obind].
  rewrite negate_cst by (auto; apply in128_u; auto). rewrite then_ok. rewrite log_cst by auto.
  rewrite then_ok. rewrite !(proj1 (cst_bounds _)).
  pose proof (flog_bounds b (- v) Hb Bv). apply plus_cst; apply in128_u; lia.
Qed.

Lemma slog_bounds s b v : in128 v -> 2 <= b < M128 -> 0 <= s <= 1 -> 0 <= slog s b v <= 128.
Proof.
  intros Iv Hb Hs. unfold slog. destruct (Z.eqb_spec v 0); [lia|].
  assert (v < M128 /\ - v < M128) as [L L'].
  { unfold in128 in Iv. rewrite max_u128 in Iv. change (ty_min I128) with (- 2 ^ 127) in Iv. lia. }
  destruct (Z.ltb_spec 0 v) as [P|P].
  - pose proof (flog_bounds b v Hb ltac:(lia)). lia.
  - pose proof (flog_bounds b (- v) Hb ltac:(lia)). lia.
Qed.

Definition sign_bit (sign : count_sign) (mn : Z) : Z :=
  match sign with CountAll => if mn <? 0 then 1 else 0 | CountNegative => 0 end.
Definition digits_value (sign : count_sign) (T : ity) (b : Z) : Z :=
  Z.max (slog (sgn_of sign) b (ilo T)) (slog (sgn_of sign) b (ihi T)) + sign_bit sign (ilo T) + 1.

Lemma digits_impl_spec ext sign T b : ivalid T -> 2 <= b < M128 ->
  digits_impl ext sign T (cst b) = Some (cst (digits_value sign T b), Ok (digits_value sign T b)).
Proof.
  intros V Hb. unfold digits_impl, digits_value.
  pose proof (ilo_in128 T V) as I1. pose proof (ihi_in128 T V) as I2.
  rewrite imin_spec, imax_spec by auto. rewrite clt0_spec by (now apply nt_wf). cbn [vl nt].
  fold (sign_bit sign (ilo T)).
  assert (0 <= sign_bit sign (ilo T) <= 1) as SB by (destruct sign; cbn; [destruct (ilo T <? 0)|]; lia).
  assert (0 <= sgn_of sign <= 1) as Bs by (destruct sign; cbn; lia).
  rewrite !constant_t_lit by (cbn in *; lia). cbn [obind].
  rewrite !safe_log_spec by auto. rewrite !then_ok.
  pose proof (slog_bounds _ b _ I1 Hb Bs) as B1. pose proof (slog_bounds _ b _ I2 Hb Bs) as B2.
  set (r1 := slog _ b (ilo T)) in *. set (r2 := slog _ b (ihi T)) in *. rewrite extreme2_spec;
    try apply holds_cst; try (apply valid_cst; apply in128_u; lia).
  cbn [pick]. rewrite !(proj1 (cst_bounds _)), !(proj2 (cst_bounds _)). fold (cst (Z.max r1 r2)).
  rewrite then_ok. rewrite plus_cst by (apply in128_u; lia). rewrite then_ok.
  apply plus_cst; apply in128_u; lia.
Qed.

(** ** Numeric limits *)
Definition limits_value (b l h : Z) : Z :=
  if (0 <? l) || (h <=? 0) then 0
  else if h =? M128 - 1 then (if b =? 2 then 128 else flog b h)
  else if (l =? 0) || (h <? - l) then flog b (h + 1) else flog b (- l + 1).

Lemma limits_digits_spec ext B b : valid B -> 2 <= b < M128 ->
  limits_digits ext B (cst b) = Some (cst (limits_value b (lo B) (hi B)), Ok (limits_value b (lo B) (hi B))).
Proof.
  intros V Hb. unfold limits_digits, limits_value.
  rewrite is_constant_valid by (apply valid_cst, in128_u; lia).
  rewrite !(proj1 (cst_bounds _)), !(proj2 (cst_bounds _)). rewrite Z.eqb_refl. cbn [andb].
  destruct (Z.ltb_spec 1 b); [|lia]. cbn [guard obind]. rewrite constant_t_lit by (cbn; lia). cbn [obind].
  pose proof V as V'. destruct V' as (W1 & W2 & _). rewrite !constant_t_spec by auto. cbn [obind].
  fold (lo B) (hi B). destruct (valid_bounds _ V) as (I1 & I2 & L & _).
  destruct (Z.ltb_spec 0 (lo B)) as [P|P]; cbn [orb].
  { rewrite constant_t_lit by (cbn; lia). reflexivity. }
  destruct (Z.leb_spec (hi B) 0) as [P'|P']; cbn [orb].
  { rewrite constant_t_lit by (cbn; lia). reflexivity. }
  pose proof (valid_max _ V) as MB. change (ty_max umax_t) with (M128 - 1).
  destruct (Z.eqb_spec (hi B) (M128 - 1)) as [E|E].
  { destruct (Z.eqb_spec b 2).
    - rewrite constant_t_lit by (cbn; lia). reflexivity.
    - apply log_cst; lia. }
  assert (0 <= - lo B <= 2 ^ 127) as LB.
  { unfold in128 in I1. change (ty_min I128) with (- 2 ^ 127) in I1. lia. }
  rewrite negate_cst by (auto; apply in128_u; lia). cbn [obind ct].
  destruct ((lo B =? 0) || (hi B <? - lo B)) eqn:C.
  - rewrite plus_cst by (auto; apply in128_u; lia). rewrite then_ok. apply log_cst; lia.
  - rewrite plus_cst by (auto; apply in128_u; lia). rewrite then_ok. apply log_cst; lia.
Qed.

(** ** number_of *)
Lemma number_of_spec T : ivalid T ->
  number_of T = if reprb (- ilo T) (- ilo T) && reprb (ihi T - ilo T + 1) (ihi T - ilo T + 1)
  then Some (cst (ihi T - ilo T + 1), Ok (ihi T - ilo T + 1)) else None.
Proof.
  intros V. unfold number_of. rewrite imin_spec, imax_spec by auto.
  pose proof (ilo_in128 T V) as I1. pose proof (ihi_in128 T V) as I2.
  rewrite !constant_t_nt by auto. cbn [obind]. rewrite constant_t_lit by (cbn; lia). cbn [obind].
  rewrite minus_spec by auto using valid_cst, holds_cst.
  rewrite !(proj1 (cst_bounds _)), !(proj2 (cst_bounds _)).
  destruct (reprb (- ilo T) (- ilo T)) eqn:R1; cbn [andb]; [|reflexivity].
  assert (ilo T <= ihi T) as L by (destruct (irepresentable T V); auto).
  destruct (reprb (ihi T - ilo T) (ihi T - ilo T)) eqn:R2; cbn [then_ obind].
  - apply reprb_spec in R2. pose proof (valid_bt _ _ R2) as VD.
    assert (valid (cst 1)) as VC by (apply valid_cst, in128_u; lia).
    rewrite plus_spec by auto using (holds_cst (ihi T - ilo T)), (holds_cst 1).
    unfold cst. rewrite !lo_bt, !hi_bt. destruct (reprb (_ + 1) _); reflexivity.
  - destruct (reprb (_ + 1) _) eqn:R3; [|reflexivity]. apply reprb_spec, representable_spec in R3.
    assert (reprb (ihi T - ilo T) (ihi T - ilo T) = true); [|congruence].
    apply reprb_spec, representable_spec. change (ty_min I128) with (- 2 ^ 127) in *. lia.
Qed.
