(** * Proofs about turning an integer into a string *)

From Coq Require Import List Bool ZArith Lia.
From Verif Require Import Cxx CxxLemmas Core Spec CoreLemmas Arith ArithLemmas ArithProofs Funcs SpecFuncs FuncLemmas FuncLemmas2 FuncLemmas3
  CoreProofs SpecText TextLemmas TextLemmas2 ToAnyString.
Import ListNotations.
Open Scope Z_scope.

Section Digits.
Context (h : Z) (Hh : 0 <= h <= ty_max U128).
Notation B := (bt 0 h).

Lemma repr_B : representable 0 h.
Proof. apply reprb_spec. unfold reprb. destruct Hh. cbn [ty_max ty_min] in *. lia. Qed.
Lemma valid_B : valid B. Proof. apply valid_bt, repr_B. Qed.
Lemma in128_small z : 0 <= z <= 1000 -> in128 z. Proof. unfold in128. cbn. lia. Qed.

Lemma digit_char_spec x : 0 <= x <= h -> digit_char B x = Some (Ok (x mod 10 + 48)).
Proof.
  intros Hx. unfold digit_char. rewrite constant_t_lit by (cbn; lia). rewrite constant_t_spec by (unfold wf_tv; cbn; lia).
  cbn [obind vl].
  pose proof (valid_cst 10 (in128_small 10 ltac:(lia))) as V10. pose proof (valid_cst 48 (in128_small 48 ltac:(lia))) as V48.
  assert (holds_value B x) as HBx by (unfold holds_value; rewrite lo_bt, hi_bt; lia).
  assert (holds_value (cst 10) 10) as H10 by (unfold holds_value, cst; rewrite lo_bt, hi_bt; lia).
  assert (holds_value (cst 48) 48) as H48 by (unfold holds_value, cst; rewrite lo_bt, hi_bt; lia).
  destruct (modulus_spec B (cst 10) x 10 valid_B V10 HBx H10 ltac:(lia)) as [(l & u & T & ->)|[C _]].
  2:{ exfalso. apply C. unfold common_ok, cst. rewrite !lo_bt. lia. }
  unfold cst in T. rewrite !lo_bt, !hi_bt in T.
  assert (forall z, rems 0 h 10 10 z -> 0 <= z <= 9) as RZ.
  { intros z (a & b & Ha & Hb & _ & ->). replace b with 10 by lia. rewrite Z.rem_mod_nonneg by lia.
    pose proof (Z.mod_pos_bound a 10 ltac:(lia)). lia. }
  destruct T as (T1 & T2 & T3). pose proof (RZ _ T1) as R1. pose proof (RZ _ T2) as R2.
  assert (l <= Z.rem x 10 <= u) as RX by (apply T3; exists x, 10; repeat split; lia).
  unfold mod_common, cst. rewrite !lo_bt, !hi_bt.
  assert (reprb (Z.min (Z.min l 0) 10) (Z.max (Z.max u h) 10) = true) as ->.
  { unfold reprb. destruct Hh. cbn [ty_max ty_min] in *. lia. }
  change (10 =? -1) with false. cbn [andb then_ obind].
  assert (valid (bt l u)) as Vlu by (apply valid_bt, reprb_spec; unfold reprb; cbn; lia).
  rewrite plus_spec; [|exact Vlu|exact V48|unfold holds_value; rewrite lo_bt, hi_bt; lia|exact H48].
  fold (cst 48). unfold cst. rewrite !lo_bt, !hi_bt.
  assert (reprb (l + 48) (u + 48) = true) as -> by (unfold reprb; cbn; lia). cbn [obind bind].
  assert (valid (bt (l + 48) (u + 48))) as V' by (apply valid_bt, reprb_spec; unfold reprb; cbn; lia).
  rewrite (to_builtin_spec I8 (Bounded _)) by (auto; unfold iholds; cbn [ilo ihi]; rewrite ?lo_bt, ?hi_bt; lia).
  cbn [bind vl]. rewrite Z.rem_mod_nonneg in * by lia. rewrite wrap_id by (cbn; lia). reflexivity.
Qed.

Lemma next_value_spec x : 0 <= x <= h -> next_value B x = Some (B, Ok (x / 10)).
Proof.
  intros Hx. unfold next_value. rewrite constant_t_lit by (cbn; lia). cbn [obind].
  pose proof (valid_cst 10 (in128_small 10 ltac:(lia))) as V10.
  assert (holds_value B x) as HBx by (unfold holds_value; rewrite lo_bt, hi_bt; lia).
  assert (holds_value (cst 10) 10) as H10 by (unfold holds_value, cst; rewrite lo_bt, hi_bt; lia).
  assert (0 <= x / 10 <= x) as Q by (split; [apply Z.div_pos; lia|apply Z.div_le_upper_bound; lia]).
  destruct (compound divide B (cst 10) x 10) as [[R o]|] eqn:E.
  - destruct (compound_sound divide B (cst 10) x 10 (Some (Z.quot x 10)) R o valid_B) as [-> ->]; [|exact E|].
    + intros T o' H. exact (divide_sound B (cst 10) x 10 T o' (conj valid_B HBx) (conj V10 H10) H).
    + cbn [restrict]. rewrite Z.quot_div_nonneg by lia. rewrite lo_bt, hi_bt.
      rewrite (proj2 (check_bool 0 h (x / 10))) by lia. reflexivity.
  - exfalso. unfold compound in E.
    pose proof (divide_spec B (cst 10) x 10 valid_B V10 HBx H10 ltac:(lia)) as D.
    unfold cst in D at 1 2. rewrite lo_bt, hi_bt in D. specialize (D ltac:(lia) ltac:(lia)).
    destruct (divide B (cst 10) x 10) as [[T o]|] eqn:ED.
    + destruct (divide_sound B (cst 10) x 10 T o (conj valid_B HBx) (conj V10 H10) ED) as [VT HT].
      change (10 =? 0) with false in HT. cbn iota in HT. destruct HT as [-> HT].
      cbn [then_ obind] in E. unfold assign_result in E. rewrite (assign_spec B (Bounded T)) in E by (auto using valid_B).
      rewrite lo_bt, hi_bt in E. cbn [ilo ihi] in E. unfold holds_value in HT. rewrite Z.quot_div_nonneg in HT by lia.
      destruct ((lo T <=? h) && (0 <=? hi T)) eqn:EB; [cbn [obind] in E; discriminate E|]. clear - EB HT Hx Q. lia.
    + assert (reprb (div_common_lo B (cst 10)) (div_common_hi B (cst 10)) = true) as RT; [|rewrite RT in D; discriminate].
      clear E D. pose proof (tight_div B (cst 10) valid_B V10) as T. unfold cst in T at 1 2. rewrite lo_bt, hi_bt in T.
      specialize (T ltac:(lia) ltac:(lia)). destruct T as (T1 & T2 & _).
      assert (forall z, results B (cst 10) nonzero_divisor Z.quot z -> 0 <= z <= h) as RZ.
      { intros z (a & b & Ha & Hb & _ & ->). unfold holds_value, cst in Ha, Hb. rewrite lo_bt, hi_bt in Ha, Hb.
        replace b with 10 by lia. rewrite Z.quot_div_nonneg by lia.
        split; [apply Z.div_pos; lia|]. apply Z.div_le_upper_bound; lia. }
      apply RZ in T1. apply RZ in T2. unfold div_common_lo, div_common_hi.
      unfold cst in *. rewrite !lo_bt, !hi_bt in *. set (dl := div_lo 0 h 10 10) in *. set (dh := div_hi 0 h 10 10) in *.
      unfold reprb. destruct Hh. cbn [ty_max ty_min] in *. lia.
Qed.

Lemma any_step_spec x acc : 0 <= x <= h -> any_step B (x, acc) = to_string_step (x, acc).
Proof.
  intros Hx. rewrite step_spec by lia. unfold any_step. rewrite digit_char_spec, next_value_spec by auto.
  assert (0 <= x / 10 <= x) as Q by (split; [apply Z.div_pos; lia|apply Z.div_le_upper_bound; lia]).
  assert (Bounded (cst 0) = const_of (lit 0)) as E0 by reflexivity. rewrite <- E0.
  rewrite greater_spec; [|apply comparable_bl|exact valid_B|exact (valid_cst 0 (in128_small 0 ltac:(lia)))| |].
  - rewrite ?Z.gtb_ltb. destruct (0 <? x / 10); reflexivity.
  - unfold iholds. cbn [ilo ihi]. rewrite lo_bt, hi_bt. lia.
  - unfold iholds, cst. cbn [ilo ihi]. rewrite lo_bt, hi_bt. lia.
Qed.
Lemma any_loop p : forall s, 0 <= fst s <= h -> loop p (any_step B) s = loop p to_string_step s /\
  match loop p to_string_step s with inl s' => 0 <= fst s' <= h | inr _ => True end.
Proof.
  assert (forall s, 0 <= fst s <= h -> match to_string_step s with inl s' => 0 <= fst s' <= h | inr _ => True end) as K.
  { intros [x acc] Hx. cbn [fst] in Hx. rewrite step_spec by lia. destruct (0 <? x / 10); [|exact I]. cbn [fst].
    split; [apply Z.div_pos; lia|]. apply Z.div_le_upper_bound; lia. }
  assert (forall s, 0 <= fst s <= h -> any_step B s = to_string_step s) as J by (intros [x acc] Hx; apply any_step_spec; exact Hx).
  induction p as [p IH|p IH|]; intros s Hs; cbn [loop].
  - rewrite J by auto. specialize (K s Hs). destruct (to_string_step s) as [s1|r]; [|auto].
    destruct (IH s1 K) as [E1 I1]. rewrite E1. destruct (loop p to_string_step s1) as [s2|r]; [|auto]. apply IH. exact I1.
  - destruct (IH s Hs) as [E1 I1]. rewrite E1. destruct (loop p to_string_step s) as [s2|r]; [|auto]. apply IH. exact I1.
  - rewrite J by auto. split; [reflexivity|]. apply K. exact Hs.
Qed.

Lemma impl_spec x (minus : bool) : 0 <= x <= h -> exists s, to_any_string_impl B x minus = Some (Ok (if minus then 45 :: s else s)) /\
  s <> [] /\ decimal s x /\ (x <> 0 -> hd 0 s <> 48) /\ (x = 0 -> s = [48]).
Proof.
  intros Hx. unfold to_any_string_impl. rewrite lo_bt. rewrite digit_char_spec, next_value_spec by lia. cbn [obind].
  rewrite (proj1 (any_loop 39 (x, []) Hx)).
  destruct (to_string_u128_spec x ltac:(lia)) as (s & E & P). exists s. split; [|exact P].
  unfold to_string_u128 in E. destruct (loop 39 to_string_step (x, [])) as [s1|o]; [discriminate|].
  destruct o as [r| |]; try discriminate. cbn [bind] in *. injection E as <-.
  destruct minus; [rewrite rev_app_distr|]; reflexivity.
Qed.
End Digits.

Lemma include_zero_spec l h x : representable l h -> 0 <= l <= x -> x <= h -> include_zero (bt l h) x = Some (bt 0 h, Ok x).
Proof.
  intros R Hx Hh. unfold include_zero. rewrite bmax_bt. change (lit 0) with (nt 0).
  destruct (representable_in128 _ _ R) as [I1 I2].
  assert (reprb 0 h = true) as R0.
  { apply reprb_spec in R. unfold reprb in *. cbn [ty_min ty_max] in *. lia. }
  rewrite mk_integer_nt by (auto; unfold in128; cbn; lia). rewrite R0. cbn [obind].
  pose proof (valid_bt 0 h (proj1 (reprb_spec _ _) R0)) as V0. pose proof (valid_bt l h R) as V1.
  rewrite (convert_spec _ (Bounded (bt l h))) by (auto; unfold iholds; cbn [ilo ihi]; rewrite ?lo_bt, ?hi_bt; lia).
  cbn [ilo ihi]. rewrite !lo_bt, !hi_bt. rewrite (proj2 (Z.leb_le 0 l)), Z.leb_refl by lia. reflexivity.
Qed.

Lemma to_any_string_spec A x : valid A -> holds_value A x -> 0 <= lo A \/ representable (- hi A) (- lo A) ->
  exists s, to_any_string A x = Some (Ok s) /\ canonical s x.
Proof.
  intros HA Hx C. unfold to_any_string. rewrite abs_spec by auto. pose proof (valid_repr _ HA) as RA.
  assert ((0 <=? lo A) || reprb (- hi A) (- lo A) = true) as ->.
  { destruct C as [C|C]; [rewrite (proj2 (Z.leb_le _ _) C); reflexivity|]. rewrite (proj2 (reprb_spec _ _) C). apply orb_true_r. }
  unfold holds_value in Hx.
  assert (exists l h, (if 0 <=? lo A then bt (lo A) (hi A) else if hi A <=? 0 then bt (- hi A) (- lo A) else bt 0 (Z.max (hi A) (- lo A))) = bt l h /\
    representable l h /\ 0 <= l <= Z.abs x /\ Z.abs x <= h) as (l & h & -> & R & B1 & B2).
  { destruct (Z.leb_spec 0 (lo A)); [exists (lo A), (hi A); split; [reflexivity|]; split; [exact RA|lia]|].
    destruct C as [C|C]; [lia|].
    destruct (Z.leb_spec (hi A) 0); [exists (- hi A), (- lo A); split; [reflexivity|]; split; [exact C|lia]|].
    exists 0, (Z.max (hi A) (- lo A)). split; [reflexivity|]. split; [|lia].
    apply reprb_spec in RA. apply reprb_spec in C. apply reprb_spec. unfold reprb in *. cbn [ty_min ty_max] in *. lia. }
  cbn [then_ obind]. rewrite include_zero_spec by (auto; lia). cbn [obind bind].
  assert (0 <= h <= ty_max U128) as Hh.
  { apply reprb_spec in R. unfold reprb in R. cbn [ty_min ty_max] in *. lia. }
  destruct (impl_spec h Hh (lo (bt 0 h)) false) as (s0 & E0 & _); [rewrite lo_bt; lia|]. rewrite E0. cbn [obind].
  assert (const_of (lit 0) = Bounded (cst 0)) as -> by reflexivity.
  rewrite less_spec; [|apply comparable_bl|exact HA|exact (valid_cst 0 (in128_small 0 ltac:(lia)))|exact Hx|].
  2:{ unfold iholds, cst. cbn [ilo ihi]. rewrite lo_bt, hi_bt. lia. }
  cbn [bind]. destruct (impl_spec h Hh (Z.abs x) (x <? 0)) as (s & E & N & D & H1 & H2); [lia|]. rewrite E.
  eexists; split; [reflexivity|]. destruct (Z.ltb_spec x 0).
  - right. split; [lia|]. exists s. rewrite Z.abs_neq in * by lia. repeat split; auto. apply H1. lia.
  - left. rewrite Z.abs_eq in * by lia. repeat split; auto.
Qed.
Lemma to_any_string_compiles A x : valid A -> holds_value A x ->
  (to_any_string A x <> None <-> 0 <= lo A \/ representable (- hi A) (- lo A)).
Proof.
  intros HA Hx. split.
  - unfold to_any_string. rewrite abs_spec by auto. destruct (0 <=? lo A) eqn:E; [intros _; left; lia|]. cbn [orb].
    destruct (reprb (- hi A) (- lo A)) eqn:R; [intros _; right; now apply reprb_spec|]. cbn [then_ obind]. congruence.
  - intros C. destruct (to_any_string_spec A x HA Hx C) as (s & -> & _). discriminate.
Qed.

Lemma to_any_string_builtin_spec t x : ty_min t <= x <= ty_max t -> t <> I128 ->
  exists s, to_any_string_builtin t x = Some (Ok s) /\ canonical s x.
Proof.
  intros Hx N. unfold to_any_string_builtin, deduced. rewrite (imin_spec (Builtin t)), (imax_spec (Builtin t)) by exact I.
  assert (valid (bt (ty_min t) (ty_max t))) as VT by (apply (valid_deduced (Builtin t)); exact I).
  rewrite mk_integer_nt by (apply ty_min_in128 || apply ty_max_in128). cbn [ilo ihi].
  rewrite (proj2 (reprb_spec _ _)) by (apply (irepresentable (Builtin t)); exact I).
  cbn [obind]. rewrite (convert_spec _ (Builtin t)) by (auto; exact I). rewrite lo_bt, hi_bt. cbn [ilo ihi].
  rewrite !Z.leb_refl. cbn [andb obind].
  apply to_any_string_spec; [exact VT|unfold holds_value; rewrite lo_bt, hi_bt; exact Hx|].
  rewrite lo_bt, hi_bt. rewrite <- reprb_spec. clear Hx VT. destruct t; try congruence; vm_compute; (left; congruence) || (right; reflexivity).
Qed.
