(** * Property C29, exactly: when assume_in_range is undefined

    [accepted], [counts_as]: PropsExactCheck.v *)

From Coq Require Import ZArith Lia Bool List.
From Verif Require Import Cxx CxxLemmas Core CoreLemmas Spec Arith ArithLemmas ArithProofs Funcs FuncLemmas PropsExactCheck.
Import ListNotations.
Open Scope Z_scope.

Lemma less_counts A B x y : ivalid A -> ivalid B -> iholds A x -> iholds B y ->
  less A B x y = Ok (counts_as A B x <? counts_as B A y).
Proof.
  intros HA HB Hx Hy. destruct A as [a|A], B as [b|B]; try (apply less_spec; auto; exact I).
  cbn [counts_as]. unfold less. cbn [relational]. unfold clt, usual. cbn [ty vl]. f_equal.
  unfold iholds in *. cbn [ilo ihi] in *.
  assert (compared_unsigned b a = compared_unsigned a b) as -> by (unfold compared_unsigned; apply orb_comm).
  rewrite (Z.max_comm (ty_bits b)). unfold compared_unsigned.
  destruct a, b; cbn in Hx, Hy |- *; unfold wrap; cbn; rewrite ?Z.sub_0_r, ?Z.add_0_r; try reflexivity;
    rewrite !Z.mod_small by lia; f_equal; lia.
Qed.

(** assume_in_range(value, minimum, maximum) with arguments of any types: it compiles when the types have a common value in range; its assertion
    fails exactly when a comparison does, as the language evaluates it; otherwise the result is the value when that is in range,
    and when it is not, the only value of a constant type or the value modulo a power of two. *)
Theorem C29_assume_exactly : forall T Tmin Tmax x mn mx,
  ivalid T -> ivalid Tmin -> ivalid Tmax -> iholds T x -> iholds Tmin mn -> iholds Tmax mx ->
  ((exists R o, assume_in_range T Tmin Tmax x mn mx = Some (R, o)) <-> exists v, iholds T v /\ ilo Tmin <= v <= ihi Tmax) /\
  (forall R o, assume_in_range T Tmin Tmax x mn mx = Some (R, o) ->
    valid R /\
    (o = UB <-> ~ accepted T Tmin Tmax x mn mx) /\
    (accepted T Tmin Tmax x mn mx -> mn <= x <= mx -> o = Ok x /\ holds_value R x) /\
    (accepted T Tmin Tmax x mn mx -> exists z, o = Ok z /\
      (lo R = hi R -> z = lo R) /\
      (lo R < hi R -> ty_min (und R) <= z <= ty_max (und R) /\ z mod 2 ^ ty_bits (und R) = x mod 2 ^ ty_bits (und R)))).
Proof.
  intros T Tmin Tmax x mn mx HT H1 H2 Hx Hn Hm. unfold assume_in_range. rewrite assume_impl_spec by auto.
  rewrite !less_counts by auto.
  pose proof (ivalid_le _ HT) as LT. pose proof (ivalid_le _ H1) as L1. pose proof (ivalid_le _ H2) as L2.
  destruct (Z.leb_spec (isect_lo T Tmin) (isect_hi T Tmax)) as [L|L].
  - split.
    { split; [intros _|intros _; eexists _, _; reflexivity].
      exists (isect_lo T Tmin). unfold iholds, isect_lo, isect_hi in *. lia. }
    intros R o H.
    apply (f_equal (fun o => match o with Some p => p | None => (R, UB) end)) in H.
    apply pair_equal_spec in H. destruct H as [<- <-].
    assert (representable (isect_lo T Tmin) (isect_hi T Tmax)) as Rp by now apply isect_repr.
    split; [now apply valid_bt|].
    rewrite !lo_bt, !hi_bt. unfold accepted.
    assert (exists z, store (bt (isect_lo T Tmin) (isect_hi T Tmax)) T x = Ok z /\
      (isect_lo T Tmin = isect_hi T Tmax -> z = isect_lo T Tmin) /\
      (isect_lo T Tmin < isect_hi T Tmax ->
        ty_min (und (bt (isect_lo T Tmin) (isect_hi T Tmax))) <= z <= ty_max (und (bt (isect_lo T Tmin) (isect_hi T Tmax))) /\
        z mod 2 ^ ty_bits (und (bt (isect_lo T Tmin) (isect_hi T Tmax))) = x mod 2 ^ ty_bits (und (bt (isect_lo T Tmin) (isect_hi T Tmax))))) as (z & Es & Ec & Ev).
    { unfold store. rewrite is_constant_bt. destruct (Z.eqb_spec (isect_lo T Tmin) (isect_hi T Tmax)) as [E|E].
      - exists (lo (bt (isect_lo T Tmin) (isect_hi T Tmax))). rewrite lo_bt. repeat split; lia.
      - rewrite to_builtin_spec by auto. exists (wrap (und (bt (isect_lo T Tmin) (isect_hi T Tmax))) x). split; [reflexivity|].
        split; [lia|]. intros _. generalize (und (bt (isect_lo T Tmin) (isect_hi T Tmax))). intros t. clear. unfold wrap.
        assert (0 < ty_card t) as P by (destruct t; cbn; lia).
        pose proof (Z.mod_pos_bound (x - ty_min t) (ty_card t) P).
        assert (ty_card t = 2 ^ ty_bits t) as C by (destruct t; reflexivity).
        assert (ty_max t = ty_min t + ty_card t - 1) as M by (destruct t; reflexivity).
        split; [lia|]. rewrite <- C. rewrite Zplus_mod_idemp_l. f_equal. lia. }
    cbn [bind].
    destruct (Z.ltb_spec (counts_as T Tmin x) (counts_as Tmin T mn)) as [A1|A1]; [|destruct (Z.ltb_spec (counts_as Tmax T mx) (counts_as T Tmax x)) as [A2|A2]]; cbn [orb].
    + split; [split; [lia|reflexivity]|]. split; intros; lia.
    + split; [split; [lia|reflexivity]|]. split; intros; lia.
    + rewrite Es. split; [split; [discriminate|tauto]|]. split.
      * intros _ B. rewrite isect_store in Es by (auto; unfold iholds in *; lia). split; [congruence|].
        unfold holds_value. rewrite lo_bt, hi_bt. unfold isect_lo, isect_hi, iholds in *. lia.
      * intros _. eauto.
  - split; [split|].
    + intros (? & ? & ?). discriminate.
    + intros (v & A & B). exfalso. unfold isect_lo, isect_hi, iholds in *. lia.
    + discriminate.
Qed.
Print Assumptions C29_assume_exactly.

(** -1 as an int, between 0 and 2^32 - 1 as unsigned int: both comparisons hold, and the result, of a type that ends at 2^31 - 1, stores 2^32 - 1. With a minimum of type int it is undefined. *)
Example C29_exactly_case :
  ivalid (Builtin I32) /\ iholds (Builtin I32) (-1) /\ iholds (Builtin U32) 0 /\ accepted (Builtin I32) (Builtin U32) (Builtin U32) (-1) 0 (2 ^ 32 - 1) /\
  (exists R, assume_in_range (Builtin I32) (Builtin U32) (Builtin U32) (-1) 0 (2 ^ 32 - 1) = Some (R, Ok (2 ^ 32 - 1)) /\ lo R = 0 /\ hi R = 2 ^ 31 - 1) /\
  exists R, assume_in_range (Builtin I32) (Builtin I32) (Builtin U32) (-1) 0 (2 ^ 32 - 1) = Some (R, UB).
Proof.
  split; [exact I|]. split; [unfold iholds; cbn; lia|]. split; [unfold iholds; cbn; lia|]. split; [unfold accepted; cbn; lia|].
  split; [eexists; split; [vm_compute; reflexivity|split; reflexivity]|eexists; vm_compute; reflexivity].
Qed.
