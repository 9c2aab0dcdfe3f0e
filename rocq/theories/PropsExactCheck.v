(** * Property C09, exactly: when a checked construction throws

    The property is false of the code when a bound and the value are built-in
    integers of different signedness: the language converts them before it
    compares them. These theorems say what happens for all arguments. *)

From Coq Require Import ZArith Lia Bool List.
From Verif Require Import Cxx CxxLemmas Core CoreLemmas Spec Arith ArithLemmas ArithProofs Funcs FuncLemmas.
Import ListNotations.
Open Scope Z_scope.

(** C++ compares values of the built-in types [a] and [b] as unsigned values when
    one of the types is unsigned, not narrower than int and not narrower than the
    other; as many bits as the wider type has. *)
Definition compared_unsigned (a b : cty) : bool :=
  (negb (is_signed a) && (32 <=? ty_bits a) && (ty_bits b <=? ty_bits a)) ||
  (negb (is_signed b) && (32 <=? ty_bits b) && (ty_bits a <=? ty_bits b)).

(** What [v] of type [A] counts as when compared with something of type [B]. *)
Definition counts_as (A B : ity) (v : Z) : Z :=
  match A, B with
  | Builtin a, Builtin b => if compared_unsigned a b then v mod 2 ^ Z.max (ty_bits a) (ty_bits b) else v
  | _, _ => v
  end.

(** minimum <= value and value <= maximum, as C++ evaluates them. *)
Definition accepted (T Tmin Tmax : ity) (x mn mx : Z) : Prop :=
  counts_as Tmin T mn <= counts_as T Tmin x /\ counts_as T Tmax x <= counts_as Tmax T mx.

Lemma less_equal_counts A B x y : ivalid A -> ivalid B -> iholds A x -> iholds B y ->
  less_equal A B x y = Ok (counts_as A B x <=? counts_as B A y).
Proof.
  intros HA HB Hx Hy. destruct A as [a|A], B as [b|B]; try (apply less_equal_spec; auto; exact I).
  cbn [counts_as]. unfold less_equal. cbn [relational]. unfold cle, usual. cbn [ty vl]. f_equal.
  unfold iholds in *. cbn [ilo ihi] in *.
  assert (compared_unsigned b a = compared_unsigned a b) as -> by (unfold compared_unsigned; apply orb_comm).
  rewrite (Z.max_comm (ty_bits b)). unfold compared_unsigned.
  destruct a, b; cbn in Hx, Hy |- *; unfold wrap; cbn; rewrite ?Z.sub_0_r, ?Z.add_0_r; try reflexivity;
    rewrite !Z.mod_small by lia; f_equal; lia.
Qed.

(** check_in_range(value, minimum, maximum) with arguments of any types: it compiles when the types have a common value in range; it throws
    exactly when a comparison fails; and when both hold and the value is in range it returns the value. When both hold for a value that is
    out of range, it does not throw: a constant type has its only value, otherwise the result stores the value modulo a power of two. *)
Theorem C09_check_exactly : forall T Tmin Tmax x mn mx,
  ivalid T -> ivalid Tmin -> ivalid Tmax -> iholds T x -> iholds Tmin mn -> iholds Tmax mx ->
  ((exists R o, check_in_range T Tmin Tmax x mn mx = Some (R, o)) <-> exists v, iholds T v /\ ilo Tmin <= v <= ihi Tmax) /\
  (forall R o, check_in_range T Tmin Tmax x mn mx = Some (R, o) ->
    valid R /\
    (o = Throw <-> ~ accepted T Tmin Tmax x mn mx) /\
    (accepted T Tmin Tmax x mn mx -> mn <= x <= mx -> o = Ok x /\ holds_value R x) /\
    (accepted T Tmin Tmax x mn mx -> exists z, o = Ok z /\
      (lo R = hi R -> z = lo R) /\
      (lo R < hi R -> ty_min (und R) <= z <= ty_max (und R) /\ z mod 2 ^ ty_bits (und R) = x mod 2 ^ ty_bits (und R)))).
Proof.
  intros T Tmin Tmax x mn mx HT H1 H2 Hx Hn Hm. unfold check_in_range. rewrite assume_impl_spec by auto.
  rewrite !less_equal_counts by auto.
  pose proof (ivalid_le _ HT) as LT. pose proof (ivalid_le _ H1) as L1. pose proof (ivalid_le _ H2) as L2.
  destruct (Z.leb_spec (isect_lo T Tmin) (isect_hi T Tmax)) as [L|L].
  - split.
    { split; [intros _|intros _; eexists _, _; reflexivity].
      exists (isect_lo T Tmin). unfold iholds, isect_lo, isect_hi in *. lia. }
    intros R o H.
    apply (f_equal (fun o => match o with Some p => p | None => (R, UB) end)) in H.
    apply pair_equal_spec in H. destruct H as [<- <-].
    assert (representable (isect_lo T Tmin) (isect_hi T Tmax)) as Rp by now apply isect_repr.
    split; [now apply valid_bt|].
    rewrite !lo_bt, !hi_bt. unfold accepted.
    assert (exists z, store (bt (isect_lo T Tmin) (isect_hi T Tmax)) T x = Ok z /\
      (isect_lo T Tmin = isect_hi T Tmax -> z = isect_lo T Tmin) /\
      (isect_lo T Tmin < isect_hi T Tmax ->
        ty_min (und (bt (isect_lo T Tmin) (isect_hi T Tmax))) <= z <= ty_max (und (bt (isect_lo T Tmin) (isect_hi T Tmax))) /\
        z mod 2 ^ ty_bits (und (bt (isect_lo T Tmin) (isect_hi T Tmax))) = x mod 2 ^ ty_bits (und (bt (isect_lo T Tmin) (isect_hi T Tmax))))) as (z & Es & Ec & Ev).
    { unfold store. rewrite is_constant_bt. destruct (Z.eqb_spec (isect_lo T Tmin) (isect_hi T Tmax)) as [E|E].
      - exists (lo (bt (isect_lo T Tmin) (isect_hi T Tmax))). rewrite lo_bt. repeat split; lia.
      - rewrite to_builtin_spec by auto. exists (wrap (und (bt (isect_lo T Tmin) (isect_hi T Tmax))) x). split; [reflexivity|].
        split; [lia|]. intros _. generalize (und (bt (isect_lo T Tmin) (isect_hi T Tmax))). intros t. clear. unfold wrap.
        assert (0 < ty_card t) as P by (destruct t; cbn; lia).
        pose proof (Z.mod_pos_bound (x - ty_min t) (ty_card t) P).
        assert (ty_card t = 2 ^ ty_bits t) as C by (destruct t; reflexivity).
        assert (ty_max t = ty_min t + ty_card t - 1) as M by (destruct t; reflexivity).
        split; [lia|]. rewrite <- C. rewrite Zplus_mod_idemp_l. f_equal. lia. }
    cbn [bind].
    destruct (Z.leb_spec (counts_as Tmin T mn) (counts_as T Tmin x)) as [A1|A1]; [destruct (Z.leb_spec (counts_as T Tmax x) (counts_as Tmax T mx)) as [A2|A2]|].
    + rewrite Es. split; [split; [discriminate|tauto]|]. split.
      * intros _ B. rewrite isect_store in Es by (auto; unfold iholds in *; lia). split; [congruence|].
        unfold holds_value. rewrite lo_bt, hi_bt. unfold isect_lo, isect_hi, iholds in *. lia.
      * intros _. eauto.
    + split; [split; [lia|reflexivity]|]. split; intros; lia.
    + split; [split; [lia|reflexivity]|]. split; intros; lia.
  - split; [split|].
    + intros (? & ? & ?). discriminate.
    + intros (v & A & B). exfalso. unfold isect_lo, isect_hi, iholds in *. lia.
    + discriminate.
Qed.
Print Assumptions C09_check_exactly.

(** check_in_range<t>(value), [t] built-in. *)
Theorem C09_check_to_builtin_exactly : forall t T x,
  ivalid T -> iholds T x ->
  ((exists o, check_in_range_to_builtin t T x = Some o) <-> exists v, iholds T v /\ ty_min t <= v <= ty_max t) /\
  (forall o, check_in_range_to_builtin t T x = Some o ->
    (o = Throw <-> ~ accepted T (Builtin t) (Builtin t) x (ty_min t) (ty_max t)) /\
    (accepted T (Builtin t) (Builtin t) x (ty_min t) (ty_max t) -> ty_min t <= x <= ty_max t -> o = Ok (TV t x))).
Proof.
  intros t T x HT Hx. assert (ty_min t <= ty_max t) as Lt by (destruct t; cbn; lia).
  destruct (C09_check_exactly T (Builtin t) (Builtin t) x (ty_min t) (ty_max t)) as [C E]; auto; try exact I; try (unfold iholds; cbn [ilo ihi]; lia).
  unfold check_in_range_to_builtin. cbn [ilo ihi] in C.
  destruct (check_in_range T (Builtin t) (Builtin t) x (ty_min t) (ty_max t)) as [[R o]|].
  - destruct (E R o eq_refl) as (V & E1 & E2 & E3). split.
    + split; [intros _; apply C; eauto|intros _; eexists; reflexivity].
    + intros o' H. assert ((do r <- o; to_builtin t (Bounded R) r) = o') as <- by now injection H. clear H. split.
      * split.
        -- intros H. apply E1. destruct o as [r| |]; cbn [bind] in H; [|discriminate|reflexivity].
           unfold to_builtin, ivalue, value in H. destruct (is_constant R); [discriminate|].
           destruct (cle (bmin R) (TV (und R) r) && cle (TV (und R) r) (bmax R)); discriminate.
        -- intros H. apply E1 in H. rewrite H. reflexivity.
      * intros A B. destruct (E2 A B) as [-> Hr]. cbn [bind]. rewrite to_builtin_spec; auto. now rewrite wrap_id by lia.
  - split.
    + split; [intros (o & H); discriminate|]. intros H. apply C in H. destruct H as (R & o & H). discriminate.
    + discriminate.
Qed.
Print Assumptions C09_check_to_builtin_exactly.

(** Both kinds of error: check_in_range(5u, -1, 10) throws although 5 is in range, because -1 counts as 4294967295; and
    check_in_range(-1, 0u, 4294967295u) does not throw. *)
Example C09_exactly_cases :
  (let T := Builtin U32 in let Tmin := Builtin I32 in let Tmax := Builtin I32 in
   ivalid T /\ ivalid Tmin /\ ivalid Tmax /\ iholds T 5 /\ iholds Tmin (-1) /\ iholds Tmax 10 /\
   ~ accepted T Tmin Tmax 5 (-1) 10 /\ -1 <= 5 <= 10 /\ exists R, check_in_range T Tmin Tmax 5 (-1) 10 = Some (R, Throw)) /\
  (let T := Builtin I32 in let Tmin := Builtin U32 in let Tmax := Builtin U32 in
   ivalid T /\ ivalid Tmin /\ ivalid Tmax /\ iholds T (-1) /\ iholds Tmin 0 /\ iholds Tmax (2 ^ 32 - 1) /\
   accepted T Tmin Tmax (-1) 0 (2 ^ 32 - 1) /\ exists R z, check_in_range T Tmin Tmax (-1) 0 (2 ^ 32 - 1) = Some (R, Ok z)).
Proof.
  split; cbv zeta; unfold ivalid, iholds, ilo, ihi.
  - repeat match goal with |- _ /\ _ => split end; try exact I; try (vm_compute; congruence).
    + intros [H _]. apply H. vm_compute. reflexivity.
    + eexists. vm_compute. reflexivity.
  - repeat match goal with |- _ /\ _ => split end; try exact I; try (vm_compute; congruence).
    + unfold accepted. split; vm_compute; congruence.
    + eexists _, _. vm_compute. reflexivity.
Qed.
