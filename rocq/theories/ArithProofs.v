(** * Proofs of the arithmetic properties (statements in PropsArith.v) *)

From Coq Require Import ZArith Lia Bool List ZifyBool.
From Verif Require Import Cxx CxxLemmas Core Spec CoreLemmas Arith ArithLemmas.
Import ListNotations.
Open Scope Z_scope.

Ltac Zify.zify_post_hook ::= idtac.

Lemma valid_le B : valid B -> lo B <= hi B.
Proof. intros H. now destruct (valid_bounds _ H) as (_ & _ & L & _). Qed.

Lemma valid_repr B : valid B -> representable (lo B) (hi B).
Proof. intros H. apply (valid_inv _ H). Qed.

Lemma some_iff {A} (b : bool) (P : Prop) (v : A) :
  (b = true <-> P) -> (exists r, (if b then Some v else None) = Some r) <-> P.
Proof. intros H. rewrite <- H. destruct b; split; intros; auto; try congruence; eauto. destruct H0. discriminate. Qed.

Lemma pair_some_iff {A B} (b : bool) (P : Prop) (v : A * B) :
  (b = true <-> P) -> (exists R o, (if b then Some v else None) = Some (R, o)) <-> P.
Proof.
  intros H. rewrite <- H. destruct b, v; split; intros; auto; try congruence; eauto.
  destruct H0 as (? & ? & ?). discriminate.
Qed.

Lemma if_some_inv {A} (b : bool) (v r : A) : (if b then Some v else None) = Some r -> b = true /\ v = r.
Proof. destruct b; split; congruence. Qed.

Lemma tight_add A B : valid A -> valid B ->
  tightest (results A B always Z.add) (lo A + lo B) (hi A + hi B).
Proof.
  intros HA HB. apply valid_le in HA. apply valid_le in HB. unfold tightest, results, holds_value, always.
  split; [|split].
  - exists (lo A), (lo B). repeat split; auto; lia.
  - exists (hi A), (hi B). repeat split; auto; lia.
  - intros z (x & y & ? & ? & _ & ->). lia.
Qed.

Lemma add_exact A B x y : valid A -> valid B -> holds_value A x -> holds_value B y ->
  (forall R o, plus A B x y = Some (R, o) ->
     exact2 A B x y always Z.add R o /\ lo R = lo A + lo B /\ hi R = hi A + hi B) /\
  ((exists R o, plus A B x y = Some (R, o)) <-> representable (lo A + lo B) (hi A + hi B)).
Proof.
  intros HA HB Hx Hy. rewrite plus_spec by auto. split.
  - intros R o H. apply if_some_inv in H. destruct H as [Rb E]. apply pair_equal_spec in E. destruct E as [<- <-].
    apply reprb_spec in Rb. rewrite lo_bt, hi_bt. split; [|auto].
    split; [now apply valid_bt|]. split; [reflexivity|]. apply tight_add; auto.
  - apply pair_some_iff, reprb_spec.
Qed.

Lemma tight_sub A B : valid A -> valid B ->
  tightest (results A B always Z.sub) (lo A - hi B) (hi A - lo B).
Proof.
  intros HA HB. apply valid_le in HA. apply valid_le in HB. unfold tightest, results, holds_value, always.
  split; [|split].
  - exists (lo A), (hi B). repeat split; auto; lia.
  - exists (hi A), (lo B). repeat split; auto; lia.
  - intros z (x & y & ? & ? & _ & ->). lia.
Qed.

Lemma sub_exact A B x y : valid A -> valid B -> holds_value A x -> holds_value B y ->
  (forall R o, minus A B x y = Some (R, o) ->
     exact2 A B x y always Z.sub R o /\ lo R = lo A - hi B /\ hi R = hi A - lo B) /\
  ((exists R o, minus A B x y = Some (R, o)) <->
     representable (- hi B) (- lo B) /\ representable (lo A - hi B) (hi A - lo B)).
Proof.
  intros HA HB Hx Hy. rewrite minus_spec by auto. split.
  - intros R o H. apply if_some_inv in H. destruct H as [Rb E]. apply pair_equal_spec in E. destruct E as [<- <-].
    apply andb_true_iff in Rb. destruct Rb as [_ Rb].
    apply reprb_spec in Rb. rewrite lo_bt, hi_bt. split; [|auto].
    split; [now apply valid_bt|]. split; [reflexivity|]. apply tight_sub; auto.
  - apply pair_some_iff. rewrite andb_true_iff, !reprb_spec. tauto.
Qed.

Lemma neg_exact A x : valid A -> holds_value A x ->
  (forall R o, negate A x = Some (R, o) ->
     exact1 A x Z.opp R o /\ lo R = - hi A /\ hi R = - lo A) /\
  ((exists R o, negate A x = Some (R, o)) <-> representable (- hi A) (- lo A)).
Proof.
  intros HA Hx. rewrite negate_spec by auto. split.
  - intros R o H. apply if_some_inv in H. destruct H as [Rb E]. apply pair_equal_spec in E. destruct E as [<- <-].
    apply reprb_spec in Rb. rewrite lo_bt, hi_bt. split; [|auto].
    split; [now apply valid_bt|]. split; [reflexivity|].
    apply valid_le in HA. rewrite lo_bt, hi_bt. unfold tightest, results1, holds_value. split; [|split].
    + exists (hi A). split; auto; lia.
    + exists (lo A). split; auto; lia.
    + intros z (y & ? & ->). lia.
  - apply pair_some_iff, reprb_spec.
Qed.

Lemma tight_mul A B : valid A -> valid B ->
  tightest (results A B always Z.mul) (mul_lo A B) (mul_hi A B).
Proof.
  intros HA HB. apply valid_le in HA. apply valid_le in HB.
  assert (forall a b, (a = lo A \/ a = hi A) -> (b = lo B \/ b = hi B) ->
    results A B always Z.mul (a * b)) as C.
  { intros a b Ha Hb. exists a, b. unfold holds_value, always. repeat split; auto; lia. }
  unfold tightest. split; [|split].
  - unfold mul_lo, min4.
    repeat match goal with |- context [Z.min ?a ?b] =>
      lazymatch a with context [Z.min _ _] => fail | _ =>
      destruct (Z.min_spec a b) as [[_ ->] | [_ ->]] end end; auto.
  - unfold mul_hi, max4.
    repeat match goal with |- context [Z.max ?a ?b] =>
      lazymatch a with context [Z.max _ _] => fail | _ =>
      destruct (Z.max_spec a b) as [[_ ->] | [_ ->]] end end; auto.
  - intros z (x & y & Hx & Hy & _ & ->). apply corner_bounds; auto.
Qed.

Lemma mul_exact A B x y : valid A -> valid B -> holds_value A x -> holds_value B y ->
  (forall x' y', holds_value A x' -> holds_value B y' -> ty_min I128 <= x' * y') ->
  (forall R o, multiply A B x y = Some (R, o) -> exact2 A B x y always Z.mul R o) /\
  ((exists R o, multiply A B x y = Some (R, o)) <->
   (exists l h, tightest (results A B always Z.mul) l h /\ representable l h)).
Proof.
  intros HA HB Hx Hy Hm. pose proof (tight_mul A B HA HB) as T.
  assert (ty_min I128 <= mul_lo A B) as Hl.
  { destruct T as ((x' & y' & ? & ? & _ & ->) & _). now apply Hm. }
  rewrite multiply_spec by auto. split.
  - intros R o H. apply if_some_inv in H. destruct H as [Rb E]. apply pair_equal_spec in E. destruct E as [<- <-].
    apply reprb_spec in Rb.
    split; [now apply valid_bt|]. split; [reflexivity|]. exact T.
  - apply pair_some_iff. rewrite reprb_spec. split.
    + intros H. eauto.
    + intros (l & h & T' & R). destruct (tightest_unique _ _ _ _ _ T T') as [-> ->]. exact R.
Qed.

Lemma tight_div A B : valid A -> valid B -> lo B <> 0 -> hi B <> 0 ->
  tightest (results A B nonzero_divisor Z.quot)
    (div_lo (lo A) (hi A) (lo B) (hi B)) (div_hi (lo A) (hi A) (lo B) (hi B)).
Proof.
  intros HA HB N1 N2. apply valid_le in HA. apply valid_le in HB.
  destruct (div_attained (lo A) (hi A) (lo B) (hi B) HA HB N1 N2) as [H1 H2].
  assert (forall z, quot_of (lo A) (hi A) (lo B) (hi B) z ->
    results A B nonzero_divisor Z.quot z) as K.
  { intros z (x & y & ? & ? & ? & ->). exists x, y. unfold nonzero_divisor, holds_value. auto. }
  split; [|split]; auto.
  intros z (x & y & ? & ? & ? & ->). apply div_bounds; auto.
Qed.

Lemma div_exact A B x y : valid A -> valid B -> holds_value A x -> holds_value B y -> y <> 0 ->
  (forall R o, divide A B x y = Some (R, o) -> exact2 A B x y nonzero_divisor Z.quot R o) /\
  ((exists R o, divide A B x y = Some (R, o)) <->
   lo B <> 0 /\ hi B <> 0 /\
   exists l h, tightest (results A B nonzero_divisor Z.quot) l h /\
     representable (Z.min l (Z.min (lo A) (lo B))) (Z.max h (Z.max (hi A) (hi B)))).
Proof.
  intros HA HB Hx Hy N.
  assert ((lo B = 0 \/ hi B = 0) \/ (lo B <> 0 /\ hi B <> 0)) as [Z | [N1 N2]] by lia.
  { rewrite divide_zero by auto. split; [discriminate|]. split.
    - intros (? & ? & ?). discriminate.
    - intros (? & ? & _). lia. }
  pose proof (tight_div A B HA HB N1 N2) as T. rewrite divide_spec by auto. split.
  - intros R o H. apply if_some_inv in H. destruct H as [Rb E]. apply pair_equal_spec in E. destruct E as [<- <-].
    split; [|split; [reflexivity | exact T]]. apply valid_bt, reprb_spec.
    eapply reprb_mono; [exact Rb | unfold div_common_lo; lia | unfold div_common_hi; lia |].
    destruct (div_bounds (lo A) (hi A) (lo B) (hi B) x y); auto. lia.
  - apply pair_some_iff. rewrite reprb_spec. unfold div_common_lo, div_common_hi.
    rewrite <- !Z.min_assoc, <- !Z.max_assoc. split.
    + intros H. split; [auto|]. split; [auto|]. eexists _, _. split; [exact T | exact H].
    + intros (_ & _ & l & h & T' & R). destruct (tightest_unique _ _ _ _ _ T T') as [-> ->]. exact R.
Qed.

Lemma rems_results A B z :
  results A B nonzero_divisor Z.rem z <-> rems (lo A) (hi A) (lo B) (hi B) z.
Proof.
  unfold results, rems, nonzero_divisor, holds_value.
  split; intros (x & y & ? & ? & ? & ?); exists x, y; auto.
Qed.

Lemma tightest_ext P Q l h : (forall z, P z <-> Q z) -> tightest P l h <-> tightest Q l h.
Proof.
  intros E. unfold tightest. rewrite !E. split; intros (? & ? & ?); repeat split; auto;
  apply H1; apply E; auto.
Qed.

Lemma mod_exact A B x y : valid A -> valid B -> holds_value A x -> holds_value B y -> y <> 0 ->
  ~ (y = -1 /\ exists t, is_signed t = true /\ x = ty_min t) ->
  (forall R o, modulus A B x y = Some (R, o) -> exact2 A B x y nonzero_divisor Z.rem R o) /\
  ((exists R o, modulus A B x y = Some (R, o)) <->
   exists l h, tightest (results A B nonzero_divisor Z.rem) l h /\
     representable (Z.min l (Z.min (lo A) (lo B))) (Z.max h (Z.max (hi A) (hi B)))).
Proof.
  intros HA HB Hx Hy N Hub.
  destruct (modulus_spec A B x y HA HB Hx Hy N) as [(l & h & T & ->) | [C ->]].
  - pose proof T as T0. apply (tightest_ext _ _ _ _ (rems_results A B)) in T.
    unfold mod_common. rewrite lo_bt, hi_bt. split.
    + intros R o H. apply if_some_inv in H. destruct H as [Rb E]. apply pair_equal_spec in E. destruct E as [<- <-].
      assert (l <= h) as Llh.
      { destruct T as (T1 & T2 & T3). specialize (T3 _ T1). lia. }
      split; [|split; [|exact T]].
      * apply valid_bt, reprb_spec. eapply reprb_mono; [exact Rb | lia ..].
      * apply reprb_spec in Rb. destruct (und_bounds _ _ Rb) as (U1 & U2 & U3).
        set (t := und (bt _ _)) in *.
        destruct (Z.eqb_spec y (-1)) as [-> | ]; [|reflexivity]. cbn [andb].
        destruct (in_ty (promote t) (- x)) eqn:IT; [reflexivity|]. exfalso. apply Hub.
        split; auto. exists (promote t). unfold holds_value in *.
        assert (~ (ty_min (promote t) <= - x <= ty_max (promote t))) as NI
          by (rewrite <- in_ty_spec; congruence).
        assert (ty_min (promote t) <= x <= ty_max (promote t)) as PX by (apply promote_range; lia).
        assert (ty_min t <= -1) as PM by lia.
        clear - NI PX PM. destruct t; cbn [promote ty_min ty_max is_signed] in *; split; auto; lia.
    + apply pair_some_iff. rewrite reprb_spec. rewrite <- !Z.min_assoc, <- !Z.max_assoc. split.
      * intros H. eauto.
      * intros (l' & h' & T' & R). destruct (tightest_unique _ _ _ _ _ T T') as [-> ->]. exact R.
  - split; [discriminate|]. split; [intros (? & ? & ?); discriminate|].
    intros (l & h & T & R). exfalso. apply C. apply representable_spec in R.
    apply valid_le in HA. apply valid_le in HB. unfold common_ok. cbn in *. lia.
Qed.

(** ** Shifts and and *)
Lemma shl_exact A B x y : valid A -> valid B -> holds_value A x -> holds_value B y ->
  0 <= lo B -> hi B < 128 -> ~ (lo A = 0 /\ hi A = 0) -> (0 <= lo A \/ lo B = hi B) ->
  ty_min I128 <= lo A * 2 ^ lo B -> hi A * 2 ^ hi B <= ty_max I128 -> hi A <= ty_max I128 ->
  exists R o, left_shift A B x y = Some (R, o) /\ exact2 A B x y always (fun a b => a * 2 ^ b) R o.
Proof.
  intros HA HB Hx Hy H1 H2 H3 H4 H5 H6 H7.
  rewrite left_shift_spec by auto. eexists _, _. split; [reflexivity|].
  apply valid_le in HA. apply valid_le in HB.
  assert (forall x y, holds_value A x -> holds_value B y ->
    lo A * 2 ^ lo B <= x * 2 ^ y <= hi A * 2 ^ hi B) as Bd.
  { clear x y Hx Hy. intros x y Hx Hy. unfold holds_value in *.
    pose proof (pow2_pos (lo B) ltac:(lia)). pose proof (pow2_pos y ltac:(lia)).
    pose proof (pow2_le_mono (lo B) y ltac:(lia)). pose proof (pow2_le_mono y (hi B) ltac:(lia)).
    destruct H4 as [Hs | Hs].
    - split; apply Z.mul_le_mono_nonneg; lia.
    - replace y with (lo B) in * by lia. rewrite <- Hs in *. split; apply Z.mul_le_mono_nonneg_r; lia. }
  pose proof (Bd (lo A) (lo B)) as B1. pose proof (Bd x y Hx Hy) as B2. unfold holds_value in *.
  split; [|split; [reflexivity|]].
  - apply valid_bt, reprb_spec. unfold reprb. cbn in *. lia.
  - rewrite lo_bt, hi_bt. unfold tightest, results, always, holds_value. split; [|split].
    + exists (lo A), (lo B). repeat split; auto; lia.
    + exists (hi A), (hi B). repeat split; auto; lia.
    + intros z (x' & y' & ? & ? & _ & ->). apply Bd; unfold holds_value; auto.
Qed.

Lemma shr_exact A B x y : valid A -> valid B -> holds_value A x -> holds_value B y ->
  0 <= lo B -> hi B < 128 -> (0 <= lo A \/ lo B = hi B) -> hi A <= ty_max I128 ->
  y < 32 \/ 2 ^ y <= hi A ->
  exists R o, right_shift A B x y = Some (R, o) /\ exact2 A B x y always (fun a b => a / 2 ^ b) R o.
Proof.
  intros HA HB Hx Hy H1 H2 H3 H4 H5.
  rewrite right_shift_spec by auto. eexists _, _. split; [reflexivity|].
  pose proof (valid_repr A HA) as RA. apply representable_spec in RA.
  apply valid_le in HA. apply valid_le in HB.
  assert (forall x y, holds_value A x -> holds_value B y ->
    lo A / 2 ^ hi B <= x / 2 ^ y <= hi A / 2 ^ lo B) as Bd.
  { clear x y Hx Hy H5. intros x y Hx Hy. unfold holds_value in *.
    pose proof (pow2_pos (lo B) ltac:(lia)). pose proof (pow2_pos y ltac:(lia)).
    pose proof (pow2_pos (hi B) ltac:(lia)).
    pose proof (pow2_le_mono (lo B) y ltac:(lia)). pose proof (pow2_le_mono y (hi B) ltac:(lia)).
    pose proof (Z.div_le_mono (lo A) x (2 ^ y) ltac:(lia) ltac:(lia)).
    pose proof (Z.div_le_mono x (hi A) (2 ^ y) ltac:(lia) ltac:(lia)).
    destruct H3 as [Hs | Hs].
    - pose proof (Z.div_le_compat_l (lo A) (2 ^ y) (2 ^ hi B) ltac:(lia) ltac:(lia)).
      pose proof (Z.div_le_compat_l (hi A) (2 ^ lo B) (2 ^ y) ltac:(lia) ltac:(lia)). lia.
    - replace y with (lo B) in * by lia. rewrite <- Hs in *. lia. }
  pose proof (Bd x y Hx Hy) as B2.
  assert (ty_min I128 <= lo A / 2 ^ hi B /\ hi A / 2 ^ lo B <= ty_max I128) as [S1 S2].
  { pose proof (pow2_pos (lo B) ltac:(lia)). pose proof (pow2_pos (hi B) ltac:(lia)). split.
    - apply Z.div_le_lower_bound; [lia|]. destruct RA as [_ RA]. cbn [ty_min ty_max] in *. nia.
    - apply Z.div_le_upper_bound; [lia|]. cbn [ty_min ty_max] in *. nia. }
  unfold holds_value in *.
  split; [|split; [reflexivity|]].
  - apply valid_bt, reprb_spec. unfold reprb. cbn [ty_min ty_max] in *. lia.
  - rewrite lo_bt, hi_bt. unfold tightest, results, always, holds_value. split; [|split].
    + exists (lo A), (hi B). repeat split; auto; lia.
    + exists (hi A), (lo B). repeat split; auto; lia.
    + intros z (x' & y' & ? & ? & _ & ->). apply Bd; unfold holds_value; auto.
Qed.

Lemma and_exact A B x y : valid A -> valid B -> holds_value A x -> holds_value B y ->
  0 <= lo A -> 0 <= lo B ->
  exists R, bitwise_and A B x y = Some (R, Ok (Z.land x y)) /\ valid R /\
    lo R <= Z.land x y <= hi R /\ lo R = 0 /\ hi R = Z.min (hi A) (hi B).
Proof.
  intros HA HB Hx Hy PA PB. rewrite bitwise_and_spec by auto. eexists. split; [reflexivity|].
  pose proof (valid_repr A HA) as RA. apply representable_spec in RA.
  pose proof (valid_repr B HB) as RB. apply representable_spec in RB.
  rewrite lo_bt, hi_bt. unfold holds_value in *.
  pose proof (land_bounds x y ltac:(lia) ltac:(lia)).
  split; [|lia]. apply valid_bt, representable_spec. cbn in *. lia.
Qed.
