(** * Proofs of the core properties from the reductions *)

From Coq Require Import ZArith Lia Bool List Permutation.
From Verif Require Import Cxx CxxLemmas Core Spec CoreLemmas Arith ArithLemmas ArithProofs
  Funcs SpecFuncs FuncLemmas FuncLemmas2 FuncLemmas3.
Import ListNotations.
Open Scope Z_scope.

Ltac Zify.zify_post_hook ::= idtac.

(** ** Comparison *)
Lemma comparison_exact A B x y : ivalid A -> ivalid B -> iholds A x -> iholds B y -> one_bounded A B ->
  equal A B x y = Ok (x =? y) /\ less A B x y = Ok (x <? y) /\ less_equal A B x y = Ok (x <=? y) /\
  greater A B x y = Ok (y <? x) /\ greater_equal A B x y = Ok (y <=? x) /\ compare A B x y = Ok (x ?= y).
Proof.
  intros HA HB Hx Hy O.
  assert (comparable A B) as C by (destruct A, B; try exact I; destruct O).
  split; [now apply equal_spec|]. split; [now apply less_spec|]. split; [now apply less_equal_spec|].
  split; [now apply greater_spec|]. split; [now apply greater_equal_spec|]. now apply compare_spec.
Qed.

(** ** Storage *)
Lemma value_valid B x : valid B -> holds_value B x -> value B x = Ok (TV (und B) x).
Proof.
  intros H Hx. destruct (valid_inv _ H) as [R E]. rewrite E. apply value_bt; auto.
Qed.

Lemma und_valid B : valid B -> holds (und B) (lo B) (hi B).
Proof.
  intros H. destruct (valid_inv _ H) as [R E]. destruct (und_bounds _ _ R) as (X & Y & W).
  rewrite <- E in X, W. split; auto.
Qed.

Lemma order_bits t : ty_bits t <= 128.
Proof. destruct t; cbn; lia. Qed.

Lemma holds_in128 t l h : holds t l h -> l <= h -> in128 l /\ in128 h.
Proof. unfold holds, in128. destruct t; cbn; lia. Qed.

Lemma find_first {A} (f : A -> bool) (m : A -> Z) l u t :
  (fix sorted l := match l with [] => True | a :: r => Forall (fun b => m a <= m b) r /\ sorted r end) l ->
  find f l = Some u -> In t l -> f t = true -> m u <= m t.
Proof.
  induction l as [|a l IH]; intros S F I T; [destruct I|].
  destruct S as [S1 S2]. cbn in F. destruct (f a) eqn:Fa.
  - injection F as <-. destruct I as [->|I]; [lia|]. rewrite Forall_forall in S1. now apply S1.
  - destruct I as [->|I]; [congruence|]. now apply IH.
Qed.

Lemma storage_minimal B t : valid B -> holds t (lo B) (hi B) -> ty_bits (und B) <= ty_bits t.
Proof.
  intros H Ht. destruct (valid_inv _ H) as [R E]. pose proof (und_storage _ _ R) as S.
  rewrite <- E in S. unfold storage in S. pose proof (valid_le _ H). unfold holds in Ht.
  eapply (find_first _ ty_bits determine_order); [| exact S | |].
  - cbn. repeat match goal with |- _ /\ _ => split | |- Forall _ [] => constructor | |- Forall _ (_ :: _) => constructor | |- True => exact I | _ => (cbn; lia) end.
  - destruct t; cbn; tauto.
  - apply andb_true_intro. rewrite !in_ty_spec. lia.
Qed.

Lemma accept_iff a b : wf_tv a -> wf_tv b ->
  (exists B, mk_integer (normalize a) (normalize b) = Some B /\ lo B = vl a /\ hi B = vl b) <->
  representable (vl a) (vl b).
Proof.
  intros Ha Hb. rewrite mk_integer_norm by auto. rewrite <- reprb_spec.
  destruct (reprb (vl a) (vl b)); split; intros H; auto.
  - eexists. split; [reflexivity|]. now rewrite lo_bt, hi_bt.
  - destruct H as (? & ? & _). discriminate.
  - discriminate.
Qed.

(** ** Conversions *)
Lemma convert_exact B T x : valid B -> ivalid T -> iholds T x ->
  ((exists o, convert B T x = Some o) <-> (forall v, iholds T v -> holds_value B v)) /\
  (forall o, convert B T x = Some o -> exists s, o = Ok s /\ value B s = Ok (TV (und B) x)).
Proof.
  intros HB HT Hx. rewrite convert_spec by auto. pose proof (ivalid_le _ HT) as L. split.
  - destruct ((lo B <=? ilo T) && (ihi T <=? hi B)) eqn:E; split; intros H; eauto.
    + intros v. unfold iholds, holds_value. lia.
    + destruct H. discriminate.
    + exfalso. pose proof (H (ilo T) ltac:(unfold iholds; lia)) as P1.
      pose proof (H (ihi T) ltac:(unfold iholds; lia)) as P2. unfold holds_value in *. lia.
  - intros o H. destruct ((lo B <=? ilo T) && (ihi T <=? hi B)) eqn:E; [|discriminate].
    injection H as <-. exists x. split; auto. apply value_valid; auto. unfold iholds, holds_value in *. lia.
Qed.

Lemma unchecked_exact B T x : valid B -> ivalid T -> iholds T x -> holds_value B x ->
  exists s, unchecked B T x = Some (Ok s) /\ value B s = Ok (TV (und B) x).
Proof.
  intros HB HT Hx Hb. rewrite unchecked_spec by auto. unfold iholds, holds_value in *.
  assert ((ilo T <=? hi B) && (lo B <=? ihi T) = true) as -> by lia.
  exists x. rewrite store_valid by auto. split; auto. now apply value_valid.
Qed.

(** ** check_in_range *)
Lemma check_exact T Tmin Tmax x mn mx R o : ivalid T -> ivalid Tmin -> ivalid Tmax ->
  iholds T x -> iholds Tmin mn -> iholds Tmax mx -> comparable Tmin T -> comparable T Tmax ->
  check_in_range T Tmin Tmax x mn mx = Some (R, o) ->
  (mn <= x <= mx -> o = Ok x /\ valid R /\ holds_value R x) /\
  (~ (mn <= x <= mx) -> o = Throw).
Proof.
  intros HT H1 H2 Hx Hn Hm C1 C2 H. rewrite check_spec in H by auto.
  destruct (Z.leb_spec (isect_lo T Tmin) (isect_hi T Tmax)); [|discriminate].
  apply (f_equal (fun o => match o with Some p => p | None => (R, UB) end)) in H.
  apply pair_equal_spec in H. destruct H as [<- <-].
  split; intros K.
  - assert ((mn <=? x) && (x <=? mx) = true) as -> by lia. split; auto. split.
    + apply valid_bt. now apply isect_repr.
    + unfold holds_value. rewrite lo_bt, hi_bt. unfold isect_lo, isect_hi, iholds in *. lia.
  - assert ((mn <=? x) && (x <=? mx) = false) as -> by lia. reflexivity.
Qed.

Lemma check_to_exact B T x : valid B -> ivalid T -> iholds T x ->
  ((exists R o, check_in_range_to B T x = Some (R, o)) <-> exists v, iholds T v /\ holds_value B v) /\
  (forall R o, check_in_range_to B T x = Some (R, o) ->
    R = B /\ (holds_value B x -> o = Ok x) /\ (~ holds_value B x -> o = Throw)).
Proof.
  intros HB HT Hx. rewrite check_to_spec by auto. pose proof (ivalid_le _ HT). pose proof (valid_le _ HB).
  unfold iholds, holds_value in *. split.
  - destruct ((ilo T <=? hi B) && (lo B <=? ihi T)) eqn:E; split; intros K; eauto.
    + exists (Z.max (ilo T) (lo B)). lia.
    + destruct K as (? & ? & ?). discriminate.
    + destruct K as (v & ? & ?). lia.
  - intros R o K. destruct ((ilo T <=? hi B) && (lo B <=? ihi T)); [|discriminate].
    apply (f_equal (fun o => match o with Some p => p | None => (R, UB) end)) in K.
    apply pair_equal_spec in K. destruct K as [<- <-]. split; auto.
    split; intros K; destruct ((lo B <=? x) && (x <=? hi B)) eqn:In; auto; lia.
Qed.

Lemma check_to_builtin_exact t T x o : ivalid T -> iholds T x -> comparable T (Builtin t) ->
  check_in_range_to_builtin t T x = Some o ->
  (ty_min t <= x <= ty_max t -> o = Ok (TV t x)) /\ (~ (ty_min t <= x <= ty_max t) -> o = Throw).
Proof.
  intros HT Hx C H. rewrite check_to_builtin_spec in H by auto.
  destruct ((ilo T <=? ty_max t) && (ty_min t <=? ihi T)); [|discriminate]. injection H as <-.
  split; intros K; destruct ((ty_min t <=? x) && (x <=? ty_max t)) eqn:In; auto; lia.
Qed.

(** ** Common type *)
Lemma fold_min_spec l : forall a, (forall z, In z (a :: l) -> fold_left Z.min l a <= z) /\ In (fold_left Z.min l a) (a :: l).
Proof.
  induction l as [|b l IH]; intros a; cbn [fold_left].
  - split; [intros z [->|[]]; lia | now left].
  - destruct (IH (Z.min a b)) as [H1 H2]. split.
    + intros z [->|[->|Hz]]; [specialize (H1 _ (or_introl eq_refl)); lia ..|]. apply H1. now right.
    + destruct H2 as [H2|H2]; [|right; now right]. rewrite <- H2.
      destruct (Z.min_spec a b) as [[_ ->]|[_ ->]]; [now left | right; now left].
Qed.
Lemma fold_max_spec l : forall a, (forall z, In z (a :: l) -> z <= fold_left Z.max l a) /\ In (fold_left Z.max l a) (a :: l).
Proof.
  induction l as [|b l IH]; intros a; cbn [fold_left].
  - split; [intros z [->|[]]; lia | now left].
  - destruct (IH (Z.max a b)) as [H1 H2]. split.
    + intros z [->|[->|Hz]]; [specialize (H1 _ (or_introl eq_refl)); lia ..|]. apply H1. now right.
    + destruct H2 as [H2|H2]; [|right; now right]. rewrite <- H2.
      destruct (Z.max_spec a b) as [[_ ->]|[_ ->]]; [right; now left | now left].
Qed.

Definition hull_lo (A : bty) (rest : list bty) : Z := fold_left Z.min (map lo rest) (lo A).
Definition hull_hi (A : bty) (rest : list bty) : Z := fold_left Z.max (map hi rest) (hi A).

Lemma tight_hull A rest : valid A -> Forall valid rest ->
  tightest (union_of (A :: rest)) (hull_lo A rest) (hull_hi A rest).
Proof.
  intros HA F. unfold hull_lo, hull_hi.
  destruct (fold_min_spec (map lo rest) (lo A)) as [L1 L2].
  destruct (fold_max_spec (map hi rest) (hi A)) as [H1 H2].
  change (lo A :: map lo rest) with (map lo (A :: rest)) in *.
  change (hi A :: map hi rest) with (map hi (A :: rest)) in *.
  assert (forall T, In T (A :: rest) -> lo T <= hi T) as L.
  { intros T [->|HT]; [now apply valid_le|]. rewrite Forall_forall in F. now apply valid_le, F. }
  split; [|split].
  - apply in_map_iff in L2. destruct L2 as (T & E & HT). exists T. split; auto.
    specialize (L _ HT). unfold holds_value. lia.
  - apply in_map_iff in H2. destruct H2 as (T & E & HT). exists T. split; auto.
    specialize (L _ HT). unfold holds_value. lia.
  - intros z (T & HT & Hz). unfold holds_value in Hz.
    specialize (L1 (lo T) (in_map lo _ _ HT)). specialize (H1 (hi T) (in_map hi _ _ HT)). lia.
Qed.

Lemma tightest_unique P l h l' h' : tightest P l h -> tightest P l' h' -> l = l' /\ h = h'.
Proof.
  intros (A1 & A2 & A3) (B1 & B2 & B3).
  pose proof (A3 _ B1). pose proof (A3 _ B2). pose proof (B3 _ A1). pose proof (B3 _ A2). lia.
Qed.

Lemma common_exact A rest : valid A -> Forall valid rest ->
  (forall C, common_type_n A rest = Some C ->
     valid C /\ tightest (union_of (A :: rest)) (lo C) (hi C) /\
     forall T x, In T (A :: rest) -> holds_value T x -> convert C (Bounded T) x = Some (Ok x)) /\
  ((exists C, common_type_n A rest = Some C) <->
   exists l h, tightest (union_of (A :: rest)) l h /\ representable l h).
Proof.
  intros HA F. rewrite common_type_n_spec by auto. fold (hull_lo A rest). fold (hull_hi A rest).
  pose proof (tight_hull A rest HA F) as T. split.
  - intros C H. destruct (reprb (hull_lo A rest) (hull_hi A rest)) eqn:R; [|discriminate].
    injection H as <-. apply reprb_spec in R. pose proof (valid_bt _ _ R) as V.
    split; auto. rewrite lo_bt, hi_bt. split; auto.
    intros D x HD Hx.
    assert (valid D) as VD.
    { destruct HD as [->|HD]; auto. rewrite Forall_forall in F. auto. }
    rewrite convert_spec; auto. cbn [ilo ihi]. rewrite lo_bt, hi_bt.
    pose proof (valid_le _ VD). destruct T as (_ & _ & T).
    pose proof (T (lo D) ltac:(exists D; unfold holds_value; split; auto; lia)).
    pose proof (T (hi D) ltac:(exists D; unfold holds_value; split; auto; lia)).
    assert ((hull_lo A rest <=? lo D) && (hi D <=? hull_hi A rest) = true) as -> by lia. reflexivity.
  - apply some_iff. rewrite reprb_spec. split.
    + intros R. eauto.
    + intros (l & h & T' & R). destruct (tightest_unique _ _ _ _ _ T T'). congruence.
Qed.

Lemma common_perm A rest A' rest' : valid A -> Forall valid rest -> Permutation (A :: rest) (A' :: rest') ->
  common_type_n A rest = common_type_n A' rest'.
Proof.
  intros HA F P.
  assert (Forall valid (A' :: rest')) as F' by (rewrite <- P; now constructor).
  inversion F' as [|? ? HA' F'']; subst.
  rewrite !common_type_n_spec by auto. fold (hull_lo A rest) (hull_hi A rest) (hull_lo A' rest') (hull_hi A' rest').
  destruct (tightest_unique (union_of (A :: rest)) (hull_lo A rest) (hull_hi A rest) (hull_lo A' rest') (hull_hi A' rest')) as [-> ->]; auto using tight_hull.
  apply (proj1 (tightest_ext (union_of (A' :: rest')) (union_of (A :: rest)) _ _
    ltac:(intros z; split; intros (T & HT & Hz); exists T; split; auto;
          [apply (Permutation_in _ (Permutation_sym P)) | apply (Permutation_in _ P)]; auto))).
  now apply tight_hull.
Qed.

Lemma common_assoc A l1 B l2 C1 C2 : valid A -> valid B -> Forall valid l1 -> Forall valid l2 ->
  common_type_n A l1 = Some C1 -> common_type_n B l2 = Some C2 ->
  common_type C1 C2 = common_type_n A (l1 ++ B :: l2).
Proof.
  intros HA HB F1 F2 E1 E2.
  assert (Forall valid (l1 ++ B :: l2)) as F by (apply Forall_app; auto).
  destruct (common_exact A l1 HA F1) as [K1 _]. destruct (K1 _ E1) as (V1 & T1 & _).
  destruct (common_exact B l2 HB F2) as [K2 _]. destruct (K2 _ E2) as (V2 & T2 & _).
  assert (common_type C1 C2 = common_type_n C1 [C2]) as ->.
  { cbn. destruct (common_type C1 C2); reflexivity. }
  rewrite !common_type_n_spec by auto.
  fold (hull_lo C1 [C2]) (hull_hi C1 [C2]) (hull_lo A (l1 ++ B :: l2)) (hull_hi A (l1 ++ B :: l2)).
  destruct (tightest_unique (union_of (A :: l1 ++ B :: l2)) (hull_lo C1 [C2]) (hull_hi C1 [C2])
    (hull_lo A (l1 ++ B :: l2)) (hull_hi A (l1 ++ B :: l2))) as [-> ->]; auto using tight_hull.
  destruct T1 as (L1 & H1 & A1), T2 as (L2 & H2 & A2).
  unfold hull_lo, hull_hi. cbn [map fold_left].
  assert (forall z, union_of (A :: l1 ++ B :: l2) z <-> union_of (A :: l1) z \/ union_of (B :: l2) z) as U.
  { intros z. unfold union_of. change (A :: l1 ++ B :: l2) with ((A :: l1) ++ (B :: l2)). split.
    - intros (T & HT & Hz). apply in_app_iff in HT. destruct HT; [left | right]; eauto.
    - intros [(T & HT & Hz)|(T & HT & Hz)]; exists T; split; auto; apply in_app_iff; auto. }
  split; [|split].
  - apply U. destruct (Z.min_spec (lo C1) (lo C2)) as [[_ ->]|[_ ->]]; auto.
  - apply U. destruct (Z.max_spec (hi C1) (hi C2)) as [[_ ->]|[_ ->]]; auto.
  - intros z Hz. apply U in Hz. destruct Hz as [Hz|Hz]; [apply A1 in Hz | apply A2 in Hz]; lia.
Qed.

(** ** Range casts *)
Lemma check_bool l h x : (l <=? x) && (x <=? h) = true <-> l <= x <= h. Proof. lia. Qed.

Lemma increase_min_exact n A x : wf_tv n -> valid A -> holds_value A x ->
  ((exists R o, increase_min n A x = Some (R, o)) <-> vl n <= hi A) /\
  (forall R o, increase_min n A x = Some (R, o) ->
     valid R /\ lo R = Z.max (vl n) (lo A) /\ hi R = hi A /\
     (vl n <= x -> o = Ok x) /\ (x < vl n -> o = UB)).
Proof.
  intros Hn HA Hx. rewrite increase_min_spec by auto. split.
  { apply pair_some_iff. lia. }
  intros R o H. apply if_some_inv in H. destruct H as [L E]. apply pair_equal_spec in E. destruct E as [<- <-].
  rewrite lo_bt, hi_bt. unfold holds_value in Hx.
  assert (representable (Z.max (vl n) (lo A)) (hi A)) as Rp.
  { apply reprb_spec. eapply reprb_mono; [apply reprb_spec, (valid_repr _ HA) | lia ..]. }
  split; [now apply valid_bt|]. split; auto. split; auto.
  destruct (Z.leb_spec (vl n) x); split; auto; lia.
Qed.
Lemma decrease_max_exact n A x : wf_tv n -> valid A -> holds_value A x ->
  ((exists R o, decrease_max n A x = Some (R, o)) <-> lo A <= vl n) /\
  (forall R o, decrease_max n A x = Some (R, o) ->
     valid R /\ lo R = lo A /\ hi R = Z.min (vl n) (hi A) /\
     (x <= vl n -> o = Ok x) /\ (vl n < x -> o = UB)).
Proof.
  intros Hn HA Hx. rewrite decrease_max_spec by auto. split.
  { apply pair_some_iff. lia. }
  intros R o H. apply if_some_inv in H. destruct H as [L E]. apply pair_equal_spec in E. destruct E as [<- <-].
  rewrite lo_bt, hi_bt. unfold holds_value in Hx.
  assert (representable (lo A) (Z.min (vl n) (hi A))) as Rp.
  { apply reprb_spec. eapply reprb_mono; [apply reprb_spec, (valid_repr _ HA) | lia ..]. }
  split; [now apply valid_bt|]. split; auto. split; auto.
  destruct (Z.leb_spec x (vl n)); split; auto; lia.
Qed.
Lemma increase_min_unchecked_exact n A x R o : wf_tv n -> valid A -> holds_value A x -> vl n <= x ->
  increase_min_unchecked n A x = Some (R, o) ->
  valid R /\ lo R = Z.max (vl n) (lo A) /\ hi R = hi A /\ o = Ok x.
Proof.
  intros Hn HA Hx L H. rewrite increase_min_unchecked_spec in H by auto.
  apply if_some_inv in H. destruct H as [L' E]. apply pair_equal_spec in E. destruct E as [<- <-].
  rewrite lo_bt, hi_bt. unfold holds_value in Hx.
  assert (representable (Z.max (vl n) (lo A)) (hi A)) as Rp.
  { apply reprb_spec. eapply reprb_mono; [apply reprb_spec, (valid_repr _ HA) | lia ..]. }
  split; [now apply valid_bt|]. split; auto. split; auto.
  apply store_spec; auto. lia.
Qed.
Lemma decrease_max_unchecked_exact n A x R o : wf_tv n -> valid A -> holds_value A x -> x <= vl n ->
  decrease_max_unchecked n A x = Some (R, o) ->
  valid R /\ lo R = lo A /\ hi R = Z.min (vl n) (hi A) /\ o = Ok x.
Proof.
  intros Hn HA Hx L H. rewrite decrease_max_unchecked_spec in H by auto.
  apply if_some_inv in H. destruct H as [L' E]. apply pair_equal_spec in E. destruct E as [<- <-].
  rewrite lo_bt, hi_bt. unfold holds_value in Hx.
  assert (representable (lo A) (Z.min (vl n) (hi A))) as Rp.
  { apply reprb_spec. eapply reprb_mono; [apply reprb_spec, (valid_repr _ HA) | lia ..]. }
  split; [now apply valid_bt|]. split; auto. split; auto.
  apply store_spec; auto. lia.
Qed.

Lemma assume_exact T Tmin Tmax x mn mx R o : ivalid T -> ivalid Tmin -> ivalid Tmax ->
  iholds T x -> iholds Tmin mn -> iholds Tmax mx -> comparable T Tmin -> comparable Tmax T ->
  assume_in_range T Tmin Tmax x mn mx = Some (R, o) ->
  valid R /\ lo R = Z.max (ilo Tmin) (ilo T) /\ hi R = Z.min (ihi Tmax) (ihi T) /\
  (mn <= x <= mx -> o = Ok x /\ holds_value R x) /\ (~ (mn <= x <= mx) -> o = UB).
Proof.
  intros HT H1 H2 Hx Hn Hm C1 C2 H. rewrite assume_spec in H by auto.
  destruct (Z.leb_spec (isect_lo T Tmin) (isect_hi T Tmax)) as [L|]; [|discriminate].
  apply (f_equal (fun o => match o with Some p => p | None => (R, UB) end)) in H.
  apply pair_equal_spec in H. destruct H as [<- <-].
  split; [apply valid_bt; now apply isect_repr|].
  unfold holds_value. rewrite lo_bt, hi_bt.
  split; [reflexivity|]. split; [reflexivity|]. unfold isect_lo, isect_hi, iholds in *.
  split; intros K.
  - assert ((mn <=? x) && (x <=? mx) = true) as -> by lia. split; auto. lia.
  - assert ((mn <=? x) && (x <=? mx) = false) as -> by lia. reflexivity.
Qed.

Lemma assume_to_exact B T x R o : valid B -> ivalid T -> iholds T x ->
  assume_in_range_to B T x = Some (R, o) ->
  valid R /\ lo R = Z.max (lo B) (ilo T) /\ hi R = Z.min (hi B) (ihi T) /\
  (holds_value B x -> o = Ok x /\ holds_value R x) /\ (~ holds_value B x -> o = UB).
Proof.
  intros HB HT Hx H. rewrite assume_to_spec in H by auto.
  apply if_some_inv in H. destruct H as [L E]. apply pair_equal_spec in E. destruct E as [<- <-].
  pose proof (ivalid_le _ HT). pose proof (valid_le _ HB). unfold holds_value. rewrite lo_bt, hi_bt.
  split.
  { apply valid_bt, reprb_spec. eapply reprb_mono; [apply reprb_spec, (valid_repr _ HB) | lia ..]. }
  split; auto. split; auto. unfold iholds in Hx.
  split; intros K; destruct ((lo B <=? x) && (x <=? hi B)) eqn:In; try lia; auto. split; auto. lia.
Qed.

Lemma assume_to_builtin_exact t T x : ivalid T -> iholds T x ->
  exists o, assume_in_range_to_builtin t T x = Some o /\
    (ty_min t <= x <= ty_max t -> o = Ok (TV t x)) /\ (~ (ty_min t <= x <= ty_max t) -> o = UB).
Proof.
  intros HT Hx. rewrite assume_to_builtin_spec by auto. eexists. split; [reflexivity|].
  split; intros K; destruct ((ty_min t <=? x) && (x <=? ty_max t)) eqn:In; auto; lia.
Qed.

(** ** round_up_divide *)
Lemma ceil_spec x y : 0 < y -> 0 < x + y -> y * (Z.quot (x + y - 1) y - 1) < x <= y * Z.quot (x + y - 1) y.
Proof.
  intros Hy Hx. rewrite Z.quot_div_nonneg by lia.
  pose proof (Z.div_mod (x + y - 1) y ltac:(lia)). pose proof (Z.mod_pos_bound (x + y - 1) y Hy).
  generalize dependent ((x + y - 1) / y). intros q Hq. nia.
Qed.

Lemma then_exact r f T o z : then_ r f = Some (T, o) ->
  (forall R o', r = Some (R, o') -> sound (Some z) R o') ->
  exists R, fits R z /\ f R z = Some (T, o).
Proof.
  intros H S. apply then_cases in H. destruct H as (R & o' & E & H).
  destruct (S _ _ E) as [V [-> Hz]]. exists R. split; [split|]; auto.
Qed.

Lemma round_up_exact A B x y R o : valid A -> valid B -> holds_value A x -> holds_value B y ->
  0 < y -> 0 < x + y -> round_up_divide A B x y = Some (R, o) ->
  valid R /\ exists q, o = Ok q /\ holds_value R q /\ y * (q - 1) < x <= y * q.
Proof.
  intros HA HB Hx Hy P1 P2 H. unfold round_up_divide in H.
  rewrite constant_t_lit in H by (cbn; lia). cbn [obind] in H.
  assert (fits (cst 1) 1) as F1 by (split; [apply valid_cst, in128_1 | apply holds_cst]).
  apply (then_exact _ _ _ _ (x + y)) in H.
  2:{ intros T o1 E. exact (plus_sound _ _ _ _ _ _ (conj HA Hx) (conj HB Hy) E). }
  destruct H as (S & FS & H).
  apply (then_exact _ _ _ _ (x + y - 1)) in H.
  2:{ intros T o1 E. exact (minus_sound _ _ _ _ _ _ FS F1 E). }
  destruct H as (D & FD & H).
  apply divide_sound in H; auto; [|now split].
  destruct (Z.eqb_spec y 0); [lia|]. destruct H as [V [-> Hq]]. split; auto.
  eexists. split; [reflexivity|]. split; auto. now apply ceil_spec.
Qed.

(** ** Mixed operators *)
Lemma mixed_exact op A B x y f : ivalid A -> ivalid B -> iholds A x -> iholds B y ->
  (forall DA DB R o, valid DA -> valid DB -> lo DA = ilo A -> hi DA = ihi A -> lo DB = ilo B -> hi DB = ihi B ->
     op DA DB x y = Some (R, o) -> sound (Some f) R o) ->
  forall o, mixed op A B x y = Some o -> exists t, o = Ok (TV t f) /\ ty_min t <= f <= ty_max t.
Proof.
  intros HA HB Hx Hy Hop o H. unfold mixed in H. rewrite !deduced_spec in H by auto. cbn [obind] in H.
  destruct (op _ _ x y) as [[R r]|] eqn:E; cbn [obind] in H; [|discriminate].
  apply Hop in E; auto using valid_deduced.
  destruct E as [V [-> Hf]]. cbn [bind] in H. rewrite value_valid in H by auto.
  injection H as <-. exists (und R). split; auto.
  destruct (und_valid _ V). unfold holds_value in Hf. lia.
Qed.

Lemma fits_i T D x : valid D -> lo D = ilo T -> hi D = ihi T -> iholds T x -> fits D x.
Proof. intros V E1 E2 H. split; auto. unfold holds_value. rewrite E1, E2. exact H. Qed.

Definition iproducts_ok (A B : ity) : Prop :=
  forall x y, iholds A x -> iholds B y -> ty_min I128 <= x * y.

Lemma mixed_plus A B x y o : ivalid A -> ivalid B -> iholds A x -> iholds B y ->
  mixed plus A B x y = Some o -> exists t, o = Ok (TV t (x + y)) /\ ty_min t <= x + y <= ty_max t.
Proof.
  intros HA HB Hx Hy. apply mixed_exact; auto.
  intros DA DB R r V1 V2 E1 E2 E3 E4 H.
  exact (plus_sound _ _ _ _ _ _ (fits_i A DA x V1 E1 E2 Hx) (fits_i B DB y V2 E3 E4 Hy) H).
Qed.
Lemma mixed_multiply A B x y o : ivalid A -> ivalid B -> iholds A x -> iholds B y ->
  (forall x' y', iholds A x' -> iholds B y' -> ty_min I128 <= x' * y') ->
  mixed multiply A B x y = Some o -> exists t, o = Ok (TV t (x * y)) /\ ty_min t <= x * y <= ty_max t.
Proof.
  intros HA HB Hx Hy P. apply mixed_exact; auto.
  intros DA DB R r V1 V2 E1 E2 E3 E4 H.
  refine (multiply_sound _ _ _ _ _ _ (fits_i A DA x V1 E1 E2 Hx) (fits_i B DB y V2 E3 E4 Hy) _ H).
  intros x' y' Hx' Hy'. unfold holds_value in *. rewrite E1, E2 in Hx'. rewrite E3, E4 in Hy'. apply P; auto.
Qed.
Lemma mixed_divide A B x y o : ivalid A -> ivalid B -> iholds A x -> iholds B y -> y <> 0 ->
  mixed divide A B x y = Some o -> exists t, o = Ok (TV t (Z.quot x y)) /\ ty_min t <= Z.quot x y <= ty_max t.
Proof.
  intros HA HB Hx Hy N. apply mixed_exact; auto.
  intros DA DB R r V1 V2 E1 E2 E3 E4 H.
  pose proof (divide_sound _ _ _ _ _ _ (fits_i A DA x V1 E1 E2 Hx) (fits_i B DB y V2 E3 E4 Hy) H) as S.
  destruct (Z.eqb_spec y 0); [contradiction | exact S].
Qed.
Lemma mixed_modulus A B x y o : ivalid A -> ivalid B -> iholds A x -> iholds B y -> y <> 0 -> y <> -1 ->
  mixed modulus A B x y = Some o -> exists t, o = Ok (TV t (Z.rem x y)) /\ ty_min t <= Z.rem x y <= ty_max t.
Proof.
  intros HA HB Hx Hy N M. apply mixed_exact; auto.
  intros DA DB R r V1 V2 E1 E2 E3 E4 H.
  pose proof (modulus_sound _ _ _ _ _ _ (fits_i A DA x V1 E1 E2 Hx) (fits_i B DB y V2 E3 E4 Hy) M H) as S.
  destruct (Z.eqb_spec y 0); [contradiction | exact S].
Qed.
Lemma mixed_minus_exact A B x y o : ivalid A -> ivalid B -> iholds A x -> iholds B y ->
  (match B with Builtin b => in_ty (promote b) (- y) = true | Bounded _ => True end) ->
  mixed_minus A B x y = Some o -> exists t, o = Ok (TV t (x - y)) /\ ty_min t <= x - y <= ty_max t.
Proof.
  intros HA HB Hx Hy C H. unfold mixed_minus in H. destruct B as [b|B].
  - assert (cneg (TV b y) = Ok (TV (promote b) (- y))) as E.
    { unfold cneg. cbn [ty vl].
      apply in_ty_spec in C. unfold arith. destruct (is_signed (promote b)).
      - now rewrite (proj2 (in_ty_spec (promote b) (- y)) C).
      - now rewrite wrap_id. }
    rewrite E in H. cbn [vl] in H. apply in_ty_spec in C.
    apply (mixed_plus A (Builtin (promote b)) x (- y)) in H; auto.
  - rewrite negate_spec in H by auto.
    destruct (reprb (- hi B) (- lo B)) eqn:R; cbn [obind] in H; [|discriminate].
    apply reprb_spec in R. unfold iholds in Hy. cbn [ilo ihi] in Hy.
    apply (mixed_plus A (Bounded (bt (- hi B) (- lo B))) x (- y)) in H; auto.
    + exact (valid_bt _ _ R).
    + unfold iholds. cbn [ilo ihi]. rewrite lo_bt, hi_bt. lia.
Qed.

(** ** min, max, clamp, abs *)
Lemma fold_pick_spec c l : forall a,
  (forall z, In z (a :: l) -> match c with ByLess => fold_left (pick c) l a <= z | ByGreater => z <= fold_left (pick c) l a end) /\
  In (fold_left (pick c) l a) (a :: l).
Proof. destruct c; [exact (fold_min_spec l) | exact (fold_max_spec l)]. Qed.

Lemma extreme_generic_first {T} (cmp : T -> T -> bool) :
  (forall a, cmp a a = false) -> (forall a b, cmp a b = true -> cmp b a = false) ->
  (forall a b c, cmp a b = true -> cmp b c = true -> cmp a c = true) ->
  (forall a b c, cmp a b = false -> cmp b c = false -> cmp a c = false) ->
  forall ts t, exists pre post, t :: ts = pre ++ extreme_generic cmp t ts :: post /\
    (forall u, In u (t :: ts) -> cmp u (extreme_generic cmp t ts) = false) /\
    (forall u, In u pre -> cmp (extreme_generic cmp t ts) u = true).
Proof.
  intros Irr Asym Trans NT. induction ts as [|b ts IH]; intros t.
  - exists [], []. split; [reflexivity|]. split; [|intros ? []]. intros u [->|[]]. apply Irr.
  - unfold extreme_generic in *. cbn [fold_left]. destruct (cmp b t) eqn:E.
    + destruct (IH b) as (pre & post & H1 & H2 & H3).
      set (m := fold_left _ ts b) in *. exists (t :: pre), post. split; [|split].
      * cbn [app]. now rewrite <- H1.
      * intros u [->|Hu]; [|now apply H2]. 
        destruct (cmp u m) eqn:Eu; auto. exfalso.
        pose proof (H2 b (or_introl eq_refl)) as Hb. pose proof (Trans _ _ _ E Eu). congruence.
      * intros u [<-|Hu]; [|now apply H3].
        pose proof (H2 b (or_introl eq_refl)) as Hb. destruct (cmp m t) eqn:Em; auto.
        pose proof (NT _ _ _ Hb Em). congruence.
    + destruct (IH t) as (pre & post & H1 & H2 & H3).
      set (m := fold_left _ ts t) in *.
      assert (cmp b m = false) as Hbm by (apply (NT b t m E), H2; now left).
      destruct pre as [|p pre]; cbn [app] in H1.
      * injection H1 as Et Ets. exists [], (b :: post). split; [|split].
        -- cbn [app]. now rewrite <- Et, Ets.
        -- intros u [->|[->|Hu]]; auto; apply H2; [now left | now right].
        -- intros u [].
      * injection H1 as Et Ets. exists (p :: b :: pre), post. split; [|split].
        -- cbn [app]. now rewrite <- Et, Ets.
        -- intros u [->|[->|Hu]]; auto; apply H2; [now left | now right].
        -- intros u [<-|[<-|Hu]]; try (apply H3; cbn; tauto).
           assert (cmp m p = true) as Hp by (apply H3; now left). subst p.
           destruct (cmp m b) eqn:Em; auto. pose proof (NT _ _ _ Em E). congruence.
Qed.

Lemma extreme_exact c A x rest : valid A -> holds_value A x -> Forall arg_ok rest ->
  let P := match c with ByLess => least | ByGreater => greatest end in
  exists R z, extreme_n c (Some (A, Ok x)) rest = Some (R, Ok z) /\ valid R /\ holds_value R z /\
    P z (x :: map snd rest) /\
    P (lo R) (lo A :: map (fun a => lo (fst a)) rest) /\
    P (hi R) (hi A :: map (fun a => hi (fst a)) rest).
Proof.
  intros HA Hx F P. rewrite extreme_n_spec by auto. eexists _, _. split; [reflexivity|].
  unfold holds_value. rewrite lo_bt, hi_bt.
  assert (valid (bt (fold_left (pick c) (map (fun a => lo (fst a)) rest) (lo A))
                 (fold_left (pick c) (map (fun a => hi (fst a)) rest) (hi A))) /\
    fold_left (pick c) (map (fun a => lo (fst a)) rest) (lo A) <= fold_left (pick c) (map snd rest) x <=
    fold_left (pick c) (map (fun a => hi (fst a)) rest) (hi A)) as [V B].
  { revert A x HA Hx. induction rest as [|[B y] rest IH]; intros A x HA Hx; cbn [map fold_left].
    - destruct (valid_inv _ HA) as [_ E]. rewrite <- E. auto.
    - inversion F as [|? ? [HB Hy] F']; subst. cbn [fst snd] in *.
      specialize (IH F' _ _ (pick_bt_valid c A B HA HB) (pick_holds c A B x y Hx Hy)).
      rewrite lo_bt, hi_bt in IH. exact IH. }
  split; auto. split; auto.
  pose proof (fold_pick_spec c (map snd rest) x) as [H1 H2].
  pose proof (fold_pick_spec c (map (fun a => lo (fst a)) rest) (lo A)) as [H3 H4].
  pose proof (fold_pick_spec c (map (fun a => hi (fst a)) rest) (hi A)) as [H5 H6].
  unfold P. destruct c; unfold least, greatest; auto.
Qed.

Lemma clamp_exact V MN MX v mn mx : valid V -> valid MN -> valid MX ->
  holds_value V v -> holds_value MN mn -> holds_value MX mx -> mn <= mx ->
  exists R z, clamp V MN MX v mn mx = Some (R, Ok z) /\ valid R /\ holds_value R z /\
    (v < mn -> z = mn) /\ (mx < v -> z = mx) /\ (mn <= v <= mx -> z = v).
Proof.
  intros H1 H2 H3 Hv Hn Hx L. rewrite clamp_spec by auto. eexists _, _. split; [reflexivity|].
  split.
  - pose proof (pick_bt_valid ByGreater V MN H1 H2) as W.
    pose proof (pick_bt_valid ByLess _ MX W H3) as W'. now rewrite lo_bt, hi_bt in W'.
  - unfold holds_value in *. rewrite lo_bt, hi_bt. repeat split; lia.
Qed.

Lemma clamp_to_exact B T x : valid B -> ivalid T -> iholds T x ->
  exists R z, clamp_to B T x = Some (R, Ok z) /\ valid R /\ holds_value R z /\ holds_value B z /\
    (x < lo B -> z = lo B) /\ (hi B < x -> z = hi B) /\ (holds_value B x -> z = x).
Proof.
  intros HB HT Hx. rewrite clamp_to_spec by auto. eexists _, _. split; [reflexivity|].
  destruct (valid_bounds _ HB) as (I1 & I2 & L & _).
  split.
  - pose proof (pick_bt_valid ByGreater _ _ (valid_deduced T HT) (valid_cst _ I1)) as W.
    pose proof (pick_bt_valid ByLess _ _ W (valid_cst _ I2)) as W'.
    unfold cst in W'. rewrite !lo_bt, !hi_bt in W'. exact W'.
  - unfold iholds, holds_value in *. rewrite lo_bt, hi_bt. repeat split; lia.
Qed.

Lemma abs_exact A x : valid A -> holds_value A x ->
  (forall R o, abs A x = Some (R, o) -> exact1 A x Z.abs R o) /\
  ((exists R o, abs A x = Some (R, o)) <-> 0 <= lo A \/ representable (- hi A) (- lo A)).
Proof.
  intros HA Hx. split.
  - intros R o H. pose proof (abs_sound A x R o (conj HA Hx) H) as [V [-> Hz]].
    split; auto. split; auto.
    rewrite abs_spec in H by auto. apply if_some_inv in H. destruct H as [_ E].
    apply pair_equal_spec in E. destruct E as [<- _]. pose proof (valid_le _ HA).
    assert (forall z, holds_value A z -> results1 A Z.abs (Z.abs z)) as K by (intros; eexists; eauto).
    assert (forall z, lo A <= z <= hi A -> results1 A Z.abs (Z.abs z)) as K' by (intros; apply K; auto).
    assert (forall w, results1 A Z.abs w -> exists z, lo A <= z <= hi A /\ w = Z.abs z) as K2.
    { intros w (z & Hw & ->). exists z. auto. }
    destruct (Z.leb_spec 0 (lo A)); [|destruct (Z.leb_spec (hi A) 0)]; rewrite lo_bt, hi_bt.
    + split; [|split].
      * rewrite <- (Z.abs_eq (lo A)) by lia. apply K'. lia.
      * rewrite <- (Z.abs_eq (hi A)) by lia. apply K'. lia.
      * intros w Hw. apply K2 in Hw. destruct Hw as (z & ? & ->). lia.
    + split; [|split].
      * rewrite <- (Z.abs_neq (hi A)) by lia. apply K'. lia.
      * rewrite <- (Z.abs_neq (lo A)) by lia. apply K'. lia.
      * intros w Hw. apply K2 in Hw. destruct Hw as (z & ? & ->). lia.
    + split; [|split].
      * change 0 with (Z.abs 0). apply K'. lia.
      * destruct (Z.max_spec (hi A) (- lo A)) as [[_ ->]|[_ ->]].
        -- rewrite <- (Z.abs_neq (lo A)) by lia. apply K'. lia.
        -- rewrite <- (Z.abs_eq (hi A)) by lia. apply K'. lia.
      * intros w Hw. apply K2 in Hw. destruct Hw as (z & ? & ->). lia.
  - rewrite abs_spec by auto. rewrite <- reprb_spec. apply pair_some_iff.
    rewrite orb_true_iff, Z.leb_le. reflexivity.
Qed.

(** ** Assignment *)
Lemma assign_exact B T x : valid B -> ivalid T -> iholds T x ->
  ((exists o, assign B T x = Some o) <-> exists v, iholds T v /\ holds_value B v) /\
  (forall o, assign B T x = Some o -> (holds_value B x -> o = Ok x) /\ (~ holds_value B x -> o = UB)).
Proof.
  intros HB HT Hx. rewrite assign_spec by auto. pose proof (ivalid_le _ HT). pose proof (valid_le _ HB).
  unfold iholds, holds_value in *. split.
  - destruct ((ilo T <=? hi B) && (lo B <=? ihi T)) eqn:E; split; intros K; eauto.
    + exists (Z.max (ilo T) (lo B)). lia.
    + destruct K as (? & ?). discriminate.
    + destruct K as (v & ? & ?). lia.
  - intros o K. destruct ((ilo T <=? hi B) && (lo B <=? ihi T)); [|discriminate].
    injection K as <-. split; intros K; destruct ((lo B <=? x) && (x <=? hi B)) eqn:In; auto; lia.
Qed.

Lemma postfix_exact A x : valid A -> holds_value A x ->
  (forall o, post_increment A x = Some o ->
     (x < hi A -> o = Ok (x, x + 1)) /\ (x = hi A -> o = UB)) /\
  (forall o, post_decrement A x = Some o ->
     (lo A < x -> o = Ok (x, x - 1)) /\ (x = lo A -> o = UB)).
Proof.
  intros HA Hx. unfold post_increment, post_decrement. unfold holds_value in Hx. split; intros o H.
  - destruct (increment A x) as [[R r]|] eqn:E; cbn [obind] in H; [|discriminate]. injection H as <-.
    apply (update_sound A UInc x R r (conj HA Hx) I) in E. destruct E as [_ ->]. cbn [math_update restrict].
    split; intros K.
    + assert ((lo A <=? x + 1) && (x + 1 <=? hi A) = true) as -> by lia. reflexivity.
    + assert ((lo A <=? x + 1) && (x + 1 <=? hi A) = false) as -> by lia. reflexivity.
  - destruct (decrement A x) as [[R r]|] eqn:E; cbn [obind] in H; [|discriminate]. injection H as <-.
    apply (update_sound A UDec x R r (conj HA Hx) I) in E. destruct E as [_ ->]. cbn [math_update restrict].
    split; intros K.
    + assert ((lo A <=? x - 1) && (x - 1 <=? hi A) = true) as -> by lia. reflexivity.
    + assert ((lo A <=? x - 1) && (x - 1 <=? hi A) = false) as -> by lia. reflexivity.
Qed.

Lemma eval_exact G env e : (forall n, valid (G n) /\ holds_value (G n) (env n)) ->
  constants_ok e -> avoids_defects G env e ->
  forall R o, eval G env e = Some (R, o) ->
  valid R /\ match math env e with Some z => o = Ok z /\ holds_value R z | None => o = UB end.
Proof. intros. eapply eval_sound; eauto. Qed.

Lemma history_exact A us x R o : valid A -> holds_value A x -> Forall (update_ok A) us ->
  run_updates A us x = Some (R, o) ->
  R = A /\ o = match math_run (lo A) (hi A) us x with Some z => Ok z | None => UB end.
Proof. intros HA Hx. apply run_sound. now split. Qed.

Lemma math_run_inv l h us : forall x z, l <= x <= h -> math_run l h us x = Some z -> l <= z <= h.
Proof.
  induction us as [|u us IH]; intros x z Hx H; cbn in H; [injection H as <-; auto|].
  destruct (math_update u x) as [w|]; [|discriminate].
  destruct ((l <=? w) && (w <=? h)) eqn:E; [|discriminate]. apply (IH w); auto. lia.
Qed.
