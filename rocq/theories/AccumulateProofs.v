(** * Proofs about sum, product and accumulate *)

From Coq Require Import ZArith Bool List Lia.
From Verif Require Import Cxx Core Spec CxxLemmas CoreLemmas Arith ArithLemmas ArithProofs Funcs FuncLemmas FuncLemmas2 CoreProofs NumProofs Accumulate.
Import ListNotations.
Open Scope Z_scope.

(** The operator is exact on values of [R] and [V]. *)
Definition exactly (op : bty -> bty -> Z -> Z -> result) (f : Z -> Z -> Z) (R V : bty) : Prop :=
  forall x v T o, holds_value R x -> holds_value V v -> op R V x v = Some (T, o) -> valid T /\ o = Ok (f x v) /\ holds_value T (f x v).

Lemma exact2_holds A B x y f R o : holds_value A x -> holds_value B y -> exact2 A B x y always f R o -> valid R /\ o = Ok (f x y) /\ holds_value R (f x y).
Proof.
  intros Hx Hy (HV & Ho & _ & _ & Hin). split; [exact HV|]. split; [exact Ho|]. apply Hin. exists x, y. unfold always. auto.
Qed.
Lemma plus_exactly R V : valid R -> valid V -> exactly plus Z.add R V.
Proof. intros HR HV x v T o Hx Hv H. destruct (add_exact R V x v HR HV Hx Hv) as [He _]. destruct (He _ _ H) as [E _]. now apply (exact2_holds R V). Qed.
Lemma multiply_exactly R V : valid R -> valid V -> (forall x y, holds_value R x -> holds_value V y -> ty_min I128 <= x * y) -> exactly multiply Z.mul R V.
Proof. intros HR HV Hm x v T o Hx Hv H. destruct (mul_exact R V x v HR HV Hx Hv Hm) as [He _]. apply (exact2_holds R V); auto. Qed.

Lemma step_exact op f R V x v T o : valid R -> exactly op f R V -> holds_value R x -> holds_value V v ->
  accumulate_step op R V x v = Some (T, o) -> T = R /\ (holds_value R (f x v) -> o = Ok (f x v)) /\ (~ holds_value R (f x v) -> o = UB).
Proof.
  intros HR Hop Hx Hv H. unfold accumulate_step in H. destruct (then_inv _ _ _ _ H) as (T1 & o1 & E1 & H1).
  destruct (Hop _ _ _ _ Hx Hv E1) as (V1 & -> & Hz). cbn beta in H1. clear H.
  rewrite (assume_to_spec R (Bounded T1)) in H1 by (cbn; auto). cbn [ilo ihi] in H1.
  destruct ((lo T1 <=? hi R) && (lo R <=? hi T1)) eqn:Eo; [|discriminate].
  assert (valid (bt (Z.max (lo R) (lo T1)) (Z.min (hi R) (hi T1)))) as HV.
  { apply valid_bt, reprb_spec. pose proof (valid_le _ HR). pose proof (valid_le _ V1). eapply reprb_mono; [apply reprb_spec, (valid_repr _ HR)|lia..]. }
  destruct ((lo R <=? f x v) && (f x v <=? hi R)) eqn:Ein.
  - rewrite then_ok, assign_result_spec in H1; auto.
    + rewrite lo_bt, hi_bt in H1. match type of H1 with (if ?c then _ else _) = _ => destruct c; [|discriminate] end. rewrite Ein in H1. injection H1 as <- <-.
      split; [reflexivity|]. split; [reflexivity|]. intros Hn. exfalso. apply Hn. unfold holds_value. lia.
    + unfold holds_value in *. rewrite lo_bt, hi_bt. lia.
  - cbn [then_ obind] in H1. rewrite assign_result_spec in H1; auto.
    + match type of H1 with obind (if ?c then _ else _) _ = _ => destruct c; [|discriminate] end. cbn [obind] in H1. injection H1 as <- <-.
      split; [reflexivity|]. split; [|reflexivity]. intros Hn. unfold holds_value in Hn. lia.
    + pose proof (valid_le _ HV). unfold holds_value. lia.
Qed.

(** The result is exact, or undefined when a step leaves the range. *)
Lemma loop_all op f R V : valid R -> exactly op f R V -> forall values x T o, holds_value R x -> Forall (holds_value V) values ->
  accumulate_loop op R V x values = Some (T, o) ->
  T = R /\ ((forall k, holds_value R (fold_left f (firstn k values) x)) -> o = Ok (fold_left f values x)) /\
  ((exists k, ~ holds_value R (fold_left f (firstn k values) x)) -> o = UB).
Proof.
  intros HR Hop values. induction values as [|v values IH]; intros x T o Hx Hv H.
  - injection H as <- <-. split; [reflexivity|]. split; [reflexivity|]. intros [k Hk]. exfalso. apply Hk. now rewrite firstn_nil.
  - apply Forall_cons_iff in Hv as [Hv Hvs]. cbn [accumulate_loop] in H. unfold then_ in H.
    destruct (accumulate_step op R V x v) as [[T1 o1]|] eqn:E1; [|discriminate]. cbn [obind] in H.
    destruct (step_exact _ _ _ _ _ _ _ _ HR Hop Hx Hv E1) as (-> & Hok & Hub).
    assert (holds_value R (f x v) \/ ~ holds_value R (f x v)) as [Hf|Hf] by (unfold holds_value; lia).
    + rewrite (Hok Hf) in H. destruct (IH _ _ _ Hf Hvs H) as (-> & Hall & Hsome). split; [reflexivity|]. split.
      * intros Hk. apply Hall. intros k. apply (Hk (S k)).
      * intros [[|k] Hk]; [contradiction|]. apply Hsome. now exists k.
    + rewrite (Hub Hf) in H. destruct (accumulate_loop op R V (lo R) values) as [[T2 o2]|] eqn:E2; [|discriminate]. cbn [obind] in H. injection H as -> <-.
      destruct (IH (lo R) T o2) as (-> & _); auto; [pose proof (valid_le _ HR); split; lia|]. split; [reflexivity|]. split; [|reflexivity].
      intros Hk. exfalso. apply Hf. apply (Hk 1%nat).
Qed.
Lemma loop_exact op f R V : valid R -> exactly op f R V -> forall values x T o, holds_value R x -> Forall (holds_value V) values ->
  accumulate_loop op R V x values = Some (T, o) ->
  (forall k, holds_value R (fold_left f (firstn k values) x)) -> T = R /\ o = Ok (fold_left f values x).
Proof. intros HR Hop values x T o Hx Hv H Hall. destruct (loop_all op f R V HR Hop values x T o Hx Hv H) as (-> & Hok & _). auto. Qed.

Lemma accumulate_inv op R Init V initial values T o : valid R -> valid Init -> holds_value Init initial ->
  accumulate op R Init V initial values = Some (T, o) ->
  lo R <= lo Init /\ hi Init <= hi R /\ accumulate_loop op R V initial values = Some (T, o).
Proof.
  intros HR HI Hi H. unfold accumulate in H. rewrite convert_spec in H by (cbn; auto). cbn [ilo ihi] in H.
  destruct (Z.leb_spec (lo R) (lo Init)); [|discriminate]. destruct (Z.leb_spec (hi Init) (hi R)); [|discriminate]. cbn [andb obind] in H.
  destruct (accumulate_step op R V (lo R) (lo V)); [|discriminate]. auto.
Qed.

(** ** Sums *)
Definition total (values : list Z) : Z := fold_right Z.add 0 values.
Lemma fold_add values x : fold_left Z.add values x = x + total values.
Proof. revert x. induction values as [|v values IH]; intros x; cbn; [lia|]. rewrite IH. unfold total. lia. Qed.
Lemma total_bounds V values : Forall (holds_value V) values -> lo V * Z.of_nat (length values) <= total values <= hi V * Z.of_nat (length values).
Proof.
  induction values as [|v values IH]; intros H; [cbn; lia|]. apply Forall_cons_iff in H as [[Hl Hh] H]. specialize (IH H).
  cbn [total fold_right length]. fold (total values). rewrite Nat2Z.inj_succ. lia.
Qed.
Lemma Forall_firstn {A} (P : A -> Prop) k l : Forall P l -> Forall P (firstn k l).
Proof. intros H. revert k. induction H; intros [|k]; cbn; auto. Qed.

Lemma sum_type_bounds Init V N R : valid Init -> valid V -> valid N -> lo N = 0 -> ty_min I128 <= lo V * hi N ->
  sum_type Init V N = Some R ->
  valid R /\ forall i s n, holds_value Init i -> 0 <= n <= hi N -> lo V * n <= s <= hi V * n -> holds_value R (i + s).
Proof.
  intros HI HV HN HN0 Hm H. unfold sum_type in H.
  pose proof (valid_le _ HI) as LI. pose proof (valid_le _ HV) as LV. pose proof (valid_le _ HN) as LN.
  destruct (multiply V N (lo V) (lo N)) as [[P op]|] eqn:EP; [|discriminate]. cbn [obind] in H.
  destruct (plus Init P (lo Init) (lo P)) as [[R' oq]|] eqn:ER; [|discriminate]. cbn [obind] in H. injection H as ->.
  assert (holds_value V (lo V)) as H1 by (split; lia). assert (holds_value N (lo N)) as H2 by (split; lia).
  assert (forall x y, holds_value V x -> holds_value N y -> ty_min I128 <= x * y) as Hmul.
  { intros x y [Hx _] [Hy Hy']. destruct (Z.le_gt_cases 0 (lo V)).
    - assert (0 <= x * y) by (apply Z.mul_nonneg_nonneg; lia). assert (ty_min I128 <= 0) by (vm_compute; discriminate). lia.
    - assert (lo V * hi N <= lo V * y) by (apply Z.mul_le_mono_nonpos_l; lia). assert (lo V * y <= x * y) by (apply Z.mul_le_mono_nonneg_r; lia). lia. }
  destruct (mul_exact V N (lo V) (lo N) HV HN H1 H2 Hmul) as [He _]. destruct (He _ _ EP) as (HP & _ & _ & _ & HinP).
  pose proof (valid_le _ HP) as LP. assert (holds_value Init (lo Init)) as H3 by (split; lia). assert (holds_value P (lo P)) as H4 by (split; lia).
  destruct (add_exact Init P (lo Init) (lo P) HI HP H3 H4) as [He' _]. destruct (He' _ _ ER) as ((HR & _ & _) & El & Eh). split; [exact HR|].
  intros i s n [Hi Hi'] Hn Hs.
  assert (lo P <= lo V * n <= hi P) as HL by (apply HinP; exists (lo V), n; unfold holds_value, always; repeat split; lia).
  assert (lo P <= hi V * n <= hi P) as HH by (apply HinP; exists (hi V), n; unfold holds_value, always; repeat split; lia).
  unfold holds_value. lia.
Qed.
Lemma sum_type_tight Init V N R : valid Init -> valid V -> valid N -> lo N = 0 -> ty_min I128 <= lo V * hi N -> sum_type Init V N = Some R ->
  lo R = lo Init + Z.min 0 (lo V * hi N) /\ hi R = hi Init + Z.max 0 (hi V * hi N).
Proof.
  intros HI HV HN HN0 Hm H. destruct (sum_type_bounds _ _ _ _ HI HV HN HN0 Hm H) as [_ Hin]. unfold sum_type in H.
  pose proof (valid_le _ HI) as LI. pose proof (valid_le _ HV) as LV. pose proof (valid_le _ HN) as LN.
  destruct (multiply V N (lo V) (lo N)) as [[P op]|] eqn:EP; [|discriminate]. cbn [obind] in H.
  destruct (plus Init P (lo Init) (lo P)) as [[R' oq]|] eqn:ER; [|discriminate]. cbn [obind] in H. injection H as ->.
  assert (holds_value V (lo V)) as H1 by (split; lia). assert (holds_value N (lo N)) as H2 by (split; lia).
  assert (forall x y, holds_value V x -> holds_value N y -> ty_min I128 <= x * y) as Hmul.
  { intros x y [Hx _] [Hy Hy']. destruct (Z.le_gt_cases 0 (lo V)).
    - assert (0 <= x * y) by (apply Z.mul_nonneg_nonneg; lia). assert (ty_min I128 <= 0) by (vm_compute; discriminate). lia.
    - assert (lo V * hi N <= lo V * y) by (apply Z.mul_le_mono_nonpos_l; lia). assert (lo V * y <= x * y) by (apply Z.mul_le_mono_nonneg_r; lia). lia. }
  destruct (mul_exact V N (lo V) (lo N) HV HN H1 H2 Hmul) as [He _]. destruct (He _ _ EP) as (HP & _ & Hpl & Hph & HinP).
  pose proof (valid_le _ HP) as LP. assert (holds_value Init (lo Init)) as H3 by (split; lia). assert (holds_value P (lo P)) as H4 by (split; lia).
  destruct (add_exact Init P (lo Init) (lo P) HI HP H3 H4) as [He' _]. destruct (He' _ _ ER) as ((HR & _ & _) & El & Eh). rewrite El, Eh.
  destruct Hpl as (x & y & [Hx Hx'] & [Hy Hy'] & _ & Epl). destruct Hph as (x' & y' & [Hx2 Hx2'] & [Hy2 Hy2'] & _ & Eph).
  assert (lo P <= lo V * hi N <= hi P) as HL by (apply HinP; exists (lo V), (hi N); unfold holds_value, always; repeat split; lia).
  assert (lo P <= hi V * hi N <= hi P) as HH by (apply HinP; exists (hi V), (hi N); unfold holds_value, always; repeat split; lia).
  assert (lo P <= 0 <= hi P) as HZ by (apply HinP; exists (lo V), 0; unfold holds_value, always; repeat split; lia).
  assert (lo V * y <= x * y) by (apply Z.mul_le_mono_nonneg_r; lia). assert (x' * y' <= hi V * y') by (apply Z.mul_le_mono_nonneg_r; lia).
  assert (Z.min 0 (lo V * hi N) <= lo V * y) as Hmin.
  { destruct (Z.le_gt_cases 0 (lo V)); [assert (0 <= lo V * y) by (apply Z.mul_nonneg_nonneg; lia); lia|].
    assert (lo V * hi N <= lo V * y) by (apply Z.mul_le_mono_nonpos_l; lia). lia. }
  assert (hi V * y' <= Z.max 0 (hi V * hi N)) as Hmax.
  { destruct (Z.le_gt_cases 0 (hi V)).
    - assert (hi V * y' <= hi V * hi N) by (apply Z.mul_le_mono_nonneg_l; lia). lia.
    - assert (hi V * y' <= 0) by (apply Z.mul_nonpos_nonneg; lia). lia. }
  lia.
Qed.
Lemma accumulate_plus_exact Init V N initial values T o : valid Init -> valid V -> valid N -> lo N = 0 -> ty_min I128 <= lo V * hi N ->
  holds_value Init initial -> Forall (holds_value V) values -> Z.of_nat (length values) <= hi N ->
  accumulate_plus Init V N initial values = Some (T, o) ->
  o = Ok (initial + total values) /\ sum_type Init V N = Some T /\ holds_value T (initial + total values).
Proof.
  intros HI HV HN HN0 Hm Hi Hv Hlen H. unfold accumulate_plus in H. destruct (sum_type Init V N) as [R|] eqn:ER; [|discriminate]. cbn [obind] in H.
  destruct (sum_type_bounds _ _ _ _ HI HV HN HN0 Hm ER) as [HR Hin]. apply accumulate_inv in H as (_ & _ & H); auto.
  assert (forall k, holds_value R (fold_left Z.add (firstn k values) initial)) as Hall.
  { intros k. rewrite fold_add. apply Hin with (Z.of_nat (length (firstn k values))); auto.
    - rewrite firstn_length. lia.
    - apply total_bounds. now apply Forall_firstn. }
  assert (holds_value R initial) as Hr by (apply (Hall 0%nat)).
  destruct (loop_exact plus Z.add R V HR (plus_exactly R V HR HV) values initial T o Hr Hv H Hall) as [-> ->].
  rewrite fold_add. split; [reflexivity|]. split; [reflexivity|]. specialize (Hall (length values)). now rewrite firstn_all, fold_add in Hall.
Qed.

(** ** Products *)
Definition product_of (values : list Z) : Z := fold_right Z.mul 1 values.
Lemma fold_mul values x : fold_left Z.mul values x = x * product_of values.
Proof. revert x. induction values as [|v values IH]; intros x; cbn; [lia|]. rewrite IH. unfold product_of. lia. Qed.
Lemma product_bounds V values : 0 <= lo V -> Forall (holds_value V) values ->
  lo V ^ Z.of_nat (length values) <= product_of values <= hi V ^ Z.of_nat (length values).
Proof.
  intros H0. induction values as [|v values IH]; intros H; [cbn; lia|]. apply Forall_cons_iff in H as [[Hl Hh] H]. specialize (IH H).
  cbn [product_of fold_right length]. fold (product_of values). rewrite Nat2Z.inj_succ, !Z.pow_succ_r by lia.
  assert (0 <= lo V ^ Z.of_nat (length values)) by (apply Z.pow_nonneg; lia). split; apply Z.mul_le_mono_nonneg; lia.
Qed.
Lemma product_type_bounds Init V N R : valid Init -> valid V -> valid N -> lo N = 0 -> 0 <= lo Init -> product_type Init V N = Some R ->
  valid R /\ 1 <= lo V /\ 0 <= lo R /\ forall i s n, holds_value Init i -> 0 <= n <= hi N -> lo V ^ n <= s <= hi V ^ n -> holds_value R (i * s).
Proof.
  intros HI HV HN HN0 Hi0 H. unfold product_type in H.
  pose proof (valid_le _ HI) as LI. pose proof (valid_le _ HV) as LV. pose proof (valid_le _ HN) as LN.
  destruct (pow V N (lo V) (lo N)) as [[P op]|] eqn:EP; [|discriminate]. cbn [obind] in H.
  destruct (multiply Init P (lo Init) (lo P)) as [[R' oq]|] eqn:ER; [|discriminate]. cbn [obind] in H. injection H as ->.
  assert (holds_value V (lo V)) as H1 by (split; lia). assert (holds_value N (lo N)) as H2 by (split; lia).
  destruct (pow_exact V N (lo V) (lo N) P op HV HN H1 H2 EP) as ((HP & _ & _ & _ & HinP) & _).
  destruct (pow_accepts V N (lo V) (lo N) HV HN H1 H2) as [Ha _]. destruct Ha as (Ha0 & _ & Ha1 & _); [eauto|].
  assert (1 <= lo V) as Hpos by lia. pose proof (valid_le _ HP) as LP.
  assert (1 <= lo P) as HP1.
  { assert (exists z, lo P = z) as [z Ez] by eauto. destruct (pow_exact V N (lo V) (lo N) P op HV HN H1 H2 EP) as ((_ & _ & Htl & _ & _) & _).
    destruct Htl as (x & y & [Hx _] & [Hy _] & _ & ->). assert (0 < x ^ y) by (apply Z.pow_pos_nonneg; lia). lia. }
  assert (holds_value Init (lo Init)) as H3 by (split; lia). assert (holds_value P (lo P)) as H4 by (split; lia).
  assert (forall x y, holds_value Init x -> holds_value P y -> ty_min I128 <= x * y) as Hmul.
  { intros x y [Hx _] [Hy _]. assert (0 <= x * y) by (apply Z.mul_nonneg_nonneg; lia). assert (ty_min I128 <= 0) by (vm_compute; discriminate). lia. }
  destruct (mul_exact Init P (lo Init) (lo P) HI HP H3 H4 Hmul) as [He' _]. destruct (He' _ _ ER) as (HR & _ & Hlow & _ & HinR). split; [exact HR|]. split; [exact Hpos|]. split.
  - destruct Hlow as (x & y & [Hx _] & [Hy _] & _ & ->). apply Z.mul_nonneg_nonneg; lia.
  - intros i s n Hi Hn Hs.
    assert (lo P <= lo V ^ n <= hi P) as HL by (apply HinP; exists (lo V), n; unfold holds_value, always; repeat split; lia).
    assert (lo P <= hi V ^ n <= hi P) as HH by (apply HinP; exists (hi V), n; unfold holds_value, always; repeat split; lia).
    apply HinR. exists i, s. unfold always. repeat split; auto; try apply Hi; lia.
Qed.
Lemma accumulate_multiplies_exact Init V N initial values T o : valid Init -> valid V -> valid N -> lo N = 0 -> 0 <= lo Init ->
  holds_value Init initial -> Forall (holds_value V) values -> Z.of_nat (length values) <= hi N ->
  accumulate_multiplies Init V N initial values = Some (T, o) ->
  o = Ok (initial * product_of values) /\ product_type Init V N = Some T /\ holds_value T (initial * product_of values).
Proof.
  intros HI HV HN HN0 Hi0 Hi Hv Hlen H. unfold accumulate_multiplies in H. destruct (product_type Init V N) as [R|] eqn:ER; [|discriminate]. cbn [obind] in H.
  destruct (product_type_bounds _ _ _ _ HI HV HN HN0 Hi0 ER) as (HR & Hpos & HR0 & Hin). apply accumulate_inv in H as (_ & _ & H); auto.
  assert (forall k, holds_value R (fold_left Z.mul (firstn k values) initial)) as Hall.
  { intros k. rewrite fold_mul. apply Hin with (Z.of_nat (length (firstn k values))); auto.
    - rewrite firstn_length. lia.
    - apply product_bounds; [lia|]. now apply Forall_firstn. }
  assert (holds_value R initial) as Hr by (apply (Hall 0%nat)).
  assert (exactly multiply Z.mul R V) as Hex.
  { apply multiply_exactly; auto. intros x y [Hx _] [Hy _]. assert (0 <= x * y) by (apply Z.mul_nonneg_nonneg; lia).
    assert (ty_min I128 <= 0) by (vm_compute; discriminate). lia. }
  destruct (loop_exact multiply Z.mul R V HR Hex values initial T o Hr Hv H Hall) as [-> ->].
  rewrite fold_mul. split; [reflexivity|]. split; [reflexivity|]. specialize (Hall (length values)). now rewrite firstn_all, fold_mul in Hall.
Qed.
Lemma zero_valid : exists zero, constant_t (lit 0) = Some zero /\ valid zero /\ lo zero = 0 /\ hi zero = 0.
Proof. eexists. split; [vm_compute; reflexivity|]. repeat split; try (vm_compute; congruence). Qed.
Lemma one_valid : exists one, constant_t (lit 1) = Some one /\ valid one /\ lo one = 1 /\ hi one = 1.
Proof. eexists. split; [vm_compute; reflexivity|]. repeat split; try (vm_compute; congruence). Qed.
