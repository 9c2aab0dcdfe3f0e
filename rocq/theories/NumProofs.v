(** * Digit counts, limits and spare representations as properties *)

From Coq Require Import ZArith Lia Bool List.
From Verif Require Import Cxx CxxLemmas Core Spec CoreLemmas Arith ArithLemmas ArithProofs
  Funcs SpecFuncs SpecText SpecNum FuncLemmas FuncLemmas2 FuncLemmas3 CoreProofs
  TextLemmas TextLemmas2 NumLemmas TombLemmas.
Import ListNotations.
Open Scope Z_scope.

Ltac Zify.zify_post_hook ::= idtac.

Lemma in128_abs z : in128 z -> Z.abs z < M128.
Proof. unfold in128. rewrite max_u128. change (ty_min I128) with (- 2 ^ 127). lia. Qed.

(** ** pow *)
Lemma pow_exact A B x y R o : valid A -> valid B -> holds_value A x -> holds_value B y ->
  pow A B x y = Some (R, o) ->
  exact2 A B x y always Z.pow R o /\ holds_value R (x ^ y).
Proof.
  intros VA VB Hx Hy H. rewrite pow_spec in H by auto.
  destruct (pow_ok A B) eqn:E; [|discriminate].
  apply (f_equal (fun o => match o with Some p => p | None => (bt 0 0, UB) end)) in H.
  apply pair_equal_spec in H. destruct H as [<- <-]. unfold pow_ok in E.
  pose proof (valid_le _ VA) as LA. pose proof (valid_le _ VB) as LB.
  assert (~ (lo A = 0 /\ lo B = 0)) as NZ by lia.
  assert (forall a b, holds_value A a -> holds_value B b -> lo A ^ lo B <= a ^ b <= hi A ^ hi B) as K.
  { unfold holds_value. intros a b Ha Hb. split; apply pow_le_mono; lia. }
  assert (0 <= lo A ^ lo B) by (apply Z.pow_nonneg; lia).
  pose proof (K x y Hx Hy) as KX.
  split; [|unfold holds_value; now rewrite lo_bt, hi_bt]. split; [|split; [auto|]].
  - apply valid_bt, representable_spec. split; [lia|]. right. rewrite max_u128. lia.
  - unfold tightest, results, always. rewrite lo_bt, hi_bt.
    assert (holds_value A (lo A) /\ holds_value A (hi A) /\ holds_value B (lo B) /\ holds_value B (hi B))
      as (h1 & h2 & h3 & h4) by (unfold holds_value; lia).
    split; [|split].
    + exists (lo A), (lo B). auto.
    + exists (hi A), (hi B). auto.
    + intros z (a & b & Ha & Hb & _ & ->). auto.
Qed.

Lemma pow_accepts A B x y : valid A -> valid B -> holds_value A x -> holds_value B y ->
  ((exists R o, pow A B x y = Some (R, o)) <->
   0 <= lo A /\ 0 <= lo B /\ ~ (lo A = 0 /\ lo B = 0) /\ hi A ^ hi B <= ty_max U128).
Proof.
  intros VA VB Hx Hy. rewrite pow_spec by auto. unfold pow_ok. rewrite max_u128.
  destruct (Z.leb_spec 0 (lo A)), (Z.leb_spec 0 (lo B)), (Z.eqb_spec (lo A) 0), (Z.eqb_spec (lo B) 0),
    (Z.ltb_spec (hi A ^ hi B) M128); cbn [andb negb]; split; intros K; try lia; eauto;
    destruct K as (R & o & K); discriminate.
Qed.

(** ** log *)
Lemma log_exact ext A B x y R o : valid A -> valid B -> holds_value A x -> holds_value B y ->
  log ext A B x y = Some (R, o) ->
  exists k, o = Ok k /\ is_log y x k /\ valid R /\ holds_value R k /\
    is_log y (lo A) (lo R) /\ is_log y (hi A) (hi R).
Proof.
  intros VA VB Hx Hy H. rewrite log_spec in H by auto.
  destruct (_ && (0 <=? lo A)) eqn:E; [|discriminate].
  apply (f_equal (fun o => match o with Some p => p | None => (bt 0 0, UB) end)) in H.
  apply pair_equal_spec in H. destruct H as [<- <-].
  assert (y = lo B) as -> by (unfold holds_value in Hy; lia).
  pose proof (valid_max _ VA). pose proof (valid_max _ VB). pose proof (valid_le _ VA). unfold holds_value in *.
  assert (2 <= lo B < M128) as Hb by lia. assert (0 <= lo A) by lia.
  pose proof (flog_bounds (lo B) (lo A) ltac:(lia) ltac:(lia)) as F1.
  pose proof (flog_bounds (lo B) (hi A) ltac:(lia) ltac:(lia)) as F2.
  pose proof (flog_mono (lo B) (lo A) x ltac:(lia) ltac:(lia) ltac:(lia)) as G1.
  pose proof (flog_mono (lo B) x (hi A) ltac:(lia) ltac:(lia) ltac:(lia)) as G2.
  exists (flog (lo B) x). rewrite lo_bt, hi_bt.
  split; [auto|]. split; [apply flog_spec; lia|]. split; [|split; [lia|]].
  - apply valid_bt, repr_small; cbn; lia.
  - split; apply flog_spec; lia.
Qed.

Lemma log_accepts ext A B x y : valid A -> valid B -> holds_value A x -> holds_value B y ->
  ((exists R o, log ext A B x y = Some (R, o)) <-> lo B = hi B /\ 1 < lo B /\ 0 <= lo A).
Proof.
  intros VA VB Hx Hy. rewrite log_spec by auto.
  destruct (Z.eqb_spec (lo B) (hi B)), (Z.ltb_spec 1 (lo B)), (Z.leb_spec 0 (lo A)); cbn [andb];
    split; intros K; try lia; eauto; destruct K as (R & o & K); discriminate.
Qed.

(** ** Digit counts *)
Lemma text_length_slog b v n : 2 <= b < M128 -> Z.abs v < M128 ->
  (text_length b v n <-> n = slog 1 b v + 1).
Proof.
  intros Hb Hv.
  assert (text_length b v (slog 1 b v + 1)) as T.
  { destruct (flog_spec b (Z.abs v) Hb ltac:(lia)) as (P & Z0 & L).
    exists (flog b (Z.abs v) + 1). split; [lia|]. unfold slog.
    destruct (Z.eqb_spec v 0) as [->|N].
    - cbn [Z.abs] in *. rewrite Z0 by auto. change (0 + 1) with 1. rewrite Z.pow_1_r. cbn. lia.
    - specialize (L ltac:(lia)). split; [lia|]. split.
      + right. now replace (flog b (Z.abs v) + 1 - 1) with (flog b (Z.abs v)) by lia.
      + destruct (Z.ltb_spec 0 v), (Z.ltb_spec v 0); try lia.
        * replace (Z.abs v) with v by lia. lia.
        * replace (Z.abs v) with (- v) by lia. lia. }
  split; [|now intros ->]. intros (k & P & U & D & ->). destruct T as (k' & P' & U' & D' & ->).
  f_equal. assert (forall i j, 1 <= i -> 1 <= j -> Z.abs v < b ^ j -> (i = 1 \/ b ^ (i - 1) <= Z.abs v) -> i <= j) as K.
  { intros i j Pi Pj Uj [->|Di]; [lia|]. assert (i - 1 < j); [|lia].
    apply (Z.pow_lt_mono_r_iff b); lia. }
  apply Z.le_antisymm; apply K; auto.
Qed.

Lemma slog_le_max s b l h v : 2 <= b < M128 -> 0 <= s <= 1 -> in128 l -> in128 h -> l <= v <= h ->
  slog s b v <= Z.max (slog s b l) (slog s b h).
Proof.
  intros Hb Hs Il Ih Hv. pose proof (slog_bounds s b l Il Hb Hs) as Bl.
  pose proof (in128_abs _ Il). pose proof (in128_abs _ Ih).
  unfold slog at 1. destruct (Z.eqb_spec v 0); [lia|]. destruct (Z.ltb_spec 0 v) as [P|P].
  - unfold slog at 2. destruct (Z.eqb_spec h 0); [lia|]. destruct (Z.ltb_spec 0 h); [|lia].
    pose proof (flog_mono b v h Hb ltac:(lia) ltac:(lia)). lia.
  - unfold slog at 1. destruct (Z.eqb_spec l 0); [lia|]. destruct (Z.ltb_spec 0 l); [lia|].
    pose proof (flog_mono b (- v) (- l) Hb ltac:(lia) ltac:(lia)). lia.
Qed.

Lemma iholds_in128 T v : ivalid T -> iholds T v -> in128 v.
Proof.
  intros V H. pose proof (ilo_in128 T V). pose proof (ihi_in128 T V). unfold iholds, in128 in *. lia.
Qed.

Lemma digits_exact ext T b : ivalid T -> 2 <= b < M128 ->
  exists n, digits_in_string_representation ext T (cst b) = Some (cst n, Ok n) /\
    (forall v m, iholds T v -> text_length b v m -> m <= n) /\
    (exists v, iholds T v /\ text_length b v n).
Proof.
  intros V Hb. unfold digits_in_string_representation. rewrite digits_impl_spec by auto.
  eexists. split; [reflexivity|]. unfold digits_value. cbn [sgn_of sign_bit].
  pose proof (ilo_in128 T V) as I1. pose proof (ihi_in128 T V) as I2.
  assert (ilo T <= ihi T) as L by (destruct (irepresentable T V); auto).
  rewrite Z.add_0_r. split.
  - intros v m Hv Hm. apply text_length_slog in Hm; [|auto|apply in128_abs; eapply iholds_in128; eauto].
    pose proof (slog_le_max 1 b (ilo T) (ihi T) v Hb ltac:(lia) I1 I2 Hv). lia.
  - destruct (Z.max_spec (slog 1 b (ilo T)) (slog 1 b (ihi T))) as [[_ ->]|[_ ->]].
    + exists (ihi T). split; [unfold iholds; lia|]. apply text_length_slog; auto using in128_abs.
    + exists (ilo T). split; [unfold iholds; lia|]. apply text_length_slog; auto using in128_abs.
Qed.

Lemma canonical_length s v : canonical s v -> text_length 10 v (Z.of_nat (length s)).
Proof.
  assert (forall s v, s <> [] -> decimal s v -> hd 0 s <> 48 -> 10 ^ (Z.of_nat (length s) - 1) <= v) as K.
  { intros s' v' N D H. inversion D as [|c t w Hc Dt]; subst; [congruence|].
    cbn [hd length] in *. replace (Z.of_nat (S (length t)) - 1) with (Z.of_nat (length t)) by lia.
    apply decimal_le in Dt. assert (0 < 10 ^ Z.of_nat (length t)) by (apply Z.pow_pos_nonneg; lia). nia. }
  assert (forall s : list Z, s <> [] -> 1 <= Z.of_nat (length s)) as K1.
  { intros [|c t] H; [congruence|]. cbn [length]. lia. }
  intros [(P & N & D & H & H0)|(P & t & -> & N & D & H)].
  - exists (Z.of_nat (length s)). split; [auto|]. pose proof (decimal_nonneg _ _ D) as B.
    split; [lia|]. split; [|destruct (Z.ltb_spec v 0); lia].
    destruct (Z.eq_dec v 0) as [E|E]; [left; rewrite H0 by auto; reflexivity|].
    right. rewrite Z.abs_eq by lia. apply K; auto.
  - exists (Z.of_nat (length t)). split; [auto|]. pose proof (decimal_nonneg _ _ D) as B.
    split; [lia|]. split; [|cbn [length]; destruct (Z.ltb_spec v 0); lia].
    right. replace (Z.abs v) with (- v) by lia. apply K; auto.
Qed.

Lemma slog0 b v : slog 0 b v = if v =? 0 then 0 else flog b (Z.abs v).
Proof.
  unfold slog. destruct (Z.eqb_spec v 0); [auto|].
  destruct (Z.ltb_spec 0 v); [now rewrite Z.abs_eq by lia|]. rewrite Z.add_0_r. f_equal. lia.
Qed.

Lemma bits_exact ext T : ivalid T ->
  exists n, representation_bits ext T = Some (cst n, Ok n) /\ 1 <= n /\
    (ilo T < 0 -> forall v, iholds T v -> - 2 ^ (n - 1) <= v < 2 ^ (n - 1)) /\
    (0 <= ilo T -> (forall v, iholds T v -> 0 <= v < 2 ^ n) /\ (n = 1 \/ 2 ^ (n - 1) <= ihi T)).
Proof.
  intros V. unfold representation_bits. rewrite constant_t_lit by (cbn; lia). cbn [obind].
  rewrite digits_impl_spec by (auto; lia). eexists. split; [reflexivity|].
  unfold digits_value. cbn [sgn_of sign_bit].
  pose proof (ilo_in128 T V) as I1. pose proof (ihi_in128 T V) as I2.
  assert (ilo T <= ihi T) as L by (destruct (irepresentable T V); auto).
  set (m := Z.max _ _).
  assert (0 <= m) as Pm by (pose proof (slog_bounds 0 2 (ilo T) I1 ltac:(lia) ltac:(lia)); lia).
  assert (forall v, iholds T v -> Z.abs v < 2 ^ (m + 1)) as K.
  { intros v Hv. pose proof (slog_le_max 0 2 (ilo T) (ihi T) v ltac:(lia) ltac:(lia) I1 I2 Hv) as S.
    fold m in S. rewrite slog0 in S. destruct (Z.eqb_spec v 0) as [->|N].
    - cbn [Z.abs]. apply Z.pow_pos_nonneg; lia.
    - pose proof (iholds_in128 T v V Hv) as Iv. apply in128_abs in Iv.
      destruct (flog_spec 2 (Z.abs v) ltac:(lia) ltac:(lia)) as (P & _ & F). specialize (F ltac:(lia)).
      assert (2 ^ (flog 2 (Z.abs v) + 1) <= 2 ^ (m + 1)) by (apply Z.pow_le_mono_r; lia). lia. }
  destruct (Z.ltb_spec (ilo T) 0) as [N|N].
  - split; [lia|]. split; [|lia]. intros _ v Hv. replace (m + 1 + 1 - 1) with (m + 1) by lia.
    specialize (K v Hv). lia.
  - split; [lia|]. split; [lia|]. intros _. rewrite Z.add_0_r. split.
    + intros v Hv. specialize (K v Hv). unfold iholds in Hv. lia.
    + replace (m + 1 - 1) with m by lia.
      assert (m = slog 0 2 (ihi T)) as E.
      { unfold m. pose proof (slog_le_max 0 2 0 (ihi T) (ilo T) ltac:(lia) ltac:(lia) ltac:(apply in128_u; lia) I2 ltac:(lia)) as S.
        change (slog 0 2 0) with 0 in S. pose proof (slog_bounds 0 2 (ihi T) I2 ltac:(lia) ltac:(lia)). lia. }
      rewrite slog0 in E. destruct (Z.eqb_spec (ihi T) 0); [left; lia|]. right.
      apply in128_abs in I2.
      destruct (flog_spec 2 (Z.abs (ihi T)) ltac:(lia) ltac:(lia)) as (P & _ & F). specialize (F ltac:(lia)).
      rewrite <- E in F. lia.
Qed.

(** ** Numeric limits *)
Lemma flog_iff b v n : 2 <= b < M128 -> 0 < v < M128 -> 0 <= n -> (n <= flog b v <-> b ^ n <= v).
Proof.
  intros Hb Hv Hn. destruct (flog_spec b v Hb ltac:(lia)) as (P & _ & F). specialize (F ltac:(lia)).
  split; intros H.
  - assert (b ^ n <= b ^ flog b v) by (apply Z.pow_le_mono_r; lia). lia.
  - assert (n < flog b v + 1); [|lia]. apply (Z.pow_lt_mono_r_iff b); lia.
Qed.

Lemma limits_digits_exact ext B b : valid B -> b = 2 \/ b = 10 ->
  exists d, limits_digits ext B (cst b) = Some (cst d, Ok d) /\
    (lo B <= 0 <= hi B -> forall n, 0 <= n ->
       (n <= d <-> forall m, 0 <= m < b ^ n -> holds_value B m /\ (lo B < 0 -> holds_value B (- m)))) /\
    (~ (lo B <= 0 <= hi B) -> d = 0).
Proof.
  intros V Hb. assert (2 <= b < M128) as Hb' by lia.
  rewrite limits_digits_spec by auto. eexists. split; [reflexivity|].
  pose proof (valid_le _ V) as L. pose proof (valid_max _ V) as MX.
  destruct (valid_bounds _ V) as (I1 & I2 & _). apply in128_abs in I1.
  unfold limits_value. split.
  2:{ intros N. destruct (Z.ltb_spec 0 (lo B)), (Z.leb_spec (hi B) 0); cbn [orb]; auto; lia. }
  intros Z0 n Hn. unfold holds_value.
  assert (0 < b ^ n) as PP by (apply Z.pow_pos_nonneg; lia).
  assert ((forall m, 0 <= m < b ^ n -> lo B <= m <= hi B /\ (lo B < 0 -> lo B <= - m <= hi B)) <->
          b ^ n <= hi B + 1 /\ (lo B < 0 -> b ^ n <= - lo B + 1)) as ->.
  { split.
    - intros H. destruct (H (b ^ n - 1) ltac:(lia)) as [H1 H2]. split; lia.
    - intros [H1 H2] m Hm. split; lia. }
  destruct (Z.ltb_spec 0 (lo B)); [lia|]. cbn [orb].
  destruct (Z.leb_spec (hi B) 0) as [H0|H0].
  { split.
    - intros Ln. assert (n = 0) as -> by lia. rewrite Z.pow_0_r. lia.
    - intros [H1 _]. destruct (Z.eq_dec n 0); [lia|]. exfalso.
      assert (b ^ 1 <= b ^ n) by (apply Z.pow_le_mono_r; lia). rewrite Z.pow_1_r in *. lia. }
  destruct (Z.eqb_spec (hi B) (M128 - 1)) as [E|E].
  { assert (lo B = 0 \/ lo B < 0) as [L0|L0] by lia.
    2:{ exfalso. pose proof (valid_repr _ V) as R. apply representable_spec in R. rewrite E in R.
        change (ty_max I128) with (2 ^ 127 - 1) in R. lia. }
    destruct Hb as [-> | ->].
    - change (2 =? 2) with true. cbn iota.
      assert (n <= 128 <-> 2 ^ n <= M128) as EQ by (apply Z.pow_le_mono_r_iff; lia). rewrite EQ, E.
      split; [intros K; split; lia|intros [K _]; lia].
    - change (10 =? 2) with false. cbn iota. rewrite flog_iff by lia. rewrite E.
      assert (10 ^ n <> M128) as NE; [|lia].
      intros EE. assert (n < 39) as Ln.
      { apply (Z.pow_lt_mono_r_iff 10); [lia|lia|]. rewrite EE. reflexivity. }
      assert (38 < n) as Ln'.
      { apply (Z.pow_lt_mono_r_iff 10); [lia|lia|]. rewrite EE. reflexivity. }
      lia. }
  destruct (Z.eqb_spec (lo B) 0), (Z.ltb_spec (hi B) (- lo B)); cbn [orb]; rewrite flog_iff by lia; lia.
Qed.

Lemma limits_bounds_exact B : valid B ->
  exists cmin cmax, limits_min B = Some (cmin, Ok (lo B)) /\ limits_max B = Some (cmax, Ok (hi B)) /\
    valid cmin /\ lo cmin = lo B /\ hi cmin = lo B /\ valid cmax /\ lo cmax = hi B /\ hi cmax = hi B /\
    (limits_is_signed B = true <-> exists v, holds_value B v /\ v < 0).
Proof.
  intros V. pose proof V as V'. destruct V' as (W1 & W2 & _).
  destruct (valid_bounds _ V) as (I1 & I2 & L & _).
  exists (cst (lo B)), (cst (hi B)). unfold limits_min, limits_max. rewrite !constant_t_spec by auto.
  split; [reflexivity|]. split; [reflexivity|].
  split; [now apply valid_cst|]. split; [reflexivity|]. split; [reflexivity|].
  split; [now apply valid_cst|]. split; [reflexivity|]. split; [reflexivity|].
  unfold limits_is_signed. rewrite clt0_spec by auto. fold (lo B). unfold holds_value.
  destruct (Z.ltb_spec (lo B) 0) as [N|N]; split; intros H; auto; try discriminate.
  - exists (lo B). lia.
  - destruct H as (v & Hv & Nv). lia.
Qed.

Lemma number_of_exact T R o : ivalid T -> number_of T = Some (R, o) ->
  o = Ok (ihi T - ilo T + 1) /\ valid R /\ lo R = ihi T - ilo T + 1 /\ hi R = ihi T - ilo T + 1.
Proof.
  intros V H. rewrite number_of_spec in H by auto.
  destruct (_ && _) eqn:E; [|discriminate]. apply andb_prop in E. destruct E as [_ E].
  apply (f_equal (fun o => match o with Some p => p | None => (bt 0 0, UB) end)) in H.
  apply pair_equal_spec in H. destruct H as [<- <-].
  split; [auto|]. split; [now apply valid_cst, reprb_in128|]. split; reflexivity.
Qed.

(** ** Spare representations *)
Lemma in128_prop i : ty_min I128 <= i <= ty_max U128 <-> in128 i. Proof. reflexivity. Qed.

Lemma make_then_index T i R o : valid T -> ty_min I128 <= i <= ty_max U128 ->
  tombstone_make T i = Some (R, o) ->
  R = T /\ exists raw, o = Ok raw /\ in_storage T raw /\ ~ holds_value T raw /\
    forall R' j, tombstone_index T raw = Some (R', j) -> j = Ok i.
Proof.
  intros V Hi H. destruct (make_exact T i R o V Hi H) as (B & -> & ->).
  destruct (rep_range T i V B) as (H1 & H2 & H3). split; [auto|].
  exists (rep_of T i). split; [auto|]. split; [exact H1|]. split; [auto|].
  intros R' j E. apply index_exact in E; auto. destruct E as [_ ->]. now rewrite H3.
Qed.

Lemma index_then_make T raw R o : valid T -> in_storage T raw ->
  tombstone_index T raw = Some (R, o) ->
  exists j, o = Ok j /\ valid R /\ holds_value R j /\
    (holds_value T raw -> j = -1) /\
    (~ holds_value T raw -> 0 <= j /\ forall R' r, tombstone_make T j = Some (R', r) -> r = Ok raw).
Proof.
  intros V Hr H. pose proof H as H'. apply index_exact in H; auto. destruct H as [-> ->].
  destruct (index_range T raw V Hr) as [X1 X2].
  assert (valid (bt (-1) (spares T - 1)) /\ in128 (spares T - 1)) as [VI SI].
  { rewrite index_shape in H' by auto. destruct (is_some (tombstone_consts T)) eqn:C; [|discriminate].
    rewrite consts_spec in C by auto.
    match type of C with context [if ?c then _ else _] => destruct c eqn:CC end; [|discriminate].
    repeat (apply andb_prop in CC; destruct CC as [CC ?]). split; [apply valid_bt, reprb_spec|apply reprb_in128]; auto. }
  exists (index_of T raw). split; [auto|]. split; [auto|].
  assert (-1 <= index_of T raw <= spares T - 1 /\ (0 <= index_of T raw -> in128 (index_of T raw))) as [BI BJ].
  { assert (-1 <= spares T - 1).
    { apply valid_le in VI. now rewrite lo_bt, hi_bt in VI. }
    assert (-1 <= index_of T raw <= spares T - 1).
    { destruct (Z.le_gt_cases (lo T) raw), (Z.le_gt_cases raw (hi T)).
      1: rewrite X1 by (split; auto); lia.
      all: destruct X2 as [X2 _]; [unfold holds_value; lia|lia]. }
    split; [auto|]. intros P. apply in128_u. unfold in128 in SI. rewrite max_u128 in SI. lia. }
  split; [apply holds_bt; auto|]. split; [auto|]. intros N. destruct (X2 N) as [B E]. split; [lia|].
  intros R' r M. apply make_exact in M; auto; [|apply in128_prop; auto; apply BJ; lia].
  destruct M as (_ & _ & ->). now rewrite E.
Qed.

(** ** The statements of PropsNum.v *)
Lemma constant_cst C v : constant_type C v -> C = cst v /\ in128 v.
Proof.
  intros (V & E1 & E2). destruct (valid_inv _ V) as [R E]. rewrite E1, E2 in *.
  split; [exact E|]. now apply representable_in128 in R.
Qed.
Lemma cst_constant v : in128 v -> constant_type (cst v) v.
Proof. intros H. split; [now apply valid_cst|]. split; reflexivity. Qed.
Lemma in128_M v : in128 v -> v < M128.
Proof. unfold in128. rewrite max_u128. lia. Qed.
Lemma digits_value_in128 sign T b : ivalid T -> 2 <= b < M128 -> in128 (digits_value sign T b).
Proof.
  intros V Hb. pose proof (ilo_in128 T V) as I1. pose proof (ihi_in128 T V) as I2.
  assert (0 <= sgn_of sign <= 1) as S by (destruct sign; cbn; lia).
  pose proof (slog_bounds (sgn_of sign) b _ I1 Hb S). pose proof (slog_bounds (sgn_of sign) b _ I2 Hb S).
  unfold digits_value. apply in128_u.
  assert (0 <= sign_bit sign (ilo T) <= 1) by (destruct sign; cbn; [destruct (ilo T <? 0)|]; lia).
  lia.
Qed.
Lemma limits_value_in128 B b : valid B -> 2 <= b < M128 -> in128 (limits_value b (lo B) (hi B)).
Proof.
  intros V Hb. destruct (valid_bounds _ V) as (I1 & I2 & L & _).
  pose proof (valid_max _ V) as MX.
  assert (forall v, 0 <= v < M128 -> in128 (flog b v)) as F.
  { intros v Hv. pose proof (flog_bounds b v Hb Hv). apply in128_u. lia. }
  apply in128_abs in I1. pose proof (in128_M _ I2).
  unfold limits_value. repeat match goal with |- context [if ?c then _ else _] => destruct c eqn:? end;
    try (apply in128_u; lia); apply F;
    repeat match goal with
    | H : (_ || _) = false |- _ => apply orb_false_elim in H; destruct H
    | H : (_ =? _) = true |- _ => apply Z.eqb_eq in H
    | H : (_ =? _) = false |- _ => apply Z.eqb_neq in H
    | H : (_ <? _) = false |- _ => apply Z.ltb_ge in H
    | H : (_ <=? _) = false |- _ => apply Z.leb_gt in H
    end; lia.
Qed.

Lemma digits_in_string_full ext T C b : ivalid T -> constant_type C b -> 2 <= b ->
  exists R n, digits_in_string_representation ext T C = Some (R, Ok n) /\ constant_type R n /\
    (forall v m, iholds T v -> text_length b v m -> m <= n) /\
    (exists v, iholds T v /\ text_length b v n).
Proof.
  intros V HC Hb. apply constant_cst in HC. destruct HC as [-> B]. apply in128_M in B.
  destruct (digits_exact ext T b V ltac:(lia)) as (n & E & A & W). exists (cst n), n.
  split; [auto|]. split; [|auto]. apply cst_constant.
  unfold digits_in_string_representation in E. rewrite digits_impl_spec in E by (auto; lia).
  apply (f_equal (fun o : result => match o with Some (_, Ok z) => z | _ => 0 end)) in E. rewrite <- E. apply digits_value_in128; auto; lia.
Qed.

Lemma canonical_length_full ext T C s v : ivalid T -> constant_type C 10 -> iholds T v -> canonical s v ->
  exists R n, digits_in_string_representation ext T C = Some (R, Ok n) /\ Z.of_nat (length s) <= n.
Proof.
  intros V HC Hv Hs. destruct (digits_in_string_full ext T C 10 V HC ltac:(lia)) as (R & n & E & _ & A & _).
  exists R, n. split; [auto|]. apply (A v); [auto|]. now apply canonical_length.
Qed.
Lemma bits_full ext T : ivalid T ->
  exists R n, representation_bits ext T = Some (R, Ok n) /\ constant_type R n /\ 1 <= n /\
    (ilo T < 0 -> forall v, iholds T v -> - 2 ^ (n - 1) <= v < 2 ^ (n - 1)) /\
    (0 <= ilo T -> (forall v, iholds T v -> 0 <= v < 2 ^ n) /\ (n = 1 \/ 2 ^ (n - 1) <= ihi T)).
Proof.
  intros V. destruct (bits_exact ext T V) as (n & E & A). exists (cst n), n.
  split; [auto|]. split; [|auto]. apply cst_constant.
  unfold representation_bits in E. rewrite constant_t_lit in E by (cbn; lia). cbn [obind] in E.
  rewrite digits_impl_spec in E by (auto; lia).
  apply (f_equal (fun o : result => match o with Some (_, Ok z) => z | _ => 0 end)) in E. rewrite <- E. apply digits_value_in128; auto; lia.
Qed.
Lemma limits_digits_full ext B C b : valid B -> constant_type C b -> b = 2 \/ b = 10 ->
  exists R d, limits_digits ext B C = Some (R, Ok d) /\ constant_type R d /\
    (holds_value B 0 -> forall n, 0 <= n ->
       (n <= d <-> forall m, 0 <= m < b ^ n -> holds_value B m /\ (lo B < 0 -> holds_value B (- m)))) /\
    (~ holds_value B 0 -> d = 0).
Proof.
  intros V HC Hb. apply constant_cst in HC. destruct HC as [-> I].
  destruct (limits_digits_exact ext B b V Hb) as (d & E & A). exists (cst d), d.
  split; [auto|]. split; [|auto]. apply cst_constant.
  rewrite limits_digits_spec in E by (auto; lia).
  apply (f_equal (fun o : result => match o with Some (_, Ok z) => z | _ => 0 end)) in E. rewrite <- E. apply limits_value_in128; auto; lia.
Qed.
Lemma limits_full B : valid B ->
  exists cmin cmax, limits_min B = Some (cmin, Ok (lo B)) /\ limits_max B = Some (cmax, Ok (hi B)) /\
    constant_type cmin (lo B) /\ constant_type cmax (hi B) /\
    (limits_is_signed B = true <-> exists v, holds_value B v /\ v < 0).
Proof.
  intros V. destruct (limits_bounds_exact B V) as (c1 & c2 & A). exists c1, c2. unfold constant_type. tauto.
Qed.
Lemma number_of_full T R o : ivalid T -> number_of T = Some (R, o) ->
  o = Ok (ihi T - ilo T + 1) /\ constant_type R (ihi T - ilo T + 1).
Proof. intros V H. apply number_of_exact in H; auto. Qed.

Lemma make_full T i R o : valid T -> ty_min I128 <= i <= ty_max U128 ->
  tombstone_make T i = Some (R, o) ->
  R = T /\ exists raw, o = Ok raw /\ in_storage T raw /\ ~ holds_value T raw /\
    forall R' j, tombstone_index T raw = Some (R', j) -> j = Ok i.
Proof. exact (make_then_index T i R o). Qed.

Lemma make_injective T i j R o R' : valid T ->
  ty_min I128 <= i <= ty_max U128 -> ty_min I128 <= j <= ty_max U128 ->
  tombstone_make T i = Some (R, o) -> tombstone_make T j = Some (R', o) -> i = j.
Proof.
  intros V Ii Ij Hi Hj. apply make_exact in Hi; auto. apply make_exact in Hj; auto.
  destruct Hi as (Bi & _ & ->), Hj as (Bj & _ & E). injection E as E.
  destruct (rep_range T i V Bi) as (_ & _ & <-). destruct (rep_range T j V Bj) as (_ & _ & <-). now rewrite E.
Qed.

Lemma spares_complete T : valid T -> lo T <> hi T -> ty_bits (und T) <= 64 ->
  (forall raw, in_storage T raw -> ~ holds_value T raw ->
     exists j, 0 <= j /\ tombstone_make T j = Some (T, Ok raw)) /\
  (forall raw, in_storage T raw -> exists R j, tombstone_index T raw = Some (R, Ok j) /\ hi R =
     (lo T - ty_min (und T)) + (ty_max (und T) - hi T) - 1) /\
  (forall i, ty_min I128 <= i <= ty_max U128 ->
     ((exists raw, tombstone_make T i = Some (T, Ok raw)) <->
      0 <= i < (lo T - ty_min (und T)) + (ty_max (und T) - hi T))).
Proof.
  intros V N H. fold (spares T). split; [|split].
  - intros raw S A. destruct (index_range T raw V S) as [_ K]. destruct (K A) as [B E].
    exists (index_of T raw). split; [lia|]. rewrite make_total by auto. now rewrite E.
  - intros raw S. exists (bt (-1) (spares T - 1)), (index_of T raw). split; [now apply index_total|]. reflexivity.
  - intros i Ii. split.
    + intros (raw & E). now apply make_exact in E.
    + intros Hi. exists (rep_of T i). now apply make_total.
Qed.

Lemma wide_refuted : exists T raw, valid T /\ in_storage T raw /\ ~ holds_value T raw /\
  forall i, ty_min I128 <= i <= ty_max U128 -> tombstone_make T i = None.
Proof.
  exists (Bty (lit 0) (TV U128 (ty_max U128 - 1))), (ty_max U128).
  split; [repeat split; vm_compute; congruence|].
  split; [split; vm_compute; congruence|].
  split; [intros [_ H]; apply H; vm_compute; reflexivity|].
  intros i _. unfold tombstone_make.
  match goal with |- obind ?t _ = _ => assert (t = None) as -> by (vm_compute; reflexivity) end. reflexivity.
Qed.
