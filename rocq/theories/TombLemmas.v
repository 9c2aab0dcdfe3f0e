(** * Spare representations *)

From Coq Require Import ZArith Lia Bool List.
From Verif Require Import Cxx CxxLemmas Core Spec CoreLemmas Arith ArithLemmas ArithProofs
  Funcs SpecFuncs FuncLemmas FuncLemmas2 FuncLemmas3 CoreProofs TextLemmas NumLemmas.
Import ListNotations.
Open Scope Z_scope.

Ltac Zify.zify_post_hook ::= idtac.

Definition spares (T : bty) : Z := (lo T - ty_min (und T)) + (ty_max (und T) - hi T).

Lemma plus_cst' a b : in128 a -> in128 b ->
  plus (cst a) (cst b) a b = if reprb (a + b) (a + b) then Some (cst (a + b), Ok (a + b)) else None.
Proof.
  intros. rewrite plus_spec by auto using valid_cst, holds_cst. unfold cst. now rewrite !lo_bt, !hi_bt.
Qed.
Lemma minus_cst' a b : in128 a -> in128 b ->
  minus (cst a) (cst b) a b =
  if reprb (- b) (- b) && reprb (a - b) (a - b) then Some (cst (a - b), Ok (a - b)) else None.
Proof.
  intros. rewrite minus_spec by auto using valid_cst, holds_cst. unfold cst. now rewrite !lo_bt, !hi_bt.
Qed.
Lemma reprb_in128 z : reprb z z = true -> in128 z.
Proof. intros H. apply reprb_spec, representable_in128 in H. tauto. Qed.
Lemma reprb_if {A} z (r v : A) : (in128 z -> r = v) -> (if reprb z z then Some r else None) = if reprb z z then Some v else None.
Proof. intros H. destruct (reprb z z) eqn:E; [|auto]. f_equal. apply H. now apply reprb_in128. Qed.

Lemma und_in128 T : in128 (ty_min (und T)) /\ in128 (ty_max (und T)).
Proof. unfold in128. destruct (und T); cbn; lia. Qed.

Definition info_of (T : bty) : tombstone_info :=
  TInfo (cst (ty_min (und T))) (cst (ty_max (und T))) (cst (lo T - ty_min (und T)))
        (cst (ty_max (und T) - hi T)) (bt (-1) (spares T - 1)).

Lemma consts_spec T : valid T ->
  tombstone_consts T =
  if negb (lo T =? hi T) && reprb (- ty_min (und T)) (- ty_min (und T)) && reprb (lo T - ty_min (und T)) (lo T - ty_min (und T))
     && reprb (- hi T) (- hi T) && reprb (ty_max (und T) - hi T) (ty_max (und T) - hi T)
     && reprb (spares T) (spares T) && reprb (spares T - 1) (spares T - 1) && reprb (-1) (spares T - 1)
  then Some (info_of T) else None.
Proof.
  intros V. unfold tombstone_consts. rewrite is_constant_valid by auto.
  destruct (lo T =? hi T); cbn [negb guard obind andb]; [reflexivity|].
  rewrite constant_t_lit by (cbn; lia). cbn [obind].
  destruct (und_in128 T) as [U1 U2]. destruct (valid_bounds _ V) as (I1 & I2 & L & _).
  assert (ty_min (und T) <= ty_max (und T)) as LU by (destruct (und T); cbn; lia).
  rewrite !constant_t_spec by (unfold wf_tv; cbn [ty vl]; lia). cbn [obind vl].
  rewrite bmin_cst, bmax_cst by auto. rewrite !(proj1 (cst_bounds _)).
  rewrite !minus_cst' by auto.
  destruct (reprb (- ty_min (und T)) _) eqn:R1; cbn [andb obind]; [|reflexivity].
  destruct (reprb (lo T - ty_min (und T)) _) eqn:R2; cbn [andb obind]; [|reflexivity].
  destruct (reprb (- hi T) _) eqn:R3; cbn [andb obind]; [|reflexivity].
  destruct (reprb (ty_max (und T) - hi T) _) eqn:R4; cbn [andb obind]; [|reflexivity].
  apply reprb_in128 in R2, R4. rewrite !(proj1 (cst_bounds _)). rewrite plus_cst' by auto.
  fold (spares T). destruct (reprb (spares T) (spares T)) eqn:R5; cbn [andb obind]; [|reflexivity].
  apply reprb_in128 in R5. rewrite !(proj1 (cst_bounds _)). rewrite minus_cst' by (auto; apply in128_u; lia).
  change (reprb (- (1)) (- (1))) with true. cbn [andb].
  destruct (reprb (spares T - 1) (spares T - 1)) eqn:R6; cbn [andb obind]; [|reflexivity].
  apply reprb_in128 in R6. rewrite lit_nt by (cbn; lia). unfold cst. cbn [bt bmin].
  rewrite normalize_spec by now apply nt_wf. cbn [vl nt]. rewrite mk_integer_nt; [|unfold in128; cbn; lia|auto].
  destruct (reprb (-1) (spares T - 1)); reflexivity.
Qed.

(** The representation with index [i]. *)
Definition rep_of (T : bty) (i : Z) : Z :=
  if i <? lo T - ty_min (und T) then i + ty_min (und T)
  else i - (lo T - ty_min (und T)) + hi T + 1.
Definition index_of (T : bty) (raw : Z) : Z :=
  if raw <? lo T then raw - ty_min (und T)
  else if hi T <? raw then raw + (lo T - ty_min (und T)) - hi T - 1 else -1.

Lemma rep_range T i : valid T -> 0 <= i < spares T ->
  ty_min (und T) <= rep_of T i <= ty_max (und T) /\ ~ holds_value T (rep_of T i) /\ index_of T (rep_of T i) = i.
Proof.
  intros V Hi. pose proof (und_valid _ V) as H. unfold holds in H. pose proof (valid_le _ V) as L.
  unfold rep_of, index_of, holds_value, spares in *.
  destruct (Z.ltb_spec i (lo T - ty_min (und T))).
  - destruct (Z.ltb_spec (i + ty_min (und T)) (lo T)); lia.
  - set (r := i - _ + _ + 1) in *. destruct (Z.ltb_spec r (lo T)), (Z.ltb_spec (hi T) r); lia.
Qed.
Lemma index_range T raw : valid T -> ty_min (und T) <= raw <= ty_max (und T) ->
  (holds_value T raw -> index_of T raw = -1) /\
  (~ holds_value T raw -> 0 <= index_of T raw < spares T /\ rep_of T (index_of T raw) = raw).
Proof.
  intros V Hr. pose proof (und_valid _ V) as H. unfold holds in H. pose proof (valid_le _ V) as L.
  unfold rep_of, index_of, holds_value, spares in *.
  destruct (Z.ltb_spec raw (lo T)).
  - split; [lia|]. intros _. split; [lia|]. destruct (Z.ltb_spec (raw - ty_min (und T)) (lo T - ty_min (und T))); lia.
  - destruct (Z.ltb_spec (hi T) raw); [|split; [auto|]; intros N; exfalso; apply N; lia].
    split; [lia|]. intros _. split; [lia|].
    destruct (Z.ltb_spec (raw + (lo T - ty_min (und T)) - hi T - 1) (lo T - ty_min (und T))); lia.
Qed.

Lemma construct_und T r : valid T -> lo T <> hi T -> ty_min (und T) <= r <= ty_max (und T) ->
  construct_unchecked T (und T) (Ok (TV (und T) r)) = Some (T, Ok r).
Proof.
  intros V N Hr. destruct (valid_inv _ V) as [R E].
  pose proof (und_valid _ V) as H. unfold holds in H.
  assert (construct_unchecked T (und T) (Ok (TV (und T) r)) =
    Some (T, do w <- Ok (TV (und T) r); store T (Builtin (und T)) (vl w))) as ->.
  { rewrite E at 1. rewrite construct_type; [rewrite <- E; reflexivity|auto|].
    exists (lo T). pose proof (valid_le _ V). lia. }
  cbn [bind vl]. unfold store. rewrite is_constant_valid by auto.
  destruct (Z.eqb_spec (lo T) (hi T)); [lia|]. rewrite to_builtin_spec; [|exact I|exact Hr].
  cbn [bind vl]. now rewrite wrap_id.
Qed.

Lemma make_exact T i R o : valid T -> ty_min I128 <= i <= ty_max U128 -> tombstone_make T i = Some (R, o) ->
  0 <= i < spares T /\ R = T /\ o = Ok (rep_of T i).
Proof.
  intros V Hi H. unfold tombstone_make in H. rewrite consts_spec in H by auto.
  match type of H with context [if ?c then Some (info_of T) else None] => destruct c eqn:C end;
    cbn [obind] in H; [|discriminate].
  assert (lo T <> hi T) as NC by (repeat (apply andb_prop in C; destruct C as [C ?]); lia).
  assert (in128 (lo T - ty_min (und T))) as IB by (apply reprb_in128; repeat (apply andb_prop in C; destruct C as [C ?]); auto). clear C.
  assert (in128 i) as Ii by exact Hi.
  rewrite constant_t_spec in H.
  2:{ unfold wf_tv. destruct (Z.leb_spec 0 i); cbn [ty vl ty_min ty_max] in *; cbn in Hi |- *; lia. }
  cbn [obind vl] in H. unfold info_of in H. cbn [ti_index ti_umin ti_umax ti_below ti_above] in H.
  rewrite hi_bt in H.
  destruct ((0 <=? i) && (i <=? spares T - 1)) eqn:B; cbn [guard obind] in H; [|discriminate].
  assert (0 <= i < spares T) as Bi by lia. split; [auto|].
  destruct (rep_range T i V Bi) as (RR & _ & _).
  rewrite constant_t_lit in H by (cbn; lia). cbn [obind] in H.
  destruct (und_in128 T) as [U1 U2]. destruct (valid_bounds _ V) as (I1 & I2 & L & _).
  rewrite !(proj1 (cst_bounds _)) in H. rewrite plus_cst' in H by auto.
  destruct (reprb (i + ty_min (und T)) _) eqn:R1; cbn [obind] in H; [|discriminate]. apply reprb_in128 in R1.
  rewrite bmax_cst in H by auto. rewrite minus_cst' in H by auto.
  destruct (_ && reprb (i - (lo T - ty_min (und T))) _) eqn:R2; cbn [then_ obind] in H; [|discriminate].
  assert (in128 (i - (lo T - ty_min (und T)))) as R2' by (apply reprb_in128; apply andb_prop in R2; tauto).
  rewrite plus_cst' in H by auto.
  destruct (reprb (i - (lo T - ty_min (und T)) + hi T) _) eqn:R3; cbn [then_ obind] in H; [|discriminate].
  apply reprb_in128 in R3. rewrite plus_cst' in H by (auto; apply in128_u; lia).
  destruct (reprb (i - (lo T - ty_min (und T)) + hi T + 1) _) eqn:R4; cbn [then_ obind] in H; [|discriminate].
  apply reprb_in128 in R4.
  rewrite less_spec in H; auto; try apply holds_cst; try (now apply valid_cst). cbn [ct obind] in H.
  unfold rep_of in *. destruct (i <? lo T - ty_min (und T)).
  - cbn [bind] in H. rewrite to_builtin_spec in H; [|now apply valid_cst|apply holds_cst]. cbn [bind] in H.
    rewrite wrap_id in H by auto. rewrite construct_und in H by auto.
    apply (f_equal (fun o => match o with Some p => p | None => (T, UB) end)) in H.
    apply pair_equal_spec in H. destruct H as [<- <-]. auto.
  - cbn [bind] in H. rewrite to_builtin_spec in H; [|now apply valid_cst|apply holds_cst]. cbn [bind] in H.
    rewrite wrap_id in H by auto. rewrite construct_und in H by auto.
    apply (f_equal (fun o => match o with Some p => p | None => (T, UB) end)) in H.
    apply pair_equal_spec in H. destruct H as [<- <-]. auto.
Qed.

Lemma reprb64 l h : - 2 ^ 70 <= l -> h <= 2 ^ 70 -> l <= h -> reprb l h = true.
Proof.
  intros. apply reprb_spec, representable_spec. change (ty_min I128) with (- 2 ^ 127).
  change (ty_max I128) with (2 ^ 127 - 1). lia.
Qed.
Lemma in128_64 z : - 2 ^ 70 <= z <= 2 ^ 70 -> in128 z.
Proof. intros. apply reprb_in128, reprb64; lia. Qed.

Lemma und64 T : ty_bits (und T) <= 64 -> - 2 ^ 64 <= ty_min (und T) <= 0 /\ 0 < ty_max (und T) <= 2 ^ 64.
Proof. destruct (und T); cbn; lia. Qed.

Lemma make_total T i : valid T -> lo T <> hi T -> ty_bits (und T) <= 64 -> 0 <= i < spares T ->
  tombstone_make T i = Some (T, Ok (rep_of T i)).
Proof.
  intros V NC B64 Bi. pose proof (und64 T B64) as UB. pose proof (und_valid _ V) as HU. unfold holds in HU.
  pose proof (valid_le _ V) as L.
  destruct (tombstone_make T i) as [[R o]|] eqn:H.
  { destruct (make_exact T i R o V) as (_ & -> & ->); auto.
    unfold spares in Bi. cbn. lia. }
  exfalso. unfold tombstone_make in H. rewrite consts_spec in H by auto.
  assert (- 2 ^ 66 <= spares T <= 2 ^ 66) as SB by (unfold spares; lia).
  rewrite !reprb64 in H by lia. destruct (Z.eqb_spec (lo T) (hi T)); [lia|]. cbn [negb andb obind] in H.
  rewrite constant_t_spec in H.
  2:{ unfold wf_tv. destruct (Z.leb_spec 0 i); cbn [ty vl ty_min ty_max] in *; cbn; lia. }
  cbn [obind vl] in H. unfold info_of in H. cbn [ti_index ti_umin ti_umax ti_below ti_above] in H.
  rewrite hi_bt in H.
  destruct ((0 <=? i) && (i <=? spares T - 1)) eqn:B; cbn [guard obind] in H; [|lia].
  destruct (rep_range T i V Bi) as (RR & _ & _).
  rewrite constant_t_lit in H by (cbn; lia). cbn [obind] in H.
  destruct (und_in128 T) as [U1 U2]. destruct (valid_bounds _ V) as (I1 & I2 & _ & _).
  rewrite !(proj1 (cst_bounds _)) in H.
  rewrite plus_cst' in H by (auto; apply in128_64; lia). rewrite reprb64 in H by lia. cbn [obind] in H.
  rewrite bmax_cst in H by auto. rewrite minus_cst' in H by (apply in128_64; lia).
  rewrite !reprb64 in H by lia. cbn [andb then_ obind] in H.
  rewrite plus_cst' in H by (auto; apply in128_64; lia). rewrite reprb64 in H by lia. cbn [then_ obind] in H.
  rewrite plus_cst' in H by (auto; apply in128_64; lia). rewrite reprb64 in H by lia. cbn [then_ obind] in H.
  rewrite less_spec in H; auto; try apply holds_cst; try (apply valid_cst, in128_64; lia). cbn [ct obind] in H.
  unfold rep_of in *. destruct (i <? lo T - ty_min (und T)).
  - cbn [bind] in H. rewrite to_builtin_spec in H; [|apply valid_cst, in128_64; lia|apply holds_cst]. cbn [bind] in H.
    rewrite wrap_id in H by auto. rewrite construct_und in H by auto. discriminate.
  - cbn [bind] in H. rewrite to_builtin_spec in H; [|apply valid_cst, in128_64; lia|apply holds_cst]. cbn [bind] in H.
    rewrite wrap_id in H by auto. rewrite construct_und in H by auto. discriminate.
Qed.

Lemma plus_c A b x : valid A -> in128 b -> holds_value A x ->
  plus A (cst b) x b = if reprb (lo A + b) (hi A + b) then Some (bt (lo A + b) (hi A + b), Ok (x + b)) else None.
Proof. intros. rewrite plus_spec by auto using valid_cst, holds_cst. unfold cst. now rewrite !lo_bt, !hi_bt. Qed.
Lemma minus_c A b x : valid A -> in128 b -> holds_value A x ->
  minus A (cst b) x b = if reprb (- b) (- b) && reprb (lo A - b) (hi A - b) then Some (bt (lo A - b) (hi A - b), Ok (x - b)) else None.
Proof. intros. rewrite minus_spec by auto using valid_cst, holds_cst. unfold cst. now rewrite !lo_bt, !hi_bt. Qed.

Lemma holds_bt l h x : holds_value (bt l h) x <-> l <= x <= h.
Proof. unfold holds_value. rewrite lo_bt, hi_bt. tauto. Qed.

(** The tests for compilation of tombstone_index, beyond those of [consts_spec]. *)
Definition index_ok (T : bty) : bool :=
  let u0 := ty_min (und T) in let u1 := ty_max (und T) in let b := lo T - u0 in
  reprb (- u0) (- u0) && reprb (u0 - u0) (u1 - u0) &&
  reprb (u0 + b) (u1 + b) && (reprb (- hi T) (- hi T) && reprb (u0 + b - hi T) (u1 + b - hi T)) &&
  reprb (u0 + b - hi T - 1) (u1 + b - hi T - 1) &&
  reprb (Z.min (u0 + b - hi T - 1) (-1)) (Z.max (u1 + b - hi T - 1) (-1)) &&
  reprb (Z.min (u0 - u0) (Z.min (u0 + b - hi T - 1) (-1))) (Z.max (u1 - u0) (Z.max (u1 + b - hi T - 1) (-1))).

Lemma index_shape T raw : valid T -> ty_min (und T) <= raw <= ty_max (und T) ->
  tombstone_index T raw =
  if is_some (tombstone_consts T) && index_ok T
  then Some (bt (-1) (spares T - 1), Ok (index_of T raw)) else None.
Proof.
  intros V Hr. pose proof (und_valid _ V) as HU. unfold holds in HU. pose proof (valid_le _ V) as L.
  unfold tombstone_index. pose proof (consts_spec T V) as CS.
  destruct (tombstone_consts T) as [ti|] eqn:C; cbn [obind is_some andb]; [|reflexivity].
  match type of CS with _ = if ?c then _ else _ => destruct c eqn:CC end; [|discriminate].
  injection CS as ->. repeat (apply andb_prop in CC; destruct CC as [CC ?]).
  repeat match goal with H : reprb ?z ?z = true |- _ => apply reprb_in128 in H end.
  match goal with H : reprb (-1) _ = true |- _ => apply reprb_spec in H; rename H into RI end.
  assert (valid (bt (-1) (spares T - 1))) as VI by now apply valid_bt.
  assert (in128 1) as I1' by (apply in128_u; lia). assert (in128 (-1)) as Im1 by (apply in128_64; lia).
  rewrite constant_t_lit by (cbn; lia). cbn [obind]. rewrite negate_cst by auto. cbn [obind].
  rewrite deduced_spec by exact I. cbn [obind ilo ihi].
  destruct (und_in128 T) as [U1 U2]. destruct (valid_bounds _ V) as (I1 & I2 & _ & _).
  assert (valid (bt (ty_min (und T)) (ty_max (und T)))) as VD.
  { apply valid_bt. split; [lia|]. exists (und T). unfold holds. lia. }
  rewrite convert_spec; [|exact VD|exact I|exact Hr].
  cbn [ilo ihi]. rewrite lo_bt, hi_bt, !Z.leb_refl. cbn [andb obind]. rewrite then_ok.
  rewrite bmin_cst, bmax_cst by auto. unfold info_of.
  cbn [ti_index ti_umin ti_umax ti_below ti_above]. rewrite !(proj1 (cst_bounds _)).
  assert (holds_value (bt (ty_min (und T)) (ty_max (und T))) raw) as HD by (apply holds_bt; lia).
  rewrite less_spec, greater_spec; auto; try apply holds_cst; try (now apply valid_cst).
  set (u0 := ty_min (und T)) in *. set (u1 := ty_max (und T)) in *. set (b := lo T - u0) in *.
  unfold index_ok. cbv zeta. fold u0 u1 b.
  rewrite minus_c by auto. rewrite plus_c by auto. rewrite !lo_bt, !hi_bt.
  destruct (reprb (- u0) (- u0)) eqn:R1; cbn [andb]; [|reflexivity].
  destruct (reprb (u0 - u0) (u1 - u0)) eqn:R2; cbn [andb]; [|reflexivity].
  apply reprb_spec in R2. pose proof (valid_bt _ _ R2) as V2.
  destruct (reprb (u0 + b) (u1 + b)) eqn:R3; cbn [andb then_ obind]; [|reflexivity].
  apply reprb_spec in R3. pose proof (valid_bt _ _ R3) as V3.
  rewrite minus_c by (auto; apply holds_bt; lia). rewrite !lo_bt, !hi_bt.
  destruct (reprb (- hi T) (- hi T)) eqn:R4; cbn [andb then_ obind]; [|reflexivity].
  destruct (reprb (u0 + b - hi T) (u1 + b - hi T)) eqn:R5; cbn [andb then_ obind]; [|reflexivity].
  apply reprb_spec in R5. pose proof (valid_bt _ _ R5) as V5.
  rewrite minus_c by (auto; apply holds_bt; lia). rewrite !lo_bt, !hi_bt.
  change (reprb (- (1)) (- (1))) with true. cbn [andb].
  destruct (reprb (u0 + b - hi T - 1) (u1 + b - hi T - 1)) eqn:R6; cbn [andb then_ obind]; [|reflexivity].
  apply reprb_spec in R6. pose proof (valid_bt _ _ R6) as V6.
  unfold as_const. change (- (1)) with (-1). rewrite !(proj1 (cst_bounds _)).
  rewrite (conditional_spec (hi T <? raw)); auto;
    [|now apply valid_cst|intros z E; injection E as <-; apply holds_bt; lia|intros z E; injection E as <-; apply holds_cst].
  unfold cst. rewrite !lo_bt, !hi_bt.
  destruct (reprb (Z.min (u0 + b - hi T - 1) (-1)) (Z.max (u1 + b - hi T - 1) (-1))) eqn:R7; cbn [andb]; [|reflexivity].
  apply reprb_spec in R7. pose proof (valid_bt _ _ R7) as V7.
  assert (forall z, (if hi T <? raw then Ok (raw + b - hi T - 1) else Ok (-1)) = Ok z ->
    holds_value (bt (Z.min (u0 + b - hi T - 1) (-1)) (Z.max (u1 + b - hi T - 1) (-1))) z) as H7.
  { intros z E. apply holds_bt. destruct (hi T <? raw); injection E as <-; lia. }
  rewrite (conditional_spec (raw <? lo T)); auto;
    [|intros z E; injection E as <-; apply holds_bt; lia].
  rewrite !lo_bt, !hi_bt.
  match goal with |- context [if reprb ?l ?h then _ else None] => set (cl := l) in *; set (ch := h) in * end.
  destruct (reprb cl ch) eqn:R8; cbn [andb then_ obind]; [|reflexivity].
  apply reprb_spec in R8. pose proof (valid_bt _ _ R8) as V8.
  assert ((if raw <? lo T then Ok (raw - u0) else if hi T <? raw then Ok (raw + b - hi T - 1) else Ok (-1)) = Ok (index_of T raw)) as ->.
  { unfold index_of. fold u0 u1 b. destruct (raw <? lo T); [auto|]. destruct (hi T <? raw); auto. }
  destruct (index_range T raw V Hr) as [X1 X2].
  assert (-1 <= index_of T raw <= spares T - 1) as BI.
  { destruct (Z.le_gt_cases (lo T) raw), (Z.le_gt_cases raw (hi T)).
    1: rewrite X1 by (split; auto); destruct RI; lia.
    all: destruct X2 as [X2 _]; [unfold holds_value; lia|lia]. }
  assert (cl <= index_of T raw <= ch) as BC.
  { unfold cl, ch, index_of. fold u0 u1 b. destruct (Z.ltb_spec raw (lo T)); [lia|]. destruct (hi T <? raw); lia. }
  rewrite assume_to_spec; [|auto|auto|apply holds_bt; exact BC].
  cbn [ilo ihi]. rewrite !lo_bt, !hi_bt.
  assert ((cl <=? spares T - 1) && (-1 <=? ch) = true) as -> by lia.
  assert ((-1 <=? index_of T raw) && (index_of T raw <=? spares T - 1) = true) as -> by lia.
  rewrite then_ok. assert (representable (Z.max (-1) cl) (Z.min (spares T - 1) ch)) as RF.
  { apply representable_spec. destruct RI as [_ RI]. apply valid_bt in R8. apply valid_repr in VI.
    rewrite lo_bt, hi_bt in VI. apply representable_spec in VI. lia. }
  rewrite convert_spec; [|auto|now apply valid_bt|apply holds_bt; lia].
  cbn [ilo ihi]. rewrite !lo_bt, !hi_bt.
  assert ((-1 <=? Z.max (-1) cl) && (Z.min (spares T - 1) ch <=? spares T - 1) = true) as -> by lia.
  reflexivity.
Qed.

Lemma index_total T raw : valid T -> lo T <> hi T -> ty_bits (und T) <= 64 ->
  ty_min (und T) <= raw <= ty_max (und T) ->
  tombstone_index T raw = Some (bt (-1) (spares T - 1), Ok (index_of T raw)).
Proof.
  intros V NC B64 Hr. rewrite index_shape by auto.
  pose proof (und64 T B64) as UB. pose proof (und_valid _ V) as HU. unfold holds in HU.
  pose proof (valid_le _ V) as L.
  assert (0 <= spares T <= 2 ^ 66) as SB by (unfold spares; lia).
  rewrite consts_spec by auto. destruct (Z.eqb_spec (lo T) (hi T)); [lia|].
  rewrite !(reprb64 _ _) by lia. cbn [negb andb is_some].
  unfold index_ok. cbv zeta. rewrite !(reprb64 _ _) by lia. reflexivity.
Qed.

Lemma index_exact T raw R o : valid T -> ty_min (und T) <= raw <= ty_max (und T) ->
  tombstone_index T raw = Some (R, o) -> R = bt (-1) (spares T - 1) /\ o = Ok (index_of T raw).
Proof.
  intros V Hr H. rewrite index_shape in H by auto.
  destruct (is_some (tombstone_consts T) && index_ok T); [|discriminate].
  apply (f_equal (fun o => match o with Some p => p | None => (bt 0 0, UB) end)) in H.
  apply pair_equal_spec in H. destruct H as [<- <-]. auto.
Qed.
