(** * Reduction of the typed core model to mathematics *)

From Coq Require Import ZArith Lia Bool List ZifyBool.
From Verif Require Import Cxx CxxLemmas Core Spec.
Import ListNotations.
Open Scope Z_scope.

Ltac Zify.zify_post_hook ::= Z.div_mod_to_equations.

(** The normalized type of a value. *)
Definition norm_ty (z : Z) : cty :=
  if in_ty I32 z then I32 else if in_ty I128 z then I128 else U128.
Definition nt (z : Z) : tval := TV (norm_ty z) z.
Definition in128 (z : Z) : Prop := ty_min I128 <= z <= ty_max U128.

Ltac ubool :=
  repeat match goal with
  | |- context [if ?b then _ else _] =>
      lazymatch b with context [if _ then _ else _] => fail | _ => destruct b eqn:? end
  end.

Lemma nt_wf z : in128 z -> wf_tv (nt z).
Proof.
  unfold in128, wf_tv, nt, norm_ty, in_ty. cbn. intros.
  ubool; cbn; lia.
Qed.

Lemma wf_in128 v : wf_tv v -> in128 (vl v).
Proof. destruct v as [t z]. unfold wf_tv, in128. destruct t; cbn; lia. Qed.

Lemma nt_vl z : vl (nt z) = z.
Proof. reflexivity. Qed.

(** Evaluate conversions of constants and remove conversions that change
    nothing. *)
Ltac closed_wraps :=
  cbn [ty_min ty_max] in *;
  repeat match goal with
  | |- context [promote ?a] => let v := eval vm_compute in (promote a) in change (promote a) with v
  | |- context [uac ?a ?b] => let v := eval vm_compute in (uac a b) in change (uac a b) with v
  | |- context [wrap ?t Z0] => let v := eval vm_compute in (wrap t Z0) in change (wrap t Z0) with v
  | |- context [wrap ?t (Zpos ?p)] =>
      let v := eval vm_compute in (wrap t (Zpos p)) in change (wrap t (Zpos p)) with v
  | |- context [wrap ?t (Zneg ?p)] =>
      let v := eval vm_compute in (wrap t (Zneg p)) in change (wrap t (Zneg p)) with v
  end.

Lemma normalize_spec v : wf_tv v -> normalize v = nt (vl v).
Proof.
  destruct v as [t z]. unfold wf_tv. intros H.
  unfold normalize, fits_in_int, must_use_unsigned, cgt, cge, cle, clt, cplus1, cast,
    nt, norm_ty, in_ty, usual, lit in *.
  cbn [ty vl] in *.
  destruct t; closed_wraps; cbn [ty_min ty_max] in *; destruct (Z.ltb_spec z 0);
    rewrite ?(wrap_id I32 z), ?(wrap_id U32 z), ?(wrap_id I64 z), ?(wrap_id U64 z),
      ?(wrap_id ILL z), ?(wrap_id ULL z), ?(wrap_id I128 z), ?(wrap_id U128 z) by (cbn; lia).
  all: ubool; try (exfalso; lia); try (rewrite wrap_id by (cbn; lia); reflexivity).
Qed.

Lemma normalize_nt z : in128 z -> normalize (nt z) = nt z.
Proof. intros. rewrite normalize_spec; [reflexivity | now apply nt_wf]. Qed.

Lemma builtin_min_spec t : builtin_min t = nt (ty_min t).
Proof. destruct t; reflexivity. Qed.
Lemma builtin_max_spec t : builtin_max t = nt (ty_max t).
Proof. destruct t; reflexivity. Qed.

Lemma zcompare_eq a b c d :
  (a < b <-> c < d) -> (a = b <-> c = d) -> (a ?= b) = (c ?= d).
Proof.
  intros H1 H2. destruct (Z.compare_spec a b), (Z.compare_spec c d); auto; lia.
Qed.

Lemma wf_bounds v : wf_tv v -> ty_min (ty v) <= vl v <= ty_max (ty v).
Proof. exact (fun H => H). Qed.

(** Comparisons whose operands survive the usual arithmetic conversions. *)
Lemma usual_signed_l a b :
  is_signed (ty a) = is_signed (ty b) -> wf_tv a -> wf_tv b ->
  wrap (usual a b) (vl a) = vl a /\ wrap (usual a b) (vl b) = vl b.
Proof.
  destruct a as [t x], b as [s y]. unfold wf_tv, usual. cbn. intros E H1 H2.
  split; apply wrap_id; destruct t, s; cbn in *; try discriminate; lia.
Qed.

Lemma ccmp_spec a b :
  is_signed (ty a) = is_signed (ty b) -> wf_tv a -> wf_tv b ->
  ccmp a b = (vl a ?= vl b).
Proof.
  intros. unfold ccmp. destruct (usual_signed_l a b) as [-> ->]; auto.
Qed.

Lemma ceq_spec a b :
  is_signed (ty a) = is_signed (ty b) -> wf_tv a -> wf_tv b ->
  ceq a b = (vl a =? vl b).
Proof.
  intros. unfold ceq. destruct (usual_signed_l a b) as [-> ->]; auto.
Qed.

Lemma cast_wf t v : wf_tv (cast t v).
Proof. apply wrap_wf. Qed.

Lemma usual0 a : wf_tv a ->
  wrap (usual a (lit 0)) (vl a) = vl a /\ wrap (usual (lit 0) a) (vl a) = vl a /\
  wrap (usual a (lit 0)) 0 = 0 /\ wrap (usual (lit 0) a) 0 = 0.
Proof.
  destruct a as [t x]. unfold wf_tv, usual. cbn. intros H.
  repeat split; apply wrap_id; destruct t; cbn in *; lia.
Qed.

Lemma clt0_spec a : wf_tv a -> clt a (lit 0) = (vl a <? 0).
Proof. intros H. unfold clt. cbn [vl lit]. now destruct (usual0 a H) as (-> & _ & -> & _). Qed.
Lemma cgt0_spec a : wf_tv a -> cgt a (lit 0) = (0 <? vl a).
Proof. intros H. unfold cgt, clt. cbn [vl lit]. now destruct (usual0 a H) as (_ & -> & _ & ->). Qed.
Lemma cge0_spec a : wf_tv a -> cge a (lit 0) = (0 <=? vl a).
Proof. intros H. unfold cge, cle. cbn [vl lit]. now destruct (usual0 a H) as (_ & -> & _ & ->). Qed.
Lemma cle0_spec a : wf_tv a -> cle a (lit 0) = (vl a <=? 0).
Proof. intros H. unfold cle. cbn [vl lit]. now destruct (usual0 a H) as (-> & _ & -> & _). Qed.
Lemma ceq0_spec a : wf_tv a -> ceq a (lit 0) = (vl a =? 0).
Proof. intros H. unfold ceq. cbn [vl lit]. now destruct (usual0 a H) as (-> & _ & -> & _). Qed.

Lemma max_le_signed t :
  cle (TV t (ty_max t)) (TV I128 (ty_max I128)) = negb (cty_eqb t U128).
Proof. destruct t; vm_compute; reflexivity. Qed.

Lemma not_u128_range t z : t <> U128 -> ty_min t <= z <= ty_max t ->
  ty_min I128 <= z <= ty_max I128.
Proof. destruct t; cbn; try congruence; lia. Qed.

Lemma cty_eqb_false a b : cty_eqb a b = false <-> a <> b.
Proof.
  split.
  - intros H ->. assert (cty_eqb b b = true) by now apply cty_eqb_spec. congruence.
  - intros H. destruct (cty_eqb a b) eqn:E; auto. apply cty_eqb_spec in E. congruence.
Qed.

Lemma cty_eqb_reflect a b : reflect (a = b) (cty_eqb a b).
Proof.
  destruct (cty_eqb a b) eqn:E; constructor.
  - now apply cty_eqb_spec.
  - now apply cty_eqb_false.
Qed.

Lemma safe_compare_spec l r : wf_tv l -> wf_tv r ->
  safe_compare l r = (vl l ?= vl r).
Proof.
  intros Hl Hr. unfold safe_compare. rewrite !max_le_signed.
  destruct (Bool.eqb _ _) eqn:E.
  { apply ccmp_spec; auto. now apply eqb_prop. }
  apply eqb_false_iff in E.
  destruct (cty_eqb_reflect (ty l) U128) as [El|El];
    destruct (cty_eqb_reflect (ty r) U128) as [Er|Er]; cbn [negb andb].
  - rewrite El, Er in E. congruence.
  - rewrite El in E |- *. cbn [is_signed] in E |- *. rewrite clt0_spec by auto.
    assert (is_signed (ty r) = true) by (destruct (is_signed (ty r)); congruence).
    pose proof (not_u128_range _ _ Er Hr). pose proof Hl as Hl'. unfold wf_tv in Hl'. rewrite El in Hl'.
    destruct (vl r <? 0) eqn:R0.
    + symmetry. apply Z.compare_gt_iff. cbn in *. lia.
    + rewrite cast_id by (cbn in *; lia).
      rewrite ccmp_spec; cbn [ty vl]; auto. 1: now rewrite El.
      unfold wf_tv; cbn in *; lia.
  - rewrite Er in E |- *. cbn [is_signed] in E |- *.
    assert (Sl : is_signed (ty l) = true) by (destruct (is_signed (ty l)); congruence).
    rewrite Sl. rewrite clt0_spec by auto.
    pose proof (not_u128_range _ _ El Hl). pose proof Hr as Hr'. unfold wf_tv in Hr'. rewrite Er in Hr'.
    destruct (vl l <? 0) eqn:R0.
    + symmetry. apply Z.compare_lt_iff. cbn in *. lia.
    + rewrite cast_id by (cbn in *; lia).
      rewrite ccmp_spec; cbn [ty vl]; auto.
      1: now rewrite Er.
      unfold wf_tv; cbn in *; lia.
  - pose proof (not_u128_range _ _ Er Hr). pose proof (not_u128_range _ _ El Hl).
    rewrite !cast_id by assumption. rewrite ccmp_spec; auto.
Qed.

Lemma safe_equal_spec l r : wf_tv l -> wf_tv r ->
  safe_equal l r = (vl l =? vl r).
Proof.
  intros Hl Hr. unfold safe_equal. rewrite !max_le_signed.
  destruct (Bool.eqb _ _) eqn:E.
  { apply ceq_spec; auto. now apply eqb_prop. }
  apply eqb_false_iff in E.
  destruct (cty_eqb_reflect (ty l) U128) as [El|El];
    destruct (cty_eqb_reflect (ty r) U128) as [Er|Er]; cbn [negb andb].
  - rewrite El, Er in E. congruence.
  - rewrite El in E |- *. cbn [is_signed] in E |- *. rewrite cge0_spec by auto.
    assert (is_signed (ty r) = true) by (destruct (is_signed (ty r)); congruence).
    pose proof (not_u128_range _ _ Er Hr). pose proof Hl as Hl'. unfold wf_tv in Hl'. rewrite El in Hl'.
    destruct (0 <=? vl r) eqn:R0; cbn [andb].
    + rewrite cast_id by (cbn in *; lia).
      rewrite ceq_spec; cbn [ty vl]; auto. 1: now rewrite El.
      unfold wf_tv; cbn in *; lia.
    + cbn in *. lia.
  - rewrite Er in E |- *. cbn [is_signed] in E |- *.
    assert (Sl : is_signed (ty l) = true) by (destruct (is_signed (ty l)); congruence).
    rewrite Sl. rewrite cge0_spec by auto.
    pose proof (not_u128_range _ _ El Hl). pose proof Hr as Hr'. unfold wf_tv in Hr'. rewrite Er in Hr'.
    destruct (0 <=? vl l) eqn:R0; cbn [andb].
    + rewrite cast_id by (cbn in *; lia).
      rewrite ceq_spec; cbn [ty vl]; auto.
      1: now rewrite Er.
      unfold wf_tv; cbn in *; lia.
    + cbn in *. lia.
  - pose proof (not_u128_range _ _ Er Hr). pose proof (not_u128_range _ _ El Hl).
    rewrite !cast_id by assumption. rewrite ceq_spec; auto.
Qed.

Lemma ord_le_compare a b : ord_le (a ?= b) = (a <=? b).
Proof. unfold Z.leb. now destruct (a ?= b). Qed.
Lemma ord_lt_compare a b : ord_lt (a ?= b) = (a <? b).
Proof. unfold Z.ltb. now destruct (a ?= b). Qed.
Lemma ord_gt_compare a b : ord_gt (a ?= b) = (b <? a).
Proof. rewrite <- Z.gtb_ltb. unfold Z.gtb. now destruct (a ?= b). Qed.

(** Values of signed types are below 2^127, of unsigned types non-negative. *)
Lemma unsigned_nonneg v : wf_tv v -> is_signed (ty v) = false -> 0 <= vl v.
Proof. destruct v as [t z]. unfold wf_tv. destruct t; cbn; try discriminate; lia. Qed.
Lemma signed_small v : wf_tv v -> is_signed (ty v) = true ->
  ty_min I128 <= vl v <= ty_max I128.
Proof. destruct v as [t z]. unfold wf_tv. destruct t; cbn; try discriminate; lia. Qed.

Lemma safe_min_spec l r : wf_tv l -> wf_tv r ->
  vl (safe_min l r) = Z.min (vl l) (vl r) /\ wf_tv (safe_min l r) /\
  (is_signed (ty (safe_min l r)) = (is_signed (ty l) || is_signed (ty r))%bool).
Proof.
  intros Hl Hr. unfold safe_min. rewrite safe_compare_spec by auto. rewrite ord_le_compare.
  pose proof (wf_in128 _ Hl) as Bl. pose proof (wf_in128 _ Hr) as Br. unfold in128 in *.
  split; [|split].
  - destruct (is_signed (ty l)) eqn:Sl, (is_signed (ty r)) eqn:Sr; cbn [negb andb];
      repeat match goal with
      | H : is_signed _ = true |- _ => apply signed_small in H; [|assumption]
      | H : is_signed _ = false |- _ => apply unsigned_nonneg in H; [|assumption]
      end;
      destruct (vl l <=? vl r) eqn:C; cbn [cast vl]; rewrite wrap_id; cbn in *; lia.
  - destruct (vl l <=? vl r); apply cast_wf.
  - destruct (vl l <=? vl r), (is_signed (ty l)), (is_signed (ty r)); reflexivity.
Qed.

Lemma safe_max_spec l r : wf_tv l -> wf_tv r ->
  vl (safe_max l r) = Z.max (vl l) (vl r) /\ wf_tv (safe_max l r) /\
  (is_signed (ty (safe_max l r)) = (is_signed (ty l) && is_signed (ty r))%bool).
Proof.
  intros Hl Hr. unfold safe_max. rewrite safe_compare_spec by auto. rewrite ord_gt_compare.
  pose proof (wf_in128 _ Hl) as Bl. pose proof (wf_in128 _ Hr) as Br. unfold in128 in *.
  split; [|split].
  - destruct (is_signed (ty l)) eqn:Sl, (is_signed (ty r)) eqn:Sr; cbn [negb andb];
      repeat match goal with
      | H : is_signed _ = true |- _ => apply signed_small in H; [|assumption]
      | H : is_signed _ = false |- _ => apply unsigned_nonneg in H; [|assumption]
      end;
      destruct (vl r <? vl l) eqn:C; cbn [cast vl]; rewrite wrap_id; cbn in *; lia.
  - destruct (vl r <? vl l); apply cast_wf.
  - destruct (vl r <? vl l), (is_signed (ty l)), (is_signed (ty r)); reflexivity.
Qed.

Lemma ty_min_in128 t : in128 (ty_min t).
Proof. destruct t; unfold in128; cbn; lia. Qed.
Lemma ty_max_in128 t : in128 (ty_max t).
Proof. destruct t; unfold in128; cbn; lia. Qed.

Lemma value_fits_spec t v : wf_tv v -> value_fits_in_type t v = in_ty t (vl v).
Proof.
  intros H. unfold value_fits_in_type. rewrite builtin_min_spec, builtin_max_spec.
  rewrite !safe_compare_spec by auto using nt_wf, ty_min_in128, ty_max_in128.
  rewrite !ord_le_compare. reflexivity.
Qed.

(** The storage type as a function of the bounds. *)
Definition storage (l h : Z) : option cty :=
  find (fun t => in_ty t l && in_ty t h) determine_order.

Lemma find_ext {A} (f g : A -> bool) l : (forall x, f x = g x) -> find f l = find g l.
Proof. intros H. induction l; cbn; auto. rewrite H, IHl. reflexivity. Qed.

Lemma determine_type_spec a b : wf_tv a -> wf_tv b ->
  determine_type a b = storage (vl a) (vl b).
Proof.
  intros. unfold determine_type, storage. apply find_ext. intros t.
  unfold range_fits_in_type. now rewrite !value_fits_spec.
Qed.

(** Some built-in type holds both bounds. *)

Lemma representable_spec l h :
  representable l h <->
  l <= h /\ ((ty_min I128 <= l /\ h <= ty_max I128) \/ (0 <= l /\ h <= ty_max U128)).
Proof.
  unfold representable, holds. split.
  - intros [H [t Ht]]. split; auto. destruct t; cbn in *; lia.
  - intros [H [Ht | Ht]]; split; auto; [exists I128 | exists U128]; cbn in *; lia.
Qed.

Lemma storage_some l h t : storage l h = Some t -> in_ty t l = true /\ in_ty t h = true.
Proof.
  unfold storage. intros H. apply find_some in H. destruct H as [_ H].
  now apply andb_true_iff in H.
Qed.

Lemma storage_none l h : storage l h = None -> forall t, in_ty t l && in_ty t h = false.
Proof.
  unfold storage. intros H t. apply (find_none _ _ H). destruct t; cbn; tauto.
Qed.

Lemma storage_representable l h : l <= h ->
  (exists t, storage l h = Some t) <-> representable l h.
Proof.
  intros L. unfold representable, holds. split.
  - intros [t H]. apply storage_some in H. rewrite !in_ty_spec in H.
    split; auto. exists t. lia.
  - intros [_ [t H]]. destruct (storage l h) eqn:E; eauto.
    pose proof (storage_none _ _ E t) as N. apply andb_false_iff in N.
    unfold in_ty in N. lia.
Qed.

Definition reprb (l h : Z) : bool :=
  (l <=? h) && (((ty_min I128 <=? l) && (h <=? ty_max I128)) || ((0 <=? l) && (h <=? ty_max U128))).

Lemma reprb_spec l h : reprb l h = true <-> representable l h.
Proof. rewrite representable_spec. unfold reprb. lia. Qed.

Definition bt (l h : Z) : bty := Bty (nt l) (nt h).

Lemma mk_integer_nt l h : in128 l -> in128 h ->
  mk_integer (nt l) (nt h) = if reprb l h then Some (bt l h) else None.
Proof.
  intros Hl Hh. unfold mk_integer.
  rewrite !normalize_nt by auto.
  assert (forall t, cty_eqb t t = true) as Rf by (intros []; reflexivity).
  rewrite !Rf. cbn [guard obind].
  rewrite safe_compare_spec by auto using nt_wf. rewrite ord_le_compare. cbn [nt_vl vl nt].
  rewrite determine_type_spec by auto using nt_wf. cbn [vl nt].
  cbv [obind guard].
  destruct (reprb l h) eqn:E.
  - assert (R : representable l h) by now apply reprb_spec.
    destruct (proj2 (storage_representable l h (proj1 R)) R) as [t ->].
    destruct R as [L _]. assert (l <=? h = true) as -> by lia. reflexivity.
  - destruct (l <=? h) eqn:L; [|reflexivity].
    destruct (storage l h) eqn:S; [|reflexivity].
    assert (representable l h) as H.
    { apply (proj1 (storage_representable l h ltac:(lia))). eauto. }
    apply reprb_spec in H. congruence.
Qed.

Lemma mk_integer_norm a b : wf_tv a -> wf_tv b ->
  mk_integer (normalize a) (normalize b) =
  if reprb (vl a) (vl b) then Some (bt (vl a) (vl b)) else None.
Proof.
  intros Ha Hb. rewrite !normalize_spec by auto.
  apply mk_integer_nt; now apply wf_in128.
Qed.

(** A C++ type integer<minimum, maximum> the compiler accepts: the template
    arguments are values of their types and no static_assert fails. *)
(** An object of the type that holds the mathematical value [x]. *)

Lemma representable_in128 l h : representable l h -> in128 l /\ in128 h.
Proof. rewrite representable_spec. unfold in128. cbn. lia. Qed.

Lemma valid_bt l h : representable l h -> valid (bt l h).
Proof.
  intros H. unfold valid, bt. cbn [bmin bmax].
  destruct (representable_in128 _ _ H).
  rewrite mk_integer_nt by auto. rewrite (proj2 (reprb_spec l h) H).
  auto using nt_wf.
Qed.

Lemma valid_inv B : valid B -> representable (lo B) (hi B) /\ B = bt (lo B) (hi B).
Proof.
  destruct B as [a b]. unfold valid, lo, hi, bt. cbn [bmin bmax].
  intros (Wa & Wb & H). pose proof H as H'. unfold mk_integer in H.
  rewrite !normalize_spec in H by auto.
  destruct (cty_eqb_reflect (ty a) (ty (nt (vl a)))) as [Ea|]; [|discriminate].
  destruct (cty_eqb_reflect (ty b) (ty (nt (vl b)))) as [Eb|]; [|discriminate].
  assert (a = nt (vl a)) as Na by (destruct a as [ta za]; unfold nt in *; cbn [ty vl] in *; congruence).
  assert (b = nt (vl b)) as Nb by (destruct b as [tb zb]; unfold nt in *; cbn [ty vl] in *; congruence).
  split; [|now rewrite <- Na, <- Nb].
  rewrite Na, Nb in H'. rewrite mk_integer_nt in H' by now apply wf_in128.
  destruct (reprb (vl a) (vl b)) eqn:R; [|discriminate].
  now apply reprb_spec.
Qed.

Lemma lo_bt l h : lo (bt l h) = l. Proof. reflexivity. Qed.
Lemma hi_bt l h : hi (bt l h) = h. Proof. reflexivity. Qed.
Lemma bmin_bt l h : bmin (bt l h) = nt l. Proof. reflexivity. Qed.
Lemma bmax_bt l h : bmax (bt l h) = nt h. Proof. reflexivity. Qed.

Lemma nt_eq a b : nt a = nt b -> a = b.
Proof. intros H. now apply (f_equal vl) in H. Qed.

Lemma is_constant_bt l h : is_constant (bt l h) = (l =? h).
Proof.
  unfold is_constant, bt, lo, hi. cbn [bmin bmax vl nt ty].
  destruct (Z.eqb_spec l h); [|apply andb_false_r].
  subst. now destruct (cty_eqb_reflect (norm_ty h) (norm_ty h)).
Qed.

Lemma und_storage l h : representable l h ->
  storage l h = Some (und (bt l h)).
Proof.
  intros H. unfold und, bt. cbn [bmin bmax].
  destruct (representable_in128 _ _ H).
  rewrite determine_type_spec by auto using nt_wf. cbn [vl nt].
  destruct (proj2 (storage_representable l h (proj1 H)) H) as [t ->]. reflexivity.
Qed.

Lemma und_bounds l h : representable l h ->
  ty_min (und (bt l h)) <= l /\ l <= h /\ h <= ty_max (und (bt l h)).
Proof.
  intros H. pose proof (storage_some _ _ _ (und_storage l h H)) as S.
  rewrite !in_ty_spec in S. destruct H. lia.
Qed.

Lemma cle_signed a b :
  is_signed (ty a) = is_signed (ty b) -> wf_tv a -> wf_tv b -> cle a b = (vl a <=? vl b).
Proof. intros. unfold cle. destruct (usual_signed_l a b) as [-> ->]; auto. Qed.
Lemma clt_signed a b :
  is_signed (ty a) = is_signed (ty b) -> wf_tv a -> wf_tv b -> clt a b = (vl a <? vl b).
Proof. intros. unfold clt. destruct (usual_signed_l a b) as [-> ->]; auto. Qed.

(** Comparison of a value with a non-negative or same-signedness operand. *)
Lemma usual_nonneg a b : wf_tv a -> wf_tv b -> 0 <= vl a -> 0 <= vl b ->
  wrap (usual a b) (vl a) = vl a /\ wrap (usual a b) (vl b) = vl b.
Proof.
  destruct a as [t x], b as [s y]. unfold wf_tv, usual. cbn. intros H1 H2 P1 P2.
  split; apply wrap_id; destruct t, s; cbn in *; lia.
Qed.

Lemma cle_nonneg a b : wf_tv a -> wf_tv b -> 0 <= vl a -> 0 <= vl b ->
  cle a b = (vl a <=? vl b).
Proof. intros. unfold cle. destruct (usual_nonneg a b) as [-> ->]; auto. Qed.
Lemma clt_nonneg a b : wf_tv a -> wf_tv b -> 0 <= vl a -> 0 <= vl b ->
  clt a b = (vl a <? vl b).
Proof. intros. unfold clt. destruct (usual_nonneg a b) as [-> ->]; auto. Qed.

Lemma usual_signed a b : wf_tv a -> wf_tv b ->
  is_signed (usual a b) = true ->
  wrap (usual a b) (vl a) = vl a /\ wrap (usual a b) (vl b) = vl b.
Proof.
  destruct a as [t x], b as [s y]. unfold wf_tv, usual. cbn. intros H1 H2 P.
  split; apply wrap_id; destruct t, s; cbn in *; try discriminate; lia.
Qed.

(** The bounds and a stored value compare mathematically under the built-in
    operators: either the storage type is signed, and so is the common type, or
    everything is non-negative. *)
Lemma storage_cases l h : representable l h ->
  (is_signed (und (bt l h)) = true /\
   is_signed (norm_ty l) = true /\ is_signed (norm_ty h) = true) \/
  (0 <= l /\ is_signed (und (bt l h)) = false) .
Proof.
  intros H. destruct (und_bounds l h H) as (A & B & C).
  destruct (is_signed (und (bt l h))) eqn:S.
  - left. split; [reflexivity|].
    assert (forall z, ty_min I128 <= z <= ty_max I128 -> is_signed (norm_ty z) = true) as N.
    { intros z Hz. unfold norm_ty. rewrite (proj2 (in_ty_spec I128 z) Hz).
      now destruct (in_ty I32 z). }
    destruct (und (bt l h)); cbn in *; try discriminate; split; apply N; cbn; lia.
  - right. split; [|reflexivity]. destruct (und (bt l h)); cbn in *; try discriminate; lia.
Qed.

Lemma value_bt l h x : representable l h -> l <= x <= h ->
  value (bt l h) x = Ok (TV (und (bt l h)) x).
Proof.
  intros H Hx. unfold value. rewrite is_constant_bt.
  destruct (und_bounds l h H) as (A & B & C).
  destruct (representable_in128 _ _ H) as [I1 I2].
  destruct (Z.eqb_spec l h).
  - subst. assert (x = h) by lia. subst.
    rewrite cast_id; [reflexivity|]. cbn [bmin bt vl nt]. lia.
  - cbn zeta. rewrite bmin_bt, bmax_bt.
    set (u := und (bt l h)) in *.
    assert (Wl := nt_wf l I1). assert (Wh := nt_wf h I2).
    assert (Wx : wf_tv (TV u x)) by (unfold wf_tv; cbn [ty vl]; lia).
    assert (E1 : cle (nt l) (TV u x) = (l <=? x) /\ cle (TV u x) (nt h) = (x <=? h)).
    { destruct (storage_cases l h H) as [(S1 & S2 & S3) | (S1 & S2)]; fold u in S1; fold u in S2.
      - split; apply cle_signed; auto; cbn [ty nt]; congruence.
      - split; apply cle_nonneg; auto; cbn [vl nt]; lia. }
    destruct E1 as [-> ->].
    assert ((l <=? x) && (x <=? h) = true) as -> by lia. reflexivity.
Qed.

(** The converse: reading an object whose stored value is out of range is
    undefined behaviour. *)
Lemma value_bt_ub l h x : representable l h -> l <> h ->
  ty_min (und (bt l h)) <= x <= ty_max (und (bt l h)) -> ~ (l <= x <= h) ->
  value (bt l h) x = UB.
Proof.
  intros H N Hu Hx. unfold value. rewrite is_constant_bt.
  destruct (und_bounds l h H) as (A & B & C).
  destruct (representable_in128 _ _ H) as [I1 I2].
  destruct (Z.eqb_spec l h); [contradiction|].
  cbn zeta. rewrite bmin_bt, bmax_bt.
  set (u := und (bt l h)) in *.
  assert (Wl := nt_wf l I1). assert (Wh := nt_wf h I2).
  assert (Wx : wf_tv (TV u x)) by (unfold wf_tv; cbn [ty vl]; lia).
  assert (E1 : cle (nt l) (TV u x) = (l <=? x) /\ cle (TV u x) (nt h) = (x <=? h)).
  { destruct (storage_cases l h H) as [(S1 & S2 & S3) | (S1 & S2)]; fold u in S1; fold u in S2.
    - split; apply cle_signed; auto; cbn [ty nt]; congruence.
    - assert (0 <= x) by (destruct u; cbn in *; try discriminate; lia).
      split; apply cle_nonneg; auto; cbn [vl nt]; lia. }
  destruct E1 as [-> ->].
  assert ((l <=? x) && (x <=? h) = false) as -> by lia. reflexivity.
Qed.

(** ** Integral types *)

Lemma imin_spec T : ivalid T -> imin T = nt (ilo T).
Proof.
  destruct T; cbn [imin ilo]; intros H; [apply builtin_min_spec|].
  destruct (valid_inv _ H) as [_ E]. rewrite E. reflexivity.
Qed.
Lemma imax_spec T : ivalid T -> imax T = nt (ihi T).
Proof.
  destruct T; cbn [imax ihi]; intros H; [apply builtin_max_spec|].
  destruct (valid_inv _ H) as [_ E]. rewrite E. reflexivity.
Qed.

Lemma irepresentable T : ivalid T -> representable (ilo T) (ihi T).
Proof.
  destruct T; cbn [ilo ihi]; intros H.
  - split; [destruct t; cbn; lia|]. exists t. unfold holds. lia.
  - apply (proj1 (valid_inv _ H)).
Qed.

Lemma ilo_in128 T : ivalid T -> in128 (ilo T).
Proof. intros H. apply (representable_in128 _ _ (irepresentable T H)). Qed.
Lemma ihi_in128 T : ivalid T -> in128 (ihi T).
Proof. intros H. apply (representable_in128 _ _ (irepresentable T H)). Qed.

Lemma ivalue_spec T x : ivalid T -> iholds T x ->
  exists t, ivalue T x = Ok (TV t x) /\ wf_tv (TV t x) /\ t = (match T with Builtin t => t | Bounded B => und B end).
Proof.
  destruct T; cbn [ivalue ivalid]; unfold iholds; cbn [ilo ihi]; intros H Hx.
  - exists t. repeat split; auto; cbn; lia.
  - destruct (valid_inv _ H) as [R E]. rewrite E in Hx |- *.
    exists (und (bt (lo B) (hi B))). rewrite value_bt by auto.
    destruct (und_bounds _ _ R) as (A & Bb & C).
    repeat split; auto; cbn [ty vl]; rewrite ?lo_bt, ?hi_bt in Hx; lia.
Qed.

Lemma to_builtin_spec t T x : ivalid T -> iholds T x ->
  to_builtin t T x = Ok (TV t (wrap t x)).
Proof.
  intros H Hx. unfold to_builtin.
  destruct (ivalue_spec T x H Hx) as (u & -> & _). reflexivity.
Qed.

Lemma overlapping_spec T mn mx : ivalid T -> wf_tv mn -> wf_tv mx ->
  overlapping_integer T mn mx = (ilo T <=? vl mx) && (vl mn <=? ihi T).
Proof.
  intros. unfold overlapping_integer. rewrite imin_spec, imax_spec by auto.
  rewrite !safe_compare_spec by auto using nt_wf, ilo_in128, ihi_in128.
  now rewrite !ord_le_compare.
Qed.

Lemma bounded_by_spec T mn mx : ivalid T -> wf_tv mn -> wf_tv mx ->
  bounded_by_range T mn mx = (vl mn <=? ilo T) && (ihi T <=? vl mx).
Proof.
  intros H H1 H2. unfold bounded_by_range. rewrite overlapping_spec by auto.
  rewrite imin_spec, imax_spec by auto.
  rewrite !safe_compare_spec by auto using nt_wf, ilo_in128, ihi_in128.
  rewrite !ord_le_compare. rewrite !nt_vl.
  pose proof (irepresentable T H) as [L _]. lia.
Qed.

Lemma store_spec l h T x : representable l h -> ivalid T -> iholds T x -> l <= x <= h ->
  store (bt l h) T x = Ok x.
Proof.
  intros R H Hx Hb. unfold store. rewrite is_constant_bt.
  destruct (Z.eqb_spec l h).
  - rewrite lo_bt. f_equal. lia.
  - rewrite to_builtin_spec by auto. cbn [bind vl].
    destruct (und_bounds _ _ R) as (A & B & C). rewrite wrap_id by lia. reflexivity.
Qed.

Lemma unchecked_ity l h T x : representable l h -> ivalid T -> iholds T x -> l <= x <= h ->
  unchecked (bt l h) T x = Some (Ok x).
Proof.
  intros R H Hx Hb. unfold unchecked. destruct (representable_in128 _ _ R).
  rewrite overlapping_spec by (rewrite ?bmin_bt, ?bmax_bt; auto using nt_wf).
  rewrite bmin_bt, bmax_bt, !nt_vl. pose proof Hx as Hx'. unfold iholds in Hx'.
  assert ((ilo T <=? h) && (l <=? ihi T) = true) as -> by lia.
  cbn [guard obind]. now rewrite store_spec by auto.
Qed.

Lemma unchecked_builtin l h t x : representable l h -> l <= x <= h ->
  ty_min t <= x <= ty_max t ->
  unchecked (bt l h) (Builtin t) x = Some (Ok x).
Proof. intros R Hx Ht. apply unchecked_ity; auto; exact I. Qed.

(** Storing a value of the storage type that is in range. *)
Lemma unchecked_storage l h x : representable l h -> l <= x <= h ->
  unchecked (bt l h) (Builtin (und (bt l h))) x = Some (Ok x).
Proof.
  intros R Hx. apply unchecked_builtin; auto.
  destruct (und_bounds _ _ R) as (A & B & C). lia.
Qed.

(** ** Comparison *)
Lemma comparable_bl B T : comparable (Bounded B) T.
Proof. exact I. Qed.
Lemma comparable_br B T : comparable T (Bounded B).
Proof. destruct T; exact I. Qed.
Global Hint Resolve comparable_bl comparable_br : core.

Lemma same_bounded_spec A B : same_bounded A B = true -> exists C, A = Bounded C /\ B = Bounded C.
Proof.
  destruct A as [|[[ta a] [ta' a']]], B as [|[[tb b] [tb' b']]]; try discriminate.
  unfold same_bounded, tval_eqb. cbn [bmin bmax ty vl]. intros H.
  repeat (apply andb_true_iff in H; destruct H as [H ?]).
  repeat match goal with H : (_ && _)%bool = true |- _ => apply andb_true_iff in H; destruct H end.
  repeat match goal with
  | H : cty_eqb _ _ = true |- _ => apply cty_eqb_spec in H
  | H : (_ =? _) = true |- _ => apply Z.eqb_eq in H
  end. subst. eauto.
Qed.

Lemma compare_spec A B x y : ivalid A -> ivalid B -> iholds A x -> iholds B y ->
  compare A B x y = Ok (x ?= y).
Proof.
  intros HA HB Hx Hy. unfold compare.
  destruct (same_bounded A B) eqn:Es.
  { destruct (same_bounded_spec _ _ Es) as (C & -> & ->). clear Es.
    destruct (valid_inv _ HA) as [_ E]. rewrite E. rewrite is_constant_bt.
    destruct (Z.eqb_spec (lo C) (hi C)); [|reflexivity].
    unfold iholds, ilo, ihi in *. assert (x = y) by lia. subst. now rewrite Z.compare_refl. }
  rewrite !imin_spec, !imax_spec by auto.
  rewrite !safe_compare_spec by auto using nt_wf, ilo_in128, ihi_in128.
  rewrite ord_gt_compare, ord_lt_compare, !nt_vl.
  unfold iholds in *.
  destruct (ihi B <? ilo A) eqn:E1.
  { f_equal. symmetry. apply Z.compare_gt_iff. lia. }
  destruct (ihi A <? ilo B) eqn:E2.
  { f_equal. symmetry. apply Z.compare_lt_iff. lia. }
  destruct (ivalue_spec A x HA Hx) as (t & -> & W1 & _).
  destruct (ivalue_spec B y HB Hy) as (s & -> & W2 & _).
  cbn [bind]. now rewrite safe_compare_spec.
Qed.

Lemma comparable_usual a b x y : comparable (Builtin a) (Builtin b) ->
  iholds (Builtin a) x -> iholds (Builtin b) y ->
  wrap (usual (TV a x) (TV b y)) x = x /\ wrap (usual (TV a x) (TV b y)) y = y.
Proof.
  intros [H|H] Hx Hy.
  - apply (usual_signed_l (TV a x) (TV b y)); auto.
  - apply (usual_signed (TV a x) (TV b y)); auto.
Qed.

Lemma equal_spec A B x y : comparable A B -> ivalid A -> ivalid B -> iholds A x -> iholds B y ->
  equal A B x y = Ok (x =? y).
Proof.
  intros HC HA HB Hx Hy.
  assert ((exists a b, A = Builtin a /\ B = Builtin b) \/
    equal A B x y = if same_bounded A B
    then (match A with
          | Bounded C => if is_constant C then Ok true else Ok (x =? y)
          | Builtin _ => UB
          end)
    else if ord_gt (safe_compare (imin A) (imax B))
       || ord_lt (safe_compare (imax A) (imin B)) then Ok false
    else do a <- ivalue A x; do b <- ivalue B y; Ok (safe_equal a b)) as [(a & b & -> & ->)| ->].
  { destruct A, B; eauto. }
  { cbn [equal]. unfold ceq. cbn [vl]. destruct (comparable_usual _ _ _ _ HC Hx Hy) as [-> ->]. reflexivity. }
  destruct (same_bounded A B) eqn:Es.
  { destruct (same_bounded_spec _ _ Es) as (C & -> & ->). clear Es.
    destruct (valid_inv _ HA) as [_ E]. rewrite E. rewrite is_constant_bt.
    destruct (Z.eqb_spec (lo C) (hi C)); [|reflexivity].
    unfold iholds, ilo, ihi in *. assert (x = y) by lia. subst. now rewrite Z.eqb_refl. }
  rewrite !imin_spec, !imax_spec by auto.
  rewrite !safe_compare_spec by auto using nt_wf, ilo_in128, ihi_in128.
  rewrite ord_gt_compare, ord_lt_compare, !nt_vl.
  unfold iholds in *.
  destruct ((ihi B <? ilo A) || (ihi A <? ilo B)) eqn:E1.
  { f_equal. lia. }
  destruct (ivalue_spec A x HA Hx) as (t & -> & W1 & _).
  destruct (ivalue_spec B y HB Hy) as (s & -> & W2 & _).
  cbn [bind]. now rewrite safe_equal_spec.
Qed.

Lemma relational_spec c o f A B x y :
  (forall a b, c a b = f (wrap (usual a b) (vl a)) (wrap (usual a b) (vl b))) ->
  (forall a b, o (a ?= b) = f a b) ->
  comparable A B -> ivalid A -> ivalid B -> iholds A x -> iholds B y ->
  relational c o A B x y = Ok (f x y).
Proof.
  intros Hc Ho HC HA HB Hx Hy.
  assert ((exists a b, A = Builtin a /\ B = Builtin b) \/
    relational c o A B x y = do r <- compare A B x y; Ok (o r)) as [(a & b & -> & ->)| ->].
  { destruct A, B; eauto. }
  { cbn [relational]. rewrite Hc. cbn [vl]. destruct (comparable_usual _ _ _ _ HC Hx Hy) as [-> ->]. reflexivity. }
  rewrite compare_spec by auto. cbn [bind]. now rewrite Ho.
Qed.

Lemma usual_sym a b : usual a b = usual b a.
Proof. unfold usual. destruct (ty a), (ty b); reflexivity. Qed.

Lemma less_spec A B x y : comparable A B -> ivalid A -> ivalid B -> iholds A x -> iholds B y ->
  less A B x y = Ok (x <? y).
Proof. apply relational_spec; intros; [reflexivity | apply ord_lt_compare]. Qed.
Lemma less_equal_spec A B x y : comparable A B -> ivalid A -> ivalid B -> iholds A x -> iholds B y ->
  less_equal A B x y = Ok (x <=? y).
Proof. apply relational_spec; intros; [reflexivity | apply ord_le_compare]. Qed.
Lemma greater_spec A B x y : comparable A B -> ivalid A -> ivalid B -> iholds A x -> iholds B y ->
  greater A B x y = Ok (y <? x).
Proof.
  apply (relational_spec cgt ord_gt (fun a b => b <? a)); intros; [|apply ord_gt_compare].
  unfold cgt, clt. now rewrite usual_sym.
Qed.
Lemma greater_equal_spec A B x y : comparable A B -> ivalid A -> ivalid B -> iholds A x -> iholds B y ->
  greater_equal A B x y = Ok (y <=? x).
Proof.
  apply (relational_spec cge _ (fun a b => b <=? a)); intros.
  - unfold cge, cle. now rewrite usual_sym.
  - rewrite ord_lt_compare. now rewrite <- Z.leb_antisym.
Qed.

(** ** Result types of the range functions *)
Lemma common_type_spec A B : valid A -> valid B ->
  common_type A B =
  if reprb (Z.min (lo A) (lo B)) (Z.max (hi A) (hi B))
  then Some (bt (Z.min (lo A) (lo B)) (Z.max (hi A) (hi B))) else None.
Proof.
  intros (W1 & W2 & _) (W3 & W4 & _). unfold common_type.
  destruct (safe_min_spec _ _ W1 W3) as (E1 & F1 & _).
  destruct (safe_max_spec _ _ W2 W4) as (E2 & F2 & _).
  rewrite mk_integer_norm by auto. now rewrite E1, E2.
Qed.

Lemma assume_type_spec T Tmin Tmax : ivalid T -> ivalid Tmin -> ivalid Tmax ->
  assume_type T Tmin Tmax =
  if reprb (Z.max (ilo Tmin) (ilo T)) (Z.min (ihi Tmax) (ihi T))
  then Some (bt (Z.max (ilo Tmin) (ilo T)) (Z.min (ihi Tmax) (ihi T))) else None.
Proof.
  intros HT H1 H2. unfold assume_type. rewrite !imin_spec, !imax_spec by auto.
  destruct (safe_max_spec (nt (ilo Tmin)) (nt (ilo T))) as (E1 & F1 & _);
    auto using nt_wf, ilo_in128, ihi_in128.
  destruct (safe_min_spec (nt (ihi Tmax)) (nt (ihi T))) as (E2 & F2 & _);
    auto using nt_wf, ilo_in128, ihi_in128.
  rewrite mk_integer_norm by auto. now rewrite E1, E2.
Qed.
