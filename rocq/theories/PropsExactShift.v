(** * Property C22, exactly: when a shift or a bitwise and gives the right value

    The property is false of the code. These theorems say for which operands
    each operator that the compiler accepts gives the right value in its result
    type, and for which the behaviour is undefined. Vocabulary in Spec.v. *)

From Coq Require Import ZArith Lia Bool List.
From Verif Require Import Cxx CxxLemmas Core CoreLemmas Spec Arith ArithLemmas ArithProofs.
Import ListNotations.
Open Scope Z_scope.

(** The value modulo 2^128 as a signed 128-bit integer. *)
Definition signed128 (z : Z) : Z := (z - - 2 ^ 127) mod 2 ^ 128 + - 2 ^ 127.

(** The bits of the built-in type in which C++ computes with the values of
    integer<l, h>. *)
Definition width (l h : Z) : Z :=
  if ((- 2 ^ 31 <=? l) && (h <? 2 ^ 31)) || ((0 <=? l) && (h <? 2 ^ 32)) then 32
  else if ((- 2 ^ 63 <=? l) && (h <? 2 ^ 63)) || ((0 <=? l) && (h <? 2 ^ 64)) then 64
  else 128.

(** The width for the smallest type containing the three. *)
Definition width3 (A B C : bty) : Z :=
  width (Z.min (Z.min (lo A) (lo B)) (lo C)) (Z.max (Z.max (hi A) (hi B)) (hi C)).

(** The operator gave [z], and [z] is a value of its type. *)
Definition right_answer (R : bty) (o : outcome Z) (z : Z) : Prop := o = Ok z /\ holds_value R z.

Lemma width_und l h : representable l h -> ty_bits (promote (und (bt l h))) = width l h.
Proof.
  intros H. pose proof (und_storage l h H) as S. destruct H as [L _].
  unfold storage, in_ty in S. cbn [find determine_order] in S.
  remember (und (bt l h)) as t eqn:E. clear E. unfold width.
  repeat match type of S with
  | (if ?c then _ else _) = _ => destruct c eqn:?
  end; try discriminate; injection S as <-; cbn in *;
  repeat match goal with |- context [if ?c then _ else _] => destruct c eqn:? end; lia.
Qed.

(** What [construct_unchecked] gives when the compiler accepts it. *)
Lemma construct_cases l h t v R o : representable l h ->
  construct_unchecked (bt l h) t v = Some (R, o) ->
  R = bt l h /\ (o = UB <-> v = UB) /\
  (forall w, v = Ok w -> ty w = t -> wf_tv w -> l <= vl w <= h -> o = Ok (vl w)).
Proof.
  intros Rp C. pose proof C as C0. unfold construct_unchecked in C.
  destruct (overlapping_integer _ _ _); cbn [guard obind] in C; [|discriminate].
  injection C as <- <-. split; [reflexivity|]. split.
  - destruct v as [w| |]; cbn [bind]; [|tauto|split; discriminate]. split; [|discriminate].
    unfold store. destruct (is_constant _); [discriminate|].
    unfold to_builtin. cbn. discriminate.
  - intros w -> Ht W Hw. destruct w as [u z]. cbn [ty vl] in *. subst u.
    rewrite (construct_ok l h t z Rp Hw W) in C0. congruence.
Qed.

Lemma ct_shl z v : ct (cshl (TV I128 z) v) =
  if (0 <=? vl v) && (vl v <? 128) then Some (TV I128 (wrap I128 (z * 2 ^ vl v))) else None.
Proof. unfold cshl. cbn [ty vl promote ty_bits]. destruct (_ && _); reflexivity. Qed.
Lemma ct_shr z v : ct (cshr (TV I128 z) v) =
  if (0 <=? vl v) && (vl v <? 128) then Some (TV I128 (z / 2 ^ vl v)) else None.
Proof. unfold cshr. cbn [ty vl promote ty_bits]. destruct (_ && _); reflexivity. Qed.
Lemma cast_nt z : cast I128 (nt z) = TV I128 (wrap I128 z).
Proof. unfold cast. rewrite nt_vl. reflexivity. Qed.

Lemma quotient_fits z n : 0 <= n -> wf_tv (TV I128 (wrap I128 z / 2 ^ n)).
Proof.
  intros Hn. pose proof (wrap_range I128 z) as Hw. set (v := wrap I128 z) in *. clearbody v.
  pose proof (pow2_pos n Hn).
  pose proof (Z.mul_div_le v (2 ^ n) ltac:(lia)). pose proof (Z.mul_succ_div_gt v (2 ^ n) ltac:(lia)).
  assert (Z.min 0 v <= v / 2 ^ n <= Z.max 0 v).
  { split; [destruct (Z_le_dec 0 v); [apply Z.le_trans with 0; [lia | apply Z.div_pos; lia] | nia]
           |destruct (Z_le_dec 0 v); nia]. }
  apply wf_TV. cbn in *. lia.
Qed.

Lemma both_read t A B x y f : valid A -> valid B -> holds_value A x -> holds_value B y ->
  ty_min t <= x <= ty_max t -> ty_min t <= y <= ty_max t ->
  (do a <- to_builtin t (Bounded A) x; do b <- to_builtin t (Bounded B) y; f a b) =
  f (TV t x) (TV t y) :> outcome tval.
Proof.
  intros HA HB Hx Hy Tx Ty.
  rewrite (to_builtin_spec t (Bounded A) x HA Hx), (to_builtin_spec t (Bounded B) y HB Hy).
  cbn [bind]. rewrite !wrap_id by lia. reflexivity.
Qed.

Lemma shape_at t l h A B x y R o f : representable l h ->
  valid A -> valid B -> holds_value A x -> holds_value B y ->
  ty_min t <= Z.min (Z.min l (lo A)) (lo B) -> Z.max (Z.max h (hi A)) (hi B) <= ty_max t ->
  ty_bits (promote t) = width (Z.min (Z.min l (lo A)) (lo B)) (Z.max (Z.max h (hi A)) (hi B)) ->
  construct_unchecked (bt l h) (promote t)
    (do a <- to_builtin t (Bounded A) x; do b <- to_builtin t (Bounded B) y; f a b) = Some (R, o) ->
  lo R = l /\ hi R = h /\ exists t, ty_bits (promote t) = width3 R A B /\
    ty_min t <= l /\ h <= ty_max t /\ (o = UB <-> f (TV t x) (TV t y) = UB) /\
    (forall w, f (TV t x) (TV t y) = Ok w -> ty w = promote t -> wf_tv w -> l <= vl w <= h -> o = Ok (vl w)).
Proof.
  intros R1 HA HB Hx Hy U1 U3 W E.
  rewrite (both_read t A B x y f HA HB Hx Hy) in E by (unfold holds_value in *; lia).
  destruct (construct_cases _ _ _ _ _ _ R1 E) as (-> & Eu & Ev).
  unfold width3. rewrite lo_bt, hi_bt. split; [reflexivity|]. split; [reflexivity|]. exists t.
  split; [exact W|]. split; [lia|]. split; [lia|]. split; [exact Eu | exact Ev].
Qed.

Lemma obind_some {X Y} (x : X) (k : X -> option Y) r : obind (Some x) k = r -> k x = r.
Proof. exact (fun e => e). Qed.

Lemma shape A B x y l h R o (f : tval -> tval -> outcome tval) :
  valid A -> valid B -> holds_value A x -> holds_value B y -> wf_tv (TV I128 l) -> wf_tv (TV I128 h) ->
  (let? R := mk_integer (normalize (TV I128 l)) (normalize (TV I128 h)) in
   let? C := common_type_n R [A; B] in
   construct_unchecked R (promote (und C))
    (do a <- to_builtin (und C) (Bounded A) x;
     do b <- to_builtin (und C) (Bounded B) y; f a b)) = Some (R, o) ->
  lo R = l /\ hi R = h /\ exists t, ty_bits (promote t) = width3 R A B /\
    ty_min t <= l /\ h <= ty_max t /\ (o = UB <-> f (TV t x) (TV t y) = UB) /\
    (forall w, f (TV t x) (TV t y) = Ok w -> ty w = promote t -> wf_tv w -> l <= vl w <= h -> o = Ok (vl w)).
Proof.
  intros HA HB Hx Hy Wl Wh E.
  rewrite mk_integer_norm in E by auto. cbn [vl] in E.
  destruct (reprb l h) eqn:R1; [|discriminate]. apply reprb_spec in R1. apply obind_some in E.
  rewrite common_type_3 in E by auto.
  destruct (reprb (Z.min _ _) _) eqn:R2; [|discriminate]. apply reprb_spec in R2. apply obind_some in E.
  destruct (und_bounds _ _ R2) as (U1 & U2 & U3).
  exact (shape_at _ _ _ _ _ _ _ _ _ f R1 HA HB Hx Hy U1 U3 (width_und _ _ R2) E).
Qed.

Theorem C22_left_shift_exactly : forall A B x y R o,
  valid A -> valid B -> holds_value A x -> holds_value B y ->
  left_shift A B x y = Some (R, o) ->
  (0 <= lo B /\ hi B < 128 /\
   lo R = signed128 (signed128 (lo A) * 2 ^ lo B) /\
   hi R = signed128 (signed128 (hi A) * 2 ^ hi B)) /\
  (right_answer R o (x * 2 ^ y) <-> holds_value R (x * 2 ^ y) /\ y < width3 R A B) /\
  (o = UB <-> width3 R A B <= y).
Proof.
  intros A B x y R o HA HB Hx Hy E. unfold left_shift in E.
  destruct (valid_bounds _ HA) as (_ & _ & LA & EA1 & EA2).
  destruct (valid_bounds _ HB) as (_ & _ & LB & EB1 & EB2).
  rewrite EA1, EA2, EB1, EB2 in E.
  rewrite !cast_nt, !ct_shl, !nt_vl in E.
  destruct ((0 <=? lo B) && (lo B <? 128)) eqn:G1; [|discriminate].
  destruct ((0 <=? hi B) && (hi B <? 128)) eqn:G2; [|discriminate].
  apply obind_some in E. apply obind_some in E.
  apply shape in E; auto; try apply wf_TV, wrap_range.
  destruct E as (El & Eh & t & W & Tl & Th & Eu & Ev).
  split; [repeat split; [lia | lia | exact El | exact Eh]|].
  rewrite <- El in Tl. rewrite <- Eh in Th. rewrite <- El, <- Eh in Ev. clear El Eh.
  unfold cshl in Eu, Ev. cbn [ty vl] in Eu, Ev. rewrite W in Eu, Ev.
  unfold right_answer, holds_value in *.
  destruct (Z.leb_spec 0 y), (Z.ltb_spec y (width3 R A B)); cbn [andb] in Eu, Ev; try lia.
  - split.
    + split; [tauto|]. intros [Hz _]. split; [|lia].
      assert (ty_min (promote t) <= x * 2 ^ y <= ty_max (promote t)) as P by (apply promote_range; lia).
      rewrite wrap_id in Ev by auto. exact (Ev _ eq_refl eq_refl P Hz).
    + rewrite Eu. split; [discriminate | lia].
  - assert (o = UB) as -> by tauto. split.
    + split; [intros [? _]; discriminate | lia].
    + tauto.
Qed.
Print Assumptions C22_left_shift_exactly.

Theorem C22_right_shift_exactly : forall A B x y R o,
  valid A -> valid B -> holds_value A x -> holds_value B y ->
  right_shift A B x y = Some (R, o) ->
  (0 <= lo B /\ hi B < 128 /\
   lo R = signed128 (lo A) / 2 ^ hi B /\ hi R = signed128 (hi A) / 2 ^ lo B) /\
  (right_answer R o (x / 2 ^ y) <-> holds_value R (x / 2 ^ y) /\ y < width3 R A B) /\
  (o = UB <-> width3 R A B <= y).
Proof.
  intros A B x y R o HA HB Hx Hy E. unfold right_shift in E.
  destruct (valid_bounds _ HA) as (_ & _ & LA & EA1 & EA2).
  destruct (valid_bounds _ HB) as (_ & _ & LB & EB1 & EB2).
  rewrite EA1, EA2, EB1, EB2 in E.
  rewrite !cast_nt, !ct_shr, !nt_vl in E.
  destruct ((0 <=? hi B) && (hi B <? 128)) eqn:G2; [|discriminate].
  destruct ((0 <=? lo B) && (lo B <? 128)) eqn:G1; [|discriminate].
  apply obind_some in E. apply obind_some in E.
  apply shape in E; auto; try (apply quotient_fits; lia).
  destruct E as (El & Eh & t & W & Tl & Th & Eu & Ev).
  split; [repeat split; [lia | lia | exact El | exact Eh]|].
  rewrite <- El in Tl. rewrite <- Eh in Th. rewrite <- El, <- Eh in Ev. clear El Eh.
  unfold cshr in Eu, Ev. cbn [ty vl] in Eu, Ev. rewrite W in Eu, Ev.
  unfold right_answer, holds_value in *.
  destruct (Z.leb_spec 0 y), (Z.ltb_spec y (width3 R A B)); cbn [andb] in Eu, Ev; try lia.
  - split.
    + split; [tauto|]. intros [Hz _]. split; [|lia].
      assert (ty_min (promote t) <= x / 2 ^ y <= ty_max (promote t)) as P by (apply promote_range; lia).
      exact (Ev _ eq_refl eq_refl P Hz).
    + rewrite Eu. split; [discriminate | lia].
  - assert (o = UB) as -> by tauto. split.
    + split; [intros [? _]; discriminate | lia].
    + tauto.
Qed.
Print Assumptions C22_right_shift_exactly.

Theorem C22_and_exactly : forall A B x y,
  valid A -> valid B -> holds_value A x -> holds_value B y ->
  match bitwise_and A B x y with
  | None => Z.min (hi A) (hi B) < 0 \/ ~ representable (Z.min 0 (Z.min (lo A) (lo B))) (Z.max (hi A) (hi B))
  | Some (R, o) =>
      lo R = 0 /\ hi R = Z.min (hi A) (hi B) /\ o <> UB /\
      (right_answer R o (Z.land x y) <-> 0 <= Z.land x y <= Z.min (hi A) (hi B))
  end.
Proof.
  intros A B x y HA HB Hx Hy. unfold bitwise_and.
  destruct (valid_bounds _ HA) as (IA1 & IA2 & LA & EA1 & EA2).
  destruct (valid_bounds _ HB) as (IB1 & IB2 & LB & EB1 & EB2).
  rewrite EA2, EB2. rewrite safe_compare_spec by auto using nt_wf. rewrite ord_lt_compare, !nt_vl.
  assert ((if hi B <? hi A then nt (hi B) else nt (hi A)) = nt (Z.min (hi A) (hi B))) as ->.
  { destruct (Z.ltb_spec (hi B) (hi A)); f_equal; lia. }
  unfold in128 in *. change (lit 0) with (nt 0).
  rewrite mk_integer_norm by (apply nt_wf; unfold in128; cbn in *; lia). rewrite !nt_vl.
  destruct (reprb 0 (Z.min (hi A) (hi B))) eqn:R1; cbn [obind].
  2: { left. unfold reprb in R1. cbn in *. lia. }
  apply reprb_spec in R1. rewrite common_type_3 by auto.
  destruct (reprb (Z.min _ (lo B)) _) eqn:R2; cbn [obind].
  2: { right. intros Q. apply reprb_spec in Q. unfold reprb in *. lia. }
  apply reprb_spec in R2. destruct (und_bounds _ _ R2) as (U1 & U2 & U3). set (t := und (bt _ _)) in *.
  rewrite !to_builtin_spec by (auto; exact Hx || exact Hy). cbn [bind].
  unfold holds_value in Hx, Hy.
  rewrite !wrap_id by lia. unfold cand, usual. cbn [ty vl]. rewrite uac_self.
  rewrite !wrap_id by (apply promote_range; lia).
  destruct (construct_unchecked _ _ _) as [[R o]|] eqn:E.
  - destruct (construct_cases _ _ _ _ _ _ R1 E) as (-> & Eu & Ev).
    unfold right_answer, holds_value. rewrite lo_bt, hi_bt.
    split; [reflexivity|]. split; [reflexivity|]. split; [intros Q; apply Eu in Q; discriminate|].
    split; [tauto|]. intros Hz. split; [|lia].
    apply (Ev _ eq_refl eq_refl); [|exact Hz]. apply wf_TV, promote_range. lia.
  - exfalso. rewrite construct_type in E; [discriminate | auto |].
    destruct R1. exists 0. split; [lia|]. apply promote_range. lia.
Qed.
Print Assumptions C22_and_exactly.

(** Cases on both sides of each line: in types the compiler accepts, one value
    that comes out right and one that does not. *)
Example C22_exactly_cases :
  (exists R, left_shift (Bty (lit 0) (lit 0)) (Bty (lit 0) (lit 50)) 0 40 = Some (R, UB)) /\
  (exists R, left_shift (Bty (lit 0) (lit 0)) (Bty (lit 0) (lit 50)) 0 31 = Some (R, Ok 0)) /\
  (exists R, left_shift (Bty (lit (-3)) (lit 3)) (Bty (lit 0) (lit 4)) (-3) 0 = Some (R, Ok (-3)) /\
             lo R = -3) /\
  (exists R z, left_shift (Bty (lit (-3)) (lit 3)) (Bty (lit 0) (lit 4)) (-3) 4 = Some (R, Ok z) /\
             ~ holds_value R (-48)) /\
  (exists R, right_shift (Bty (lit 100) (lit 100)) (Bty (lit 0) (lit 50)) 100 31 = Some (R, Ok 0)) /\
  (exists R, right_shift (Bty (lit 100) (lit 100)) (Bty (lit 0) (lit 50)) 100 32 = Some (R, UB)) /\
  (exists R, bitwise_and (Bty (lit (-5)) (lit 3)) (Bty (lit 0) (lit 100)) (-1) 2 = Some (R, Ok 2)) /\
  (exists R, bitwise_and (Bty (lit (-5)) (lit 3)) (Bty (lit 0) (lit 100)) (-1) 50 = Some (R, Ok 50) /\ hi R = 3).
Proof.
  split; [eexists; vm_compute; reflexivity|]. split; [eexists; vm_compute; reflexivity|].
  split; [eexists; split; vm_compute; reflexivity|].
  split; [eexists _, _; split; [vm_compute; reflexivity | intros [H _]; vm_compute in H; apply H; reflexivity]|].
  split; [eexists; vm_compute; reflexivity|]. split; [eexists; vm_compute; reflexivity|].
  split; [eexists; vm_compute; reflexivity|]. eexists; split; vm_compute; reflexivity.
Qed.
