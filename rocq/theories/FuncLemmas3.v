(** * Expressions and update histories follow mathematics *)

From Coq Require Import ZArith Lia Bool List Permutation.
From Verif Require Import Cxx CxxLemmas Core Spec CoreLemmas Arith ArithLemmas ArithProofs
  Funcs SpecFuncs FuncLemmas FuncLemmas2.
Import ListNotations.
Open Scope Z_scope.

Ltac Zify.zify_post_hook ::= idtac.

Lemma mk_integer_valid a b T : wf_tv a -> wf_tv b -> mk_integer (normalize a) (normalize b) = Some T -> valid T.
Proof.
  intros Ha Hb H. rewrite mk_integer_norm in H by auto.
  destruct (reprb (vl a) (vl b)) eqn:R; [|discriminate].
  injection H as <-. apply valid_bt. now apply reprb_spec.
Qed.

Lemma divide_valid A B x y R o : valid A -> valid B -> divide A B x y = Some (R, o) -> valid R.
Proof.
  intros HA HB. unfold divide.
  destruct (guard (negb (ceq (bmin B) (lit 0)))) eqn:G1; cbn [obind]; [|discriminate].
  destruct (guard (negb (ceq (bmax B) (lit 0)))) eqn:G2; cbn [obind]; [|discriminate].
  destruct (valid_bounds _ HA) as (I1 & I2 & L1 & E1 & E2).
  destruct (valid_bounds _ HB) as (I3 & I4 & L2 & E3 & E4).
  rewrite E1, E2, E3, E4 in *.
  destruct (constant_value_spec _ I1) as (t1 & -> & W1). destruct (constant_value_spec _ I2) as (t2 & -> & W2).
  destruct (constant_value_spec _ I3) as (t3 & -> & W3). destruct (constant_value_spec _ I4) as (t4 & -> & W4).
  cbn [obind].
  assert (lo B <> 0).
  { intros E. rewrite E in G1. vm_compute in G1. discriminate. }
  assert (hi B <> 0).
  { intros E. rewrite E in G2. vm_compute in G2. discriminate. }
  destruct (divides_range_spec _ _ _ _ W1 W2 W3 W4 L1 L2 ltac:(assumption) ltac:(assumption)) as (mn & mx & -> & V1 & V2 & _).
  cbn [obind]. destruct (mk_integer _ _) as [T|] eqn:M; cbn [obind]; [|discriminate].
  destruct (determine_type _ _) as [ct|]; cbn [obind]; [|discriminate].
  intros Hc. apply construct_inv in Hc. destruct Hc as [-> _]. exact (mk_integer_valid _ _ _ V1 V2 M).
Qed.

Lemma obind_inv {A B} (o : option A) (f : A -> option B) r : obind o f = Some r -> exists x, o = Some x /\ f x = Some r.
Proof. destruct o; cbn; [eauto | discriminate]. Qed.

Lemma modulus_range_wf a b c d mn mx : modulus_operator_range a b c d = Some (mn, mx) -> wf_tv mn /\ wf_tv mx.
Proof.
  unfold modulus_operator_range. intros H.
  do 7 (apply obind_inv in H; destruct H as (? & _ & H)).
  apply obind_inv in H; destruct H as (? & _ & H).
  apply obind_inv in H; destruct H as (? & _ & H).
  apply obind_inv in H; destruct H as (m & Em & H).
  apply obind_inv in H; destruct H as (n & En & H).
  assert (m = mn /\ n = mx) as [<- <-] by (split; congruence). clear H. split.
  - match type of Em with (if ?b then _ else _) = _ => destruct b end.
    + apply obind_inv in Em; destruct Em as (? & _ & Em).
      match type of Em with Some ?c = _ => assert (m = c) as -> by congruence end. apply cast_wf.
    + match type of Em with Some ?c = _ => assert (m = c) as -> by congruence end. apply cast_wf.
  - match type of En with (if ?b then _ else _) = _ => destruct b end.
    + match type of En with Some ?c = _ => assert (n = c) as -> by congruence end. apply cast_wf.
    + apply obind_inv in En; destruct En as (? & _ & En).
      match type of En with Some ?c = _ => assert (n = c) as -> by congruence end. apply cast_wf.
Qed.

Lemma modulus_valid A B x y R o : modulus A B x y = Some (R, o) -> valid R.
Proof.
  unfold modulus. intros H. apply obind_inv in H. destruct H as ((mn & mx) & E & H).
  apply modulus_range_wf in E. destruct E as [V1 V2].
  apply obind_inv in H. destruct H as (T & M & H).
  apply obind_inv in H. destruct H as (C & _ & H).
  apply construct_inv in H. destruct H as [-> _]. exact (mk_integer_valid _ _ _ V1 V2 M).
Qed.

(** What an operator owes: a valid type, the exact value when defined, undefined
    behaviour otherwise. *)
Definition sound (f : option Z) (R : bty) (o : outcome Z) : Prop :=
  valid R /\ match f with Some z => o = Ok z /\ holds_value R z | None => o = UB end.

Lemma sound_exact2 A B x y (d : Z -> Z -> Prop) f R o : holds_value A x -> holds_value B y -> d x y ->
  exact2 A B x y d f R o -> sound (Some (f x y)) R o.
Proof. intros Hx Hy D E. destruct (exact2_ok _ _ _ _ _ _ _ _ Hx Hy D E) as (V & H & ->). split; auto. Qed.

Definition fits (T : bty) (x : Z) : Prop := valid T /\ holds_value T x.
Lemma plus_sound A B x y R o : fits A x -> fits B y ->
  plus A B x y = Some (R, o) -> sound (Some (x + y)) R o.
Proof.
  intros [VA HA] [VB HB] H. destruct (add_exact A B x y VA VB HA HB) as [E _].
  apply E in H. destruct H as [H _]. apply (sound_exact2 A B x y always Z.add); auto. exact I.
Qed.
Lemma minus_sound A B x y R o : fits A x -> fits B y ->
  minus A B x y = Some (R, o) -> sound (Some (x - y)) R o.
Proof.
  intros [VA HA] [VB HB] H. destruct (sub_exact A B x y VA VB HA HB) as [E _].
  apply E in H. destruct H as [H _]. apply (sound_exact2 A B x y always Z.sub); auto. exact I.
Qed.
Lemma multiply_sound A B x y R o : fits A x -> fits B y -> products_ok A B ->
  multiply A B x y = Some (R, o) -> sound (Some (x * y)) R o.
Proof.
  intros [VA HA] [VB HB] P H. destruct (mul_exact A B x y VA VB HA HB P) as [E _].
  apply E in H. apply (sound_exact2 A B x y always Z.mul); auto. exact I.
Qed.
Lemma divide_sound A B x y R o : fits A x -> fits B y ->
  divide A B x y = Some (R, o) -> sound (if y =? 0 then None else Some (Z.quot x y)) R o.
Proof.
  intros [VA HA] [VB HB] H. destruct (Z.eqb_spec y 0) as [->|N].
  - split; [exact (divide_valid _ _ _ _ _ _ VA VB H) | exact (divide_by_zero _ _ _ _ _ VA VB HA HB H)].
  - destruct (div_exact A B x y VA VB HA HB N) as [E _].
    apply E in H. apply (sound_exact2 A B x y nonzero_divisor Z.quot); auto.
Qed.
Lemma modulus_sound A B x y R o : fits A x -> fits B y -> y <> -1 ->
  modulus A B x y = Some (R, o) -> sound (if y =? 0 then None else Some (Z.rem x y)) R o.
Proof.
  intros [VA HA] [VB HB] M H. destruct (Z.eqb_spec y 0) as [->|N].
  - split; [exact (modulus_valid _ _ _ _ _ _ H) | exact (modulus_by_zero _ _ _ _ _ VA VB HA HB H)].
  - destruct (mod_exact A B x y VA VB HA HB N) as [E _]; [tauto|].
    apply E in H. apply (sound_exact2 A B x y nonzero_divisor Z.rem); auto.
Qed.
Lemma extreme2_sound c A B x y R o : fits A x -> fits B y ->
  extreme2 c A B x y = Some (R, o) -> sound (Some (pick c x y)) R o.
Proof.
  intros [VA HA] [VB HB] H. rewrite extreme2_spec in H by auto.
  apply (f_equal (fun o => match o with Some p => p | None => (A, UB) end)) in H.
  apply pair_equal_spec in H. destruct H as [<- <-].
  split; [now apply pick_bt_valid | split; auto using pick_holds].
Qed.
Lemma negate_sound A x R o : fits A x -> negate A x = Some (R, o) -> sound (Some (- x)) R o.
Proof.
  intros [VA HA] H. destruct (neg_exact A x VA HA) as [E _]. apply E in H. destruct H as [H _].
  destruct (exact1_ok _ _ _ _ _ HA H) as (V & Hh & ->). split; auto.
Qed.
Lemma abs_sound A x R o : fits A x -> abs A x = Some (R, o) -> sound (Some (Z.abs x)) R o.
Proof.
  intros [VA HA] H. rewrite abs_spec in H by auto.
  destruct ((0 <=? lo A) || reprb (- hi A) (- lo A)) eqn:G; [|discriminate].
  apply (f_equal (fun o => match o with Some p => p | None => (A, UB) end)) in H.
  apply pair_equal_spec in H. destruct H as [<- <-]. unfold holds_value in HA.
  assert (forall l h, representable l h -> l <= Z.abs x <= h -> sound (Some (Z.abs x)) (bt l h) (Ok (Z.abs x))) as K.
  { intros l h Rp Hz. split; [now apply valid_bt|]. unfold holds_value. rewrite lo_bt, hi_bt. auto. }
  pose proof (valid_repr _ VA) as RA.
  destruct (Z.leb_spec 0 (lo A)); cbn [orb] in G.
  - apply K; auto. lia.
  - destruct (Z.leb_spec (hi A) 0).
    + apply K; [now apply reprb_spec | lia].
    + apply K; [|lia]. apply reprb_spec. apply reprb_spec in RA. unfold reprb in *. cbn [ty_min ty_max] in *. lia.
Qed.

(** ** Sequencing *)
Lemma then_cases r f T o : then_ r f = Some (T, o) ->
  exists R o', r = Some (R, o') /\
    match o' with
    | Ok z => f R z = Some (T, o)
    | UB => o = UB /\ exists o2, f R (lo R) = Some (T, o2)
    | Throw => o = Throw /\ exists o2, f R (lo R) = Some (T, o2)
    end.
Proof.
  unfold then_. destruct r as [[R o']|]; cbn [obind]; [|discriminate].
  intros H. exists R, o'. split; auto.
  destruct o'; auto; destruct (f R (lo R)) as [[T' o2]|]; cbn [obind] in H; try discriminate;
    injection H as <- <-; eauto.
Qed.

Lemma fits_lo R : valid R -> fits R (lo R).
Proof. intros H. split; auto. pose proof (valid_le _ H). unfold holds_value. lia. Qed.

Lemma then_sound r f g T o m :
  (forall R o', r = Some (R, o') -> sound m R o') ->
  (forall R o1 w T' o', r = Some (R, o1) -> fits R w -> f R w = Some (T', o') ->
     valid T' /\ (m = Some w -> sound (g w) T' o')) ->
  then_ r f = Some (T, o) ->
  sound (match m with Some z => g z | None => None end) T o.
Proof.
  intros Hr Hf H. apply then_cases in H. destruct H as (R & o' & E & H).
  destruct (Hr _ _ E) as [V S]. destruct m as [z|].
  - destruct S as [-> Hz]. exact (proj2 (Hf _ _ _ _ _ E (conj V Hz) H) eq_refl).
  - subst o'. destruct H as [-> (o2 & H)]. split; [|reflexivity].
    exact (proj1 (Hf _ _ _ _ _ E (fits_lo R V) H)).
Qed.

Lemma binary_sound op ra rb g T o ma mb :
  (forall R o', ra = Some (R, o') -> sound ma R o') ->
  (forall R o', rb = Some (R, o') -> sound mb R o') ->
  (forall A B oa ob x y T' o', ra = Some (A, oa) -> rb = Some (B, ob) -> fits A x -> fits B y ->
     op A B x y = Some (T', o') -> valid T' /\ (mb = Some y -> sound (g x y) T' o')) ->
  binary op ra rb = Some (T, o) ->
  sound (match ma, mb with Some x, Some y => g x y | _, _ => None end) T o.
Proof.
  intros Ha Hb Hop H. unfold binary in H.
  assert (forall R z w T' o', ra = Some (R, z) -> fits R w ->
    then_ rb (fun B y => op R B w y) = Some (T', o') ->
    sound (match mb with Some y => g w y | None => None end) T' o') as K.
  { intros R z w T' o' E Fw H'.
    apply (then_sound rb (fun B y => op R B w y) (g w) T' o' mb Hb); [|exact H'].
    intros B ob y T2 o2 Eb Fy Ho. exact (Hop R B z ob w y T2 o2 E Eb Fw Fy Ho). }
  apply (then_sound ra (fun A x => then_ rb (fun B y => op A B x y)) (fun x => match mb with Some y => g x y | None => None end) T o ma Ha); [|exact H].
  intros R z w T' o' E Fw H'. specialize (K R z w T' o' E Fw H'). split; [exact (proj1 K) | auto].
Qed.

Lemma eval_sound G env e :
  (forall n, fits (G n) (env n)) -> constants_ok e -> avoids_defects G env e ->
  forall R o, eval G env e = Some (R, o) -> sound (math env e) R o.
Proof.
  intros HG. induction e; cbn [constants_ok avoids_defects eval math]; intros HC HD R o H.
  - injection H as <- <-. destruct (HG n). split; auto.
  - rewrite constant_t_spec in H by (unfold wf_tv; destruct (Z.leb_spec 0 z); cbn in *; lia).
    cbn [obind vl] in H. injection H as <- <-.
    split; [|split; auto using holds_cst]. apply valid_cst. unfold in128. cbn in *. lia.
  - apply (then_sound _ negate (fun x => Some (- x)) R o _ (IHe HC HD)) in H; [exact H|].
    intros T o1 w T' o' _ F Hn. apply negate_sound in Hn; auto. split; [exact (proj1 Hn) | auto].
  - apply (then_sound _ abs (fun x => Some (Z.abs x)) R o _ (IHe HC HD)) in H; [exact H|].
    intros T o1 w T' o' _ F Hn. apply abs_sound in Hn; auto. split; [exact (proj1 Hn) | auto].
  - destruct HC, HD.
    apply (binary_sound _ _ _ (fun x y => Some (x + y)) R o (math env e1) (math env e2)) in H; auto.
    intros A B oa ob x y T' o' _ _ FA FB Ho. apply plus_sound in Ho; auto. split; [exact (proj1 Ho) | auto].
  - destruct HC, HD.
    apply (binary_sound _ _ _ (fun x y => Some (x - y)) R o (math env e1) (math env e2)) in H; auto.
    intros A B oa ob x y T' o' _ _ FA FB Ho. apply minus_sound in Ho; auto. split; [exact (proj1 Ho) | auto].
  - destruct HC, HD as (HD1 & HD2 & HD3).
    apply (binary_sound _ _ _ (fun x y => Some (x * y)) R o (math env e1) (math env e2)) in H; auto.
    intros A B oa ob x y T' o' E1 E2 FA FB Ho. apply multiply_sound in Ho; eauto. split; [exact (proj1 Ho) | auto].
  - destruct HC, HD.
    apply (binary_sound _ _ _ (fun x y => if y =? 0 then None else Some (Z.quot x y)) R o (math env e1) (math env e2)) in H; auto.
    intros A B oa ob x y T' o' _ _ FA FB Ho. apply divide_sound in Ho; auto. split; [exact (proj1 Ho) | auto].
  - destruct HC, HD as (HD1 & HD2 & HD3).
    apply (binary_sound _ _ _ (fun x y => if y =? 0 then None else Some (Z.rem x y)) R o (math env e1) (math env e2)) in H; auto.
    intros A B oa ob x y T' o' _ _ FA FB Ho. split; [exact (modulus_valid _ _ _ _ _ _ Ho)|].
    intros Hy. apply (modulus_sound A B); auto. congruence.
  - destruct HC, HD.
    apply (binary_sound _ _ _ (fun x y => Some (Z.min x y)) R o (math env e1) (math env e2)) in H; auto.
    intros A B oa ob x y T' o' _ _ FA FB Ho. apply extreme2_sound in Ho; auto. split; [exact (proj1 Ho) | auto].
  - destruct HC, HD.
    apply (binary_sound _ _ _ (fun x y => Some (Z.max x y)) R o (math env e1) (math env e2)) in H; auto.
    intros A B oa ob x y T' o' _ _ FA FB Ho. apply extreme2_sound in Ho; auto. split; [exact (proj1 Ho) | auto].
Qed.

(** ** Updates *)
Definition restrict (A : bty) (m : option Z) : outcome Z :=
  match m with Some z => if (lo A <=? z) && (z <=? hi A) then Ok z else UB | None => UB end.

Lemma compound_sound op A B x y m R o : valid A ->
  (forall T o', op A B x y = Some (T, o') -> sound m T o') ->
  compound op A B x y = Some (R, o) -> R = A /\ o = restrict A m.
Proof.
  intros HA Hop H. unfold compound in H. apply then_cases in H. destruct H as (T & o' & E & H).
  destruct (Hop _ _ E) as [V S]. destruct m as [z|].
  - destruct S as [-> Hz]. rewrite assign_result_spec in H by auto.
    destruct ((lo T <=? hi A) && (lo A <=? hi T)); [|discriminate].
    apply (f_equal (fun o => match o with Some p => p | None => (A, UB) end)) in H.
    apply pair_equal_spec in H. destruct H as [<- <-]. auto.
  - subst o'. destruct H as [-> (o2 & H)]. rewrite assign_result_spec in H by (auto; apply fits_lo; auto).
    destruct ((lo T <=? hi A) && (lo A <=? hi T)); [|discriminate].
    apply (f_equal (fun o => match o with Some p => p | None => (A, UB) end)) in H.
    apply pair_equal_spec in H. destruct H as [<- _]. auto.
Qed.

Lemma in128_1 : in128 1. Proof. unfold in128. cbn. lia. Qed.

Lemma update_sound A u x R o : fits A x -> update_ok A u ->
  apply_update A u x = Some (R, o) -> R = A /\ o = restrict A (math_update u x).
Proof.
  intros [VA HA] HU H. pose proof (conj VA HA : fits A x) as F.
  assert (fits (cst 1) 1) as F1 by (split; [apply valid_cst, in128_1 | apply holds_cst]).
  destruct u; cbn [update_ok apply_update math_update] in *.
  - destruct HU as [VT HT]. rewrite assign_spec in H by auto.
    destruct ((ilo T <=? hi A) && (lo A <=? ihi T)); cbn [obind] in H; [|discriminate].
    apply (f_equal (fun o => match o with Some p => p | None => (A, UB) end)) in H.
    apply pair_equal_spec in H. destruct H as [<- <-]. auto.
  - eapply compound_sound; [exact VA | | exact H]. intros T o' Ho. apply (plus_sound _ _ _ _ _ _ F HU Ho).
  - eapply compound_sound; [exact VA | | exact H]. intros T o' Ho. apply (minus_sound _ _ _ _ _ _ F HU Ho).
  - destruct HU as (V & Hy & P). eapply compound_sound; [exact VA | | exact H].
    intros T o' Ho. apply (multiply_sound _ _ _ _ _ _ F (conj V Hy) P Ho).
  - eapply compound_sound; [exact VA | | exact H]. intros T o' Ho. apply (divide_sound _ _ _ _ _ _ F HU Ho).
  - destruct HU as (V & Hy & P). eapply compound_sound; [exact VA | | exact H].
    intros T o' Ho. apply (modulus_sound _ _ _ _ _ _ F (conj V Hy) P Ho).
  - unfold increment in H. rewrite constant_t_lit in H by (cbn; lia). cbn [obind] in H.
    eapply compound_sound; [exact VA | | exact H]. intros T o' Ho. apply (plus_sound _ _ _ _ _ _ F F1 Ho).
  - unfold decrement in H. rewrite constant_t_lit in H by (cbn; lia). cbn [obind] in H.
    eapply compound_sound; [exact VA | | exact H]. intros T o' Ho. apply (minus_sound _ _ _ _ _ _ F F1 Ho).
Qed.

Lemma run_type A us : forall x R o, run_updates A us x = Some (R, o) -> R = A.
Proof.
  induction us as [|u us IH]; intros x R o H; cbn [run_updates] in H.
  - injection H as <- _. reflexivity.
  - apply then_cases in H. destruct H as (R' & o' & E & H). destruct o'; [eauto | ..];
      destruct H as (_ & ? & H); eauto.
Qed.

Lemma run_sound A us : forall x R o, fits A x -> Forall (update_ok A) us ->
  run_updates A us x = Some (R, o) ->
  R = A /\ o = match math_run (lo A) (hi A) us x with Some z => Ok z | None => UB end.
Proof.
  induction us as [|u us IH]; intros x R o F HU H.
  - cbn in *. injection H as <- <-. auto.
  - split; [eapply run_type; exact H|].
    inversion HU as [|? ? Hu HU']; subst. cbn [run_updates math_run] in *.
    apply then_cases in H. destruct H as (R' & o' & E & H).
    destruct (update_sound _ _ _ _ _ F Hu E) as [-> Eo]. unfold restrict in Eo.
    destruct (math_update u x) as [z|].
    + destruct ((lo A <=? z) && (z <=? hi A)) eqn:In; subst o'.
      * apply IH in H; auto; [apply H|]. destruct F. split; auto. unfold holds_value. lia.
      * apply H.
    + subst o'. apply H.
Qed.
