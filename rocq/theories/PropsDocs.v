(** * Property C148: conversions to bounded integers as the documentation promises them

    bounded-readme.md, goals 2 to 4 and the section on safety. Vocabulary in Spec.v and SpecFuncs.v, as in PropsCore.v: [Some] is a call that
    compiles, [Ok] a call that ends normally. [convert] is the implicit conversion, [unchecked] the constructor with bounded::unchecked. *)

From Coq Require Import ZArith Lia Bool List.
From Verif Require Import Cxx Core Spec Arith Funcs SpecFuncs CoreLemmas ArithProofs FuncLemmas CoreProofs PropsArith PropsCore.
Open Scope Z_scope.

(** ** Goal 2: a conversion that is wrong for every value does not compile, however it is written. *)
Theorem C148_definitely_wrong : forall B T x, valid B -> ivalid T -> iholds T x -> (forall v, iholds T v -> ~ holds_value B v) ->
  convert B T x = None /\ unchecked B T x = None /\ assign B T x = None /\ check_in_range_to B T x = None /\ assume_in_range_to B T x = None.
Proof.
  intros B T x HB HT Hx Hno.
  assert (HN : ~ exists v, iholds T v /\ holds_value B v) by (intros (v & H1 & H2); exact (Hno v H1 H2)).
  pose proof (valid_le _ HB) as LB. pose proof (ivalid_le _ HT) as LT.
  assert (HO : (ilo T <=? hi B) && (lo B <=? ihi T) = false).
  { destruct ((ilo T <=? hi B) && (lo B <=? ihi T)) eqn:E; [|reflexivity]. exfalso. apply HN.
    exists (Z.max (ilo T) (lo B)). unfold iholds, holds_value. lia. }
  repeat split.
  - destruct (convert B T x) as [o|] eqn:E; [|reflexivity]. exfalso. destruct (C08_implicit_conversion B T x HB HT Hx) as [HI _].
    apply (Hno x Hx). apply HI; eauto.
  - unfold unchecked. rewrite overlap_valid by auto. now rewrite HO.
  - destruct (assign B T x) as [o|] eqn:E; [|reflexivity]. exfalso. apply HN. apply (proj1 (C11_assign B T x HB HT Hx)). eauto.
  - rewrite check_to_spec by auto. now rewrite HO.
  - rewrite assume_to_spec by auto. now rewrite HO.
Qed.
Print Assumptions C148_definitely_wrong.

(** ** Goal 3: a conversion that is wrong for some values compiles only when it is asked for by name; for the values that are right it gives the value, and for
    the others an exception or, where the documentation says so, undefined behaviour. *)
Theorem C148_maybe_wrong : forall B T x good bad, valid B -> ivalid T -> iholds T x ->
  iholds T good -> holds_value B good -> iholds T bad -> ~ holds_value B bad ->
  convert B T x = None /\
  (exists o, unchecked B T x = Some o /\ (holds_value B x -> o = Ok x)) /\
  (exists o, assign B T x = Some o /\ (holds_value B x -> o = Ok x) /\ (~ holds_value B x -> o = UB)) /\
  (exists R o, check_in_range_to B T x = Some (R, o) /\ (holds_value B x -> o = Ok x) /\ (~ holds_value B x -> o = Throw)) /\
  (exists R o, assume_in_range_to B T x = Some (R, o) /\ (holds_value B x -> o = Ok x) /\ (~ holds_value B x -> o = UB)).
Proof.
  intros B T x g b HB HT Hx Hg1 Hg2 Hb1 Hb2.
  assert (HO : (ilo T <=? hi B) && (lo B <=? ihi T) = true) by (unfold iholds, holds_value in *; lia).
  repeat split.
  - destruct (convert B T x) as [o|] eqn:E; [|reflexivity]. exfalso. destruct (C08_implicit_conversion B T x HB HT Hx) as [HI _].
    apply Hb2. apply HI; eauto.
  - unfold unchecked. rewrite overlap_valid by auto. rewrite HO. cbn [guard obind]. exists (store B T x). split; [reflexivity|].
    intros Hh. destruct (C08_unchecked_conversion B T x HB HT Hx Hh) as (s & E & V).
    unfold unchecked in E. rewrite overlap_valid in E by auto. rewrite HO in E. cbn [guard obind] in E. injection E as E. rewrite E.
    unfold value in V. destruct (is_constant B) eqn:C.
    + unfold store in E. rewrite C in E. injection E as <-. unfold is_constant in C. f_equal. unfold holds_value in Hh. cbn in V. injection V as V. lia.
    + destruct (_ && _) in V; [|discriminate]. now injection V as ->.
  - destruct (C11_assign B T x HB HT Hx) as [[_ HI] HR]. destruct HI as [o E]; [eauto|]. exists o. split; auto.
  - destruct (C09_check_to B T x HB HT Hx) as [[_ HI] HR]. destruct HI as (R & o & E); [eauto|]. exists R, o. split; auto. now apply HR in E.
  - rewrite assume_to_spec by auto. rewrite HO. eexists _, _. split; [reflexivity|].
    unfold holds_value. split; intros H; destruct (Z.leb_spec (lo B) x), (Z.leb_spec x (hi B)); cbn; auto; lia.
Qed.
Print Assumptions C148_maybe_wrong.

(** ** Goal 4 and "Constructing a bounded::integer will never invoke undefined behavior": a type that has all the values takes them implicitly. *)
Theorem C148_larger_type : forall B T x, valid B -> ivalid T -> iholds T x -> (forall v, iholds T v -> holds_value B v) ->
  exists s, convert B T x = Some (Ok s) /\ value B s = Ok (TV (und B) x).
Proof.
  intros B T x HB HT Hx Hall. destruct (C08_implicit_conversion B T x HB HT Hx) as [HI HV].
  destruct (proj2 HI Hall) as [o E]. destruct (HV _ E) as (s & -> & V). eauto.
Qed.
Print Assumptions C148_larger_type.

(** Of the three cases exactly one holds, so that they say for all types which conversions compile. *)
Theorem C148_cases : forall B T, valid B -> ivalid T ->
  (forall v, iholds T v -> ~ holds_value B v) \/ (forall v, iholds T v -> holds_value B v) \/
  exists good bad, iholds T good /\ holds_value B good /\ iholds T bad /\ ~ holds_value B bad.
Proof.
  intros B T HB HT. pose proof (valid_le _ HB) as LB. pose proof (ivalid_le _ HT) as LT. unfold iholds, holds_value.
  destruct (Z.le_gt_cases (ilo T) (hi B)), (Z.le_gt_cases (lo B) (ihi T)); [|left; intros; lia..].
  destruct (Z.le_gt_cases (lo B) (ilo T)), (Z.le_gt_cases (ihi T) (hi B)).
  - right; left. intros. lia.
  - right; right. exists (ilo T), (ihi T). lia.
  - right; right. exists (ihi T), (ilo T). lia.
  - right; right. exists (lo B), (ilo T). lia.
Qed.
Print Assumptions C148_cases.

(** ** The type of check_in_range<Target>(value)

    The documentation: "bounded::check_in_range<bounded::integer<0, 10>>(bounded::integer<-5, 5>(0_bi)) will evaluate to bounded::integer<0, 5>(0_bi)". That is what
    assume_in_range<Target> gives; check_in_range<Target> converts its result to Target. *)
Theorem C148_check_in_range_type_refuted :
  check_in_range_to (Bty (lit 0) (lit 10)) (Bounded (Bty (lit (-5)) (lit 5))) 0 = Some (Bty (lit 0) (lit 10), Ok 0) /\
  assume_in_range_to (Bty (lit 0) (lit 10)) (Bounded (Bty (lit (-5)) (lit 5))) 0 = Some (Bty (lit 0) (lit 5), Ok 0) /\
  Bty (lit 0) (lit 10) <> Bty (lit 0) (lit 5).
Proof. split; [vm_compute; reflexivity|]. split; [vm_compute; reflexivity|]. discriminate. Qed.
Print Assumptions C148_check_in_range_type_refuted.

(** Three types, one for each case. *)
Example C148_example :
  let B := Bty (lit 0) (lit 10) in
  let none := Bounded (Bty (lit 11) (lit 20)) in let some := Builtin I8 in let all := Bounded (Bty (lit 3) (lit 7)) in
  valid B /\ ivalid none /\ ivalid some /\ ivalid all /\
  (forall v, iholds none v -> ~ holds_value B v) /\ (iholds some 10 /\ holds_value B 10 /\ iholds some (-1) /\ ~ holds_value B (-1)) /\
  (forall v, iholds all v -> holds_value B v) /\
  unchecked B none 11 = None /\ check_in_range_to B some (-1) = Some (B, Throw) /\ convert B all 7 = Some (Ok 7).
Proof.
  cbv zeta. repeat match goal with |- _ /\ _ => split end; try (vm_compute; reflexivity); try (vm_compute; intuition congruence).
  all: unfold iholds, holds_value; cbn; intros; try lia.
Qed.
