(** * Proofs about what min, max and extreme refer to *)

From Coq Require Import List ZArith Bool Lia.
From Verif Require Import Cxx CxxLemmas Core CoreLemmas Spec Arith ArithLemmas ArithProofs Funcs FuncLemmas FuncLemmas2 SpecFuncs CoreProofs References SpecReferences.
Import ListNotations.

Section Category.
Context {B : Type} (eqb : B -> B -> bool) (eqb_ok : forall x y, eqb x y = true <-> x = y).

Lemma forallb_in {A} (f : A -> bool) l x : forallb f l = true -> In x l -> f x = true.
Proof. intros H. now apply forallb_forall. Qed.
Lemma existsb_in {A} (f : A -> bool) l x : In x l -> f x = true -> existsb f l = true.
Proof. intros H1 H2. apply existsb_exists. eauto. Qed.

Lemma add_binds target ts t : In t ts -> ref (add_common_cv_reference eqb target ts) <> NoReference -> binds t (add_common_cv_reference eqb target ts).
Proof.
  intros Hin. unfold add_common_cv_reference. set (b1 := forallb _ ts && forallb is_rvalue_reference ts). set (b2 := _ && forallb is_lvalue_reference ts).
  destruct b1 eqn:E1; [|destruct b2 eqn:E2]; cbn [ref]; intros H.
  - apply andb_true_iff in E1 as (E1 & E3). eapply forallb_in in E1; eauto. eapply forallb_in in E3; eauto. apply eqb_ok in E1.
    unfold is_rvalue_reference in E3. destruct (ref t) eqn:R; try discriminate. unfold binds. cbn [base ref is_const is_volatile]. rewrite R.
    repeat split; auto; try discriminate; intros F; eapply existsb_in; eauto.
  - apply andb_true_iff in E2 as (E2 & E3). eapply forallb_in in E2; eauto. eapply forallb_in in E3; eauto. apply eqb_ok in E2.
    unfold is_lvalue_reference in E3. destruct (ref t) eqn:R; try discriminate. unfold binds. cbn [base ref is_const is_volatile]. rewrite R.
    repeat split; auto; try discriminate; intros F; eapply existsb_in; eauto.
  - now elim H.
Qed.
Lemma add_plain target ts : ref (add_common_cv_reference eqb target ts) = NoReference -> add_common_cv_reference eqb target ts = CType target false false NoReference.
Proof. unfold add_common_cv_reference. destruct (_ && _); [discriminate|]. destruct (_ && _); [discriminate|reflexivity]. Qed.
Lemma add_base target ts : base (add_common_cv_reference eqb target ts) = target.
Proof. unfold add_common_cv_reference. destruct (_ && _); [reflexivity|]. destruct (_ && _); reflexivity. Qed.
Lemma add_lvalues target ts : ts <> [] -> (forall t, In t ts -> base t = target /\ ref t = LvalueReference) ->
  add_common_cv_reference eqb target ts = CType target (existsb is_const ts) (existsb is_volatile ts) LvalueReference.
Proof.
  intros Hn H. unfold add_common_cv_reference.
  assert (forallb (fun t => eqb target (base t)) ts = true) as ->. { apply forallb_forall. intros t Ht. apply eqb_ok. symmetry. now apply H. }
  assert (forallb is_lvalue_reference ts = true) as ->. { apply forallb_forall. intros t Ht. unfold is_lvalue_reference. now rewrite (proj2 (H t Ht)). }
  destruct ts as [|t ts]; [easy|]. cbn [forallb]. unfold is_rvalue_reference at 1. rewrite (proj2 (H t (or_introl eq_refl))). reflexivity.
Qed.
Lemma add_rvalues target ts : (forall t, In t ts -> base t = target /\ ref t = RvalueReference) ->
  add_common_cv_reference eqb target ts = CType target (existsb is_const ts) (existsb is_volatile ts) RvalueReference.
Proof.
  intros H. unfold add_common_cv_reference.
  assert (forallb (fun t => eqb target (base t)) ts = true) as ->. { apply forallb_forall. intros t Ht. apply eqb_ok. symmetry. now apply H. }
  assert (forallb is_rvalue_reference ts = true) as ->. { apply forallb_forall. intros t Ht. unfold is_rvalue_reference. now rewrite (proj2 (H t Ht)). }
  reflexivity.
Qed.
End Category.

Section Any.
Context {B V : Type} (eqb : B -> B -> bool) (eqb_ok : forall x y, eqb x y = true <-> x = y).
Context (common : list B -> B) (convert : B -> B -> V -> V) (compare : operand B V -> operand B V -> bool).
Local Notation two := (fun l r => Some (Ok (extreme_any eqb common convert compare l r))).

(** What the function has at hand so far: an rvalue, or a reference to an lvalue argument. *)
Definition at_hand (args : list (operand B V)) (o : operand B V) : Prop :=
  o_lvalue o = true -> exists i a, o_object o = Argument i /\ nth_error args i = Some a /\ o_lvalue a = true /\ o_type o = o_type a /\ o_value o = o_value a /\
    (o_const a = true -> o_const o = true).

Lemma any_two args l r : at_hand args l -> at_hand args r -> can_be_kept args (extreme_any eqb common convert compare l r).
Proof.
  intros Hl Hr. unfold extreme_any, common_type_and_value_category. set (ts := [deduced_type l; deduced_type r]). set (target := common _).
  pose proof (add_binds eqb eqb_ok target ts (deduced_type l)) as Bl. pose proof (add_binds eqb eqb_ok target ts (deduced_type r)) as Br.
  set (t := add_common_cv_reference eqb target ts) in *. destruct (ref t) eqn:R; cbn [can_be_kept a_object a_type a_value a_const]; auto.
  - destruct Bl as (Bl1 & Bl2 & Bl3 & Bl4 & _); [now left|discriminate|]. destruct Br as (Br1 & Br2 & Br3 & Br4 & _); [right; now left|discriminate|].
    cbn in *. destruct (o_lvalue l) eqn:Ll; [|now elim Bl3]. destruct (o_lvalue r) eqn:Lr; [|now elim Br3].
    destruct (Hl Ll) as (i & a & L1 & L2 & L3 & L4 & L5 & L6). destruct (Hr Lr) as (j & b & R1 & R2 & R3 & R4 & R5 & R6).
    unfold can_be_kept. cbn. destruct (compare r l); rewrite ?L1, ?R1; [exists b|exists a]; repeat split; auto; congruence.
  - destruct Bl as (Bl1 & Bl2 & Bl3 & Bl4 & _); [now left|discriminate|]. cbn in *. rewrite R in Bl2. destruct (o_lvalue l); discriminate.
Qed.
Lemma kept_at_hand args k a : can_be_kept args a -> at_hand args (pass k a).
Proof.
  unfold can_be_kept, at_hand, pass. destruct (a_object a) as [[i|j]|]; cbn; auto; [|easy|discriminate].
  intros (o & H1 & H2 & H3 & H4 & H5) _. exists i, o. auto 10.
Qed.
Lemma any_kept args k t ts : at_hand args t -> (forall o, In o ts -> at_hand args o) -> ts <> [] ->
  exists a, extreme_function two k t ts = Some (Ok a) /\ can_be_kept args a.
Proof.
  revert k t. induction ts as [|t2 ts IH]; intros k t Ht Hts Hn; [easy|]. cbn [extreme_function].
  pose proof (any_two args t t2 Ht (Hts t2 (or_introl eq_refl))) as H2. destruct ts as [|t3 ts]; [eauto|].
  apply IH; [now apply kept_at_hand|intros o Ho; apply Hts; now right|discriminate].
Qed.
End Any.

Lemma numbered_at_hand {B V} (args : list (operand B V)) o : numbered args -> In o args -> at_hand args o.
Proof. intros Hn Hi Hl. apply In_nth_error in Hi as (i & Hi). exists i, o. rewrite (Hn i o Hi). repeat split; auto. Qed.

(** ** All arguments lvalues of one type *)
Section Same.
Context {B V : Type} (cmp : V -> V -> bool).
Definition by_value (x y : operand B V) : bool := cmp (o_value x) (o_value y).

(** Like the operand at hand, except that it may be more const. *)
Definition names (o m : operand B V) : Prop := o_type o = o_type m /\ o_lvalue o = o_lvalue m /\ o_object o = o_object m /\ o_value o = o_value m.

Lemma same_fold (okv : V -> Prop) two ty lv : (forall l r, okv (o_value l) -> okv (o_value r) -> o_type l = ty -> o_type r = ty -> o_lvalue l = lv -> o_lvalue r = lv ->
    two l r = Some (Ok (let m := if cmp (o_value r) (o_value l) then r else l in Answer ty (o_const l || o_const r) lv (Some (o_object m)) (o_value m)))) ->
  forall ts k t m, names t m -> okv (o_value m) -> o_type m = ty -> o_lvalue m = lv -> (forall o, In o ts -> okv (o_value o) /\ o_type o = ty /\ o_lvalue o = lv) ->
  extreme_function two k t ts = Some (Ok (let e := extreme_generic by_value m ts in
     Answer ty (o_const t || existsb o_const ts) lv (Some (o_object e)) (o_value e))).
Proof.
  intros H2. induction ts as [|t2 ts IH]; intros k t m (N1 & N2 & N3 & N4) Hv Hm Hl Hts; cbn [extreme_function].
  - cbn. rewrite orb_false_r. unfold itself. rewrite N1, N2, N3, N4, Hm, Hl. reflexivity.
  - destruct (Hts t2 (or_introl eq_refl)) as (V2 & T2 & L2). assert (Vt : okv (o_value t)) by (now rewrite N4). pose proof (H2 t t2 Vt V2 (eq_trans N1 Hm) T2 (eq_trans N2 Hl) L2) as E. cbv zeta in E.
    set (m' := if by_value t2 m then t2 else m). assert (Em : extreme_generic by_value m (t2 :: ts) = extreme_generic by_value m' ts) by reflexivity.
    set (chosen := if cmp (o_value t2) (o_value t) then t2 else t) in *.
    assert (Hc : names chosen m'). { subst chosen m'. unfold by_value. rewrite N4. destruct (cmp (o_value t2) (o_value m)); repeat split; auto. }
    assert (Hm' : okv (o_value m') /\ o_type m' = ty /\ o_lvalue m' = lv) by (subst m'; destruct (by_value t2 m); auto). destruct Hc as (C1 & C2 & C3 & C4), Hm' as (M0 & M1 & M2).
    destruct ts as [|t3 ts].
    + rewrite E. cbv zeta. rewrite Em. cbn [extreme_generic fold_left existsb]. rewrite orb_false_r, C3, C4. reflexivity.
    + rewrite E. rewrite (IH (S k) _ m'); auto.
      * cbv zeta. rewrite Em. unfold pass. cbn. rewrite <- orb_assoc. reflexivity.
      * unfold pass, names. cbn. repeat split; congruence.
      * intros o Ho. apply Hts. now right.
Qed.
End Same.

Lemma any_two_same {B V} (eqb : B -> B -> bool) (eqb_ok : forall x y, eqb x y = true <-> x = y) common convert (cmp : V -> V -> bool) (l r : operand B V) ty :
  (common [ty; ty] = ty) -> o_type l = ty -> o_type r = ty -> o_lvalue l = true -> o_lvalue r = true ->
  extreme_any eqb common convert (by_value cmp) l r =
  (let m := if cmp (o_value r) (o_value l) then r else l in Answer ty (o_const l || o_const r) true (Some (o_object m)) (o_value m)).
Proof.
  intros Hc Tl Tr Ll Lr. unfold extreme_any, common_type_and_value_category. cbn [map deduced_type base]. rewrite Tl, Tr, Hc.
  rewrite (add_lvalues eqb eqb_ok); [|discriminate|].
  - cbn. rewrite orb_false_r. reflexivity.
  - intros t [<-|[<-|[]]]; cbn; rewrite ?Ll, ?Lr; auto.
Qed.

(** ** Bounded integers *)
Section Bounded.
Context (c : order).
Local Open Scope Z_scope.

Definition operand_ok (o : operand bty Z) : Prop := valid (o_type o) /\ holds_value (o_type o) (o_value o).
Definition c_before (x y : Z) : bool := match c with ByLess => x <? y | ByGreater => y <? x end.

Lemma bounded_value l r : operand_ok l -> operand_ok r ->
  exists a, extreme_bounded c l r = Some (Ok a) /\ extreme2 c (o_type l) (o_type r) (o_value l) (o_value r) = Some (a_type a, Ok (a_value a)).
Proof.
  intros (Vl & Hl) (Vr & Hr). pose proof (extreme2_spec c _ _ _ _ Vl Vr Hl Hr) as S. revert S. unfold extreme_bounded, extreme2.
  destruct (select c (bmin (o_type l)) _) as [mn|]; [|discriminate]. destruct (select c (bmax (o_type l)) _) as [mx|]; [|discriminate]. cbn [obind].
  destruct (mk_integer mn mx) as [T|]; [|discriminate]. cbn [obind].
  destruct (bty_eqb T (o_type l) && bty_eqb (o_type l) (o_type r)) eqn:E.
  - apply andb_true_iff in E as (_ & E). unfold bty_eqb in E. rewrite same_bounded_valid in E by auto.
    assert (o_type r = o_type l) as Et. { apply bt_ext; auto; lia. }
    destruct (before c _ _ _ _) as [b| |]; cbn [bind]; intros S; [|discriminate S|discriminate S]. eexists. split; [reflexivity|]. clear S.
    unfold conditional. destruct (o_lvalue r), (o_lvalue l), b; cbn; rewrite ?Et; try reflexivity; destruct (o_const r), (o_const l); cbn; rewrite ?Et; reflexivity.
  - destruct (negb (overlapping_integer (Bounded (o_type r)) _ _)). { intros _. eexists. split; reflexivity. }
    destruct (negb (overlapping_integer (Bounded (o_type l)) _ _)). { intros _. eexists. split; reflexivity. }
    destruct (unchecked T (Bounded (o_type r)) _) as [u|]; [|discriminate]. destruct (unchecked T (Bounded (o_type l)) _) as [v|]; [|discriminate]. cbn [obind].
    destruct (before c _ _ _ _) as [b| |]; cbn [bind]; intros S; [|discriminate S|discriminate S].
    destruct (if b then u else v) as [z| |]; cbn [bind]; [|discriminate S|discriminate S]. eexists. split; reflexivity.
Qed.
Lemma bounded_ok l r a : operand_ok l -> operand_ok r -> extreme2 c (o_type l) (o_type r) (o_value l) (o_value r) = Some (a_type a, Ok (a_value a)) ->
  forall k, operand_ok (pass k a).
Proof.
  intros (Vl & Hl) (Vr & Hr) H k. rewrite (extreme2_spec c _ _ _ _ Vl Vr Hl Hr) in H. injection H as H1 H2.
  assert (operand_ok (Operand (a_type a) true true (Temporary 0) (a_value a))) as (F & G).
  { split; cbn; rewrite <- H1; [now apply pick_bt_valid|]. rewrite <- H2. now apply pick_holds. }
  unfold pass. destruct (a_object a); split; auto.
Qed.
Lemma bounded_values t ts k : operand_ok t -> Forall operand_ok ts ->
  exists a, extreme_function (extreme_bounded c) k t ts = Some (Ok a) /\
    extreme_n c (Some (o_type t, Ok (o_value t))) (map (fun o => (o_type o, o_value o)) ts) = Some (a_type a, Ok (a_value a)).
Proof.
  intros Ht Hts. revert k t Ht. induction Hts as [|t2 ts H2 Hts IH]; intros k t Ht; cbn [extreme_function map extreme_n].
  - eexists. split; reflexivity.
  - destruct (bounded_value t t2 Ht H2) as (a & E1 & E2). rewrite then_ok, E2. destruct ts as [|t3 ts].
    + exists a. auto.
    + rewrite E1. destruct (IH (S k) (pass k a) (bounded_ok _ _ _ Ht H2 E2 k)) as (a' & E3 & E4). exists a'. split; [exact E3|].
      rewrite <- E4. unfold pass. destruct (a_object a); reflexivity.
Qed.

Lemma bounded_two_same l r ty lv : operand_ok l -> operand_ok r -> o_type l = ty -> o_type r = ty -> o_lvalue l = lv -> o_lvalue r = lv ->
  extreme_bounded c l r =
  Some (Ok (let m := if c_before (o_value r) (o_value l) then r else l in Answer ty (o_const l || o_const r) lv (Some (o_object m)) (o_value m))).
Proof.
  intros (Vl & Hl) (Vr & Hr) Tl Tr Ll Lr. unfold extreme_bounded. rewrite Tl in *. rewrite Tr in *.
  destruct (valid_bounds _ Vl) as (I1 & I2 & L & E1 & E2). rewrite E1, E2.
  rewrite !select_spec by auto. cbn [obind]. assert (P : forall z, pick c z z = z) by (intros z; destruct c; cbn; lia). rewrite !P.
  rewrite mk_integer_nt by auto. rewrite (proj2 (reprb_spec _ _) (valid_repr _ Vl)). cbn [obind].
  assert (Vb : valid (bt (lo ty) (hi ty))). { apply valid_bt, valid_repr, Vl. }
  unfold bty_eqb. rewrite !same_bounded_valid by auto. rewrite lo_bt, hi_bt, !Z.eqb_refl. cbn [andb].
  rewrite before_spec by auto. cbn [bind]. f_equal. f_equal. unfold conditional. rewrite Ll, Lr. unfold c_before.
  destruct lv, c; cbn;
    match goal with |- context [if ?b then _ else _] => destruct b end; rewrite ?Tl, ?Tr, (orb_comm (o_const r)); reflexivity.
Qed.

Lemma same_bounded_fold t ts lv : operand_ok t -> o_lvalue t = lv -> (forall o, In o ts -> operand_ok o /\ o_type o = o_type t /\ o_lvalue o = lv) ->
  extreme_function (extreme_bounded c) 0 t ts = Some (Ok (let e := extreme_generic (by_value c_before) t ts in
     Answer (o_type t) (o_const t || existsb o_const ts) lv (Some (o_object e)) (o_value e))).
Proof.
  intros (Vt & Ht) Lt Hts. apply (same_fold c_before (holds_value (o_type t))); auto.
  - intros l r Hl Hr Tl Tr Ll Lr. apply bounded_two_same; auto; split; rewrite ?Tl, ?Tr; auto.
  - repeat split.
  - intros o Ho. destruct (Hts o Ho) as ((V & H) & T & L). rewrite T in H. auto.
Qed.

(** What the result of two arguments can be. *)
Lemma bounded_shape l r a : operand_ok l -> operand_ok r -> extreme_bounded c l r = Some (Ok a) ->
  a_object a = None \/
  (exists m, (m = l \/ m = r) /\ a_object a = Some (o_object m) /\ a_type a = o_type m /\ a_value a = o_value m /\ (o_const m = true -> a_const a = true)).
Proof.
  intros (Vl & Hl) (Vr & Hr). unfold extreme_bounded.
  destruct (select c (bmin (o_type l)) _) as [mn|]; [|discriminate]. destruct (select c (bmax (o_type l)) _) as [mx|]; [|discriminate]. cbn [obind].
  destruct (mk_integer mn mx) as [T|]; [|discriminate]. cbn [obind].
  destruct (bty_eqb T (o_type l) && bty_eqb (o_type l) (o_type r)) eqn:E.
  - destruct (before c _ _ _ _) as [b| |]; cbn [bind]; intros S; [|discriminate S|discriminate S]. injection S as <-. unfold conditional.
    assert (K : forall lv, let m := if b then r else l in
      exists m', (m' = l \/ m' = r) /\ Some (o_object m) = Some (o_object m') /\ o_type m = o_type m' /\ o_value m = o_value m' /\
        (o_const m' = true -> o_const r || o_const l = true) /\ lv = true \/ lv = false).
    { intros lv. destruct lv; [|exists l; now right]. exists (if b then r else l). left. destruct b; repeat split; auto; intros ->; auto using orb_true_r. }
    destruct (K true) as (m' & [(K1 & K2 & K3 & K4 & K5 & _)|F]); [|discriminate].
    destruct (o_lvalue r), (o_lvalue l); [| destruct (o_const r) eqn:Cr | destruct (o_const l) eqn:Cl |]; cbn [a_object a_type a_value a_const]; auto; right; exists m'; auto.
  - destruct (negb (overlapping_integer (Bounded (o_type r)) _ _)). { intros S. injection S as <-. right. exists l. cbn. auto 10. }
    destruct (negb (overlapping_integer (Bounded (o_type l)) _ _)). { intros S. injection S as <-. right. exists r. cbn. auto 10. }
    destruct (unchecked T (Bounded (o_type r)) _) as [u|]; [|discriminate]. destruct (unchecked T (Bounded (o_type l)) _) as [v|]; [|discriminate]. cbn [obind].
    destruct (before c _ _ _ _) as [b| |]; cbn [bind]; intros S; [|discriminate S|discriminate S].
    destruct (if b then u else v) as [z| |]; cbn [bind] in S; [|discriminate S|discriminate S]. injection S as <-. now left.
Qed.
Lemma bounded_two_lvalues t t2 : operand_ok t -> operand_ok t2 -> numbered [t; t2] -> o_lvalue t = true -> o_lvalue t2 = true ->
  exists a, extreme_of c t [t2] = Some (Ok a) /\ can_be_kept [t; t2] a.
Proof.
  intros H1 H2 Hn L1 L2. destruct (bounded_value t t2 H1 H2) as (a & E & _). exists a. split; [exact E|].
  destruct (bounded_shape t t2 a H1 H2 E) as [N|(m & Hm & S1 & S2 & S3 & S4)]; unfold can_be_kept; [now rewrite N|]. rewrite S1.
  destruct Hm as [->| ->]; [rewrite (Hn 0%nat t eq_refl)|rewrite (Hn 1%nat t2 eq_refl)]; cbn; eauto 10.
Qed.
Lemma bounded_two_arguments t t2 : operand_ok t -> operand_ok t2 -> numbered [t; t2] ->
  exists a, extreme_of c t [t2] = Some (Ok a) /\ use a = Ok (match c with ByLess => Z.min | ByGreater => Z.max end (o_value t) (o_value t2)).
Proof.
  intros H1 H2 Hn. destruct (bounded_value t t2 H1 H2) as (a & E & Ev). exists a. split; [exact E|].
  assert (Vv : a_value a = match c with ByLess => Z.min | ByGreater => Z.max end (o_value t) (o_value t2)).
  { destruct H1, H2. rewrite extreme2_spec in Ev by auto. injection Ev as _ <-. destruct c; reflexivity. }
  unfold use. rewrite <- Vv. destruct (bounded_shape t t2 a H1 H2 E) as [N|(m & Hm & S1 & _)]; [now rewrite N|]. rewrite S1.
  destruct Hm as [->| ->]; [rewrite (Hn 0%nat t eq_refl)|rewrite (Hn 1%nat t2 eq_refl)]; reflexivity.
Qed.
End Bounded.
