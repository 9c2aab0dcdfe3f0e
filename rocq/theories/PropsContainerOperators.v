(** * The comparison operators of containers: property C154

    Vocabulary in SpecRange.v, SpecSequence.v, SpecMap.v and SpecContainerOperators.v. *)

From Coq Require Import List ZArith Bool Lia.
From Verif Require Import Range SpecRange Sequence SpecSequence RangeProofs ViewProofs SequenceProofs PropsView PropsSequence.
From Verif Require Import ContainerOperators SpecContainerOperators ContainerOperatorProofs.
From Verif Require SpecSort SpecUnique SpecMap FlatMap LinearMap.
Import ListNotations.
Local Open Scope Z_scope.

(** ** C154. The operators give what the first difference says, and agree with each other when == and <=> of the elements do. *)
Theorem C154_operators : forall I A (r1 r2 : range I A) xs ys (eq : A -> A -> bool) (cmp : A -> A -> ordering) fuel,
  lists r1 xs -> lists r2 ys -> (length xs < fuel)%nat ->
  exists e o, (e = true <-> Forall2 (fun x y => eq x y = true) xs ys) /\ lexicographic cmp xs ys o /\
    operator_equal fuel eq r1 r2 = Val e /\ operator_not_equal fuel eq r1 r2 = Val (negb e) /\
    operator_three_way fuel cmp r1 r2 = Val o /\
    (exists l, operator_relation fuel Op_less cmp r1 r2 = Val l /\ (l = true <-> o = Less)) /\
    (exists g, operator_relation fuel Op_greater cmp r1 r2 = Val g /\ (g = true <-> o = Greater)) /\
    (exists le, operator_relation fuel Op_less_equal cmp r1 r2 = Val le /\ (le = true <-> o = Less \/ o = Equivalent)) /\
    (exists ge, operator_relation fuel Op_greater_equal cmp r1 r2 = Val ge /\ (ge = true <-> o = Greater \/ o = Equivalent)) /\
    (fits eq cmp -> (e = true <-> o = Equivalent)).
Proof.
  intros I A r1 r2 xs ys eq cmp fuel [it H1] [jt H2] Hf. exists (all_equal eq xs ys), (lexi cmp xs ys).
  unfold operator_relation, operator_not_equal, operator_equal, operator_three_way.
  rewrite (compare_lists r1 r2 it jt xs ys H1 H2), (equal_lists r1 r2 it jt xs ys H1 H2) by assumption. cbn [bind].
  split; [apply all_equal_spec|]. split; [apply lexi_spec|]. do 3 (split; [reflexivity|]).
  split; [|split; [|split; [|split]]]; try (eexists; split; [reflexivity|destruct (lexi cmp xs ys); cbn; intuition discriminate]).
  intros F. rewrite all_equal_spec, lexi_equivalent. split; apply forall2_mono; intros x y; apply F.
Qed.
Print Assumptions C154_operators.
(** shortlex_comparison::base: the shorter container is less, and == still agrees with <=>. *)
Theorem C154_shortlex : forall I A (r1 r2 : range I A) xs ys (eq : A -> A -> bool) (cmp : A -> A -> ordering) fuel,
  lists r1 xs -> lists r2 ys -> (length xs < fuel)%nat -> has (size r1) = true -> has (size r2) = true ->
  exists e o, operator_equal fuel eq r1 r2 = Val e /\ operator_three_way_shortlex fuel cmp r1 r2 = Some (Val o) /\ shortlex cmp xs ys o /\
    (e = true <-> Forall2 (fun x y => eq x y = true) xs ys) /\ (fits eq cmp -> (e = true <-> o = Equivalent)).
Proof.
  intros I A r1 r2 xs ys eq cmp fuel H1 H2 Hf S1 S2. destruct (C110_shortlex _ _ _ _ r1 r2 xs ys cmp fuel H1 H2 Hf S1 S2) as (o & Ho & Hs).
  destruct (C110_equal _ _ _ _ r1 r2 xs ys eq fuel H1 H2 Hf) as (e & He & Hee). exists e, o. repeat (split; [assumption|]).
  intros F. rewrite Hee. unfold shortlex in Hs. destruct (Nat.compare_spec (length xs) (length ys)) as [E|E|E].
  - rewrite (lexicographic_one cmp xs ys o Hs), lexi_equivalent. split; apply forall2_mono; intros x y; apply F.
  - subst o. split; [|discriminate]. intros G. apply forall2_lengths in G. lia.
  - subst o. split; [|discriminate]. intros G. apply forall2_lengths in G. lia.
Qed.
Print Assumptions C154_shortlex.
(** If the elements are in order, so are the containers: exactly one of <, == and > holds, < is transitive, equal containers compare alike with
    all others, and the other operators are what they should be. *)
Theorem C154_order : forall I A (r1 r2 r3 : range I A) xs ys zs (eq : A -> A -> bool) (cmp : A -> A -> ordering) fuel,
  lists r1 xs -> lists r2 ys -> lists r3 zs -> (length xs < fuel)%nat -> (length ys < fuel)%nat -> good_order cmp -> fits eq cmp ->
  exists less12 less21 less23 less13 equal12,
    operator_relation fuel Op_less cmp r1 r2 = Val less12 /\ operator_relation fuel Op_less cmp r2 r1 = Val less21 /\
    operator_relation fuel Op_less cmp r2 r3 = Val less23 /\ operator_relation fuel Op_less cmp r1 r3 = Val less13 /\
    operator_equal fuel eq r1 r2 = Val equal12 /\ operator_equal fuel eq r2 r1 = Val equal12 /\
    operator_relation fuel Op_greater cmp r1 r2 = Val less21 /\
    operator_relation fuel Op_less_equal cmp r1 r2 = Val (negb less21) /\ operator_relation fuel Op_greater_equal cmp r1 r2 = Val (negb less12) /\
    In (less12, equal12, less21) [(true, false, false); (false, true, false); (false, false, true)] /\
    (less12 = true -> less23 = true -> less13 = true) /\ (equal12 = true -> less13 = less23).
Proof.
  intros I A r1 r2 r3 xs ys zs eq cmp fuel [it H1] [jt H2] [kt H3] Hx Hy G F. pose proof (good_lexi cmp G) as GL.
  exists (against_zero Op_less (lexi cmp xs ys)), (against_zero Op_less (lexi cmp ys xs)), (against_zero Op_less (lexi cmp ys zs)), (against_zero Op_less (lexi cmp xs zs)), (all_equal eq xs ys).
  unfold operator_relation, operator_equal, operator_three_way.
  rewrite (compare_lists r1 r2 it jt xs ys H1 H2), (compare_lists r2 r1 jt it ys xs H2 H1), (compare_lists r2 r3 jt kt ys zs H2 H3), (compare_lists r1 r3 it kt xs zs H1 H3),
    (equal_lists r1 r2 it jt xs ys H1 H2), (equal_lists r2 r1 jt it ys xs H2 H1) by assumption.
  assert (forall us vs, all_equal eq us vs = true <-> lexi cmp us vs = Equivalent) as E.
  { intros us vs. rewrite all_equal_spec, lexi_equivalent. split; apply forall2_mono; intros x y; apply F. }
  pose proof (o_total _ GL xs ys) as T. pose proof (o_opposite _ GL xs ys) as O. pose proof (E xs ys) as E1. pose proof (E ys xs) as E2.
  do 5 (split; [reflexivity|]). rewrite O in *. split; [|split; [|split; [|split; [|split; [|split]]]]].
  - f_equal. destruct (all_equal eq xs ys), (all_equal eq ys xs), (lexi cmp xs ys); cbn in *; intuition congruence.
  - now destruct (lexi cmp xs ys).
  - destruct (lexi cmp xs ys); cbn in *; congruence.
  - destruct (lexi cmp xs ys); cbn in *; congruence.
  - destruct (all_equal eq xs ys), (lexi cmp xs ys); cbn in *; intuition congruence.
  - intros L1 L2. enough (lexi cmp xs zs = Less) as -> by reflexivity. apply (o_transitive _ GL _ ys); [now destruct (lexi cmp xs ys)|now destruct (lexi cmp ys zs)].
  - intros Q. apply E1 in Q. now rewrite (o_alike _ GL _ _ zs Q).
Qed.
Print Assumptions C154_order.
(** The elements of maps are compared by their keys and, if those are equivalent, by what is mapped. *)
Theorem C154_map_elements : forall K T (cmp_key : K -> K -> ordering) (cmp_mapped : T -> T -> ordering) eq_key eq_mapped,
  (forall k t k' t', map_value_three_way cmp_key cmp_mapped (k, t) (k', t') = Less <->
     cmp_key k k' = Less \/ cmp_key k k' = Equivalent /\ cmp_mapped t t' = Less) /\
  (forall k t k' t', map_value_equal eq_key eq_mapped (k, t) (k', t') = true <-> eq_key k k' = true /\ eq_mapped t t' = true) /\
  (good_order cmp_key -> good_order cmp_mapped -> good_order (map_value_three_way cmp_key cmp_mapped)) /\
  (fits eq_key cmp_key -> fits eq_mapped cmp_mapped -> fits (map_value_equal eq_key eq_mapped) (map_value_three_way cmp_key cmp_mapped)).
Proof.
  intros K T ck ct ek et. unfold map_value_three_way, map_value_equal. split; [|split; [|split]].
  - intros k t k' t'. cbn. destruct (ck k k'); cbn; intuition congruence.
  - intros k t k' t'. apply andb_true_iff.
  - apply good_map_value.
  - intros Fk Ft [k t] [k' t']. cbn. rewrite andb_true_iff, (Fk k k'), (Ft t t'). destruct (ck k k'); cbn; intuition congruence.
Qed.
Print Assumptions C154_map_elements.
(** Two flat maps are equal exactly when every lookup gives the same. *)
Theorem C154_flat_maps : forall I K T (r1 r2 : range I (K * T)) m1 m2 less eq_key eq_mapped fuel,
  lists r1 m1 -> lists r2 m2 -> (length m1 < fuel)%nat ->
  SpecSort.strict_weak_order less -> SpecMap.flat less m1 -> SpecMap.flat less m2 -> tells_apart eq_key -> tells_apart eq_mapped ->
  exists e, operator_equal fuel (map_value_equal eq_key eq_mapped) r1 r2 = Val e /\
    (e = true <-> forall key, SpecMap.element_of (SpecSort.equivalent less) m1 key = SpecMap.element_of (SpecSort.equivalent less) m2 key).
Proof.
  intros I K T r1 r2 m1 m2 less ek et fuel H1 H2 Hf W F1 F2 Tk Tt.
  destruct (C110_equal _ _ _ _ r1 r2 m1 m2 (map_value_equal ek et) fuel H1 H2 Hf) as (e & He & Hee). exists e. split; [exact He|].
  rewrite Hee, (tells_lists _ (tells_map_value ek et Tk Tt)). split; [now intros ->|now apply flat_lookups].
Qed.
Print Assumptions C154_flat_maps.
(** Two linear maps are equal exactly when they have the same elements in the same order; so lookups in equal maps give the same, *)
Theorem C154_linear_maps_partial : forall I K T (r1 r2 : range I (K * T)) m1 m2 same eq_key eq_mapped fuel,
  lists r1 m1 -> lists r2 m2 -> (length m1 < fuel)%nat -> tells_apart eq_key -> tells_apart eq_mapped ->
  exists e, operator_equal fuel (map_value_equal eq_key eq_mapped) r1 r2 = Val e /\ (e = true <-> m1 = m2) /\
    (e = true -> forall key, SpecMap.element_of same m1 key = SpecMap.element_of same m2 key).
Proof.
  intros I K T r1 r2 m1 m2 same ek et fuel H1 H2 Hf Tk Tt.
  destruct (C110_equal _ _ _ _ r1 r2 m1 m2 (map_value_equal ek et) fuel H1 H2 Hf) as (e & He & Hee). exists e. split; [exact He|].
  rewrite (tells_lists _ (tells_map_value ek et Tk Tt)) in Hee. split; [exact Hee|]. intros Q. apply Hee in Q as ->. reflexivity.
Qed.
Print Assumptions C154_linear_maps_partial.
(** but two linear maps in which every lookup gives the same may be unequal: the same two elements inserted in both orders. *)
Theorem C154_linear_maps_refuted :
  let insert m e := fst (fst (LinearMap.linear_lazy_insert Z.eqb m (fst e) (snd e))) in
  let m1 := insert (insert [] (1, 10)) (2, 20) in
  let m2 := insert (insert [] (2, 20)) (1, 10) in
  lists (array_range 5 m1) m1 /\ lists (array_range 5 m2) m2 /\
  (forall key, SpecMap.element_of Z.eqb m1 key = SpecMap.element_of Z.eqb m2 key) /\
  operator_equal 20 (map_value_equal Z.eqb Z.eqb) (array_range 5 m1) (array_range 5 m2) = Val false /\
  operator_relation 20 Op_less (map_value_three_way by_value by_value) (array_range 5 m1) (array_range 5 m2) = Val true.
Proof.
  cbv zeta. split; [now apply array_lists|]. split; [now apply array_lists|]. split; [|split; vm_compute; reflexivity].
  intros key. cbn. destruct (Z.eqb_spec key 1), (Z.eqb_spec key 2); try reflexivity; lia.
Qed.
Print Assumptions C154_linear_maps_refuted.
Example C154_example :
  good_order by_value /\ fits Z.eqb by_value /\ tells_apart Z.eqb /\ SpecSort.strict_weak_order Z.ltb /\ 
  SpecMap.flat Z.ltb [(1, 10); (2, 20)] /\ lists (array_range 5 [(1, 10); (2, 20)]) [(1, 10); (2, 20)] /\
  operator_equal 20 Z.eqb shorter (array_range 5 [3; 1]) = Val false /\
  operator_relation 20 Op_greater by_value shorter (array_range 5 [3; 1]) = Val true /\
  operator_relation 20 Op_less_equal by_value shorter shorter = Val true /\
  operator_three_way_shortlex 20 by_value shorter (array_range 5 [9; 9]) = Some (Val Greater) /\
  operator_three_way 20 by_value shorter (array_range 5 [9; 9]) = Val Less.
Proof.
  split; [|split; [|split; [|split; [|split; [|split; [now apply array_lists|repeat split]]]]]].
  - unfold by_value. constructor; intros; rewrite ?(Z.compare_antisym x y) in *;
      repeat match goal with H : context [?a ?= ?b] |- _ => destruct (Z.compare_spec a b) | |- context [?a ?= ?b] => destruct (Z.compare_spec a b) end; cbn in *; subst; auto; try congruence; try lia.
  - intros x y. unfold by_value. destruct (Z.compare_spec x y), (Z.eqb_spec x y); cbn; split; intros; try congruence; lia.
  - intros x y. apply Z.eqb_eq.
  - unfold SpecSort.strict_weak_order, SpecSort.equivalent. repeat split; intros *; rewrite ?andb_true_iff, ?negb_true_iff, ?Z.ltb_lt, ?Z.ltb_ge; lia.
  - intros i j a b Hij Ha Hb. destruct i as [|[|i]], j as [|[|j]]; cbn in *; try lia; try discriminate; try (destruct j; discriminate); try (destruct i; discriminate). now injection Ha as <-; injection Hb as <-.
Qed.
