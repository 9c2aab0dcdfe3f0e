(** * Algorithms on whole ranges: properties C110 to C113 and C115

    Vocabulary in SpecRange.v and SpecSequence.v. *)

From Coq Require Import List ZArith Bool Lia.
From Verif Require Import Range SpecRange Sequence SpecSequence RangeProofs ViewProofs SequenceProofs MeetProofs PropsView.
Import ListNotations.
Local Open Scope Z_scope.

(** What is compared in the examples. *)
Definition by_value (x y : Z) : ordering := of_comparison (x ?= y).
Definition shorter : range Z Z := array_range 5 [3; 1; 4].
Example shorter_lists : lists shorter [3; 1; 4] /\ lists (as_forward shorter) [3; 1; 4] /\ lists (as_bidirectional shorter) [3; 1; 4].
Proof.
  assert (lists shorter [3; 1; 4]) as H by (now apply array_lists). split; [exact H|]. destruct H as [it H].
  split; exists it; destruct H; constructor; auto; exact Logic.I.
Qed.

(** ** C110. The first difference decides a comparison. *)
Theorem C110_lexicographical : forall I J A B (r1 : range I A) (r2 : range J B) xs ys (cmp : A -> B -> ordering) fuel,
  lists r1 xs -> lists r2 ys -> (length xs < fuel)%nat ->
  exists o, lexicographical_compare r1 r2 fuel cmp = Val o /\ lexicographic cmp xs ys o /\
    forall o', lexicographic cmp xs ys o' -> o' = o.
Proof.
  intros I J A B r1 r2 xs ys cmp fuel [it H1] [jt H2] Hf. exists (lexi cmp xs ys). split; [eapply compare_lists; eauto|].
  split; [apply lexi_spec|apply lexicographic_one].
Qed.
Print Assumptions C110_lexicographical.
Theorem C110_same_size : forall I J A B (r1 : range I A) (r2 : range J B) xs ys (cmp : A -> B -> ordering) (eq : A -> B -> bool) fuel,
  lists r1 xs -> lists r2 ys -> (length xs < fuel)%nat ->
  (length xs = length ys ->
     lexicographical_compare_assume_same_size r1 r2 fuel cmp = lexicographical_compare r1 r2 fuel cmp /\
     equal_assume_same_size r1 r2 fuel eq = equal r1 r2 fuel eq) /\
  (length xs <> length ys -> has (size r1) = true -> has (size r2) = true ->
     lexicographical_compare_assume_same_size r1 r2 fuel cmp = Undefined /\ equal_assume_same_size r1 r2 fuel eq = Undefined).
Proof.
  intros I J A B r1 r2 xs ys cmp eq fuel [it H1] [jt H2] Hf. split; intros Hl.
  - erewrite compare_same_size_lists, compare_lists, equal_same_size_lists, equal_lists by eauto. auto.
  - intros S1 S2. unfold lexicographical_compare_assume_same_size, equal_assume_same_size. rewrite !(assert_same_size_lists r1 r2 it jt xs ys H1 H2), S1, S2.
    apply Nat.eqb_neq in Hl. rewrite Hl. auto.
Qed.
Print Assumptions C110_same_size.
Theorem C110_shortlex : forall I J A B (r1 : range I A) (r2 : range J B) xs ys (cmp : A -> B -> ordering) fuel,
  lists r1 xs -> lists r2 ys -> (length xs < fuel)%nat -> has (size r1) = true -> has (size r2) = true ->
  exists o, shortlex_compare r1 r2 fuel cmp = Some (Val o) /\ shortlex cmp xs ys o.
Proof.
  intros I J A B r1 r2 xs ys cmp fuel [it H1] [jt H2] Hf S1 S2. destruct (shortlex_compare r1 r2 fuel cmp) as [e|] eqn:E.
  - destruct (shortlex_lists r1 r2 it jt xs ys H1 H2 cmp fuel e Hf E) as (o & -> & Ho). eauto.
  - unfold shortlex_compare in E. destruct (size r1); [|discriminate]. destruct (size r2); discriminate.
Qed.
Print Assumptions C110_shortlex.
Theorem C110_equal : forall I J A B (r1 : range I A) (r2 : range J B) xs ys (eq : A -> B -> bool) fuel,
  lists r1 xs -> lists r2 ys -> (length xs < fuel)%nat ->
  exists b, equal r1 r2 fuel eq = Val b /\ (b = true <-> Forall2 (fun x y => eq x y = true) xs ys).
Proof.
  intros I J A B r1 r2 xs ys eq fuel [it H1] [jt H2] Hf. eexists. split; [eapply equal_lists; eauto|apply all_equal_spec].
Qed.
Print Assumptions C110_equal.
Theorem C110_mismatch : forall I J A B (r1 : range I A) (r2 : range J B) it jt xs ys (p : A -> B -> bool) fuel,
  lists_at r1 it xs -> lists_at r2 jt ys -> (length xs < fuel)%nat ->
  exists k, mismatch r1 r2 fuel p = Val (it k, jt k) /\ (k <= length xs)%nat /\ (k <= length ys)%nat /\
    first_difference (fun x y => p x y = true) xs ys k.
Proof.
  intros I J A B r1 r2 it jt xs ys p fuel H1 H2 Hf. eexists. split; [eapply mismatch_lists; eauto|]. 
  destruct (common_within p xs ys). split; [assumption|]. split; [assumption|]. apply common_difference.
Qed.
Print Assumptions C110_mismatch.
(** The comparison of ranges is as good an order as that of their elements. *)
Theorem C110_order : forall I J K A (r1 : range I A) (r2 : range J A) (r3 : range K A) xs ys zs (cmp : A -> A -> ordering) fuel,
  lists r1 xs -> lists r2 ys -> lists r3 zs -> (length xs < fuel)%nat -> (length ys < fuel)%nat ->
  (forall x y, cmp y x = opposite (cmp x y)) ->
  (forall x y z o, cmp x y = o -> cmp y z = o -> cmp x z = o) ->
  (forall x y z, cmp x y = Equivalent -> cmp x z = cmp y z) -> (forall x y z, cmp y z = Equivalent -> cmp x z = cmp x y) ->
  exists o12 o23 o13 o21,
    lexicographical_compare r1 r2 fuel cmp = Val o12 /\ lexicographical_compare r2 r3 fuel cmp = Val o23 /\
    lexicographical_compare r1 r3 fuel cmp = Val o13 /\ lexicographical_compare r2 r1 fuel cmp = Val o21 /\
    o21 = opposite o12 /\ (o12 = o23 -> o12 <> Unordered -> o13 = o12) /\
    (o12 = Equivalent <-> Forall2 (fun x y => cmp x y = Equivalent) xs ys).
Proof.
  intros I J K A r1 r2 r3 xs ys zs cmp fuel [it H1] [jt H2] [kt H3] Hx Hy Ho Ht Hl Hr. do 4 eexists.
  split; [eapply compare_lists; eauto|]. split; [eapply compare_lists; eauto|]. split; [eapply compare_lists; eauto|]. split; [eapply compare_lists; eauto|].
  split; [now apply lexi_opposite|]. split; [|apply lexi_equivalent]. intros E Hu. symmetry in E. eapply lexi_transitive; eauto.
Qed.
Print Assumptions C110_order.
Example C110_example :
  lists digits [3; 1; 4; 1; 5; 9; 2] /\ lists shorter [3; 1; 4] /\
  lexicographical_compare digits shorter 20 by_value = Val Greater /\ lexicographical_compare shorter (array_range 5 [3; 2]) 20 by_value = Val Less /\
  shortlex_compare shorter (array_range 5 [3; 2]) 20 by_value = Some (Val Greater) /\
  equal digits shorter 20 Z.eqb = Val false /\ equal (as_forward shorter) shorter 20 Z.eqb = Val true /\ 
  equal (as_forward shorter) (array_range 5 [3; 2; 4]) 20 Z.eqb = Val false /\
  mismatch digits (array_range 5 [3; 1; 5]) 20 Z.eqb = Val (2, 2) /\
  lexicographical_compare_assume_same_size digits shorter 20 by_value = Undefined /\
  (forall x y, by_value y x = opposite (by_value x y)) /\ (forall x y z o, by_value x y = o -> by_value y z = o -> by_value x z = o) /\
  (forall x y z, by_value x y = Equivalent -> by_value x z = by_value y z) /\ (forall x y z, by_value y z = Equivalent -> by_value x z = by_value x y).
Proof.
  split; [apply digits_lists|]. split; [apply shorter_lists|]. do 8 (split; [vm_compute; reflexivity|]). unfold by_value.
  split; [|split; [|split]]; intros; rewrite ?(Z.compare_antisym x y) in *; 
    repeat match goal with H : context [?a ?= ?b] |- _ => destruct (Z.compare_spec a b) | |- context [?a ?= ?b] => destruct (Z.compare_spec a b) end; cbn in *; subst; auto; try congruence; try lia.
Qed.

(** ** C111. starts_with and ends_with. [max_size], [max_full] and [min_suffix] are bounds that the types of the sizes give. *)
Theorem C111_starts_with : forall I J A B (full : range I A) (prefix : range J B) xs ys (cmp : A -> B -> bool) max_size fuel,
  lists full xs -> lists prefix ys -> has (size prefix) = true -> Z.of_nat (length ys) <= max_size -> (length ys < fuel)%nat ->
  exists b, starts_with fuel cmp max_size full prefix = Some (Val b) /\
    (b = true <-> exists zs rest, xs = zs ++ rest /\ Forall2 (fun x y => cmp x y = true) zs ys).
Proof.
  intros I J A B full prefix xs ys cmp max_size fuel H1 H2 Hs Hm Hf. destruct (starts_with fuel cmp max_size full prefix) as [e|] eqn:E.
  - erewrite (starts_with_lists fuel cmp max_size full prefix xs ys e) by eauto. eexists. split; [reflexivity|apply prefix_spec].
  - unfold starts_with in E. destruct (size prefix); discriminate.
Qed.
Print Assumptions C111_starts_with.
Theorem C111_ends_with : forall I J A B (full : range I A) (suffix : range J B) xs ys (cmp : A -> B -> bool) max_full min_suffix fuel,
  lists full xs -> lists suffix ys -> has (size full) = true -> has (size suffix) = true ->
  Z.of_nat (length xs) <= max_full -> min_suffix <= Z.of_nat (length ys) -> (length xs < fuel)%nat ->
  exists b, ends_with fuel cmp max_full min_suffix full suffix = Some (Val b) /\
    (b = true <-> exists before zs, xs = before ++ zs /\ Forall2 (fun x y => cmp x y = true) zs ys).
Proof.
  intros I J A B full suffix xs ys cmp max_full min_suffix fuel H1 H2 S1 S2 Hm Hn Hf. destruct (ends_with fuel cmp max_full min_suffix full suffix) as [e|] eqn:E.
  - erewrite (ends_with_lists fuel cmp max_full min_suffix full suffix xs ys e) by eauto. eexists. split; [reflexivity|apply suffix_spec].
  - unfold ends_with in E. destruct (size full); [|discriminate]. destruct (size suffix); [|discriminate]. destruct (max_full <? min_suffix); discriminate.
Qed.
Print Assumptions C111_ends_with.
Example C111_example :
  lists digits [3; 1; 4; 1; 5; 9; 2] /\ lists shorter [3; 1; 4] /\ has (size digits) = true /\ has (size shorter) = true /\
  starts_with 20 Z.eqb 5 digits shorter = Some (Val true) /\ starts_with 20 Z.eqb 10 shorter digits = Some (Val false) /\
  starts_with 20 Z.eqb 5 (as_forward digits) shorter = Some (Val true) /\
  ends_with 20 Z.eqb 10 0 digits (array_range 5 [9; 2]) = Some (Val true) /\ ends_with 20 Z.eqb 10 0 digits shorter = Some (Val false) /\
  ends_with 20 Z.eqb 2 3 (array_range 2 [1; 4]) (array_range 3 [3; 1; 4]) = Some (Val false).
Proof. split; [apply digits_lists|]. split; [apply shorter_lists|]. vm_compute. repeat split. Qed.

(** ** C113. Sizes and single elements. [min_size] and [max_size] are the bounds of the type of the size. *)
Theorem C113_count : forall I A (r : range I A) xs (p : A -> bool) fuel, lists r xs -> (length xs < fuel)%nat ->
  count_if r fuel p = Val (Z.of_nat (length (List.filter p xs))).
Proof. intros I A r xs p fuel [it H] Hf. eapply count_if_lists; eauto. Qed.
Print Assumptions C113_count.
Theorem C113_count_value : forall I A (r : range I A) xs (eq : A -> A -> bool) value fuel, lists r xs -> (length xs < fuel)%nat ->
  count r fuel eq value = Val (Z.of_nat (length (List.filter (fun x => eq x value) xs))).
Proof. intros I A r xs eq value fuel [it H] Hf. eapply count_if_lists; eauto. Qed.
Print Assumptions C113_count_value.
Theorem C113_distance : forall I A (r : range I A) it xs fuel k, lists_at r it xs -> (k <= length xs)%nat -> (length xs < fuel)%nat ->
  distance_to_end r fuel (it k) = Val (Z.of_nat (length xs - k)).
Proof. intros I A r it xs fuel k H Hk Hf. rewrite Nat2Z.inj_sub by exact Hk. eapply distance_lists; eauto. Qed.
Print Assumptions C113_distance.
Theorem C113_is_empty : forall I A (r : range I A) xs min_size, lists r xs -> min_size <= Z.of_nat (length xs) ->
  exists b, is_empty r min_size = Val b /\ (b = true <-> xs = []).
Proof.
  intros I A r xs min_size [it H] Hm. eexists. split; [eapply is_empty_lists; eauto|]. rewrite Nat.eqb_eq. now destruct xs.
Qed.
Print Assumptions C113_is_empty.
(** The first and the last element; there is none in an empty range, and to ask for it is undefined. *)
Theorem C113_front_back : forall I A (r : range I A) xs min_size, lists r xs -> min_size <= Z.of_nat (length xs) ->
  (forall x rest, xs = x :: rest -> front r min_size = Val x) /\
  (forall e x before, back r min_size = Some e -> xs = before ++ [x] -> e = Val x) /\
  (xs = [] -> front r min_size = Undefined /\ forall e, back r min_size = Some e -> e = Undefined) /\
  ((exists e, back r min_size = Some e) <-> has (last r) = true /\ has (prev r) = true).
Proof.
  intros I A r xs min_size [it H] Hm. split; [|split; [|split]].
  - intros x rest ->. erewrite front_lists; eauto. reflexivity.
  - intros e x before E ->. erewrite (back_lists r it _ H min_size e); eauto. now rewrite rev_app_distr.
  - intros ->. split; [erewrite front_lists; eauto; reflexivity|]. intros e E. now erewrite (back_lists r it _ H min_size e); eauto.
  - unfold back. destruct (last r); [destruct (prev r)|]; cbn; split; [auto|eauto|intros [e [=]]|intros [_ [=]]|intros [e [=]]|intros [[=] _]].
Qed.
Print Assumptions C113_front_back.
Theorem C113_size : forall I A (r : range I A) xs max_size, lists r xs -> Z.of_nat (length xs) <= max_size ->
  has (last r) = true -> has (minus r) = true -> size_by_difference r max_size = Some (Val (Z.of_nat (length xs))).
Proof.
  intros I A r xs max_size [it H] Hm Hl Hd. destruct (size_by_difference r max_size) as [e|] eqn:E.
  - f_equal. eapply size_lists; eauto.
  - unfold size_by_difference in E. destruct (last r); [|discriminate]. destruct (minus r); discriminate.
Qed.
Print Assumptions C113_size.
Theorem C113_at : forall I A (r : range I A) xs index, lists r xs -> has (size r) = true -> has (plus r) = true ->
  exists e, at_ r index = Some e /\
    (forall i x, index = Z.of_nat i -> nth_error xs i = Some x -> e = Val x /\ at_unchecked r index = Some (Val x)) /\
    (index < 0 \/ Z.of_nat (length xs) <= index -> e = Thrown).
Proof.
  intros I A r xs index [it H] Hs Hp. destruct (at_ r index) as [e|] eqn:E.
  2: { unfold at_ in E. destruct (size r); [|discriminate]. destruct (plus r); discriminate. }
  rewrite (at_lists r it xs H index e E). eexists. split; [reflexivity|]. split.
  - intros i x -> Hx. rewrite (proj2 (Z.leb_le _ _)), Nat2Z.id, Hx by lia. split; [reflexivity|].
    destruct (at_unchecked r (Z.of_nat i)) as [u|] eqn:Eu.
    + f_equal. eapply at_unchecked_lists; eauto; [lia|]. now rewrite Nat2Z.id.
    + unfold at_unchecked in Eu. destruct (plus r); discriminate.
  - intros Hout. destruct (Z.leb_spec 0 index); [|reflexivity]. destruct (nth_error xs (Z.to_nat index)) eqn:En; [|reflexivity].
    apply nth_error_in_length in En. lia.
Qed.
Print Assumptions C113_at.
Example C113_example :
  lists digits [3; 1; 4; 1; 5; 9; 2] /\ random_access digits /\
  count_if digits 20 (Z.leb 3) = Val 4 /\ count (as_input digits) 20 Z.eqb 1 = Val 2 /\
  distance_to_end digits 20 2 = Val 5 /\ distance_to_end (as_forward digits) 20 2 = Val 5 /\
  is_empty digits 0 = Val false /\ front digits 0 = Val 3 /\ back digits 0 = Some (Val 2) /\ back (array_range 2 (@nil Z)) 0 = Some Undefined /\
  size_by_difference digits 10 = Some (Val 7) /\ at_ digits 5 = Some (Val 9) /\ at_ digits 7 = Some Thrown.
Proof. split; [apply digits_lists|]. split; [apply digits_lists|]. vm_compute. repeat split. Qed.

(** ** C115. set_intersection_pair *)
Theorem C115_set_intersection_pair : forall I J A (r1 : range I A) (r2 : range J A) xs ys (less : A -> A -> bool) fuel,
  lists r1 xs -> lists r2 ys -> weak_order less -> (length xs + length ys < fuel)%nat ->
  has (same r1) = true -> has (same r2) = true -> has (last r1) = true -> has (last r2) = true ->
  in_order less xs -> in_order less ys ->
  exists r ps, set_intersection_pair fuel less r1 r2 = Some (Val r) /\ lists r ps /\ intersection less xs ys ps /\
    abilities r = [true; true; false; false; false; false; has (order r1); false].
Proof.
  intros I J A r1 r2 xs ys less fuel [it H1] [jt H2] W Hf S1 S2 L1 L2 O1 O2. destruct (set_intersection_pair fuel less r1 r2) as [e|] eqn:E.
  - destruct (set_intersection_pair_lists less r1 r2 it jt xs ys H1 H2 fuel e W Hf E) as [Hok _]. destruct (Hok O1 O2) as (r & -> & Hl & Ha).
    exists r, (pairs less xs ys). split; [reflexivity|]. split; [exact Hl|]. split; [now apply meets_spec|exact Ha].
  - unfold set_intersection_pair in E. destruct (last r1), (last r2), (same r1), (same r2); discriminate.
Qed.
Print Assumptions C115_set_intersection_pair.
(** A range that is not sorted is undefined behavior. *)
Theorem C115_unsorted : forall I J A (r1 : range I A) (r2 : range J A) xs ys (less : A -> A -> bool) fuel e,
  lists r1 xs -> lists r2 ys -> weak_order less -> (length xs + length ys < fuel)%nat ->
  set_intersection_pair fuel less r1 r2 = Some e -> ~ in_order less xs \/ ~ in_order less ys -> e = Undefined.
Proof.
  intros I J A r1 r2 xs ys less fuel e [it H1] [jt H2] W Hf E Hn.
  destruct (set_intersection_pair_lists less r1 r2 it jt xs ys H1 H2 fuel e W Hf E) as [_ Hun]. auto.
Qed.
Print Assumptions C115_unsorted.
Example C115_example :
  let a := array_range 10 [1; 2; 2; 2; 5; 7] in let b := array_range 10 [0; 2; 2; 3; 7; 7; 8] in
  lists a [1; 2; 2; 2; 5; 7] /\ lists b [0; 2; 2; 3; 7; 7; 8] /\ weak_order Z.ltb /\
  match set_intersection_pair 20 Z.ltb a b with Some e => (let* r := e in visit 20 r) = Val [(2, 2); (2, 2); (7, 7)] | None => False end /\
  match set_intersection_pair 20 Z.ltb (array_range 10 [2; 1]) b with Some e => e = Undefined | None => False end.
Proof.
  cbv zeta. split; [now apply array_lists|]. split; [now apply array_lists|]. split; [|vm_compute; auto].
  split; intros; rewrite ?Z.ltb_lt, ?Z.ltb_ge in *; try apply Z.ltb_irrefl; lia.
Qed.
