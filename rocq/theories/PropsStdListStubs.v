(** * C159. merge, reverse, unique and sort of the list with the interface of the standard library *)

From Coq Require Import List Arith Bool ZArith Lia Sorted Permutation.
From Verif Require Import LinkedList SpecList StdList SpecStdList PropsList PropsStdList StdListStubs.
Import ListNotations.
Local Open Scope nat_scope.
Local Notation bmemory := (memory (nat * nat)).

Lemma path_determined {V} (m : bmemory V) s l : forall a k, linked m (a :: names_of l ++ [s]) -> linked m (a :: names_of k ++ [s]) -> ~ In s (names_of l) -> ~ In s (names_of k) ->
  (forall p v, In (p, v) l -> exists links, object_at m p = Some (Node links v)) -> (forall p v, In (p, v) k -> exists links, object_at m p = Some (Node links v)) -> l = k.
Proof.
  induction l as [|(p, v) l IH]; intros a [|(q, u) k] Hl Hk Nl Nk Vl Vk; [reflexivity| | |].
  - cbn in Hl, Hk, Nk. destruct Hl as (H1 & _), Hk as (H2 & _). rewrite H1 in H2. injection H2 as ->. tauto.
  - cbn in Hl, Hk, Nl. destruct Hl as (H1 & _), Hk as (H2 & _). rewrite H2 in H1. injection H1 as ->. tauto.
  - cbn [names_of map fst app linked] in Hl, Hk. destruct Hl as (H1 & _ & Hl), Hk as (H2 & _ & Hk). rewrite H1 in H2. injection H2 as <-.
    destruct (Vl p v ltac:(now left)) as [x1 E1], (Vk p u ltac:(now left)) as [x2 E2]. rewrite E1 in E2. injection E2 as _ <-. f_equal.
    apply (IH p k); auto; [cbn in Nl; tauto|cbn in Nk; tauto|intros; apply Vl; now right|intros; apply Vk; now right].
Qed.
(** A memory has one list of elements at a sentinel. *)
Theorem C159_elements_determined : forall V (m : bmemory V) s l k, list_at m s l -> list_at m s k -> l = k.
Proof.
  intros V m s l k (_ & Vl & Nl & Ll) (_ & Vk & Nk & Lk). inversion Nl; subst. inversion Nk; subst. eapply path_determined; eassumption.
Qed.
Print Assumptions C159_elements_determined.

(** sort works exactly on lists that are sorted already. *)
Theorem C159_sort_exactly : forall V (less : V -> V -> bool) z (m : bmemory V) s l, sized_at z m s l ->
  let sorted := StronglySorted (fun a b => less (snd b) (snd a) = false) in
  (exists z' m' l', sized_sort less s z m = SReturned tt z' m' /\ sized_at z' m' s l' /\ Permutation l l' /\ sorted l') <-> sorted l.
Proof.
  intros V less z m s l Hl sorted. split.
  - intros (z' & m' & l' & [= <- <-] & [Hl' _] & _ & Hs). now rewrite (C159_elements_determined V m s l l' (proj1 Hl) Hl').
  - intros Hs. exists z, m, l. repeat split; try apply Hl; auto.
Qed.
Print Assumptions C159_sort_exactly.
(** reverse works exactly on lists that read the same from both ends. *)
Theorem C159_reverse_exactly : forall V z (m : bmemory V) s l, sized_at z m s l ->
  (exists z' m' l', sized_reverse s z m = SReturned tt z' m' /\ sized_at z' m' s l' /\ map snd l' = rev (map snd l)) <-> map snd l = rev (map snd l).
Proof.
  intros V z m s l Hl. split.
  - intros (z' & m' & l' & [= <- <-] & [Hl' _] & Hr). now rewrite (C159_elements_determined V m s l' l Hl' (proj1 Hl)) in Hr.
  - intros Hr. exists z, m, l. split; [reflexivity|]. split; [exact Hl|exact Hr].
Qed.
Print Assumptions C159_reverse_exactly.
(** merge works, which leaves the other list empty, exactly when that is empty already. *)
Theorem C159_merge_exactly : forall V (less : V -> V -> bool) z (m : bmemory V) s l t k, sized_at z m s l -> sized_at z m t k ->
  (exists z' m' l', sized_merge less s t z m = SReturned tt z' m' /\ sized_at z' m' s l' /\ sized_at z' m' t [] /\ Permutation (l ++ k) l') <-> k = [].
Proof.
  intros V less z m s l t k Hl Hk. split.
  - intros (z' & m' & l' & [= <- <-] & _ & [Ht _] & _). exact (C159_elements_determined V m t k [] (proj1 Hk) Ht).
  - intros ->. exists z, m, l. rewrite app_nil_r. repeat split; try apply Hl; try apply Hk; auto.
Qed.
Print Assumptions C159_merge_exactly.
(** No element is equal to the one before it. *)
Fixpoint no_equal_neighbours {V} (equal : V -> V -> bool) (vs : list V) : Prop :=
  match vs with
  | a :: ((b :: _) as rest) => equal a b = false /\ no_equal_neighbours equal rest
  | _ => True
  end.
(** unique works exactly when there is nothing to remove. *)
Theorem C159_unique_exactly : forall V (equal : V -> V -> bool) z (m : bmemory V) s l, sized_at z m s l ->
  (exists z' m' n l', sized_unique equal s z m = SReturned n z' m' /\ sized_at z' m' s l' /\ n + length l' = length l /\ no_equal_neighbours equal (map snd l')) <-> no_equal_neighbours equal (map snd l).
Proof.
  intros V equal z m s l Hl. split.
  - intros (z' & m' & n & l' & [= <- <- <-] & [Hl' _] & _ & Hn). now rewrite (C159_elements_determined V m s l l' (proj1 Hl) Hl').
  - intros Hn. exists z, m, 0, l. split; [reflexivity|]. split; [exact Hl|]. split; [reflexivity|exact Hn].
Qed.
Print Assumptions C159_unique_exactly.

(** So they do not do what their names say. *)
Theorem C159_sort_refuted : ~ forall V (less : V -> V -> bool) z (m : bmemory V) s l, valid m -> sized_at z m s l -> (forall a, less a a = false) -> (forall a b c, less a b = true -> less b c = true -> less a c = true) ->
  exists z' m' l', sized_sort less s z m = SReturned tt z' m' /\ sized_at z' m' s l' /\ Permutation l l' /\ StronglySorted (fun a b => less (snd b) (snd a) = false) l'.
Proof.
  intros H. destruct (C122_two []) as (Hv & Hl & _). revert Hv Hl. generalize (fst (with_two [])) as z. generalize (snd (with_two [])) as m. intros m z Hv Hl.
  specialize (H nat (fun a b => b <? a) z m 0 three_elements Hv Hl (fun a => Nat.ltb_irrefl a)).
  apply (proj1 (C159_sort_exactly nat (fun a b => b <? a) z m 0 three_elements Hl)) in H.
  - inversion H as [|? ? _ F]. inversion F as [|? ? E]. discriminate E.
  - intros a b c. rewrite !Nat.ltb_lt. lia.
Qed.
Print Assumptions C159_sort_refuted.
Theorem C159_reverse_refuted : ~ forall V z (m : bmemory V) s l, valid m -> sized_at z m s l ->
  exists z' m' l', sized_reverse s z m = SReturned tt z' m' /\ sized_at z' m' s l' /\ map snd l' = rev (map snd l).
Proof.
  intros H. destruct (C122_two []) as (Hv & Hl & _). revert Hv Hl. generalize (fst (with_two [])) as z. generalize (snd (with_two [])) as m. intros m z Hv Hl.
  specialize (H nat z m 0 three_elements Hv Hl). apply (proj1 (C159_reverse_exactly nat z m 0 three_elements Hl)) in H. discriminate H.
Qed.
Print Assumptions C159_reverse_refuted.
Theorem C159_merge_refuted : ~ forall V (less : V -> V -> bool) z (m : bmemory V) s l t k, valid m -> sized_at z m s l -> sized_at z m t k -> apart s l t k ->
  exists z' m' l', sized_merge less s t z m = SReturned tt z' m' /\ sized_at z' m' s l' /\ sized_at z' m' t [] /\ Permutation (l ++ k) l'.
Proof.
  intros H. destruct (C122_two []) as (Hv & Hl & Hk & Ha). revert Hv Hl Hk. generalize (fst (with_two [])) as z. generalize (snd (with_two [])) as m. intros m z Hv Hl Hk.
  specialize (H nat Nat.ltb z m 0 three_elements 4 two_elements Hv Hl Hk Ha). apply (proj1 (C159_merge_exactly nat Nat.ltb z m 0 three_elements 4 two_elements Hl Hk)) in H. discriminate H.
Qed.
Print Assumptions C159_merge_refuted.
Theorem C159_unique_refuted : ~ forall V (equal : V -> V -> bool) z (m : bmemory V) s l, valid m -> sized_at z m s l ->
  exists z' m' n l', sized_unique equal s z m = SReturned n z' m' /\ sized_at z' m' s l' /\ n + length l' = length l /\ no_equal_neighbours equal (map snd l').
Proof.
  intros H. destruct (C122_two []) as (Hv & Hl & _). revert Hv Hl. generalize (fst (with_two [])) as z. generalize (snd (with_two [])) as m. intros m z Hv Hl.
  specialize (H nat (fun _ _ => true) z m 0 three_elements Hv Hl). apply (proj1 (C159_unique_exactly nat _ z m 0 three_elements Hl)) in H. destruct H as [H _]. discriminate H.
Qed.
Print Assumptions C159_unique_refuted.

(** On 10, 20, 30, sort works with < and not with >, and unique works. *)
Example C159_case : forall z (m : bmemory nat), sized_at z m 0 three_elements ->
  (exists z' m' l', sized_sort Nat.ltb 0 z m = SReturned tt z' m' /\ sized_at z' m' 0 l' /\ Permutation three_elements l' /\ StronglySorted (fun a b => (snd b <? snd a) = false) l') /\
  (exists z' m' n l', sized_unique Nat.eqb 0 z m = SReturned n z' m' /\ sized_at z' m' 0 l' /\ n + length l' = 3 /\ no_equal_neighbours Nat.eqb (map snd l')).
Proof.
  intros z m Hl. split.
  - apply (proj2 (C159_sort_exactly nat Nat.ltb z m 0 three_elements Hl)). unfold three_elements. repeat constructor.
  - apply (proj2 (C159_unique_exactly nat Nat.eqb z m 0 three_elements Hl)). repeat split.
Qed.
