(** * Properties C71 to C73: unique, unique_copy, unique_merge_copy, unique_inplace_merge

    Memory is a list of arrays (Unique.v). [array_at h b i l] (SpecUnique.v): the elements of array [b] from index [i] on are [l].
    [run_starts equal None l]: the elements of [l] that are not equal to the one before. [uniques less l r]: [r] has the first element of every
    class of equivalent elements of [l], in increasing order. [moved v] and [self_moved v] are what is left of [v] after it was moved from and
    after it was moved to itself; the theorems hold for all of them, unless they say otherwise. [Copy] and [Move]: whether the range
    has ordinary or expiring elements (move_range). *)

From Coq Require Import List Arith Bool Lia.
From Verif Require Import SpecSort Unique SpecUnique UniqueProofs UniqueProofs2 UniqueProofs3.
Import ListNotations.
Local Open Scope nat_scope.

(** ** C71. unique and unique_copy keep the first element of every run of equal elements *)
Theorem C71_unique : forall V (moved self_moved : V -> V) equal h b i l, equivalence equal -> array_at h b i l ->
  exists h', let r := run_starts equal None l in
    unique moved self_moved equal h b i (length l) = Some (h', i + length r) /\ same_shape h h' /\ array_at h' b i r /\
    forall d k, ~ (d = b /\ i <= k < i + length l) -> read h' d k = read h d k.
Proof.
  intros V moved self_moved equal h b i l He Ha. destruct (unique_ok moved self_moved equal l h b i Ha) as (h' & H).
  - intros l1 u v l2 w -> Hw Huv. destruct He as (Hr & Hs & Ht). destruct (equal v w) eqn:E; [eapply Ht; eauto|].
    destruct (equal u w) eqn:E'; [|reflexivity]. rewrite <- E. symmetry. eapply Ht; [|exact E']. now rewrite Hs.
  - rewrite (dedup_runs equal l He) in H. eauto.
Qed.
Print Assumptions C71_unique.
(** The output of unique_copy is another array, or it does not start after the input. *)
Theorem C71_unique_copy : forall V (moved self_moved : V -> V) equal h b i l c o, equivalence equal -> array_at h b i l -> b <> c \/ o <= i ->
  let r := run_starts equal None l in (forall k, o <= k < o + length r -> read h c k <> None) ->
  exists h', unique_copy moved self_moved equal Copy h b i (length l) c o = Some (h', o + length r) /\ same_shape h h' /\ array_at h' c o r /\
    forall d k, ~ (d = c /\ o <= k < o + length r) -> read h' d k = read h d k.
Proof.
  intros V moved self_moved equal h b i l c o He Ha Hbc r Hroom. subst r. rewrite <- (dedup_runs equal l He) in *.
  destruct (copy_ok moved self_moved equal Copy l h b i c o Ha Hroom) as (h' & H1 & H2 & H3 & H4).
  - destruct Hbc as [H|H]; [left; exact H | right; right; split; [lia | left; reflexivity]].
  - exists h'. repeat split; auto.
Qed.
Print Assumptions C71_unique_copy.
Example C71_example : unique (fun _ => 77) (fun _ => 88) Nat.eqb [[5; 5; 1; 1; 1; 5; 2; 2]] 0 0 8 = Some ([[5; 1; 5; 2; 1; 77; 77; 2]], 4) /\
  equivalence Nat.eqb /\ array_at [[5; 5; 1; 1; 1; 5; 2; 2]] 0 0 [5; 5; 1; 1; 1; 5; 2; 2] /\
  unique_copy (fun _ => 77) (fun _ => 88) Nat.eqb Copy [[4; 4; 6]; [0; 0]] 0 0 3 1 0 = Some ([[4; 4; 6]; [4; 6]], 2).
Proof.
  split; [reflexivity|]. split; [|split; [intros k v Hk; exact Hk | reflexivity]].
  split; [apply Nat.eqb_refl|]. split; [apply Nat.eqb_sym|]. intros a b c H1 H2. apply Nat.eqb_eq in H1, H2. apply Nat.eqb_eq. congruence.
Qed.

(** ** C72. unique_less, unique_copy_less and unique_merge_copy of sorted ranges: the first element of every class of equivalent elements *)
Theorem C72_unique_less : forall V (moved self_moved : V -> V) less h b i l, strict_weak_order less -> ordered less l -> array_at h b i l ->
  exists h' r, unique_less moved self_moved less h b i (length l) = Some (h', i + length r) /\ uniques less l r /\ same_shape h h' /\
    array_at h' b i r /\ forall d k, ~ (d = b /\ i <= k < i + length l) -> read h' d k = read h d k.
Proof.
  intros V moved self_moved less h b i l Hlt Ho Ha. destruct (unique_ok moved self_moved (not_less less) l h b i Ha) as (h' & H1 & H2 & H3 & H4).
  - apply steady_ordered; auto.
  - exists h'. eexists. split; [exact H1|]. split; [apply uniques_dedup; auto | auto].
Qed.
Print Assumptions C72_unique_less.
Theorem C72_unique_copy_less : forall V (moved self_moved : V -> V) less h b i l c o, strict_weak_order less -> ordered less l -> array_at h b i l ->
  b <> c \/ o <= i -> (forall k, o <= k < o + length l -> read h c k <> None) ->
  exists h' r, unique_copy_less moved self_moved less Copy h b i (length l) c o = Some (h', o + length r) /\ uniques less l r /\ same_shape h h' /\
    array_at h' c o r /\ forall d k, ~ (d = c /\ o <= k < o + length r) -> read h' d k = read h d k.
Proof.
  intros V moved self_moved less h b i l c o Hlt Ho Ha Hbc Hroom.
  pose proof (dedup_length (not_less less) l) as Hlen.
  destruct (copy_ok moved self_moved (not_less less) Copy l h b i c o Ha) as (h' & H1 & H2 & H3 & H4).
  - intros k Hk. apply Hroom. lia.
  - destruct Hbc as [H|H]; [left; exact H | right; right; split; [lia | left; reflexivity]].
  - exists h', (dedup (not_less less) l). split; [exact H1|]. split; [apply uniques_dedup; auto|]. repeat split; auto.
Qed.
Print Assumptions C72_unique_copy_less.
(** The output is not in the array of the first range; when it is in the array of the second, it is at least as far before it as the first range is
    long. With [Move], a range may not be moved from where the other one is; if the output may get to its place, moving an element to
    itself must not change it. What is moved from may change, nothing else does outside the output. *)
Theorem C72_unique_merge_copy : forall V (moved self_moved : V -> V) less t h b1 i1 l1 b2 i2 l2 c o, strict_weak_order less ->
  ordered less l1 -> ordered less l2 -> array_at h b1 i1 l1 -> array_at h b2 i2 l2 ->
  b1 <> c -> t = Copy \/ b1 <> b2 ->
  b2 <> c \/ o + length l1 < i2 \/ (o + length l1 <= i2 /\ (t = Copy \/ forall v, self_moved v = v)) ->
  (forall k, o <= k < o + length l1 + length l2 -> read h c k <> None) ->
  exists h' r, unique_merge_copy moved self_moved less (S (length l1 + length l2)) t h b1 i1 (length l1) b2 i2 (length l2) c o
      = Some (h', o + length r) /\ uniques less (l1 ++ l2) r /\ same_shape h h' /\ array_at h' c o r /\
    forall d k, ~ (d = c /\ o <= k < o + length r) ->
      t = Copy \/ ~ (d = b1 /\ i1 <= k < i1 + length l1) /\ ~ (d = b2 /\ i2 <= k < i2 + length l2) -> read h' d k = read h d k.
Proof.
  intros V moved self_moved less t h b1 i1 l1 b2 i2 l2 c o Hlt Ho1 Ho2 Ha1 Ha2 Hc1 Hb Hc2 Hroom.
  pose proof (umerge_length less (S (length l1 + length l2)) l1 l2) as Hlen.
  destruct (merge_ok moved self_moved less t (S (length l1 + length l2)) h b1 i1 l1 b2 i2 l2 c o) as (h' & H1 & H2 & H3 & H4); auto.
  - intros k Hk. apply Hroom. lia.
  - exists h'. eexists. split; [exact H1|]. split; [apply uniques_merge; auto | auto].
Qed.
Print Assumptions C72_unique_merge_copy.
Example C72_example : let less a b := fst a <? fst b in
  unique_merge_copy (fun v => v) (fun v => v) less 8 Copy [[(1, 1); (3, 1); (3, 2)]; [(0, 3); (1, 3); (3, 3); (4, 3)]; repeat (0, 0) 7] 0 0 3 1 0 4 2 0
    = Some ([[(1, 1); (3, 1); (3, 2)]; [(0, 3); (1, 3); (3, 3); (4, 3)]; [(0, 3); (1, 1); (3, 1); (4, 3); (0, 0); (0, 0); (0, 0)]], 4) /\
  strict_weak_order (fun a b : nat => a <? b) /\ ordered (fun a b : nat => a <? b) [1; 3; 3].
Proof.
  cbn zeta. split; [reflexivity|]. split.
  - split; [intros a; apply Nat.ltb_irrefl|]. split.
    + intros a b c H1 H2. apply Nat.ltb_lt in H1, H2. apply Nat.ltb_lt. lia.
    + intros a b c. unfold equivalent. rewrite !andb_true_iff, !negb_true_iff, !Nat.ltb_ge. lia.
  - intros i j a b Hij Ha Hb. destruct i as [|[|[|i]]]; [| | |destruct i; discriminate]; destruct j as [|[|[|j]]]; try lia; try (destruct j; discriminate); injection Ha as <-; injection Hb as <-; reflexivity.
Qed.

(** ** C73. unique_inplace_merge merges two neighbouring sorted ranges, the first without equivalent elements, and leaves the first element of every class

    Missing: elements that are changed by being moved to themselves (next theorem). *)
Theorem C73_unique_inplace_merge_partial : forall V (moved self_moved : V -> V) less h b first l1 l2, strict_weak_order less ->
  (forall v, self_moved v = v) -> increasing less l1 -> ordered less l2 -> array_at h b first (l1 ++ l2) ->
  exists h' r, unique_inplace_merge moved self_moved less h b first (first + length l1) (first + length (l1 ++ l2)) = Some (h', first + length r) /\
    uniques less (l1 ++ l2) r /\ same_shape h h' /\ array_at h' b first r /\
    forall d k, ~ (d = b /\ first <= k < first + length (l1 ++ l2)) -> read h' d k = read h d k.
Proof. intros V moved self_moved less h b first l1 l2 Hlt Hs. apply inplace_merge_ok; auto. right. exact Hs. Qed.
Print Assumptions C73_unique_inplace_merge_partial.
(** { 2 } and { 1, 3 } are merged to { 1, 2, 3 }; the 3, which is in its place already, is moved to itself. If that changes it, say to 0, as it
    leaves a vector without its elements (C44), the result is { 1, 2, 0 }. *)
Theorem C73_self_move_refuted : exists (moved self_moved : nat -> nat) h', increasing Nat.ltb [2] /\ ordered Nat.ltb [1; 3] /\
  unique_inplace_merge moved self_moved Nat.ltb [[2; 1; 3]] 0 0 1 3 = Some (h', 3) /\ array_at h' 0 0 [1; 2; 0] /\ ~ uniques Nat.ltb [2; 1; 3] [1; 2; 0].
Proof.
  exists (fun _ => 0), (fun _ => 0), [[1; 2; 0]]. split; [|split; [|split; [reflexivity|split]]].
  - intros [|i] [|j] a b Hij Ha Hb; try lia; [destruct j; discriminate | destruct i; discriminate].
  - intros i j a b Hij Ha Hb. destruct i as [|[|i]]; [| |destruct i; discriminate]; destruct j as [|[|j]]; try lia; try (destruct j; discriminate).
    injection Ha as <-. injection Hb as <-. reflexivity.
  - intros k v Hk. exact Hk.
  - intros (H & _). specialize (H 0 2 1 0 ltac:(lia) eq_refl eq_refl). discriminate.
Qed.
Print Assumptions C73_self_move_refuted.
Example C73_example : unique_inplace_merge (fun _ => 0) (fun v => v) Nat.ltb [[9]; [1; 4; 6; 8; 1; 4; 5; 5; 8; 9; 9; 7]] 1 0 4 11
  = Some ([[9]; [1; 4; 5; 6; 8; 9; 0; 5; 8; 0; 9; 7]], 6).
Proof. reflexivity. Qed.
