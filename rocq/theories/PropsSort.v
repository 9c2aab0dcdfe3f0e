(** * Properties C58 to C61: sorting a few elements, chunked_insertion_sort, fixed_size_merge_sort, is_sorted

    [range_is w b before l after] (SpecSort.v): in the world [w] the block [b] holds living objects with the values [l], between
    [before] and [after]. [sorting lt l l']: the same elements, in order. [stable_sorting]: and equivalent elements keep
    their relative order. [ends r Q E] (SpecVec.v): the call [r] returns and then [Q], or leaves by an exception and
    then [E]; it never ends in a fault. [w] ranges over all scripts, that is over every choice of which
    comparisons throw. [cheap] is whether the element type is cheaply_sortable with this comparison. *)

From Coq Require Import List Arith Bool Lia Permutation.
From Verif Require Import Mem MemLemmas SpecVec VecLemmas VariantProofs Sort SpecSort SortLemmas SortProofs SortProofs2 SortProofs3.
Import ListNotations.
Local Open Scope nat_scope.

(** ** Concrete data for the examples: pairs ordered by their first part. *)
Definition by_key (a b : nat * nat) : bool := fst a <? fst b.
Lemma by_key_weak : strict_weak_order by_key.
Proof.
  unfold by_key. split; [|split].
  - intros a. apply Nat.ltb_irrefl.
  - intros a b c H1 H2. apply Nat.ltb_lt in H1, H2. apply Nat.ltb_lt. lia.
  - unfold equivalent. intros a b c H1 H2. apply andb_prop in H1 as [H1 H1'], H2 as [H2 H2'].
    apply negb_true_iff, Nat.ltb_ge in H1, H1', H2, H2'. apply andb_true_iff.
    split; apply negb_true_iff, Nat.ltb_ge; lia.
Qed.
Definition keys (l : list nat) : list (nat * nat) := combine l (seq 0 (length l)).
Definition one_range {V} (l : list V) (s : list bool) : world V :=
  World (fun b => if b =? 0 then Some (map Some l) else None) 1 s.
Definition same_value {V} (v : V) : V := v.
Example one_range_is {V} (l : list V) s : range_is (one_range l s) 0 [] l [] /\ unused_names (one_range l s).
Proof. split; [unfold range_is; cbn; now rewrite app_nil_r|]. intros b Hb. cbn in *. destruct b; [lia|reflexivity]. Qed.
Definition contents_of {V X A} (b : nat) (r : out V X A) : option (list (option V)) :=
  match r with Ret _ _ w | Exc _ w => heap w b | Bad _ => None end.

Lemma range_after {V} (q : Prop) (w w' : world V) b before l l' after :
  range_is w b before l after -> at_ q w' (upd (heap w) b (Some (before ++ map Some l' ++ after))) ->
  range_is w' b before l' after /\ only_in b w w' /\ unused_names w'.
Proof.
  intros Hr H. destruct (at_memory _ _ _ H) as [S U]. split; [|split; auto].
  - unfold range_is. rewrite S. apply upd_same.
  - intros b' Hb'. rewrite S. now apply upd_other.
Qed.

(** ** C58. Sorting 1 to 5 elements is stable and touches nothing else; a comparison that throws leaves the elements as they were. *)
Theorem C58_sort_exactly_n_partial : forall V (moved : V -> V) lt cheap b before l after w,
  strict_weak_order lt -> unused_names w -> range_is w b before l after -> 1 <= length l <= 5 ->
  ends (sort_exactly_n moved lt cheap (Some b) (length before) (length l) tt w)
    (fun _ _ w' => exists l', range_is w' b before l' after /\ only_in b w w' /\ unused_names w' /\
       sorting lt l l' /\ (cheap = false \/ length l <> 4 -> stable_sorting lt l l'))
    (fun _ w' => someone_throws w /\ same (heap w') (heap w) /\ unused_names w').
Proof.
  intros V moved lt cheap b before l after w Hlt Hu Hr Hn.
  pose proof (memory_at (~ someone_throws w) w Hu (fun q => q)) as H.
  assert (Ht : exists t, in_place_tree (length l) = Some t).
  { destruct (length l) as [|[|[|[|[|[|n]]]]]]; try lia; eexists; reflexivity. }
  destruct Ht as [t Ht].
  refine (wp_sort_exactly_n moved lt _ Hlt tt cheap b before l after (length l) t _ _ _ _ Ht eq_refl H Hr _ _).
  - intros l' w' Hl' H'. exists l'. destruct (range_after _ _ _ _ _ _ _ _ Hr H') as (R1 & R2 & R3).
    split; [exact R1|]. split; [exact R2|]. split; [exact R3|]. split; [eapply sorting_as_sorting; eauto|].
    intros C. replace (negb (cheap && (length l =? 4))) with true in Hl'; [exact Hl'|].
    destruct C as [->|C]; [reflexivity|]. apply Nat.eqb_neq in C. rewrite C. now destruct cheap.
  - intros w' Hq H'. split; [now apply throws_dec|]. exact (at_same _ _ _ _ H H').
Qed.
Print Assumptions C58_sort_exactly_n_partial.

(** The same through small_size_optimized_sort, for up to 5 elements; for more, its fallback is called. *)
Theorem C58_small_partial : forall V (moved : V -> V) lt cheap b before l after w large,
  strict_weak_order lt -> unused_names w -> range_is w b before l after -> length l <= 5 ->
  ends (small_size_optimized_sort moved lt cheap (Some b) (length before) (length l) large tt w)
    (fun _ _ w' => exists l', range_is w' b before l' after /\ only_in b w w' /\ unused_names w' /\
       sorting lt l l' /\ (cheap = false \/ length l <> 4 -> stable_sorting lt l l'))
    (fun _ w' => someone_throws w /\ same (heap w') (heap w) /\ unused_names w').
Proof.
  intros V moved lt cheap b before l after w large Hlt Hu Hr Hn.
  pose proof (memory_at (~ someone_throws w) w Hu (fun q => q)) as H.
  refine (wp_small_size moved lt _ Hlt tt cheap b before l after (length l) large _ _ _ _ eq_refl H Hr _ _ _).
  - intros l' w' Hl' H'. exists l'. destruct (range_after _ _ _ _ _ _ _ _ Hr H') as (R1 & R2 & R3).
    split; [exact R1|]. split; [exact R2|]. split; [exact R3|]. split; [eapply sorting_as_sorting; eauto|].
    intros C. replace (negb (cheap && (length l =? 4))) with true in Hl'; [exact Hl'|].
    destruct C as [->|C]; [reflexivity|]. apply Nat.eqb_neq in C. rewrite C. now destruct cheap.
  - intros w' Hq H'. split; [now apply throws_dec|]. exact (at_same _ _ _ _ H H').
  - lia.
Qed.
Print Assumptions C58_small_partial.
Theorem C58_small_large : forall V (moved : V -> V) lt cheap p first n large (w : world V),
  5 < n -> small_size_optimized_sort moved lt cheap p first n large tt w = large tt w.
Proof. intros V moved lt cheap p first n large w H. do 6 (destruct n as [|n]; [lia|]). reflexivity. Qed.
Print Assumptions C58_small_large.

Example C58_example :
  let l := keys [3; 1; 2; 1; 3] in
  contents_of 0 (sort_exactly_n same_value by_key false (Some 0) 0 5 tt (one_range l []))
    = Some (map Some [(1, 1); (1, 3); (2, 2); (3, 0); (3, 4)]) /\
  contents_of 0 (sort_exactly_n same_value by_key false (Some 0) 0 5 tt (one_range l [false; false; true])) = Some (map Some l).
Proof. split; vm_compute; reflexivity. Qed.

(** Not for 4 elements of a cheaply sortable type: sort_exactly_4.cpp says it is stable, but equivalent elements change places. *)
Theorem C58_four_cheap_refuted : exists (lt : nat * nat -> nat * nat -> bool) l w w',
  strict_weak_order lt /\ unused_names w /\ ~ someone_throws w /\ range_is w 0 [] l [] /\ length l = 4 /\
  sort_exactly_n same_value lt true (Some 0) 0 4 tt w = Ret tt tt w' /\
  exists l', range_is w' 0 [] l' [] /\ sorting lt l l' /\ ~ stable_sorting lt l l'.
Proof.
  exists by_key, (keys [1; 2; 2; 3]), (one_range (keys [1; 2; 2; 3]) []). eexists.
  split; [exact by_key_weak|]. split; [apply one_range_is|]. split; [intros []|]. split; [reflexivity|]. split; [reflexivity|].
  split; [vm_compute; reflexivity|].
  exists [(1, 0); (2, 2); (2, 1); (3, 3)]. split; [vm_compute; reflexivity|]. split.
  - split; [cbn; repeat constructor|]. apply ordered_cons. split; [intros ? [<-|[<-|[<-|[]]]]; reflexivity|].
    apply ordered_cons. split; [intros ? [<-|[<-|[]]]; reflexivity|]. apply ordered_cons. split; [intros ? [<-|[]]; reflexivity|].
    apply ordered_one.
  - intros [_ K]. specialize (K (2, 0)). discriminate K.
Qed.
Print Assumptions C58_four_cheap_refuted.

(** ** C59. chunked_insertion_sort sorts exactly when a smallest element is among the first [n mod 4] elements (the first four
    when [n] is a multiple of four); otherwise it loses an element. *)
Definition first_chunk (n : nat) : nat := if n mod 4 =? 0 then 4 else n mod 4.
Definition smallest_early {V} (lt : V -> V -> bool) (l : list V) : Prop :=
  exists m, In m (firstn (first_chunk (length l)) l) /\ forall v, In v l -> lt v m = false.

Theorem C59_chunked_partial : forall V (moved : V -> V) lt cheap b before l after w,
  strict_weak_order lt -> unused_names w -> ~ someone_throws w -> range_is w b before l after ->
  length l < 4 \/ smallest_early lt l ->
  ends (chunked_insertion_sort moved lt cheap (Some b) (length before) (length l) tt w)
    (fun _ _ w' => exists l', range_is w' b before l' after /\ only_in b w w' /\ unused_names w' /\
       sorting lt l l' /\ (cheap = false -> stable_sorting lt l l'))
    (fun _ _ => False).
Proof.
  intros V moved lt cheap b before l after w Hlt Hu Hq Hr Hm.
  pose proof (memory_at (~ someone_throws w) w Hu (fun q => q)) as H.
  refine (wp_chunked moved lt _ Hlt tt cheap b before l after (length l) _ _ _ _ Hq eq_refl Hm H Hr _).
  intros l' w' Hl' H'. exists l'. destruct (range_after _ _ _ _ _ _ _ _ Hr H') as (R1 & R2 & R3).
  split; [exact R1|]. split; [exact R2|]. split; [exact R3|]. split; [eapply sorting_as_sorting; eauto|].
  intros ->. exact Hl'.
Qed.
Print Assumptions C59_chunked_partial.

(** In every other case it ends in a fault. *)
Theorem C59_chunked_fails : forall V (moved : V -> V) lt cheap b before l after w,
  strict_weak_order lt -> unused_names w -> ~ someone_throws w -> range_is w b before l after ->
  4 <= length l -> ~ smallest_early lt l ->
  exists f, chunked_insertion_sort moved lt cheap (Some b) (length before) (length l) tt w = Bad f.
Proof.
  intros V moved lt cheap b before l after w Hlt Hu Hq Hr H4 Hm.
  pose proof (memory_at (~ someone_throws w) w Hu (fun q => q)) as H.
  exact (chunked_fails moved lt _ Hlt tt cheap b before l after (length l) _ _ Hq eq_refl H4 Hm H Hr).
Qed.
Print Assumptions C59_chunked_fails.

Theorem C59_chunked_refuted : exists (lt : nat * nat -> nat * nat -> bool) l w,
  strict_weak_order lt /\ unused_names w /\ ~ someone_throws w /\ range_is w 0 [] l [] /\
  chunked_insertion_sort same_value lt false (Some 0) 0 (length l) tt w = Bad Lost.
Proof.
  exists by_key, (keys [5; 0; 1; 2; 3]), (one_range (keys [5; 0; 1; 2; 3]) []).
  split; [exact by_key_weak|]. split; [apply one_range_is|]. split; [intros []|]. split; vm_compute; reflexivity.
Qed.
Print Assumptions C59_chunked_refuted.

Example C59_example :
  let l := keys [7; 0; 9; 3; 0; 8; 3; 5; 0; 1] in
  smallest_early by_key l /\
  contents_of 0 (chunked_insertion_sort same_value by_key false (Some 0) 0 10 tt (one_range l []))
    = Some (map Some [(0, 1); (0, 4); (0, 8); (1, 9); (3, 3); (3, 6); (5, 7); (7, 0); (8, 5); (9, 2)]).
Proof.
  split; [|vm_compute; reflexivity]. exists (0, 1). split; [cbn; auto|]. intros v Hv. unfold by_key. apply Nat.ltb_ge. cbn. lia.
Qed.

(** A comparison that throws while merging loses elements too. *)
Theorem C59_throwing_refuted : exists (lt : nat * nat -> nat * nat -> bool) l w,
  strict_weak_order lt /\ unused_names w /\ range_is w 0 [] l [] /\ smallest_early lt l /\
  chunked_insertion_sort same_value lt false (Some 0) 0 (length l) tt w = Bad Lost.
Proof.
  exists by_key, (keys [0; 1; 2; 3; 4]), (one_range (keys [0; 1; 2; 3; 4]) [false; false; false; false; false; false; true]).
  split; [exact by_key_weak|]. split; [apply one_range_is|]. split; [reflexivity|]. split; [|vm_compute; reflexivity].
  exists (0, 0). split; [cbn; auto|]. intros v Hv. unfold by_key. apply Nat.ltb_ge. cbn. lia.
Qed.
Print Assumptions C59_throwing_refuted.

(** ** C60. fixed_size_merge_sort sorts, stably for a type that is not cheaply sortable. *)
Theorem C60_fixed_merge_partial : forall V (moved : V -> V) lt cheap b before l after w size1 size2,
  strict_weak_order lt -> unused_names w -> ~ someone_throws w -> range_is w b before l after ->
  1 <= size1 <= 4 -> 1 <= size2 <= 5 -> length l = size1 + size2 ->
  ends (fixed_size_merge_sort moved lt cheap (Some b) (length before) size1 size2 tt w)
    (fun _ _ w' => exists l', range_is w' b before l' after /\ only_in b w w' /\ unused_names w' /\
       sorting lt l l' /\ (cheap = false \/ size1 <> 4 /\ size2 <> 4 -> stable_sorting lt l l'))
    (fun _ _ => False).
Proof.
  intros V moved lt cheap b before l after w n1 n2 Hlt Hu Hq Hr H1 H2 Hl.
  pose proof (memory_at (~ someone_throws w) w Hu (fun q => q)) as H.
  assert (L1 : n1 = length (firstn n1 l)) by (rewrite firstn_length; lia).
  assert (L2 : n2 = length (skipn n1 l)) by (rewrite skipn_length; lia).
  pose proof (firstn_skipn n1 l) as El.
  refine (wp_fixed_merge moved lt _ Hlt tt cheap b before (firstn n1 l) (skipn n1 l) after n1 n2 _ _ _ _ Hq H1 H2 L1 L2 H _ _).
  { rewrite El. exact Hr. }
  intros l' w' Hl' H'. rewrite El in Hl'. exists l'. destruct (range_after _ _ _ _ _ _ _ _ Hr H') as (R1 & R2 & R3).
  split; [exact R1|]. split; [exact R2|]. split; [exact R3|]. split; [eapply sorting_as_sorting; eauto|].
  intros C. match type of Hl' with sorting_as _ ?s _ _ => replace s with true in Hl'; [exact Hl'|] end.
  destruct C as [->|[C1 C2]]; [reflexivity|]. apply Nat.eqb_neq in C1, C2. rewrite C1, C2. now destruct cheap.
Qed.
Print Assumptions C60_fixed_merge_partial.

Example C60_example :
  let l := keys [3; 1; 2; 1; 3; 0; 2; 1] in
  contents_of 0 (fixed_size_merge_sort same_value by_key false (Some 0) 0 3 5 tt (one_range l []))
    = Some (map Some [(0, 5); (1, 1); (1, 3); (1, 7); (2, 2); (2, 6); (3, 0); (3, 4)]).
Proof. vm_compute. reflexivity. Qed.

(** A comparison that throws while merging loses elements. *)
Theorem C60_throwing_refuted : exists (lt : nat * nat -> nat * nat -> bool) l w,
  strict_weak_order lt /\ unused_names w /\ range_is w 0 [] l [] /\ length l = 4 /\
  fixed_size_merge_sort same_value lt false (Some 0) 0 2 2 tt w = Bad Lost.
Proof.
  exists by_key, (keys [0; 1; 2; 3]), (one_range (keys [0; 1; 2; 3]) [false; false; true]).
  split; [exact by_key_weak|]. split; [apply one_range_is|]. split; [reflexivity|]. split; vm_compute; reflexivity.
Qed.
Print Assumptions C60_throwing_refuted.

(** ** C61. is_sorted tells whether the elements are in order, and changes nothing. *)
Theorem C61_is_sorted : forall V (lt : V -> V -> bool) b before l after w,
  strict_weak_order lt -> unused_names w -> range_is w b before l after ->
  ends (is_sorted lt (Some b) (length before) (length l) tt w)
    (fun _ r w' => (r = true <-> ordered lt l) /\ same (heap w') (heap w) /\ unused_names w')
    (fun _ w' => someone_throws w /\ same (heap w') (heap w) /\ unused_names w').
Proof.
  intros V lt b before l after w Hlt Hu Hr.
  pose proof (memory_at (~ someone_throws w) w Hu (fun q => q)) as H.
  refine (wp_is_sorted lt _ Hlt tt b before l after (length l) _ _ _ _ eq_refl H Hr _ _).
  - intros r w' Hr' H'. split; [exact Hr'|]. exact (at_same _ _ _ _ H H').
  - intros w' Hq H'. split; [now apply throws_dec|]. exact (at_same _ _ _ _ H H').
Qed.
Print Assumptions C61_is_sorted.
Example C61_example :
  is_sorted by_key (Some 0) 0 4 tt (one_range (keys [1; 2; 2; 4]) []) = Ret tt true (one_range (keys [1; 2; 2; 4]) []) /\
  is_sorted by_key (Some 0) 0 4 tt (one_range (keys [1; 2; 4; 2]) []) = Ret tt false (one_range (keys [1; 2; 4; 2]) []).
Proof. split; vm_compute; reflexivity. Qed.
