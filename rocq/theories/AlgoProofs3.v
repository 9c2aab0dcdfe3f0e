(** * Searching, partitioning and sorting: proofs about calls *)

From Coq Require Import List Arith Bool Lia Permutation.
From Verif Require Import Mem MemLemmas SpecVec VecLemmas VariantProofs Sort SpecSort SortLemmas SortProofs SortProofs2 PropsSort
  SpecAlgo Algo AlgoProofs AlgoProofs2.
Import ListNotations.
Local Open Scope nat_scope.

Lemma start {V} (w : world V) b before l after : unused_names w -> range_is w b before l after ->
  R (~ someone_throws w) (heap w) b before after w l.
Proof.
  intros Hu Hr. eapply at_ext; [exact (memory_at (~ someone_throws w) w Hu (fun q => q))|].
  apply eqh_sym. now apply upd_id.
Qed.
Lemma finish {V} q (w w' : world V) b before l after : range_is w b before l after ->
  R q (heap w) b before after w' l -> unchanged w w'.
Proof.
  intros Hr H. destruct (at_memory _ _ _ H) as [S U]. split; auto. intros b'. rewrite S.
  unfold upd. destruct (Nat.eqb_spec b' b) as [->|D]; auto.
Qed.
Lemma on_some {V} (pr : V -> bool) l i : on l pr i = true -> exists v, nth_error l i = Some v /\ pr v = true.
Proof. unfold on. destruct (nth_error l i) as [v|]; [eauto|discriminate]. Qed.
Lemma on_false {V} (pr : V -> bool) l i v : on l pr i = false -> nth_error l i = Some v -> pr v = false.
Proof. unfold on. intros H E. now rewrite E in H. Qed.
Lemma on_true {V} (pr : V -> bool) l i v : on l pr i = true -> nth_error l i = Some v -> pr v = true.
Proof. unfold on. intros H E. now rewrite E in H. Qed.

Section Find.
Context {V : Type} (w : world V) (b : nat) (before : list (option V)) (l : list V) (after : list (option V))
  (Hu : unused_names w) (Hr : range_is w b before l after).
Local Notation o := (length before).

Lemma find_if_ok pr first last : first <= last <= length l ->
  ends (find_if (test_at (Some b) pr) (o + first) (o + last) tt w)
    (fun _ it w' => unchanged w w' /\ exists r, it = o + r /\ first_with pr l first last r)
    (fun _ w' => someone_throws w /\ unchanged w w').
Proof.
  intros L. refine (wp_find_if _ _ _ _ _ tt l _ (on l pr) first last w _ _ (tests_at _ _ _ _ _ l pr) (start w b before l after Hu Hr) L _ _).
  - intros r w' B F1 F2 H'. split; [eapply finish; eauto|]. exists r. split; auto. split; auto. split.
    + intros i v Hi. apply on_false, F1, Hi.
    + intros K. apply on_some, F2, K.
  - intros w' Hq H'. split; [now apply throws_dec|eapply finish; eauto].
Qed.
Lemma find_last_if_ok pr first last : first <= last <= length l ->
  ends (find_last_if (test_at (Some b) pr) (o + first) (o + last) tt w)
    (fun _ it w' => unchanged w w' /\ exists r, it = o + r /\ last_with pr l first last r)
    (fun _ w' => someone_throws w /\ unchanged w w').
Proof.
  intros L. refine (wp_find_last_if _ _ _ _ _ tt l _ (on l pr) first last w _ _ (tests_at _ _ _ _ _ l pr) (start w b before l after Hu Hr) L _ _ _).
  - intros r w' B F1 F2 H'. split; [eapply finish; eauto|]. exists r. split; auto. left. split; auto. split.
    + now apply on_some.
    + intros i v Hi. apply on_false, F2, Hi.
  - intros w' F H'. split; [eapply finish; eauto|]. exists last. split; auto. right. split; auto. intros i v Hi. apply on_false, F, Hi.
  - intros w' Hq H'. split; [now apply throws_dec|eapply finish; eauto].
Qed.
Lemma tests_negated pr X : tests (~ someone_throws w) (heap w) b before after (X := X) l (not_fn (test_at (Some b) pr)) (on l (fun v => negb (pr v))).
Proof.
  intros i x w1 Q E Hi H HQ HE. eapply tests_not; [apply tests_at|exact Hi|exact H| |exact HE].
  intros w' H'. cbv beta. replace (negb (on l pr i)) with (on l (fun v => negb (pr v)) i); auto.
  unfold on. destruct (nth_error l i) eqn:K; auto. apply nth_error_None in K. lia.
Qed.
Lemma find_if_not_ok pr first last : first <= last <= length l ->
  ends (find_if_not (test_at (Some b) pr) (o + first) (o + last) tt w)
    (fun _ it w' => unchanged w w' /\ exists r, it = o + r /\ first_with (fun v => negb (pr v)) l first last r)
    (fun _ w' => someone_throws w /\ unchanged w w').
Proof.
  intros L. refine (wp_find_if _ _ _ _ _ tt l _ _ first last w _ _ (tests_negated pr _) (start w b before l after Hu Hr) L _ _).
  - intros r w' B F1 F2 H'. split; [eapply finish; eauto|]. exists r. split; auto. split; auto. split.
    + intros i v Hi K. exact (on_false (fun v => negb (pr v)) l i v (F1 i Hi) K).
    + intros K. apply (on_some (fun v => negb (pr v))), F2, K.
  - intros w' Hq H'. split; [now apply throws_dec|eapply finish; eauto].
Qed.
Lemma find_last_if_not_ok pr first last : first <= last <= length l ->
  ends (find_last_if_not (test_at (Some b) pr) (o + first) (o + last) tt w)
    (fun _ it w' => unchanged w w' /\ exists r, it = o + r /\ last_with (fun v => negb (pr v)) l first last r)
    (fun _ w' => someone_throws w /\ unchanged w w').
Proof.
  intros L. refine (wp_find_last_if _ _ _ _ _ tt l _ _ first last w _ _ (tests_negated pr _) (start w b before l after Hu Hr) L _ _ _).
  - intros r w' B F1 F2 H'. split; [eapply finish; eauto|]. exists r. split; auto. left. split; auto. split.
    + now apply (on_some (fun v => negb (pr v))).
    + intros i v Hi K. exact (on_false (fun v => negb (pr v)) l i v (F2 i Hi) K).
  - intros w' F H'. split; [eapply finish; eauto|]. exists last. split; auto. right. split; auto.
    intros i v Hi K. exact (on_false (fun v => negb (pr v)) l i v (F i Hi) K).
  - intros w' Hq H'. split; [now apply throws_dec|eapply finish; eauto].
Qed.
(** all, any and none. *)
Lemma find_whole pr (Q : unit -> nat -> world V -> Prop) (E : unit -> world V -> Prop) :
  (forall w' r, unchanged w w' -> first_with pr l 0 (length l) r -> Q tt (o + r) w') ->
  (forall w', someone_throws w -> unchanged w w' -> E tt w') ->
  wp (find_if (test_at (Some b) pr) o (o + length l)) tt w Q E.
Proof.
  intros HQ HE. replace o with (o + 0) at 1 by lia.
  pose proof (find_if_ok pr 0 (length l) ltac:(lia)) as K. unfold ends in K. unfold wp.
  destruct (find_if _ _ _ tt w) as [[] r w'|[] w'|f]; auto.
  - destruct K as (U & k & -> & F). auto.
  - destruct K. auto.
Qed.
Lemma find_not_whole pr (Q : unit -> nat -> world V -> Prop) (E : unit -> world V -> Prop) :
  (forall w' r, unchanged w w' -> first_with (fun v => negb (pr v)) l 0 (length l) r -> Q tt (o + r) w') ->
  (forall w', someone_throws w -> unchanged w w' -> E tt w') ->
  wp (find_if_not (test_at (Some b) pr) o (o + length l)) tt w Q E.
Proof.
  intros HQ HE. replace o with (o + 0) at 1 by lia.
  pose proof (find_if_not_ok pr 0 (length l) ltac:(lia)) as K. unfold ends in K. unfold wp.
  destruct (find_if_not _ _ _ tt w) as [[] r w'|[] w'|f]; auto.
  - destruct K as (U & k & -> & F). auto.
  - destruct K. auto.
Qed.
Lemma whole_end pr r : first_with pr l 0 (length l) r -> (r = length l <-> forall v, In v l -> pr v = false).
Proof.
  intros (B & F1 & F2). split.
  - intros -> v Hv. apply In_nth_error in Hv as [i Hi]. assert (i < length l) by (eapply nth_lt; eauto). eapply F1; [|exact Hi]. lia.
  - intros A. destruct (Nat.eq_dec r (length l)) as [E|N]; auto. destruct F2 as (v & Hv & Pv); [lia|].
    rewrite A in Pv; [discriminate|]. eapply nth_error_In; eauto.
Qed.
Lemma all_ok pr :
  ends (all (test_at (Some b) pr) o (o + length l) tt w)
    (fun _ r w' => unchanged w w' /\ (r = true <-> forall v, In v l -> pr v = true))
    (fun _ w' => someone_throws w /\ unchanged w w').
Proof.
  refine (wp_bind _ _ tt w _ _ _). apply find_not_whole.
  - intros w' r U F. apply wp_ret. split; auto. apply whole_end in F. rewrite Nat.eqb_eq. split.
    + intros K v Hv. apply negb_false_iff. apply F; auto. lia.
    + intros A. f_equal. apply F. intros v Hv. apply negb_false_iff. auto.
  - auto.
Qed.
Lemma any_ok pr :
  ends (any (test_at (Some b) pr) o (o + length l) tt w)
    (fun _ r w' => unchanged w w' /\ (r = true <-> exists v, In v l /\ pr v = true))
    (fun _ w' => someone_throws w /\ unchanged w w').
Proof.
  refine (wp_bind _ _ tt w _ _ _). apply find_whole.
  - intros w' r U F. apply wp_ret. split; auto. pose proof (whole_end _ _ F) as W. destruct F as (B & F1 & F2).
    rewrite negb_true_iff, Nat.eqb_neq. split.
    + intros K. destruct F2 as (v & Hv & Pv); [lia|]. exists v. split; auto. eapply nth_error_In; eauto.
    + intros (v & Hv & Pv) K. assert (K' : r = length l) by lia. rewrite (proj1 W K' v Hv) in Pv. discriminate.
  - auto.
Qed.
Lemma none_ok pr :
  ends (none (test_at (Some b) pr) o (o + length l) tt w)
    (fun _ r w' => unchanged w w' /\ (r = true <-> ~ exists v, In v l /\ pr v = true))
    (fun _ w' => someone_throws w /\ unchanged w w').
Proof.
  refine (wp_bind _ _ tt w _ _ _). apply find_whole.
  - intros w' r U F. apply wp_ret. split; auto. apply whole_end in F. rewrite Nat.eqb_eq. split.
    + intros K (v & Hv & Pv). assert (K' : r = length l) by lia. rewrite (proj1 F K' v Hv) in Pv. discriminate.
    + intros A. f_equal. apply F. intros v Hv. destruct (pr v) eqn:Pv; auto. elim A. eauto.
  - auto.
Qed.
End Find.

(** ** Splitting *)
Lemma splits_iff {V} (pr : V -> bool) l r : split_at pr l r <-> splits pr l r.
Proof.
  split.
  - intros (L & F1 & F2). split; auto. split.
    + intros v Hv. apply In_nth_error in Hv as [k Hk].
      assert (Hk' : k < r). { assert (k < length (firstn r l)) by (eapply nth_lt; eauto). rewrite firstn_length in *. lia. }
      specialize (F1 k Hk'). rewrite <- (firstn_skipn r l) in F1. eapply on_true; [exact F1|]. rewrite nth_error_app1; auto. eapply nth_lt; eauto.
    + intros v Hv. apply In_nth_error in Hv as [k Hk]. specialize (F2 (r + k) ltac:(lia)). eapply on_false; [exact F2|].
      rewrite <- (firstn_skipn r l), nth_error_app2 by (rewrite firstn_length; lia).
      rewrite firstn_length_le by lia. now replace (r + k - r) with k by lia.
  - intros (L & F1 & F2). split; auto. split.
    + intros i Hi. unfold on. destruct (nth_error l i) as [v|] eqn:E; [|apply nth_error_None in E; lia].
      apply F1. rewrite <- (firstn_skipn r l), nth_error_app1 in E by (rewrite firstn_length; lia). eapply nth_error_In; eauto.
    + intros i Hi. unfold on. destruct (nth_error l i) as [v|] eqn:E; auto.
      apply F2. rewrite <- (firstn_skipn r l), nth_error_app2 in E by (rewrite firstn_length; lia). eapply nth_error_In; eauto.
Qed.

Section Split.
Context {V : Type} (w : world V) (b : nat) (before : list (option V)) (l : list V) (after : list (option V))
  (Hu : unused_names w) (Hr : range_is w b before l after).
Local Notation o := (length before).

Lemma is_partitioned_ok pr :
  ends (is_partitioned (test_at (Some b) pr) o (o + length l) tt w)
    (fun _ r w' => unchanged w w' /\ (r = true <-> exists k, splits pr l k))
    (fun _ w' => someone_throws w /\ unchanged w w').
Proof.
  refine (wp_bind (find_if_not (test_at (Some b) pr) o (o + length l)) _ tt w _ _ _).
  replace (find_if_not (test_at (Some b) pr) o) with (find_if_not (X := unit) (test_at (Some b) pr) (o + 0)) by (now rewrite Nat.add_0_r).
  eapply wp_find_if_not; [apply tests_at|exact (start w b before l after Hu Hr)|lia| |].
  2:{ intros w' Hq H'. split; [now apply throws_dec|eapply finish; eauto]. }
  intros r w' B F1 F2 H'. apply wp_bind. eapply wp_find_if; [apply tests_at|exact H'|lia| |].
  2:{ intros w2 Hq H2. split; [now apply throws_dec|eapply finish; eauto]. }
  intros r2 w2 B2 F3 F4 H2. apply wp_ret. split; [eapply finish; eauto|]. rewrite Nat.eqb_eq. split.
  - intros K. exists r. apply splits_iff. split; [lia|]. split; [intros i Hi; apply F1; lia|].
    intros i Hi. destruct (le_lt_dec (length l) i); [now apply on_out|]. apply F3. lia.
  - intros [k Hk]. apply splits_iff in Hk as (Lk & K1 & K2). destruct (Nat.eq_dec r2 (length l)) as [->|N]; auto. exfalso.
    assert (A : on l pr r2 = true) by (apply F4; lia).
    assert (C : on l pr r = false) by (apply F2; lia).
    destruct (le_lt_dec k r2) as [G|G]; [rewrite K2 in A by auto; discriminate|]. rewrite K1 in C by lia. discriminate.
Qed.
Lemma partition_ok pr (backwards : bool) :
  ends ((if backwards then partition else partition_forward) (Some b) (test_at (Some b) pr) o (o + length l) tt w)
    (fun _ it w' => unused_names w' /\ only_in b w w' /\ exists l' r, it = o + r /\ range_is w' b before l' after /\ Permutation l l' /\ splits pr l' r)
    (fun _ w' => someone_throws w /\ unused_names w' /\ only_in b w w' /\ exists l', range_is w' b before l' after /\ Permutation l l').
Proof.
  assert (HQ : forall l' r w', Permutation l l' -> split_at pr l' r -> R (~ someone_throws w) (heap w) b before after w' l' ->
    unused_names w' /\ only_in b w w' /\ exists l'' r', o + r = o + r' /\ range_is w' b before l'' after /\ Permutation l l'' /\ splits pr l'' r').
  { intros l' r w' P S H'. destruct (range_after _ _ _ _ _ _ _ _ Hr H') as (R1 & R2 & R3). split; auto. split; auto.
    exists l', r. split; auto. split; auto. split; auto. now apply splits_iff. }
  assert (HE : forall l' w', ~ ~ someone_throws w -> Permutation l l' -> R (~ someone_throws w) (heap w) b before after w' l' ->
    someone_throws w /\ unused_names w' /\ only_in b w w' /\ exists l'', range_is w' b before l'' after /\ Permutation l l'').
  { intros l' w' Hq P H'. destruct (range_after _ _ _ _ _ _ _ _ Hr H') as (R1 & R2 & R3). split; [now apply throws_dec|]. eauto. }
  destruct backwards.
  - refine (wp_partition _ _ _ _ _ tt l pr (length l) w _ _ (start w b before l after Hu Hr) eq_refl HQ HE).
  - refine (wp_partition_forward _ _ _ _ _ tt l pr (length l) w _ _ (start w b before l after Hu Hr) eq_refl HQ HE).
Qed.
Lemma iterator_partition_ok lt m v : strict_weak_order lt -> nth_error l m = Some v ->
  ends (iterator_partition lt (Some b) o (o + m) (o + length l) tt w)
    (fun _ it w' => unused_names w' /\ only_in b w w' /\ exists l' r, it = o + r /\ range_is w' b before l' after /\ Permutation l l' /\
       splits (fun u => lt u v) l' r)
    (fun _ w' => someone_throws w /\ unused_names w' /\ only_in b w w' /\ exists l', range_is w' b before l' after /\ Permutation l l').
Proof.
  intros Hlt Hm.
  refine (wp_iterator_partition _ _ _ _ _ tt lt l m v (length l) w _ _ Hlt (start w b before l after Hu Hr) eq_refl Hm _ _).
  - intros l' r w' P S H'. destruct (range_after _ _ _ _ _ _ _ _ Hr H') as (R1 & R2 & R3). split; auto. split; auto.
    exists l', r. split; auto. split; auto. split; auto. now apply splits_iff.
  - intros l' w' Hq P H'. destruct (range_after _ _ _ _ _ _ _ _ Hr H') as (R1 & R2 & R3). split; [now apply throws_dec|]. eauto.
Qed.

(** ** Binary search *)
Lemma wp_point pr k first count (Q : unit -> nat -> world V -> Prop) (E : unit -> world V -> Prop) w1 :
  splits pr l k -> R (~ someone_throws w) (heap w) b before after w1 l -> first + count = length l -> first <= k ->
  (forall w', R (~ someone_throws w) (heap w) b before after w' l -> Q tt (o + k) w') ->
  (forall w', someone_throws w -> unchanged w w' -> E tt w') ->
  wp (partition_point (test_at (Some b) pr) (o + first) count) tt w1 Q E.
Proof.
  intros S H Hc Hk HQ HE. apply splits_iff in S as (Lk & K1 & K2).
  eapply wp_partition_point; [apply tests_at|exact H|lia| | |].
  - intros i j Hi Hj Oj. destruct (le_lt_dec k j) as [G|G]; [rewrite K2 in Oj by auto; discriminate|]. apply K1. lia.
  - intros r w' B F1 F2 H'. replace r with k; auto. rewrite Hc in *.
    destruct (lt_eq_lt_dec k r) as [[G|G]|G]; auto.
    + specialize (F1 k ltac:(lia)). rewrite K2 in F1 by auto. discriminate.
    + specialize (F2 r ltac:(lia)). rewrite K1 in F2 by auto. discriminate.
  - intros w' Hq H'. apply HE; [now apply throws_dec|eapply finish; eauto].
Qed.
Lemma partition_point_ok pr : (exists k, splits pr l k) ->
  ends (partition_point (test_at (Some b) pr) o (length l) tt w)
    (fun _ it w' => unchanged w w' /\ exists r, it = o + r /\ splits pr l r)
    (fun _ w' => someone_throws w /\ unchanged w w').
Proof.
  intros [k Hk]. refine (_ : wp (partition_point (test_at (Some b) pr) o (length l)) tt w _ _).
  replace o with (o + 0) at 1 by lia. eapply wp_point; [exact Hk|exact (start w b before l after Hu Hr)|lia|lia| |auto].
  intros w' H'. split; [eapply finish; eauto|]. eauto.
Qed.
(** The place where a monotone predicate changes. *)
Lemma monotone_splits (pr : V -> bool) (l0 : list V) :
  (forall i j u v, i < j -> nth_error l0 i = Some u -> nth_error l0 j = Some v -> pr v = true -> pr u = true) -> exists k, splits pr l0 k.
Proof.
  induction l0 as [|a l0 IH]; intros Hm. { exists 0. split; auto. split; intros v []. }
  destruct (pr a) eqn:Pa.
  - destruct IH as (k & Lk & K1 & K2). { intros i j u v Hij Hi Hj. apply (Hm (S i) (S j) u v); auto. lia. }
    exists (S k). split; [cbn; lia|]. split; auto. cbn. intros v [<-|Hv]; auto.
  - exists 0. split; [lia|]. split; [intros v []|]. cbn. intros v [<-|Hv]; auto. destruct (pr v) eqn:Pv; auto.
    apply In_nth_error in Hv as [j Hj]. rewrite (Hm 0 (S j) a v) in Pa; auto. lia.
Qed.
Lemma lower_splits lt value : strict_weak_order lt -> ordered lt l -> exists k, splits (fun v => lt v value) l k.
Proof.
  intros Hlt Ho. apply monotone_splits. intros i j u v Hij Hi Hj Hv. pose proof (Ho i j u v Hij Hi Hj) as G.
  destruct (lt u value) eqn:K; auto. rewrite (ge_trans lt Hlt value u v) in Hv; auto. 
Qed.
Lemma upper_splits lt value : strict_weak_order lt -> ordered lt l -> exists k, splits (fun v => negb (lt value v)) l k.
Proof.
  intros Hlt Ho. apply monotone_splits. intros i j u v Hij Hi Hj Hv. pose proof (Ho i j u v Hij Hi Hj) as G.
  apply negb_true_iff in Hv. apply negb_true_iff. eapply (ge_trans lt Hlt); eauto.
Qed.

Lemma splits_mono pr k v r : splits pr l k -> nth_error l r = Some v -> (pr v = true <-> r < k).
Proof.
  intros S Hv. apply splits_iff in S as (L & K1 & K2). destruct (le_lt_dec k r) as [G|G].
  - rewrite (on_false _ _ _ _ (K2 r G) Hv). split; [discriminate|lia].
  - rewrite (on_true _ _ _ _ (K1 r G) Hv). split; auto.
Qed.
Lemma lower_bound_ok lt value : strict_weak_order lt -> ordered lt l ->
  ends (lower_bound lt (Some b) value o (length l) tt w)
    (fun _ it w' => unchanged w w' /\ exists r, it = o + r /\ splits (fun v => lt v value) l r)
    (fun _ w' => someone_throws w /\ unchanged w w').
Proof. intros Hlt Ho. apply partition_point_ok. now apply lower_splits. Qed.
Lemma upper_bound_ok lt value : strict_weak_order lt -> ordered lt l ->
  ends (upper_bound lt (Some b) value o (length l) tt w)
    (fun _ it w' => unchanged w w' /\ exists r, it = o + r /\ splits (fun v => negb (lt value v)) l r)
    (fun _ w' => someone_throws w /\ unchanged w w').
Proof. intros Hlt Ho. apply partition_point_ok. now apply upper_splits. Qed.
Lemma lower_upper lt value r1 r2 : strict_weak_order lt ->
  splits (fun v => lt v value) l r1 -> splits (fun v => negb (lt value v)) l r2 -> r1 <= r2.
Proof.
  intros Hlt S1 S2. destruct (le_lt_dec r1 r2) as [G|G]; auto. exfalso.
  assert (L1 : r1 <= length l) by apply S1.
  destruct (nth_error l r2) as [v|] eqn:E; [|apply nth_error_None in E; lia].
  pose proof (proj2 (splits_mono _ _ _ _ S1 E) G) as K. cbv beta in K.
  pose proof (splits_mono _ _ _ _ S2 E) as K2. cbv beta in K2. rewrite (lt_asym lt Hlt _ _ K) in K2. cbn in K2.
  assert (r2 < r2) by (now apply K2). lia.
Qed.
Lemma equal_range_ok lt value : strict_weak_order lt -> ordered lt l ->
  ends (equal_range lt (Some b) value o (length l) tt w)
    (fun _ its w' => unchanged w w' /\ exists r1 r2, its = (o + r1, o + r2) /\ r1 <= r2 /\
       splits (fun v => lt v value) l r1 /\ splits (fun v => negb (lt value v)) l r2)
    (fun _ w' => someone_throws w /\ unchanged w w').
Proof.
  intros Hlt Ho. destruct (lower_splits lt value Hlt Ho) as [r1 S1], (upper_splits lt value Hlt Ho) as [r2 S2].
  pose proof (lower_upper _ _ _ _ Hlt S1 S2) as L.
  assert (L1 : r1 <= length l) by apply S1.
  refine (wp_bind (lower_bound lt (Some b) value o (length l)) _ tt w _ _ _).
  unfold lower_bound. replace o with (o + 0) at 1 by lia.
  eapply wp_point; [exact S1|exact (start w b before l after Hu Hr)|lia|lia| |auto].
  intros w1 H1. apply wp_bind, wp_distance; [lia|]. apply wp_bind.
  eapply wp_point; [exact S2|exact H1|lia|lia| |auto].
  intros w2 H2. apply wp_ret. split; [eapply finish; eauto|]. exists r1, r2. auto.
Qed.
Lemma binary_search_ok lt value : strict_weak_order lt -> ordered lt l ->
  ends (binary_search lt (Some b) value o (length l) tt w)
    (fun _ r w' => unchanged w w' /\ (r = true <-> exists v, In v l /\ equivalent lt v value = true))
    (fun _ w' => someone_throws w /\ unchanged w w').
Proof.
  intros Hlt Ho. destruct (lower_splits lt value Hlt Ho) as [r1 S1].
  assert (L1 : r1 <= length l) by apply S1.
  refine (wp_bind (lower_bound lt (Some b) value o (length l)) _ tt w _ _ _).
  unfold lower_bound. replace o with (o + 0) at 1 by lia.
  eapply wp_point; [exact S1|exact (start w b before l after Hu Hr)|lia|lia| |auto].
  intros w1 H1. destruct (Nat.eqb_spec (o + r1) (o + length l)) as [K|K].
  - apply wp_ret. split; [eapply finish; eauto|]. split; [discriminate|]. intros (v & Hv & Ev). exfalso.
    apply In_nth_error in Hv as [i Hi]. assert (i < length l) by (eapply nth_lt; eauto).
    unfold equivalent in Ev. rewrite (proj2 (splits_mono _ _ _ _ S1 Hi)) in Ev by lia. discriminate.
  - eapply tests_at; [|exact H1| |]. { lia. }
    2:{ intros w' Hq H'. split; [now apply throws_dec|eapply finish; eauto]. }
    intros w' H'. split; [eapply finish; eauto|].
    destruct (nth_error l r1) as [v|] eqn:Ev; [|apply nth_error_None in Ev; lia].
    unfold on. rewrite Ev. split.
    + intros Hv. exists v. split; [eapply nth_error_In; eauto|]. unfold equivalent. rewrite Hv.
      pose proof (splits_mono _ _ _ _ S1 Ev) as M. cbv beta in M. destruct (lt v value); auto. destruct M as [M _]. specialize (M eq_refl). lia.
    + intros (u & Hin & Eu). unfold equivalent in Eu. apply andb_prop in Eu as [E1 E2]. apply negb_true_iff in E1, E2. apply negb_true_iff.
      apply In_nth_error in Hin as [j Hj]. pose proof (splits_mono _ _ _ _ S1 Hj) as M. cbv beta in M. rewrite E1 in M.
      destruct (lt_eq_lt_dec r1 j) as [[G|G]|G].
      * eapply (ge_trans lt Hlt); [|exact E2]. apply (Ho r1 j v u); auto.
      * subst j. assert (u = v) by congruence. now subst u.
      * destruct M as [_ M]. discriminate (M G).
Qed.

(** ** Extreme elements *)
Lemma min_element_ok lt : strict_weak_order lt ->
  ends (min_element lt (Some b) o (length l) tt w)
    (fun _ it w' => unchanged w w' /\ (l = [] -> it = o) /\
       (l <> [] -> exists r m, it = o + r /\ nth_error l r = Some m /\ (forall v, In v l -> lt v m = false) /\
          (forall i v, i < r -> nth_error l i = Some v -> lt m v = true)))
    (fun _ w' => someone_throws w /\ unchanged w w').
Proof.
  intros Hlt. refine (wp_min_element _ _ _ _ _ tt l lt w _ _ (start w b before l after Hu Hr) _ _ _).
  - intros El. split; [split; auto|]. split; auto. intros N. elim (N El).
  - intros r v w' Hv (s & S0 & Sr & Hs) H'. split; [eapply finish; eauto|].
    assert (Ln : 0 < length l). { assert (r < length l) by (eapply nth_lt; eauto). lia. }
    split. { intros El. rewrite El in Ln. cbn in Ln. lia. }
    intros _. exists r, v. split; auto. split; auto.
    assert (I : forall i, i <= length l - 1 -> s i <= i /\ forall m, nth_error l (s i) = Some m ->
      (forall k u, k <= i -> nth_error l k = Some u -> lt u m = false) /\ (forall k u, k < s i -> nth_error l k = Some u -> lt m u = true)).
    { induction i as [|i IH]; intros Hi.
      - rewrite S0. split; auto. intros m Hm. split.
        + intros k u Hk Hu'. assert (k = 0) by lia. subst k. assert (u = m) by congruence. subst u. apply lt_irrefl, Hlt.
        + intros k u Hk. lia.
      - destruct (IH ltac:(lia)) as [Le IHm].
        destruct (nth_error l (s i)) as [m0|] eqn:Em; [|apply nth_error_None in Em; lia].
        destruct (nth_error l (S i)) as [c|] eqn:Ec; [|apply nth_error_None in Ec; lia].
        destruct (IHm m0 eq_refl) as [I1 I2]. rewrite (Hs i m0 c) by (auto; lia). destruct (lt c m0) eqn:K.
        + split; auto. intros m Hm. assert (m = c) by congruence. subst m. split.
          * intros k u Hk Hu'. destruct (Nat.eq_dec k (S i)) as [->|D].
            -- assert (u = c) by congruence. subst u. apply lt_irrefl, Hlt.
            -- apply (lt_asym lt Hlt). apply (lt_ge_trans lt Hlt _ m0); auto. apply (I1 k); auto. lia.
          * intros k u Hk Hu'. apply (lt_ge_trans lt Hlt _ m0); auto. apply (I1 k); auto. lia.
        + split; [lia|]. intros m Hm. assert (m = m0) by congruence. subst m. split; auto.
          intros k u Hk Hu'. destruct (Nat.eq_dec k (S i)) as [->|D].
          -- assert (u = c) by congruence. now subst u.
          -- apply (I1 k); auto. lia. }
    destruct (I (length l - 1) (le_n _)) as [_ Im]. rewrite Sr in Im. destruct (Im v Hv) as [I1 I2]. split; auto.
    intros u Hin. apply In_nth_error in Hin as [k Hk]. apply (I1 k); auto. assert (k < length l) by (eapply nth_lt; eauto). lia.
  - intros w' Hq H'. split; [now apply throws_dec|eapply finish; eauto].
Qed.
Lemma max_element_ok gt : strict_weak_order gt ->
  ends (max_element gt (Some b) o (length l) tt w)
    (fun _ it w' => unchanged w w' /\ (l = [] -> it = o) /\
       (l <> [] -> exists r m, it = o + r /\ nth_error l r = Some m /\ (forall v, In v l -> gt v m = false) /\
          (forall i v, r < i -> nth_error l i = Some v -> gt m v = true)))
    (fun _ w' => someone_throws w /\ unchanged w w').
Proof.
  intros Hlt. unfold max_element. refine (wp_min_element _ _ _ _ _ tt l _ w _ _ (start w b before l after Hu Hr) _ _ _).
  - intros El. split; [split; auto|]. split; auto. intros N. elim (N El).
  - intros r v w' Hv (s & S0 & Sr & Hs) H'. split; [eapply finish; eauto|].
    assert (Ln : 0 < length l). { assert (r < length l) by (eapply nth_lt; eauto). lia. }
    split. { intros El. rewrite El in Ln. cbn in Ln. lia. }
    intros _. exists r, v. split; auto. split; auto.
    assert (I : forall i, i <= length l - 1 -> s i <= i /\ forall m, nth_error l (s i) = Some m ->
      (forall k u, k <= i -> nth_error l k = Some u -> gt u m = false) /\ (forall k u, s i < k <= i -> nth_error l k = Some u -> gt m u = true)).
    { induction i as [|i IH]; intros Hi.
      - rewrite S0. split; auto. intros m Hm. split.
        + intros k u Hk Hu'. assert (k = 0) by lia. subst k. assert (u = m) by congruence. subst u. apply lt_irrefl, Hlt.
        + intros k u Hk. lia.
      - destruct (IH ltac:(lia)) as [Le IHm].
        destruct (nth_error l (s i)) as [m0|] eqn:Em; [|apply nth_error_None in Em; lia].
        destruct (nth_error l (S i)) as [c|] eqn:Ec; [|apply nth_error_None in Ec; lia].
        destruct (IHm m0 eq_refl) as [I1 I2]. rewrite (Hs i m0 c) by (auto; lia). destruct (gt m0 c) eqn:K; cbn [negb].
        + split; [lia|]. intros m Hm. assert (m = m0) by congruence. subst m. split.
          * intros k u Hk Hu'. destruct (Nat.eq_dec k (S i)) as [->|D].
            -- assert (u = c) by congruence. subst u. now apply (lt_asym gt Hlt).
            -- apply (I1 k); auto. lia.
          * intros k u Hk Hu'. destruct (Nat.eq_dec k (S i)) as [->|D].
            -- assert (u = c) by congruence. now subst u.
            -- apply (I2 k); auto. lia.
        + split; auto. intros m Hm. assert (m = c) by congruence. subst m. split.
          * intros k u Hk Hu'. destruct (Nat.eq_dec k (S i)) as [->|D].
            -- assert (u = c) by congruence. subst u. apply lt_irrefl, Hlt.
            -- apply (ge_trans gt Hlt _ m0); auto. apply (I1 k); auto. lia.
          * intros k u Hk. lia. }
    destruct (I (length l - 1) (le_n _)) as [_ Im]. rewrite Sr in Im. destruct (Im v Hv) as [I1 I2]. split.
    + intros u Hin. apply In_nth_error in Hin as [k Hk]. apply (I1 k); auto. assert (k < length l) by (eapply nth_lt; eauto). lia.
    + intros k u Hk Hu'. apply (I2 k); auto. assert (k < length l) by (eapply nth_lt; eauto). lia.
  - intros w' Hq H'. split; [now apply throws_dec|eapply finish; eauto].
Qed.
Lemma new_sort_ok (moved : V -> V) lt (hs : ptr -> nat -> nat -> M V unit unit) cheap depth : strict_weak_order lt -> sorts_ranges lt hs ->
  ends (introsort moved hs lt cheap depth (Some b) o (length l) tt w)
    (fun _ _ w' => unused_names w' /\ only_in b w w' /\ (~ someone_throws w -> ~ someone_throws w') /\
       exists l', range_is w' b before l' after /\ sorting lt l l')
    (fun _ w' => someone_throws w /\ unused_names w' /\ only_in b w w' /\ exists l', range_is w' b before l' after /\ Permutation l l').
Proof.
  intros Hlt Hs.
  refine (wp_introsort moved _ lt Hlt hs cheap depth (sorts_from _ lt hs Hs) tt _ _ _ _ l (length l) w _ _ (start w b before l after Hu Hr) eq_refl _ _).
  - intros l' w' S H'. destruct (range_after _ _ _ _ _ _ _ _ Hr H') as (R1 & R2 & R3). split; auto. split; auto. split; eauto.
    destruct H' as (_ & _ & H3). exact H3.
  - intros l' w' Hq P H'. destruct (range_after _ _ _ _ _ _ _ _ Hr H') as (R1 & R2 & R3). split; [now apply throws_dec|]. eauto.
Qed.
End Split.

(** ** How often a binary search calls its predicate *)
Definition bits (n : nat) : nat := match n with 0 => 0 | _ => S (Nat.log2 n) end.
Lemma bits_half n : n <> 0 -> S (bits (n / 2)) <= bits n.
Proof.
  intros N. destruct n as [|n]; [easy|]. unfold bits at 2.
  destruct (Nat.eq_dec n 0) as [->|N1]; [cbn; lia|].
  assert (H2 : 1 <= S n / 2) by (apply Nat.div_le_lower_bound; lia).
  destruct (S n / 2) as [|q] eqn:E; [lia|]. cbn [bits].
  assert (K : Nat.log2 (S q) < Nat.log2 (S n)); [|lia].
  apply Nat.le_lt_trans with (Nat.log2 (S q)); auto.
  assert (S (Nat.log2 (S q)) = Nat.log2 (2 * S q)) as K by (symmetry; apply Nat.log2_double; lia).
  apply Nat.lt_le_trans with (Nat.log2 (2 * S q)); [lia|]. apply Nat.log2_le_mono. rewrite <- E.
  apply Nat.mul_div_le. lia.
Qed.
Lemma bits_mono n m : n <= m -> bits n <= bits m.
Proof. intros H. destruct n, m; cbn [bits]; try lia. apply le_n_S, Nat.log2_le_mono, H. Qed.
Lemma wp_test_raw {V X} (x : X) (w : world V) b pr i cs (v : V) (Q : X -> bool -> world V -> Prop) E :
  heap w b = Some cs -> nth_error cs i = Some (Some v) -> nth 0 (script w) false = false ->
  (forall w', heap w' = heap w -> script w' = tl (script w) -> Q x (pr v) w') -> wp (test_at (Some b) pr i) x w Q E.
Proof.
  intros Hb Hi Hs HQ. unfold wp, test_at, bind, load, find_cell. rewrite Hb, Hi. unfold may_throw.
  destruct (script w) as [|[] s] eqn:K; [|discriminate|]; cbn; apply HQ; auto.
Qed.
Lemma partition_point_calls {V} (w : world V) b before l after pr :
  range_is w b before l after ->
  (forall i, i < bits (length l) -> nth i (script w) false = false) ->
  ends (partition_point (test_at (Some b) pr) (length before) (length l) tt w) (fun _ _ _ => True) (fun _ _ => False).
Proof.
  intros Hr Hs. unfold partition_point.
  assert (G : forall fuel first c (w1 : world V), c < fuel -> first + c <= length l -> heap w1 = heap w ->
    (forall i, i < bits c -> nth i (script w1) false = false) ->
    wp (partition_point_loop fuel (test_at (Some b) pr) (length before + first) c) tt w1 (fun _ _ _ => True) (fun _ _ => False)).
  { clear Hs. induction fuel as [|fuel IH]; intros first c w1 Hf L Hh Hs; [lia|]. cbn [partition_point_loop].
    destruct (Nat.eqb_spec c 0) as [->|N]; [apply wp_ret; exact I|].
    pose proof (bits_half c N) as Hb. assert (Hlt : c / 2 < c) by (apply Nat.div_lt; lia).
    assert (Hhalf : c - (c / 2 + 1) <= c / 2).
    { pose proof (Nat.div_mod c 2 ltac:(lia)). pose proof (Nat.mod_upper_bound c 2 ltac:(lia)). lia. }
    set (h := c / 2) in *. clearbody h.
    rewrite <- Nat.add_assoc. destruct (nth_error l (first + h)) as [v|] eqn:Ev; [|apply nth_error_None in Ev; lia].
    apply wp_bind. eapply wp_test_raw; [rewrite Hh; exact Hr|exact (R_cell before after l (first + h) v Ev)|apply Hs; lia|].
    intros w2 Hh2 Hs2.
    assert (Hs3 : forall i, i < bits h -> nth i (script w2) false = false).
    { intros i Hi. rewrite Hs2. specialize (Hs (S i) ltac:(lia)). destruct (script w1); [now destruct i|exact Hs]. }
    destruct (pr v).
    - replace (S (length before + (first + h))) with (length before + S (first + h)) by lia. apply IH; auto; try lia.
      + now rewrite Hh2.
      + intros i Hi. apply Hs3. eapply Nat.lt_le_trans; [exact Hi|]. now apply bits_mono.
    - apply IH; auto; try lia. now rewrite Hh2. }
  specialize (G (S (length l)) 0 (length l) w ltac:(lia) ltac:(lia) eq_refl Hs). rewrite Nat.add_0_r in G. exact G.
Qed.

(** ** A sort that fulfils the contract: selection sort *)
Fixpoint selection_sort {V X} (lt : V -> V -> bool) (p : ptr) (first n : nat) : M V X unit :=
  match n with
  | 0 => ret tt
  | S n => bind (min_element lt p first (S n)) (fun it => bind (swap_at p first it) (fun _ => selection_sort lt p (S first) n))
  end.
Lemma selection_sorts_at {V X} (lt : V -> V -> bool) (q : Prop) : strict_weak_order lt ->
  forall n (x : X) h b pre post l w (Q : X -> unit -> world V -> Prop) (E : X -> world V -> Prop), n = length l -> R q h b pre post w l ->
  (forall l' w', sorting lt l l' -> R q h b pre post w' l' -> Q x tt w') ->
  (forall l' w', ~ q -> Permutation l l' -> R q h b pre post w' l' -> E x w') ->
  wp (selection_sort lt (Some b) (length pre) n) x w Q E.
Proof.
  intros Hlt. induction n as [|n IH]; intros x h b pre post l w Q E Hn H HQ HE; cbn [selection_sort].
  - apply wp_ret. apply (HQ l); auto. destruct l; [|discriminate]. split; auto. apply ordered_nil.
  - apply wp_bind. rewrite Hn. eapply wp_min_element; [exact H| | |].
    { intros ->. discriminate. }
    2:{ intros w' Hq H'. eapply HE; eauto. }
    intros r v w1 Hv (s & S0 & Sr & Hs) H1.
    assert (Lr : r < length l) by (eapply nth_lt; eauto).
    assert (I : forall i, i <= length l - 1 -> s i <= i /\ forall m, nth_error l (s i) = Some m ->
      (forall k u, k <= i -> nth_error l k = Some u -> lt u m = false)).
    { induction i as [|i IHi]; intros Hi.
      - rewrite S0. split; auto. intros m Hm k u Hk Hu'. assert (k = 0) by lia. subst k. assert (u = m) by congruence. subst u. apply lt_irrefl, Hlt.
      - destruct (IHi ltac:(lia)) as [Le IHm].
        destruct (nth_error l (s i)) as [m0|] eqn:Em; [|apply nth_error_None in Em; lia].
        destruct (nth_error l (S i)) as [c|] eqn:Ec; [|apply nth_error_None in Ec; lia].
        pose proof (IHm m0 eq_refl) as I1. rewrite (Hs i m0 c) by (auto; lia). destruct (lt c m0) eqn:K.
        + split; auto. intros m Hm. assert (m = c) by congruence. subst m.
          intros k u Hk Hu'. destruct (Nat.eq_dec k (S i)) as [->|D].
          * assert (u = c) by congruence. subst u. apply lt_irrefl, Hlt.
          * apply (lt_asym lt Hlt). apply (lt_ge_trans lt Hlt _ m0); auto. apply (I1 k); auto. lia.
        + split; [lia|]. intros m Hm. assert (m = m0) by congruence. subst m.
          intros k u Hk Hu'. destruct (Nat.eq_dec k (S i)) as [->|D].
          -- assert (u = c) by congruence. now subst u.
          -- apply (I1 k); auto. lia. }
    destruct (I (length l - 1) (le_n _)) as [_ Im]. rewrite Sr in Im. specialize (Im v Hv).
    apply wp_bind. replace (swap_at (Some b) (length pre)) with (swap_at (V := V) (X := X) (Some b) (length pre + 0)) by (now rewrite Nat.add_0_r).
    eapply R_swap; [exact H1|lia|exact Lr|]. intros w2 H2.
    assert (P2 : Permutation l (swapl l 0 r)) by apply swapl_perm.
    assert (L2 : length (swapl l 0 r) = S n) by (rewrite swapl_length; auto).
    assert (N0 : nth_error (swapl l 0 r) 0 = Some v).
    { rewrite swapl_nth by lia. destruct (Nat.eqb_spec 0 r) as [<-|D]; auto. }
    destruct (swapl l 0 r) as [|v' l2] eqn:E2; [discriminate|]. injection N0 as ->.
    change (v :: l2) with ([v] ++ l2) in H2. apply R_split_right in H2.
    replace (S (length pre)) with (length (pre ++ map Some [v])) by (rewrite app_length; cbn; lia).
    eapply IH; [|exact H2| |].
    { cbn in L2. lia. }
    + intros l' w' S' H'. apply R_split_right in H'. apply (HQ (v :: l')); auto. destruct S' as [P' O']. split.
      * etransitivity; [exact P2|]. now constructor.
      * apply ordered_cons. split; auto. intros u Hu'. apply (Permutation_in _ (Permutation_sym P')) in Hu'.
        assert (Hin : In u l) by (apply (Permutation_in _ (Permutation_sym P2)); now right).
        apply In_nth_error in Hin as [k Hk]. apply (Im k); auto. assert (k < length l) by (eapply nth_lt; eauto). lia.
    + intros l' w' Hq P' H'. apply R_split_right in H'. apply (HE (v :: l')); auto. etransitivity; [exact P2|]. now constructor.
Qed.
Lemma selection_sorts {V X} (lt : V -> V -> bool) : strict_weak_order lt -> sorts_ranges lt (@selection_sort V X lt).
Proof.
  intros Hlt x w b before l after Hu Hr.
  refine (selection_sorts_at lt _ Hlt (length l) x _ b before after l w _ _ eq_refl (start w b before l after Hu Hr) _ _).
  - intros l' w' S H'. destruct (range_after _ _ _ _ _ _ _ _ Hr H') as (R1 & R2 & R3). split; auto. split; auto. split; auto. split; eauto.
    destruct H' as (_ & _ & H3). exact H3.
  - intros l' w' Hq P H'. destruct (range_after _ _ _ _ _ _ _ _ Hr H') as (R1 & R2 & R3). split; auto. split; auto. split; auto. split; [now apply throws_dec|]. eauto.
Qed.
