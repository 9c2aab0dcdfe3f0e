(** * Sorting by the next byte *)

From Coq Require Import List Arith Bool Permutation Lia ZArith.
From Verif Require Import Mem MemLemmas SpecSort SortLemmas AlgoProofs DoubleBuffer RadixLemmas DoubleBufferProofs InplaceRadix InplaceProofs InplaceProofs2.
Import ListNotations.
Local Open Scope nat_scope.

Lemma filter_perm {A} (f : A -> bool) l l' : Permutation l l' -> Permutation (filter f l) (filter f l').
Proof.
  intro P. induction P as [|v l1 l2 P IH|u v l1|l1 l2 l3 P IH P' IH']; cbn.
  - reflexivity.
  - destruct (f v); [now apply perm_skip|exact IH].
  - destruct (f v), (f u); try reflexivity. apply perm_swap.
  - etransitivity; eauto.
Qed.

Section Parts.
Context {V : Type} (d : V -> nat) (l : list V).
Context (Hd : forall v, In v l -> d v < 256).
Local Notation st := (start d l).
Local Notation grouped := (grouped d l).

Lemma filter_none {A} (f : A -> bool) (r : list A) : (forall a, In a r -> f a = false) -> filter f r = [].
Proof. induction r as [|a r IH]; intro H; [reflexivity|]. cbn. rewrite (H a) by now left. apply IH. intros; apply H; now right. Qed.
Lemma filter_all {A} (f : A -> bool) (r : list A) : (forall a, In a r -> f a = true) -> filter f r = r.
Proof. induction r as [|a r IH]; intro H; [reflexivity|]. cbn. rewrite (H a) by now left. f_equal. apply IH. intros; apply H; now right. Qed.
Lemma nth_error_firstn {A} (r : list A) n k : k < n -> nth_error (firstn n r) k = nth_error r k.
Proof. revert n k. induction r as [|a r IH]; intros [|n] [|k] H; cbn; try reflexivity; try lia. apply IH. lia. Qed.
Lemma nth_error_skipn {A} (r : list A) n k : nth_error (skipn n r) k = nth_error r (n + k).
Proof. revert r. induction n as [|n IH]; intros [|a r]; cbn; try reflexivity; [destruct k; reflexivity|apply IH]. Qed.

Definition seg (i : nat) (arr : list V) : list V := firstn (st (S i) - st i) (skipn (st i) arr).
Lemma seg_split i arr : arr = firstn (st i) arr ++ seg i arr ++ skipn (st (S i)) arr.
Proof.
  unfold seg. pose proof (start_mono d l i (S i) ltac:(lia)).
  rewrite <- (firstn_skipn (st i) arr) at 1. f_equal.
  rewrite <- (firstn_skipn (st (S i) - st i) (skipn (st i) arr)) at 1. f_equal.
  apply nth_error_ext. intro k. rewrite !nth_error_skipn. f_equal. lia.
Qed.
Lemma grouped_d arr p v : grouped arr -> nth_error arr p = Some v -> d v < 256 /\ st (d v) <= p < st (S (d v)).
Proof.
  intros [P G] Hv. assert (Hb : d v < 256) by (apply Hd; eapply Permutation_in; [symmetry; exact P|eapply nth_error_In, Hv]).
  split; [exact Hb|].
  assert (p < length arr) as Hp by (apply nth_error_Some; congruence). rewrite <- (Permutation_length P), <- (st_end d l Hd) in Hp.
  destruct (groups_position d 256 l p Hp) as (i & k & Hi & Hk & ->).
  destruct (G i (st i + k) Hi) as (u & Hu & E); [rewrite start_S; lia|].
  assert (u = v) as -> by congruence. subst i. rewrite start_S. lia.
Qed.
Lemma group_seg i arr : grouped arr -> i < 256 -> group d i arr = seg i arr.
Proof.
  intros G Hi. rewrite (seg_split i arr) at 1. unfold group. rewrite !filter_app.
  rewrite (filter_none _ (firstn (st i) arr)), (filter_all _ (seg i arr)), (filter_none _ (skipn (st (S i)) arr)), app_nil_r.
  - reflexivity.
  - intros v Hv. apply In_nth_error in Hv as [k Hk]. rewrite nth_error_skipn in Hk. apply grouped_d in Hk as [_ R]; [|exact G].
    apply Nat.eqb_neq. intros <-. lia.
  - intros v Hv. apply In_nth_error in Hv as [k Hk]. unfold seg in Hk.
    assert (k < st (S i) - st i).
    { assert (k < length (firstn (st (S i) - st i) (skipn (st i) arr))) as T by (apply nth_error_Some; congruence). rewrite firstn_length in T. lia. }
    rewrite nth_error_firstn, nth_error_skipn in Hk by assumption.
    destruct (proj2 G i (st i + k) Hi) as (u & Hu & E); [lia|]. assert (u = v) as -> by congruence. now apply Nat.eqb_eq.
  - intros v Hv. apply In_nth_error in Hv as [k Hk].
    assert (k < st i).
    { assert (k < length (firstn (st i) arr)) as T by (apply nth_error_Some; congruence). rewrite firstn_length in T. lia. }
    rewrite nth_error_firstn in Hk by assumption. apply grouped_d in Hk as [_ R]; [|exact G]. apply Nat.eqb_neq. intros <-. lia.
Qed.
Lemma group_perm i arr : Permutation l arr -> Permutation (group d i arr) (group d i l).
Proof. intro P. symmetry. apply filter_perm, P. Qed.
Lemma grouped_groups arr : grouped arr -> arr = groups d 0 256 arr.
Proof.
  intro G. assert (K : forall n, n <= 256 -> firstn (st n) arr = groups d 0 n arr).
  { induction n as [|n IH]; intro Hn; [reflexivity|]. rewrite groups_last, <- IH, (group_seg n arr G) by lia.
    pose proof (start_mono d l n (S n) ltac:(lia)). unfold seg.
    apply nth_error_ext. intro k.
    assert (Hlen : length (firstn (st n) arr) = st n).
    { rewrite firstn_length, <- (Permutation_length (proj1 G)). pose proof (st_bound d l Hd n ltac:(lia)). lia. }
    destruct (Nat.lt_ge_cases k (st n)) as [T|T].
    - rewrite nth_error_app1, !nth_error_firstn by lia. reflexivity.
    - rewrite nth_error_app2, Hlen by lia. destruct (Nat.lt_ge_cases k (st (S n))) as [T'|T'].
      + rewrite !nth_error_firstn, nth_error_skipn by lia. f_equal. lia.
      + transitivity (@None V); [apply nth_error_None; rewrite firstn_length; lia|]. symmetry. apply nth_error_None. rewrite firstn_length. lia. }
  rewrite <- K by lia. rewrite (st_end d l Hd), (Permutation_length (proj1 G)). symmetry. apply firstn_all.
Qed.

Context (lt : V -> V -> bool).
Context (Hlt : forall a b, In a l -> In b l -> d a < d b -> lt b a = false).
Context (sub : list V -> option (list V)).
Context (Hsub : forall i g, i < 256 -> 1 < length g -> Permutation g (group d i l) -> exists g', sub g = Some g' /\ sorting lt g g').

Lemma sort_part_spec i arr : i < 256 -> grouped arr ->
  exists arr', sort_part sub arr (st i) (st (S i)) = Some arr' /\ grouped arr' /\ ordered lt (group d i arr') /\
    forall j, j < 256 -> j <> i -> group d j arr' = group d j arr.
Proof.
  intros Hi G. unfold sort_part.
  pose proof (group_seg i arr G Hi) as Es. pose proof (group_perm i arr (proj1 G)) as Pg.
  destruct (Nat.ltb_spec 1 (st (S i) - st i)) as [T|T].
  - fold (seg i arr). rewrite <- Es.
    assert (Lg : length (group d i arr) = st (S i) - st i) by (rewrite (Permutation_length Pg); rewrite start_S; lia).
    destruct (Hsub i (group d i arr) Hi ltac:(lia) Pg) as (g' & -> & Pg' & Og').
    exists (firstn (st i) arr ++ g' ++ skipn (st (S i)) arr). split; [reflexivity|].
    assert (Hg' : forall v, In v g' -> d v = i).
    { intros v Hv. apply (in_group d i arr v). eapply Permutation_in; [symmetry; exact Pg'|exact Hv]. }
    assert (Lg' : length g' = st (S i) - st i) by (rewrite <- (Permutation_length Pg'); exact Lg).
    assert (Hlen : length (firstn (st i) arr) = st i).
    { rewrite firstn_length, <- (Permutation_length (proj1 G)). pose proof (st_bound d l Hd i ltac:(lia)). lia. }
    assert (G' : grouped (firstn (st i) arr ++ g' ++ skipn (st (S i)) arr)).
    { split.
      - etransitivity; [apply (proj1 G)|]. rewrite (seg_split i arr) at 1. rewrite <- Es. apply Permutation_app_head, Permutation_app_tail, Pg'.
      - intros j p Hj Hp. destruct (Nat.lt_trichotomy j i) as [C|[->|C]].
        + pose proof (start_mono d l (S j) i ltac:(lia)). rewrite nth_error_app1, nth_error_firstn by lia. apply (proj2 G); assumption.
        + rewrite nth_error_app2, nth_error_app1 by lia. destruct (nth_error g' (p - length (firstn (st i) arr))) as [v|] eqn:E.
          * exists v. split; [reflexivity|]. apply Hg'. eapply nth_error_In, E.
          * apply nth_error_None in E. lia.
        + pose proof (start_mono d l (S i) j ltac:(lia)). rewrite nth_error_app2, nth_error_app2 by lia. rewrite nth_error_skipn.
          replace (st (S i) + (p - length (firstn (st i) arr) - length g')) with p by lia. apply (proj2 G); assumption. }
    split; [exact G'|].
    assert (Hj : forall j, group d j (firstn (st i) arr ++ g' ++ skipn (st (S i)) arr) = group d j (firstn (st i) arr) ++ group d j g' ++ group d j (skipn (st (S i)) arr))
      by (intro j; unfold group; now rewrite !filter_app).
    split.
    + rewrite (group_seg i _ G' Hi). unfold seg. replace (firstn (st (S i) - st i) (skipn (st i) (firstn (st i) arr ++ g' ++ skipn (st (S i)) arr))) with g'; [exact Og'|].
      rewrite skipn_app, Hlen, Nat.sub_diag, skipn_all2 by lia. cbn [app skipn]. rewrite <- Lg', firstn_app, Nat.sub_diag, firstn_all. cbn. now rewrite app_nil_r.
    + intros j Hj1 Hne. rewrite Hj.
      assert (Ea : group d j arr = group d j (firstn (st i) arr) ++ group d j (group d i arr) ++ group d j (skipn (st (S i)) arr)).
      { rewrite Es, <- !group_app. f_equal. apply seg_split. }
      rewrite Ea.
      f_equal. f_equal. rewrite group_group. destruct (Nat.eqb_spec j i); [contradiction|].
      apply filter_none. intros v Hv. apply Nat.eqb_neq. rewrite (Hg' v Hv). auto.
  - exists arr. split; [reflexivity|]. split; [exact G|]. split; [|reflexivity].
    assert (length (group d i arr) <= 1) by (rewrite (Permutation_length Pg); pose proof (start_S d l i); lia).
    intros a b x y Hab Hx Hy. exfalso. assert (b < length (group d i arr)) by (apply nth_error_Some; congruence). lia.
Qed.

(** All parts are sorted. *)
Definition all_sorted (arr : list V) : Prop := grouped arr /\ forall i, i < 256 -> ordered lt (group d i arr).
Lemma all_sorted_sorting arr : all_sorted arr -> sorting lt l arr.
Proof.
  intros [G O]. split; [apply G|]. rewrite (grouped_groups arr G).
  assert (K : forall n, n <= 256 -> ordered lt (groups d 0 n arr)).
  { induction n as [|n IH]; intro Hn; [apply ordered_nil|]. rewrite groups_last. apply ordered_app. split; [apply IH; lia|]. split; [apply O; lia|].
    intros a b Ha Hb. apply in_groups in Ha as [Ha1 Ha2]. apply in_group in Hb as [Hb1 Hb2].
    apply Hlt; [| |lia]; eapply Permutation_in; [symmetry; apply G|assumption|symmetry; apply G|assumption]. }
  apply K. lia.
Qed.

Context (next : list nat) (Hnext : forall i, i < 256 -> nth_error next i = Some (st (S i))).
Lemma sort_parts_spec : forall rem arr, (forall i, In i rem -> i < 256) -> grouped arr ->
  (forall i, i < 256 -> In i rem \/ ordered lt (group d i arr)) ->
  exists arr', sort_parts sub next rem arr = Some arr' /\ sorting lt l arr'.
Proof.
  induction rem as [|c rem IH]; intros arr Hrem G Hdone; cbn [sort_parts].
  - exists arr. split; [reflexivity|]. apply all_sorted_sorting. split; [exact G|]. intros i Hi. destruct (Hdone i Hi) as [[]|]; assumption.
  - assert (Hc : c < 256) by (apply Hrem; now left).
    assert (E : (if c =? 0 then Some 0 else nth_error next (c - 1)) = Some (st c)).
    { destruct c as [|c]; [reflexivity|]. cbn [Nat.eqb]. replace (S c - 1) with c by lia. apply Hnext. lia. }
    rewrite E, (Hnext c Hc). destruct (sort_part_spec c arr Hc G) as (arr1 & -> & G1 & O1 & K1).
    apply IH; [intros; apply Hrem; now right|exact G1|].
    intros i Hi. destruct (Nat.eq_dec i c) as [->|Hne]; [now right|]. rewrite K1 by assumption.
    destruct (Hdone i Hi) as [[T|T]|T]; [congruence|now left|now right].
Qed.
Lemma sort_parts_forward_spec : forall n a arr, a + n = 256 -> grouped arr -> (forall i, i < a -> ordered lt (group d i arr)) ->
  exists arr', sort_parts_forward sub next (filter (present d l) (seq a n)) (st a) arr = Some arr' /\ sorting lt l arr'.
Proof.
  induction n as [|n IH]; intros a arr Ha G Hdone; cbn [seq filter].
  - exists arr. split; [reflexivity|]. apply all_sorted_sorting. split; [exact G|]. intros i Hi. apply Hdone. lia.
  - destruct (present d l a) eqn:E.
    + cbn [sort_parts_forward]. rewrite (Hnext a) by lia.
      destruct (sort_part_spec a arr ltac:(lia) G) as (arr1 & -> & G1 & O1 & K1).
      apply IH; [lia|exact G1|]. intros i Hi. destruct (Nat.eq_dec i a) as [->|Hne]; [exact O1|]. rewrite K1 by lia. apply Hdone. lia.
    + apply present_false in E. rewrite E. apply IH; [lia|exact G|]. intros i Hi. destruct (Nat.eq_dec i a) as [->|Hne]; [|apply Hdone; lia].
      assert (L : length (group d a arr) = 0) by (rewrite (Permutation_length (group_perm a arr (proj1 G))); pose proof (start_S d l a); lia).
      destruct (group d a arr); [apply ordered_nil|discriminate].
Qed.
End Parts.

Section Passes.
Context {V : Type} (d : V -> nat) (l : list V).
Context (Hd : forall v, In v l -> d v < 256).
Local Notation st := (start d l).

Lemma totals (off next : list nat) : length off = 256 -> (forall i, i < 256 -> nth_error off i = Some (st i)) ->
  length next = 256 -> (forall i, i < 256 -> nth_error next i = Some (st (S i))) -> list_sum next = list_sum off + length l.
Proof.
  intros Lo Ho Ln Hn.
  assert (K : forall n, n <= 256 -> list_sum (firstn n next) = list_sum (firstn n off) + st n).
  { assert (F : forall (r : list nat) n x, nth_error r n = Some x -> list_sum (firstn (S n) r) = list_sum (firstn n r) + x).
    { clear. induction r as [|y r IH]; intros [|n] x H; cbn in H; try discriminate.
      - injection H as ->. cbn. lia.
      - rewrite !firstn_cons. unfold list_sum in *. cbn [fold_right]. rewrite (IH n x H). lia. }
    induction n as [|n IH]; intro Hle; [reflexivity|].
    rewrite (F next n _ (Hn n ltac:(lia))), (F off n _ (Ho n ltac:(lia))), IH by lia. lia. }
  specialize (K 256 ltac:(lia)). rewrite !firstn_all2 in K by lia. rewrite K. now rewrite (st_end d l Hd).
Qed.

Lemma ska_byte_sort_spec lt sub :
  (forall a b, In a l -> In b l -> d a < d b -> lt b a = false) ->
  (forall i g, i < 256 -> 1 < length g -> Permutation g (group d i l) -> exists g', sub g = Some g' /\ sorting lt g g') ->
  exists arr, ska_byte_sort d sub l = Some arr /\ sorting lt l arr.
Proof.
  intros Hlt Hsub. unfold ska_byte_sort.
  destruct (partition_counts_spec d l Hd) as (p & -> & Lo & Ho & Ln & Hn & Er).
  assert (Hnd : NoDup (remaining p)) by (rewrite Er; apply NoDup_filter, seq_NoDup).
  assert (Hrem : forall i, In i (remaining p) -> i < 256) by (rewrite Er; intros i Hi; apply filter_In in Hi as [Hi _]; apply in_seq in Hi; lia).
  assert (Hh : here d l (l, offset p) (fun i => st i)).
  { split; [exact Lo|]. split; [|exact Ho]. split; [reflexivity|]. intros i Hi. split; [pose proof (start_mono d l i (S i) ltac:(lia)); lia|lia]. }
  destruct (ska_byte_loop_spec d l Hd (next_offset p) Hn Ln (S (length l)) (remaining p) (length (remaining p)) (l, offset p) (fun i => st i) Hh)
    as (arr & rem' & -> & G & P).
  - lia.
  - exact Hnd.
  - exact Hrem.
  - intros i Hi. destruct (present d l i) eqn:E; [right|left; now apply present_false].
    assert (In i (remaining p)) as K by (rewrite Er; apply filter_In; split; [apply in_seq; lia|exact E]).
    apply In_nth_error in K as [k Hk]. exists k. split; [apply nth_error_Some; congruence|exact Hk].
  - unfold left_over. cbn [snd]. pose proof (totals _ _ Lo Ho Ln Hn). lia.
  - apply (sort_parts_spec d l Hd lt Hlt sub Hsub (next_offset p) Hn).
    + intros i Hi. apply Hrem. eapply Permutation_in; [symmetry; exact P|]. now apply in_rev.
    + exact G.
    + intros i Hi. destruct (present d l i) eqn:E; [left|right].
      * apply -> in_rev. eapply Permutation_in; [exact P|]. rewrite Er. apply filter_In. split; [apply in_seq; lia|exact E].
      * apply present_false in E.
        assert (L : length (group d i arr) = 0) by (rewrite (Permutation_length (group_perm d l i arr (proj1 G))); pose proof (start_S d l i); lia).
        destruct (group d i arr); [apply ordered_nil|discriminate].
Qed.

Lemma grouped_sorting lt arr : grouped d l arr -> (forall a b, In a l -> In b l -> d a <= d b -> lt b a = false) -> sorting lt l arr.
Proof.
  intros G H. split; [apply G|]. intros i j a b Hij Ha Hb.
  pose proof (grouped_d d l Hd arr i a G Ha) as [_ Ra]. pose proof (grouped_d d l Hd arr j b G Hb) as [_ Rb].
  apply H.
  - eapply Permutation_in; [symmetry; apply G|eapply nth_error_In, Ha].
  - eapply Permutation_in; [symmetry; apply G|eapply nth_error_In, Hb].
  - destruct (Nat.le_gt_cases (d a) (d b)) as [|T]; [assumption|]. pose proof (start_mono d l (S (d b)) (d a) T). lia.
Qed.

(** american_flag_sort sorts only when the byte decides the order. *)
Lemma american_flag_sort_spec lt sub :
  (forall a b, In a l -> In b l -> d a <= d b -> lt b a = false) ->
  (forall i g, i < 256 -> 1 < length g -> Permutation g (group d i l) -> exists g', sub g = Some g' /\ sorting lt g g') ->
  exists arr, american_flag_sort d sub l = Some arr /\ sorting lt l arr.
Proof.
  intros Hlt Hsub. unfold american_flag_sort.
  destruct (partition_counts_spec d l Hd) as (p & -> & Lo & Ho & Ln & Hn & Er).
  assert (Hlt' : forall a b, In a l -> In b l -> d a < d b -> lt b a = false) by (intros; apply Hlt; auto; lia).
  assert (Hparts : forall arr, grouped d l arr -> exists arr', sort_parts_forward sub (next_offset p) (remaining p) 0 arr = Some arr' /\ sorting lt l arr').
  { intros arr G. rewrite Er. apply (sort_parts_forward_spec d l Hd lt Hlt' sub Hsub (next_offset p) Hn 256 0 arr eq_refl G). lia. }
  destruct (Nat.ltb_spec 1 (length (remaining p))) as [T|T].
  - destruct (nth_error (remaining p) 0) as [c|] eqn:Ec; [|apply nth_error_None in Ec; lia].
    destruct (rem_in d l (remaining p) Er 0 c Ec) as [Hc1 Hc2]. rewrite (Hn c Hc1).
    destruct (american_loop_spec d l Hd (next_offset p) (remaining p) Hn Er T Ln (S (length l + list_sum (next_offset p))) l (offset p) (fun i => st i) 0 0 c)
      as (arr & early & -> & G).
    + exact Lo.
    + exact Ec.
    + lia.
    + split; [reflexivity|]. intros i Hi. split; [pose proof (start_mono d l i (S i) ltac:(lia)); lia|lia].
    + assert (K : forall i, i <= c -> st i = 0).
      { induction i as [|i IH]; intro Hi; [reflexivity|].
        destruct (rem_below d l (remaining p) Er 0 c i Ec ltac:(lia)) as [E|(j & Hj & _)]; [rewrite <- E; apply IH; lia|lia]. }
      apply K. lia.
    + lia.
    + intros i Hi. destruct (rem_below d l (remaining p) Er 0 c i Ec Hi) as [E|(j & Hj & _)]; [exact E|lia].
    + intros i Hi. apply Ho. lia.
    + intros i Hi. rewrite (nth_error_nth (offset p) i 0 (Ho i Hi)). apply start_mono. lia.
    + lia.
    + destruct early; [|apply Hparts, G]. exists arr. split; [reflexivity|]. apply grouped_sorting; assumption.
  - (* one partition at most *)
    apply Hparts. split; [reflexivity|]. intros i q Hi Hq.
    assert (Hql : q < length l) by (pose proof (st_bound d l Hd (S i) ltac:(lia)); lia).
    destruct (nth_error l q) as [v|] eqn:Ev; [|apply nth_error_None in Ev; lia].
    exists v. split; [reflexivity|].
    assert (Hin : forall k, k < 256 -> st k < st (S k) -> In k (remaining p)).
    { intros k Hk Hs. rewrite Er. apply filter_In. split; [apply in_seq; lia|]. now apply present_true. }
    assert (I1 : In i (remaining p)) by (apply Hin; [assumption|lia]).
    assert (I2 : In (d v) (remaining p)).
    { apply Hin; [apply Hd; eapply nth_error_In, Ev|]. rewrite start_S.
      assert (In v (group d (d v) l)) by (apply in_group; split; [eapply nth_error_In, Ev|reflexivity]).
      destruct (group d (d v) l); [contradiction|cbn; lia]. }
    clear -I1 I2 T. destruct (remaining p) as [|x [|y r]]; cbn in *; [contradiction| |lia]. intuition congruence.
Qed.
End Passes.
