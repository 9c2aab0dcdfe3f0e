(** * american_flag_sort and ska_byte_sort put the elements of the same byte together *)

From Coq Require Import List Arith Bool Permutation Lia ZArith.
From Verif Require Import Mem MemLemmas SpecSort SortLemmas AlgoProofs DoubleBuffer RadixLemmas DoubleBufferProofs InplaceRadix.
Import ListNotations.
Local Open Scope nat_scope.

(** ** Lists of positions *)
Lemma nth_error_seq a n k : k < n -> nth_error (seq a n) k = Some (a + k).
Proof. intro H. rewrite (nth_error_nth' _ 0) by now rewrite seq_length. now rewrite seq_nth. Qed.
Lemma filter_positions_length {A} (f : A -> bool) l :
  length (filter (fun p => match nth_error l p with Some v => f v | None => false end) (seq 0 (length l))) = length (filter f l).
Proof.
  induction l as [|a l IH]; [reflexivity|]. cbn [length seq filter nth_error].
  assert (E : length (filter (fun p => match nth_error (a :: l) p with Some v => f v | None => false end) (seq 1 (length l))) = length (filter f l)).
  { rewrite <- IH, <- seq_shift, filter_map_comm, map_length. reflexivity. }
  destruct (f a); cbn [length]; rewrite E; reflexivity.
Qed.
Lemma positions_count {A} (f : A -> bool) l ps : NoDup ps ->
  (forall p, In p ps -> exists v, nth_error l p = Some v /\ f v = true) -> length ps <= length (filter f l).
Proof.
  intros Hn H. rewrite <- filter_positions_length. apply NoDup_incl_length; [exact Hn|].
  intros p Hp. destruct (H p Hp) as (v & Hv & Hf). apply filter_In. split.
  - apply in_seq. assert (p < length l) by (apply nth_error_Some; congruence). lia.
  - now rewrite Hv.
Qed.
Lemma sorted_filter f a n k c i : nth_error (filter f (seq a n)) k = Some c -> i < c -> a <= i -> f i = false \/ exists j, j < k /\ nth_error (filter f (seq a n)) j = Some i.
Proof.
  revert a k. induction n as [|n IH]; intros a k Hk Hi Ha; [destruct k; discriminate|].
  cbn [seq filter] in *. destruct (f a) eqn:Fa.
  - destruct k as [|k]; cbn in Hk; [injection Hk as <-; lia|].
    destruct (Nat.eq_dec i a) as [->|Hne].
    + right. exists 0. split; [lia|reflexivity].
    + destruct (IH _ _ Hk Hi ltac:(lia)) as [?|(j & ? & ?)]; [now left|]. right. exists (S j). split; [lia|assumption].
  - destruct (Nat.eq_dec i a) as [->|Hne]; [now left|]. apply IH; [assumption|assumption|lia].
Qed.
Lemma filter_seq_lt f a n j k x y : nth_error (filter f (seq a n)) j = Some x -> nth_error (filter f (seq a n)) k = Some y -> j < k -> x < y.
Proof.
  revert a j k. induction n as [|n IH]; intros a j k Hj Hk Hlt; [destruct j; discriminate|].
  cbn [seq filter] in *. destruct (f a); [|eapply IH; eauto].
  destruct k as [|k]; [lia|]. destruct j as [|j]; cbn in *.
  - injection Hj as <-. apply nth_error_In, filter_In in Hk as [Hk _]. apply in_seq in Hk. lia.
  - eapply (IH (S a) j k); eauto. lia.
Qed.
Lemma swap_at_is {A} (l : list A) i j : i < length l -> j < length l -> swap_at l i j = Some (swapl l i j).
Proof.
  intros Hi Hj. unfold swap_at, swapl. apply nth_error_Some in Hi, Hj.
  destruct (nth_error l i); [|contradiction]. destruct (nth_error l j); [reflexivity|contradiction].
Qed.

Lemma sum_set_nth off b o : nth_error off b = Some o -> list_sum (set_nth off b (S o)) = S (list_sum off).
Proof.
  intro H. apply nth_error_split in H as (a & r & -> & <-). rewrite set_nth_app by reflexivity.
  rewrite !list_sum_app. unfold list_sum. cbn [fold_right]. lia.
Qed.
Lemma sum_le (a : list nat) : forall b, length a = length b -> (forall i, i < length a -> nth i a 0 <= nth i b 0) -> list_sum a <= list_sum b.
Proof.
  induction a as [|x a IH]; intros [|y b] Hl H; try discriminate Hl.
  - reflexivity.
  - cbn in Hl. unfold list_sum in *. cbn [fold_right]. pose proof (H 0 ltac:(cbn; lia)) as H0. cbn in H0.
    specialize (IH b ltac:(lia)). enough (fold_right Nat.add 0 a <= fold_right Nat.add 0 b) by lia. apply IH.
    intros i Hi. apply (H (S i)). cbn. lia.
Qed.

Section Bytes.
Context {V : Type} (d : V -> nat) (l : list V).
Context (Hd : forall v, In v l -> d v < 256).
Local Notation st := (start d l).

Lemma st_end : st 256 = length l. Proof. apply start_all. exact Hd. Qed.
Lemma st_0 : st 0 = 0. Proof. reflexivity. Qed.
Lemma st_mono i j : i <= j -> st i <= st j. Proof. apply start_mono. Qed.
Lemma st_bound i : i <= 256 -> st i <= length l.
Proof. intro H. rewrite <- st_end. apply st_mono, H. Qed.

Definition present (i : nat) : bool := negb (length (group d i l) =? 0).
Lemma present_true i : present i = true <-> st i < st (S i).
Proof. unfold present. rewrite negb_true_iff, Nat.eqb_neq, start_S. lia. Qed.
Lemma present_false i : present i = false <-> st i = st (S i).
Proof. unfold present. rewrite negb_false_iff, Nat.eqb_eq, start_S. lia. Qed.

Lemma running_totals_spec count : forall total i, i < length count ->
  nth_error (running_totals total count) i = Some (total + list_sum (firstn (S i) count)).
Proof.
  induction count as [|c count IH]; intros total i Hi; cbn [length] in Hi; [lia|].
  destruct i as [|i]; cbn [running_totals nth_error firstn].
  - unfold list_sum. cbn [fold_right]. f_equal. lia.
  - rewrite IH by lia. f_equal. unfold list_sum. cbn [fold_right firstn]. lia.
Qed.
Lemma running_totals_length count : forall total, length (running_totals total count) = length count.
Proof. induction count as [|c count IH]; intro total; cbn; [reflexivity|]. now rewrite IH. Qed.
Lemma nonzero_spec count : forall i, (forall k, k < length count -> nth_error count k = Some (length (group d (i + k) l))) ->
  nonzero i count = filter present (seq i (length count)).
Proof.
  induction count as [|c count IH]; intros i H; [reflexivity|].
  assert (E : c = length (group d i l)) by (specialize (H 0); rewrite Nat.add_0_r in H; cbn in H; specialize (H ltac:(lia)); congruence).
  cbn [length seq filter nonzero]. rewrite IH.
  - assert (Ep : present i = negb (c =? 0)) by (unfold present; now rewrite E). rewrite Ep. destruct c; reflexivity.
  - intros k Hk. specialize (H (S k)). cbn in H. rewrite H by lia. f_equal. f_equal. f_equal. lia.
Qed.

Lemma partition_counts_spec : exists p, partition_counts d l = Some p /\
  length (offset p) = 256 /\ (forall i, i < 256 -> nth_error (offset p) i = Some (st i)) /\
  length (next_offset p) = 256 /\ (forall i, i < 256 -> nth_error (next_offset p) i = Some (st (S i))) /\
  remaining p = filter present (seq 0 256).
Proof.
  destruct (count_digits_spec d 256 l [] (repeat 0 256)) as (count & E & Hl & Hc).
  - apply repeat_length.
  - exact Hd.
  - intros i Hi. rewrite (nth_error_nth' _ 0) by now rewrite repeat_length. f_equal. apply nth_repeat.
  - cbn [app] in Hc. exists (Counts (exchange_totals 0 count) (running_totals 0 count) (nonzero 0 count)).
    unfold partition_counts. rewrite E. split; [reflexivity|]. cbn [offset next_offset remaining].
    assert (Hs : forall i, i <= 256 -> list_sum (firstn i count) = st i) by (intros i Hi; apply firstn_sum; [intros; apply Hc; lia|lia]).
    split; [rewrite exchange_totals_length; exact Hl|].
    split; [intros i Hi; rewrite exchange_totals_spec by lia; now rewrite Hs by lia|].
    split; [rewrite running_totals_length; exact Hl|].
    split; [intros i Hi; rewrite running_totals_spec by lia; now rewrite Hs by lia|].
    rewrite nonzero_spec, Hl; [reflexivity|]. intros k Hk. apply Hc. lia.
Qed.

(** ** The invariant: the elements of every partition before its offset are in place. *)
Definition Inv (arr : list V) (o : nat -> nat) : Prop :=
  Permutation l arr /\
  forall i, i < 256 -> (st i <= o i <= st (S i)) /\ (forall p, st i <= p < o i -> exists v, nth_error arr p = Some v /\ d v = i).

Lemma Inv_ext arr o o' : (forall i, i < 256 -> o i = o' i) -> Inv arr o -> Inv arr o'.
Proof. intros H [P I]. split; [exact P|]. intros i Hi. rewrite <- H by assumption. apply I, Hi. Qed.
Lemma Inv_length arr o : Inv arr o -> length arr = length l.
Proof. intros [P _]. symmetry. apply Permutation_length, P. Qed.
Lemma group_perm_length arr i : Permutation l arr -> length (group d i arr) = length (group d i l).
Proof. intro H. pose proof (start_S d arr i). pose proof (start_S d l i). rewrite <- !(start_perm d l arr _ H) in *. lia. Qed.
Lemma Inv_d arr o q v : Inv arr o -> nth_error arr q = Some v -> d v < 256.
Proof. intros [P _] H. apply Hd. eapply Permutation_in; [symmetry; exact P|]. eapply nth_error_In, H. Qed.

(** An element that is not in place has a place. *)
Lemma room arr o q v : Inv arr o -> nth_error arr q = Some v -> ~ (st (d v) <= q < o (d v)) -> o (d v) < st (S (d v)).
Proof.
  intros I Hq Hout. pose proof (Inv_d _ _ _ _ I Hq) as Hb. destruct I as [P I]. destruct (I _ Hb) as [Hr Hp].
  pose proof (positions_count (fun u => d u =? d v) arr (seq (st (d v)) (o (d v) - st (d v)) ++ [q])) as C.
  rewrite app_length, seq_length in C. cbn [length] in C.
  assert (length (group d (d v) arr) = st (S (d v)) - st (d v)) by (rewrite group_perm_length by assumption; rewrite start_S; lia).
  unfold group in H. rewrite H in C. enough (o (d v) - st (d v) + 1 <= st (S (d v)) - st (d v)) by lia. apply C.
  - apply NoDup_join; [apply seq_NoDup|constructor; [auto|constructor]|]. intros p Hp1 [<-|[]]. apply in_seq in Hp1. lia.
  - intros p Hp1. apply in_app_iff in Hp1 as [Hp1|[<-|[]]].
    + apply in_seq in Hp1. destruct (Hp p ltac:(lia)) as (u & Hu & E). exists u. split; [exact Hu|]. now apply Nat.eqb_eq.
    + exists v. split; [exact Hq|]. apply Nat.eqb_refl.
Qed.
(** It may be put there. *)
Lemma put arr o q v : Inv arr o -> nth_error arr q = Some v ->
  (forall i, i < 256 -> ~ (st i <= q < o i)) ->
  o (d v) < length arr /\ Inv (swapl arr q (o (d v))) (fun i => if i =? d v then S (o (d v)) else o i).
Proof.
  intros I Hq Hout. pose proof (Inv_d _ _ _ _ I Hq) as Hb.
  pose proof (room arr o q v I Hq (Hout _ Hb)) as Hr.
  pose proof (Inv_length _ _ I) as Hlen. pose proof (st_bound (S (d v)) Hb).
  split; [lia|]. assert (Hql : q < length arr) by (apply nth_error_Some; congruence).
  destruct I as [P I]. split.
  - etransitivity; [exact P|apply swapl_perm].
  - intros i Hi. destruct (I i Hi) as [Hr1 Hp1]. pose proof (I _ Hb) as [Hr2 Hp2].
    destruct (Nat.eqb_spec i (d v)) as [->|Hne].
    + split; [lia|]. intros p Hp. rewrite swapl_nth by lia.
      destruct (Nat.eqb_spec p (o (d v))) as [E|E]; [exists v; auto|].
      destruct (Nat.eqb_spec p q) as [E'|E']; [exfalso; apply (Hout _ Hb); lia|]. apply Hp1. lia.
    + split; [lia|]. intros p Hp. rewrite swapl_nth by lia.
      destruct (Nat.eqb_spec p (o (d v))) as [E|E].
      * exfalso. destruct (Nat.lt_trichotomy i (d v)) as [T|[T|T]]; [|lia|].
        -- pose proof (st_mono (S i) (d v) ltac:(lia)). lia.
        -- pose proof (st_mono (S (d v)) i ltac:(lia)). lia.
      * destruct (Nat.eqb_spec p q) as [E'|E']; [exfalso; apply (Hout _ Hi); lia|]. apply Hp1, Hp.
Qed.

(** The elements of every byte are together, in the order of the bytes. *)
Definition grouped (arr : list V) : Prop :=
  Permutation l arr /\ forall i p, i < 256 -> st i <= p < st (S i) -> exists v, nth_error arr p = Some v /\ d v = i.
Lemma all_placed arr o : Inv arr o -> (forall i, i < 256 -> o i = st (S i)) -> grouped arr.
Proof. intros [P I] H. split; [exact P|]. intros i p Hi Hp. apply (proj2 (I i Hi)). now rewrite H. Qed.
(** When all but one partition are complete, so is that one. *)
Lemma all_but_one arr o c : Inv arr o -> (forall i, i < 256 -> i <> c -> o i = st (S i)) -> grouped arr.
Proof.
  intros I H. split; [apply I|]. intros i p Hi Hp.
  destruct (Nat.eq_dec i c) as [->|Hne].
  - assert (Hpl : p < length arr) by (rewrite (Inv_length _ _ I); pose proof (st_bound (S c) ltac:(lia)); lia).
    destruct (nth_error arr p) as [v|] eqn:E; [|apply nth_error_None in E; lia].
    exists v. split; [reflexivity|]. destruct (Nat.eq_dec (d v) c) as [|Hv]; [assumption|]. exfalso.
    pose proof (Inv_d _ _ _ _ I E) as Hb.
    pose proof (room arr o p v I E) as R. rewrite (H _ Hb Hv) in R. enough (st (S (d v)) < st (S (d v))) by lia. apply R.
    destruct (Nat.lt_trichotomy c (d v)) as [T|[T|T]]; [|lia|].
    + pose proof (st_mono (S c) (d v) ltac:(lia)). lia.
    + pose proof (st_mono (S (d v)) c ltac:(lia)). lia.
  - destruct I as [P I]. apply (proj2 (I i Hi)). now rewrite H.
Qed.

(** ** american_flag_sort *)
Section American.
Context (next rem : list nat).
Context (Hnext : forall i, i < 256 -> nth_error next i = Some (st (S i))) (Hrem : rem = filter present (seq 0 256)).

Lemma rem_in k c : nth_error rem k = Some c -> c < 256 /\ st c < st (S c).
Proof. rewrite Hrem. intro H. apply nth_error_In, filter_In in H as [H1 H2]. apply in_seq in H1. apply present_true in H2. lia. Qed.
Lemma rem_below k c i : nth_error rem k = Some c -> i < c -> st i = st (S i) \/ exists j, j < k /\ nth_error rem j = Some i.
Proof. rewrite Hrem. intros H Hi. destruct (sorted_filter _ _ _ _ _ _ H Hi) as [E|E]; [lia|left; now apply present_false|now right]. Qed.
Lemma rem_lt j k x y : nth_error rem j = Some x -> nth_error rem k = Some y -> j < k -> x < y.
Proof. rewrite Hrem. apply filter_seq_lt. Qed.
Lemma rem_above z i : nth_error rem (length rem - 1) = Some z -> z < i -> i < 256 -> st i = st (S i).
Proof.
  intros H Hi Hb. apply present_false. destruct (present i) eqn:E; [|reflexivity]. exfalso.
  assert (In i rem) as K by (rewrite Hrem; apply filter_In; split; [apply in_seq; lia|exact E]).
  apply In_nth_error in K as [j Hj]. assert (j < length rem) by (apply nth_error_Some; congruence).
  destruct (Nat.eq_dec j (length rem - 1)) as [->|Hne]; [assert (z = i) by congruence; lia|].
  pose proof (rem_lt _ _ _ _ Hj H ltac:(lia)). lia.
Qed.

Context (Hnum : 1 < length rem).
Definition complete (off : list nat) (i : nat) : Prop := nth_error off i = Some (st (S i)).

Lemma next_block_spec off (done : nat -> Prop) :
  (forall i, i < 256 -> exists o, nth_error off i = Some o) -> (forall i, complete off i -> done i) ->
  forall fuel ptr, ptr < length rem - 1 -> length rem - ptr <= fuel -> (forall j i, j <= ptr -> nth_error rem j = Some i -> done i) ->
  (next_block fuel off next rem ptr = Some None /\ forall j i, j < length rem - 1 -> nth_error rem j = Some i -> done i) \/
  exists ptr' c o, next_block fuel off next rem ptr = Some (Some (ptr', o, st (S c))) /\ ptr < ptr' < length rem - 1 /\
    nth_error rem ptr' = Some c /\ nth_error off c = Some o /\ o <> st (S c) /\
    forall j i, j < ptr' -> nth_error rem j = Some i -> done i.
Proof.
  intros Hoff Hdone. induction fuel as [|fuel IH]; intros ptr Hp Hf Hc; [lia|]. cbn [next_block].
  destruct (Nat.eqb_spec (S ptr) (length rem - 1)) as [E|E].
  - left. split; [reflexivity|]. intros j i Hj. apply Hc. lia.
  - destruct (nth_error rem (S ptr)) as [c|] eqn:Ec; [|apply nth_error_None in Ec; lia].
    destruct (rem_in _ _ Ec) as [Hc1 Hc2]. destruct (Hoff c Hc1) as [o Ho]. rewrite Ho, Hnext by assumption.
    destruct (Nat.eqb_spec o (st (S c))) as [Eo|Eo].
    + destruct (IH (S ptr)) as [[K1 K2]|(ptr' & c' & o' & K1 & K2 & K3)]; [lia|lia| | |].
      * intros j i Hj Hi. destruct (Nat.eq_dec j (S ptr)) as [->|]; [|apply (Hc j i); [lia|assumption]].
        assert (i = c) as -> by congruence. apply Hdone. unfold complete. now rewrite Ho, Eo.
      * left. auto.
      * right. exists ptr', c', o'. split; [exact K1|]. split; [lia|exact K3].
    + right. exists (S ptr), c, o. split; [reflexivity|]. split; [lia|]. split; [exact Ec|]. split; [exact Ho|]. split; [exact Eo|].
      intros j i Hj. apply Hc. lia.
Qed.

Lemma american_loop_spec (Hnl : length next = 256) : forall fuel arr off o ptr it c,
  length off = 256 -> nth_error rem ptr = Some c -> ptr < length rem - 1 ->
  Inv arr o -> o c = it -> it < st (S c) ->
  (forall i, i < c -> o i = st (S i)) -> (forall i, c < i < 256 -> nth_error off i = Some (o i)) ->
  (forall i, i < 256 -> nth i off 0 <= st (S i)) ->
  (length l - it) + (list_sum next - list_sum off) < fuel ->
  exists arr' early, american_flag_loop fuel d next rem arr off ptr it (st (S c)) = Some (arr', early) /\ grouped arr'.
Proof.
  induction fuel as [|fuel IH]; intros arr off o ptr it c Hlo Hc Hptr I Hit Hlt Hbelow Habove Hoff Hf; [lia|].
  destruct (rem_in _ _ Hc) as [Hc1 Hc2].
  pose proof (Inv_length _ _ I) as Hlen. pose proof (st_bound (S c) ltac:(lia)) as Hend.
  assert (Hst : st c <= it) by (destruct (proj1 (proj2 I c Hc1)); lia).
  cbn [american_flag_loop].
  destruct (nth_error arr it) as [v|] eqn:Ev; [|apply nth_error_None in Ev; lia].
  rewrite Hc. destruct (Nat.eqb_spec (d v) c) as [Edv|Edv].
  - (* the element is in its block *)
    set (o' := fun i => if i =? c then S it else o i).
    assert (I' : Inv arr o').
    { destruct I as [P I]. split; [exact P|]. intros i Hi. unfold o'. destruct (Nat.eqb_spec i c) as [->|Hne]; [|apply I, Hi].
      destruct (I c Hi) as [R1 R2]. split; [lia|]. intros p Hp. destruct (Nat.eq_dec p it) as [->|]; [eauto|]. apply R2. lia. }
    assert (Ho'c : o' c = S it) by (unfold o'; now rewrite Nat.eqb_refl).
    assert (Ho'n : forall i, i <> c -> o' i = o i) by (intros i Hi; unfold o'; destruct (Nat.eqb_spec i c); [contradiction|reflexivity]).
    destruct (nth_error rem (length rem - 1)) as [z|] eqn:Ez; [|apply nth_error_None in Ez; lia].
    destruct (rem_in _ _ Ez) as [Hz1 Hz2]. pose proof (rem_lt _ _ _ _ Hc Ez Hptr) as Hcz.
    destruct (Nat.eqb_spec (S it) (length arr - 1)) as [El|El].
    + exists arr, false. split; [reflexivity|].
      apply (all_but_one arr o' z I'). intros i Hi Hne.
      pose proof (st_mono (S c) z Hcz). pose proof (st_bound (S z) Hz1).
      assert (Hsz : st z = S it) by lia.
      destruct (Nat.lt_trichotomy i c) as [T|[->|T]].
      * rewrite Ho'n by lia. apply Hbelow, T.
      * lia.
      * rewrite Ho'n by lia. pose proof (proj1 (proj2 I i Hi)) as R.
        pose proof (st_mono (S c) i ltac:(lia)). destruct (Nat.lt_ge_cases i z) as [T'|T'].
        -- pose proof (st_mono (S i) z ltac:(lia)). lia.
        -- pose proof (rem_above z i Ez ltac:(lia) Hi). lia.
    + destruct (Nat.eqb_spec (S it) (st (S c))) as [Eb|Eb].
      * destruct (next_block_spec off (fun i => o' i = st (S i))) with (fuel := length rem) (ptr := ptr)
          as [[K1 K2]|(ptr' & c' & o1 & K1 & K2 & K3 & K4 & K5 & K6)].
        -- intros i Hi. destruct (nth_error off i) eqn:E; [eauto|]. apply nth_error_None in E. lia.
        -- intros i Hi. unfold complete in Hi. assert (i < 256) by (rewrite <- Hlo; apply nth_error_Some; congruence).
           destruct (Nat.lt_trichotomy i c) as [T|[->|T]]; [rewrite Ho'n by lia; auto|lia|].
           rewrite Ho'n by lia. specialize (Habove i ltac:(lia)). congruence.
        -- exact Hptr.
        -- lia.
        -- intros j i Hj Hi. destruct (Nat.eq_dec j ptr) as [->|]; [assert (i = c) as -> by congruence; lia|].
           pose proof (rem_lt _ _ _ _ Hi Hc ltac:(lia)). rewrite Ho'n by lia. auto.
        -- rewrite K1. exists arr, true. split; [reflexivity|]. apply (all_but_one arr o' z I'). intros i Hi Hne.
           pose proof (proj1 (proj2 I' i Hi)) as R.
           destruct (Nat.lt_trichotomy i z) as [T|[T|T]]; [|contradiction|].
           ++ destruct (rem_below _ _ _ Ez T) as [E|(j & Hj & Ej)]; [lia|]. exact (K2 j i Hj Ej).
           ++ pose proof (rem_above z i Ez T Hi). lia.
        -- rewrite K1. pose proof (rem_lt _ _ _ _ Hc K3 ltac:(lia)) as Hcc'. destruct (rem_in _ _ K3) as [Hc'1 Hc'2].
           assert (Eo : o c' = o1) by (specialize (Habove c' ltac:(lia)); congruence).
           pose proof (proj1 (proj2 I c' Hc'1)) as R.
           apply (IH arr off o' ptr' o1 c').
           ++ exact Hlo.
           ++ exact K3.
           ++ lia.
           ++ exact I'.
           ++ rewrite Ho'n by lia. exact Eo.
           ++ lia.
           ++ intros i Hi. destruct (rem_below _ _ _ K3 Hi) as [E|(j & Hj & Ej)]; [|exact (K6 j i Hj Ej)].
              pose proof (proj1 (proj2 I' i ltac:(lia))). lia.
           ++ intros i Hi. rewrite Ho'n by lia. apply Habove. lia.
           ++ exact Hoff.
           ++ pose proof (st_mono (S c) c' ltac:(lia)). lia.
      * apply (IH arr off o' ptr (S it) c); [exact Hlo|exact Hc|exact Hptr|exact I'|exact Ho'c|lia| | |exact Hoff|lia].
        -- intros i Hi. rewrite Ho'n by lia. auto.
        -- intros i Hi. rewrite Ho'n by lia. auto.
  - (* it is not *)
    pose proof (Inv_d _ _ _ _ I Ev) as Hb.
    assert (Hout : forall i, i < 256 -> ~ st i <= it < o i).
    { intros i Hi T. destruct (Nat.lt_trichotomy i c) as [T'|[->|T']]; [|lia|].
      - rewrite Hbelow in T by assumption. pose proof (st_mono (S i) c ltac:(lia)). lia.
      - pose proof (st_mono (S c) i ltac:(lia)). lia. }
    pose proof (room _ _ _ _ I Ev (Hout _ Hb)) as Hroom.
    assert (Hcb : c < d v).
    { destruct (Nat.lt_ge_cases c (d v)) as [|T]; [assumption|]. rewrite Hbelow in Hroom by lia. lia. }
    rewrite (Habove (d v)) by lia.
    destruct (put _ _ _ _ I Ev Hout) as [Hput I'].
    rewrite swap_at_is by lia.
    apply (IH _ _ (fun i => if i =? d v then S (o (d v)) else o i) ptr it c).
    + now rewrite length_set_nth.
    + exact Hc.
    + exact Hptr.
    + exact I'.
    + destruct (Nat.eqb_spec c (d v)); [lia|exact Hit].
    + exact Hlt.
    + intros i Hi. destruct (Nat.eqb_spec i (d v)); [lia|auto].
    + intros i Hi. rewrite nth_error_set_nth. destruct (Nat.eqb_spec i (d v)) as [->|Hne]; cbn [andb].
      * destruct (Nat.ltb_spec (d v) (length off)); [reflexivity|lia].
      * apply Habove. lia.
    + intros i Hi. assert (E : nth_error (set_nth off (d v) (S (o (d v)))) i = Some (nth i (set_nth off (d v) (S (o (d v)))) 0))
        by (apply nth_error_nth'; rewrite length_set_nth; lia).
      rewrite nth_error_set_nth in E. destruct (Nat.eqb_spec i (d v)) as [->|Hne]; cbn [andb] in E.
      * destruct (Nat.ltb_spec (d v) (length off)); [|lia]. injection E as <-. lia.
      * apply nth_error_nth with (d := 0) in E. rewrite <- E. auto.
    + rewrite (sum_set_nth off (d v)) by (apply Habove; lia).
      assert (S (list_sum off) <= list_sum next).
      { rewrite <- (sum_set_nth off (d v) (o (d v))) by (apply Habove; lia). apply sum_le; [rewrite length_set_nth; lia|].
        rewrite length_set_nth. intros i Hi. rewrite Hlo in Hi.
        rewrite (nth_error_nth next i 0 (Hnext i Hi)).
        assert (E : nth_error (set_nth off (d v) (S (o (d v)))) i = Some (nth i (set_nth off (d v) (S (o (d v)))) 0))
          by (apply nth_error_nth'; rewrite length_set_nth; lia).
        rewrite nth_error_set_nth in E. destruct (Nat.eqb_spec i (d v)) as [->|Hne]; cbn [andb] in E.
        - destruct (Nat.ltb_spec (d v) (length off)); [|lia]. injection E as <-. lia.
        - apply nth_error_nth with (d := 0) in E. rewrite <- E. auto. }
      lia.
Qed.
End American.

(** ** ska_byte_sort *)
Section Ska.
Context (next : list nat) (Hnext : forall i, i < 256 -> nth_error next i = Some (st (S i))).

Definition here (s : list V * list nat) (o : nat -> nat) : Prop :=
  length (snd s) = 256 /\ Inv (fst s) o /\ forall i, i < 256 -> nth_error (snd s) i = Some (o i).

Lemma place_loop_spec c : c < 256 -> forall n it s o, here s o -> o c <= it -> st c <= it -> it + n = st (S c) ->
  exists s' o', place_loop n d it s = Some s' /\ here s' o' /\ (forall i, i < 256 -> o i <= o' i) /\
    (0 < n -> exists i, i < 256 /\ o i < o' i).
Proof.
  intros Hc. induction n as [|n IH]; intros it [arr off] o (Hl & I & Ho) Hoc Hst Hend; cbn [place_loop].
  - exists (arr, off), o. split; [reflexivity|]. split; [split; auto|]. split; [auto|lia].
  - cbn [fst snd] in *. pose proof (Inv_length _ _ I) as Hlen. pose proof (st_bound (S c) ltac:(lia)).
    destruct (nth_error arr it) as [v|] eqn:Ev; [|apply nth_error_None in Ev; lia].
    pose proof (Inv_d _ _ _ _ I Ev) as Hb. rewrite (Ho _ Hb).
    assert (Hout : forall i, i < 256 -> ~ st i <= it < o i).
    { intros i Hi T. destruct (Nat.lt_trichotomy i c) as [T'|[->|T']]; [|lia|].
      - pose proof (st_mono (S i) c ltac:(lia)). pose proof (proj1 (proj2 I i Hi)). lia.
      - pose proof (st_mono (S c) i ltac:(lia)). lia. }
    destruct (put _ _ _ _ I Ev Hout) as [Hput I'].
    set (o1 := fun i => if i =? d v then S (o (d v)) else o i) in *.
    set (off1 := set_nth off (d v) (S (o (d v)))).
    assert (Hmono : forall i, o i <= o1 i) by (intro i; unfold o1; destruct (Nat.eqb_spec i (d v)) as [->|]; lia).
    assert (Hoc1 : o1 c <= S it) by (unfold o1; destruct (Nat.eqb_spec c (d v)) as [<-|]; lia).
    assert (Hh : forall arr1, Inv arr1 o1 -> here (arr1, off1) o1).
    { intros arr1 I1. split; [unfold off1; cbn; now rewrite length_set_nth|]. split; [exact I1|]. intros i Hi. cbn [snd]. unfold off1, o1.
      rewrite nth_error_set_nth. destruct (Nat.eqb_spec i (d v)) as [->|]; cbn [andb]; [|auto].
      destruct (Nat.ltb_spec (d v) (length off)); [reflexivity|lia]. }
    assert (Hstep : forall arr1, Inv arr1 o1 -> exists s' o', place_loop n d (S it) (arr1, off1) = Some s' /\ here s' o' /\
      (forall i, i < 256 -> o i <= o' i) /\ (0 < S n -> exists i, i < 256 /\ o i < o' i)).
    { intros arr1 I1. destruct (IH (S it) (arr1, off1) o1 (Hh _ I1) Hoc1 ltac:(lia) ltac:(lia)) as (s' & o' & E & H1 & H2 & _).
      exists s', o'. split; [exact E|]. split; [exact H1|]. split; [intros i Hi; specialize (H2 i Hi); specialize (Hmono i); lia|].
      intros _. exists (d v). split; [exact Hb|]. specialize (H2 _ Hb). unfold o1 in H2. rewrite Nat.eqb_refl in H2. lia. }
    destruct (Nat.eqb_spec it (o (d v))) as [E|E].
    + apply Hstep. rewrite <- E in I'. replace (swapl arr it it) with arr in I'; [exact I'|].
      apply nth_error_ext. intro k. rewrite swapl_nth by lia. destruct (Nat.eqb_spec k it) as [->|]; reflexivity.
    + rewrite swap_at_is by lia. apply Hstep. exact I'.
Qed.
Lemma place_spec c s o : c < 256 -> here s o ->
  exists b s' o', place d next c s = Some (b, s') /\ here s' o' /\ (forall i, i < 256 -> o i <= o' i) /\
    (b = false -> o c = st (S c) /\ s' = s /\ o' = o) /\ (b = true -> exists i, i < 256 /\ o i < o' i).
Proof.
  intros Hc Hh. unfold place. rewrite (proj2 (proj2 Hh) c Hc), Hnext by assumption.
  destruct (proj2 (proj1 (proj2 Hh)) c Hc) as [R _].
  destruct (Nat.eqb_spec (o c) (st (S c))) as [E|E].
  - exists false, s, o. split; [reflexivity|]. split; [exact Hh|]. split; [auto|]. split; [auto|discriminate].
  - destruct (Nat.ltb_spec (st (S c)) (o c)); [lia|].
    destruct (place_loop_spec c Hc (st (S c) - o c) (o c) s o Hh) as (s' & o' & -> & H1 & H2 & H3); [lia|lia|lia|].
    exists true, s', o'. split; [reflexivity|]. split; [exact H1|]. split; [exact H2|]. split; [discriminate|]. intros _. apply H3. lia.
Qed.
End Ska.
End Bytes.
