(** * double_buffered_ska_sort sorts stably *)

From Coq Require Import List Arith Bool Permutation Lia ZArith.
From Verif Require Import Mem MemLemmas SpecSort SortLemmas DoubleBuffer RadixLemmas SpecRadix.
Import ListNotations.
Local Open Scope nat_scope.

Section Positions.
Context {V : Type} (d : V -> nat).

(** Where the group [i] begins. *)
Definition start (l : list V) (i : nat) : nat := length (groups d 0 i l).

Lemma groups_last i l : groups d 0 (S i) l = groups d 0 i l ++ group d i l.
Proof. unfold groups. rewrite seq_S, flat_map_app. cbn. now rewrite app_nil_r. Qed.
Lemma start_S l i : start l (S i) = start l i + length (group d i l).
Proof. unfold start. now rewrite groups_last, app_length. Qed.
Lemma start_mono l i j : i <= j -> start l i <= start l j.
Proof. induction 1; [lia|]. rewrite start_S. lia. Qed.
Lemma start_lt l i j : i < j -> start l i + length (group d i l) <= start l j.
Proof. intro H. rewrite <- start_S. apply start_mono. lia. Qed.
Lemma groups_prefix n l i : i <= n -> exists rest, groups d 0 n l = groups d 0 i l ++ rest.
Proof.
  induction 1 as [|n H [rest E]]; [exists []; now rewrite app_nil_r|].
  exists (rest ++ group d n l). now rewrite groups_last, E, app_assoc.
Qed.
Lemma groups_nth n l i k : i < n -> k < length (group d i l) -> nth_error (groups d 0 n l) (start l i + k) = nth_error (group d i l) k.
Proof.
  intros Hi Hk. destruct (groups_prefix n l (S i) Hi) as [rest ->]. rewrite groups_last.
  rewrite <- app_assoc, nth_error_app2 by (unfold start; lia). unfold start.
  replace (length (groups d 0 i l) + k - length (groups d 0 i l)) with k by lia.
  now rewrite nth_error_app1 by lia.
Qed.
Lemma groups_position n l p : p < length (groups d 0 n l) -> exists i k, i < n /\ k < length (group d i l) /\ p = start l i + k.
Proof.
  induction n as [|n IH]; [cbn; lia|].
  rewrite groups_last, app_length. intro H.
  destruct (Nat.lt_ge_cases p (length (groups d 0 n l))) as [Hp|Hp].
  - destruct (IH Hp) as (i & k & ? & ? & ?). exists i, k. split; [lia|auto].
  - exists n, (p - start l n). unfold start. split; [lia|]. split; lia.
Qed.
Lemma position_unique l i k j m : k < length (group d i l) -> m < length (group d j l) -> start l i + k = start l j + m -> i = j /\ k = m.
Proof.
  intros Hk Hm E. destruct (Nat.lt_trichotomy i j) as [H|[<-|H]].
  - pose proof (start_lt l i j H). lia.
  - split; lia.
  - pose proof (start_lt l j i H). lia.
Qed.
Lemma start_all n l : (forall v, In v l -> d v < n) -> start l n = length l.
Proof. intro H. symmetry. apply Permutation_length, groups_perm. intros v Hv. specialize (H v Hv). lia. Qed.

Lemma group_app i l l' : group d i (l ++ l') = group d i l ++ group d i l'.
Proof. apply filter_app. Qed.

Lemma nth_error_ext {A} (l l' : list A) : (forall i, nth_error l i = nth_error l' i) -> l = l'.
Proof.
  revert l'. induction l as [|a l IH]; intros [|b l'] H; [reflexivity|discriminate (H 0)|discriminate (H 0)|].
  f_equal; [specialize (H 0); cbn in H; congruence|]. apply IH. intro i. apply (H (S i)).
Qed.
Lemma group_one i v : group d i [v] = if d v =? i then [v] else [].
Proof. reflexivity. Qed.

Lemma increment_nth l i c : nth_error l i = Some c -> increment l i = Some (set_nth l i (S c)).
Proof. unfold increment. now intros ->. Qed.
Lemma assign_nth {A} (l : list A) i v : i < length l -> assign_at l i v = Some (set_nth l i v).
Proof. intro H. unfold assign_at. apply nth_error_Some in H. destruct (nth_error l i); [reflexivity|contradiction]. Qed.

(** The number of elements of every group *)
Lemma count_digits_spec n l : forall p count, length count = n ->
  (forall v, In v l -> d v < n) ->
  (forall i, i < n -> nth_error count i = Some (length (group d i p))) ->
  exists count', count_digits d l count = Some count' /\ length count' = n /\
    forall i, i < n -> nth_error count' i = Some (length (group d i (p ++ l))).
Proof.
  induction l as [|v l IH]; intros p count Hl Hd Hc; cbn.
  - exists count. rewrite app_nil_r. auto.
  - assert (Hv : d v < n) by (apply Hd; now left).
    rewrite (increment_nth _ _ _ (Hc _ Hv)).
    destruct (IH (p ++ [v]) (set_nth count (d v) (S (length (group d (d v) p))))) as (count' & E & Hl' & Hc').
    + now rewrite length_set_nth.
    + intros. apply Hd. now right.
    + intros i Hi. rewrite nth_error_set_nth, group_app, app_length, group_one.
      destruct (Nat.eqb_spec i (d v)) as [->|Hne].
      * destruct (Nat.ltb_spec (d v) (length count)); [|lia]. rewrite Nat.eqb_refl. cbn. f_equal. lia.
      * cbn [andb]. destruct (Nat.eqb_spec (d v) i); [lia|]. cbn [length]. rewrite Nat.add_0_r. now apply Hc.
    + exists count'. rewrite E. split; [reflexivity|]. split; [exact Hl'|]. intros i Hi. rewrite Hc' by assumption. now rewrite <- app_assoc.
Qed.
Lemma exchange_totals_spec count : forall total i, i < length count ->
  nth_error (exchange_totals total count) i = Some (total + list_sum (firstn i count)).
Proof.
  induction count as [|c count IH]; intros total i Hi; cbn in Hi; [lia|].
  destruct i as [|i]; cbn [exchange_totals nth_error firstn list_sum]; [f_equal; cbn; lia|]. rewrite IH by lia. f_equal. cbn [list_sum]. unfold list_sum. cbn [fold_right]. lia.
Qed.
Lemma exchange_totals_length count : forall total, length (exchange_totals total count) = length count.
Proof. induction count as [|c count IH]; intro total; cbn; [reflexivity|]. now rewrite IH. Qed.
Lemma firstn_sum l count i : (forall j, j < length count -> nth_error count j = Some (length (group d j l))) -> i <= length count ->
  list_sum (firstn i count) = start l i.
Proof.
  intros H. induction i as [|i IH]; intro Hi; [reflexivity|].
  assert (E : firstn (S i) count = firstn i count ++ [length (group d i l)]).
  { specialize (H i ltac:(lia)). apply nth_error_split in H as (a & b & -> & Ha). subst i.
    rewrite <- Nat.add_1_r, firstn_app_2. cbn [firstn]. f_equal.
    rewrite firstn_app, Nat.sub_diag, firstn_all. cbn. now rewrite app_nil_r. }
  rewrite E, list_sum_app, IH, start_S by lia. unfold list_sum. cbn [fold_right]. lia.
Qed.

Lemma segment_loop_spec n l r : forall p next count, l = p ++ r ->
  (forall v, In v l -> d v < n) ->
  length next = length l ->
  length count = n ->
  (forall i, i < n -> nth_error count i = Some (start l i + length (group d i p))) ->
  (forall i k, i < n -> k < length (group d i p) -> nth_error next (start l i + k) = nth_error (group d i p) k) ->
  segment_loop d r next count = Some (groups d 0 n l).
Proof.
  induction r as [|v r IH]; intros p next count El Hd Hlen Hn Hc Hnext; cbn.
  - rewrite app_nil_r in El. subst p. f_equal.
    apply nth_error_ext. intro q.
    assert (Hg : length (groups d 0 n l) = length l) by (apply start_all; exact Hd).
    destruct (Nat.lt_ge_cases q (length l)) as [Hq|Hq].
    + destruct (groups_position n l q) as (i & k & Hi & Hk & ->); [lia|]. rewrite Hnext, groups_nth by assumption. reflexivity.
    + transitivity (@None V); [|symmetry]; apply nth_error_None; lia.
  - assert (Hv : d v < n) by (apply Hd; rewrite El; apply in_or_app; right; now left).
    rewrite (Hc _ Hv).
    assert (Hk : length (group d (d v) p) < length (group d (d v) l)).
    { rewrite El, group_app, app_length. cbn. rewrite Nat.eqb_refl. cbn. lia. }
    assert (Hpos : start l (d v) + length (group d (d v) p) < length next).
    { rewrite Hlen, <- (start_all n l Hd). pose proof (start_lt l (d v) n Hv). lia. }
    rewrite assign_nth by assumption.
    apply (IH (p ++ [v])).
    + now rewrite <- app_assoc.
    + exact Hd.
    + now rewrite length_set_nth.
    + now rewrite length_set_nth.
    + intros i Hi. rewrite nth_error_set_nth, group_app, app_length, group_one.
      destruct (Nat.eqb_spec i (d v)) as [->|Hne].
      * destruct (Nat.ltb_spec (d v) (length count)); [|lia]. rewrite Nat.eqb_refl. cbn. f_equal. lia.
      * cbn [andb]. destruct (Nat.eqb_spec (d v) i); [lia|]. cbn [length]. rewrite Nat.add_0_r. now apply Hc.
    + intros i k Hi Hki. rewrite nth_error_set_nth. rewrite group_app, group_one in *.
      destruct (Nat.eqb_spec (d v) i) as [<-|Hne].
      * rewrite app_length in Hki. cbn in Hki.
        destruct (Nat.eqb_spec (start l (d v) + k) (start l (d v) + length (group d (d v) p))) as [E|E].
        -- assert (k = length (group d (d v) p)) as -> by lia.
           destruct (Nat.ltb_spec (start l (d v) + length (group d (d v) p)) (length next)); [|lia]. cbn.
           rewrite nth_error_app2, Nat.sub_diag by lia. reflexivity.
        -- cbn. rewrite nth_error_app1 by lia. apply Hnext; [assumption|lia].
      * rewrite app_nil_r in *.
        destruct (Nat.eqb_spec (start l i + k) (start l (d v) + length (group d (d v) p))) as [E|E]; [|cbn; now apply Hnext].
        exfalso. apply position_unique in E; [lia| |assumption].
        rewrite El, group_app, app_length. lia.
Qed.

(** One pass of counting sort. *)
Lemma sort_segment_copy_spec moved n l next count : (forall v, In v l -> d v < n) -> length next = length l ->
  length count = n -> (forall i, i < n -> nth_error count i = Some (start l i)) ->
  sort_segment_copy moved d count l next = Some (map moved l, groups d 0 n l).
Proof.
  intros Hd Hl Hn Hc. unfold sort_segment_copy.
  rewrite (segment_loop_spec n l l [] next count eq_refl Hd Hl Hn); [reflexivity| |].
  - intros i Hi. rewrite Hc by assumption. cbn. f_equal. lia.
  - cbn. lia.
Qed.
Lemma start_perm l l' i : Permutation l l' -> start l i = start l' i.
Proof.
  intro H. induction i as [|i IH]; [reflexivity|]. rewrite !start_S, IH. f_equal. unfold group.
  clear IH. induction H as [|v l l' H IH|u v l|l l' l'' H IH H' IH']; cbn; [reflexivity| | |congruence].
  - destruct (d v =? i); cbn; congruence.
  - destruct (d v =? i), (d u =? i); reflexivity.
Qed.
Lemma counts_spec l n : (forall v, In v l -> d v < n) ->
  exists count, count_digits d l (repeat 0 n) = Some count /\ length (exchange_totals 0 count) = n /\
    forall i, i < n -> nth_error (exchange_totals 0 count) i = Some (start l i).
Proof.
  intro Hd. destruct (count_digits_spec n l [] (repeat 0 n)) as (count & E & Hl & Hc).
  - apply repeat_length.
  - exact Hd.
  - intros i Hi. cbn. rewrite (nth_error_nth' _ 0) by now rewrite repeat_length. f_equal. apply nth_repeat.
  - exists count. split; [exact E|]. split; [now rewrite exchange_totals_length|].
    intros i Hi. rewrite exchange_totals_spec by lia. cbn in *. f_equal. apply firstn_sum; [|lia]. intros j Hj. apply Hc. lia.
Qed.
End Positions.

(** ** Bytes of an unsigned integer *)
Lemma digit_small x i : digit x i < 256.
Proof. unfold digit. pose proof (Z.mod_pos_bound (x / 256 ^ Z.of_nat i) 256 ltac:(lia)). lia. Qed.
Lemma digit_split x i : (x mod 256 ^ Z.of_nat (S i) = Z.of_nat (digit x i) * 256 ^ Z.of_nat i + x mod 256 ^ Z.of_nat i)%Z.
Proof.
  unfold digit. pose proof (Z.mod_pos_bound (x / 256 ^ Z.of_nat i) 256 ltac:(lia)).
  rewrite Z2Nat.id by lia. rewrite Nat2Z.inj_succ, Z.pow_succ_r by lia.
  assert (0 < 256 ^ Z.of_nat i)%Z by (apply Z.pow_pos_nonneg; lia).
  rewrite (Z.mul_comm 256), Z.rem_mul_r by lia. lia.
Qed.

Section Numeric.
Context {V : Type} (moved : V -> V) (key : V -> Z).
Definition by_mod (i : nat) (a b : V) : bool := (key a mod 256 ^ Z.of_nat i <? key b mod 256 ^ Z.of_nat i)%Z.
Lemma by_mod_swo i : strict_weak_order (by_mod i).
Proof.
  unfold by_mod. split; [|split].
  - intro a. apply Z.ltb_irrefl.
  - intros a b c. rewrite !Z.ltb_lt. lia.
  - intros a b c. unfold equivalent. rewrite !andb_true_iff, !negb_true_iff, !Z.ltb_ge. lia.
Qed.
Lemma by_mod_S i a b : lex (by_d (fun v => digit (key v) i)) (by_mod i) a b = by_mod (S i) a b.
Proof.
  unfold lex, by_d, by_mod. rewrite !digit_split.
  assert (Hp : (0 < 256 ^ Z.of_nat i)%Z) by (apply Z.pow_pos_nonneg; lia).
  pose proof (Z.mod_pos_bound (key a) _ Hp). pose proof (Z.mod_pos_bound (key b) _ Hp).
  set (p := (256 ^ Z.of_nat i)%Z) in *. set (x := (key a mod p)%Z) in *. set (y := (key b mod p)%Z) in *.
  set (m := digit (key a) i). set (n := digit (key b) i). clearbody m n x y p.
  destruct (Nat.ltb_spec m n) as [E|E]; cbn [orb]; [symmetry; apply Z.ltb_lt; nia|].
  destruct (Nat.ltb_spec n m) as [E'|E']; cbn [negb andb]; [symmetry; apply Z.ltb_ge; nia|].
  assert (m = n) as -> by lia. destruct (Z.ltb_spec x y); symmetry; [apply Z.ltb_lt|apply Z.ltb_ge]; lia.
Qed.
Lemma stable_refl_mod0 l : stable_sorting (by_mod 0) l l.
Proof.
  split; [split; [reflexivity|]|reflexivity]. intros i j a b _ _ _. unfold by_mod. cbn. now rewrite !Z.mod_1_r.
Qed.

Lemma all_counts_spec l : forall size index, exists counts, all_counts key l index size = Some counts /\
  forall i, i < size -> exists count, nth_error counts i = Some count /\ length count = 256 /\
    forall j, j < 256 -> nth_error count j = Some (start (fun v => digit (key v) (index + i)) l j).
Proof.
  induction size as [|size IH]; intro index; cbn [all_counts].
  - exists []. split; [reflexivity|]. lia.
  - destruct (counts_spec (fun v => digit (key v) index) l 256) as (count & E & Hl & Hc); [intros; apply digit_small|].
    rewrite E. destruct (IH (S index)) as (rest & E' & Hr). rewrite E'.
    exists (exchange_totals 0 count :: rest). split; [reflexivity|]. intros [|i] Hi.
    + exists (exchange_totals 0 count). rewrite Nat.add_0_r. cbn [nth_error]. auto.
    + destruct (Hr i ltac:(lia)) as (c & Hc1 & Hc2 & Hc3). exists c. cbn [nth_error]. split; [exact Hc1|]. split; [exact Hc2|].
      intros j Hj. rewrite Hc3 by assumption. now rewrite Nat.add_succ_comm.
Qed.

(** One pass from [current], which has the elements of [l], by the byte [i]. *)
Lemma pass_spec l current next counts size i :
  (forall i, i < size -> exists count, nth_error counts i = Some count /\ length count = 256 /\
    forall j, j < 256 -> nth_error count j = Some (start (fun v => digit (key v) i) l j)) ->
  i < size -> length next = length l -> stable_sorting (by_mod i) l current ->
  exists count next', nth_error counts i = Some count /\
    sort_segment_copy moved (fun v => digit (key v) i) count current next = Some (map moved current, next') /\
    length (map moved current) = length l /\ length next' = length l /\ stable_sorting (by_mod (S i)) l next'.
Proof.
  intros Hcs Hi Hn Hs. destruct (Hcs i Hi) as (count & E & Hl & Hc).
  exists count, (groups (fun v => digit (key v) i) 0 256 current). split; [exact E|].
  assert (Hlc : length current = length l) by (symmetry; apply Permutation_length, Hs).
  assert (Hst : stable_sorting (by_mod (S i)) l (groups (fun v => digit (key v) i) 0 256 current)).
  { eapply stable_ext; [intros; apply by_mod_S|]. eapply stable_then; [apply by_d_swo|apply by_mod_swo|exact Hs|].
    apply groups_stable. intros. apply digit_small. }
  split; [|split; [now rewrite map_length|split; [|exact Hst]]].
  - apply sort_segment_copy_spec; [intros; apply digit_small|lia|exact Hl|].
    intros j Hj. rewrite Hc by assumption. f_equal. apply start_perm, Hs.
  - symmetry. apply Permutation_length, Hst.
Qed.

Lemma numeric_even l counts size :
  (forall i, i < size -> exists count, nth_error counts i = Some count /\ length count = 256 /\
    forall j, j < 256 -> nth_error count j = Some (start (fun v => digit (key v) i) l j)) ->
  size mod 2 = 0 ->
  forall fuel index source buffer, index mod 2 = 0 -> index <= size -> size - index < fuel ->
  length buffer = length l -> stable_sorting (by_mod index) l source ->
  exists source' buffer', numeric_loop moved fuel size index key counts source buffer = Some (source', buffer') /\
    length source' = length l /\ length buffer' = length l /\ stable_sorting (by_mod size) l source'.
Proof.
  intros Hcs Hsize. induction fuel as [|fuel IH]; intros index source buffer Hpar Hle Hf Hb Hs; [lia|].
  cbn [numeric_loop]. destruct (Nat.eqb_spec index size) as [->|Hne].
  - exists source, buffer. split; [reflexivity|]. split; [symmetry; apply Permutation_length, Hs|auto].
  - pose proof (Nat.div_mod_eq index 2). pose proof (Nat.div_mod_eq size 2).
    destruct (pass_spec l source buffer counts size index Hcs ltac:(lia) Hb Hs) as (c1 & n1 & E1 & P1 & L1 & L1' & S1).
    rewrite E1, P1, Hsize. cbn [Nat.eqb].
    destruct (pass_spec l n1 (map moved source) counts size (S index) Hcs ltac:(lia) L1 S1) as (c2 & n2 & E2 & P2 & L2 & L2' & S2).
    rewrite E2, P2. apply IH; [|lia|lia|assumption|assumption].
    replace (S (S index)) with (index + 1 * 2) by lia. rewrite Nat.mod_add by lia. exact Hpar.
Qed.

Lemma numeric_spec size source buffer : size = 1 \/ size mod 2 = 0 -> length source = length buffer ->
  exists which source' buffer', double_buffered_numeric_sort moved size key source buffer = Some (which, source', buffer') /\
    length source' = length source /\ length buffer' = length source /\
    stable_sorting (by_mod size) source (if which then buffer' else source').
Proof.
  intros Hsize Hlen. unfold double_buffered_numeric_sort.
  destruct (all_counts_spec source size 0) as (counts & -> & Hcs). cbn [Nat.add] in Hcs.
  destruct Hsize as [-> | Hsize].
  - cbn [numeric_loop Nat.eqb].
    destruct (pass_spec source source buffer counts 1 0 Hcs ltac:(lia) (eq_sym Hlen) (stable_refl_mod0 source)) as (c1 & n1 & E1 & P1 & L1 & L1' & S1).
    rewrite E1, P1. cbn. eauto 8.
  - destruct (numeric_even source counts size Hcs Hsize (S size) 0 source buffer eq_refl ltac:(lia) ltac:(lia) (eq_sym Hlen) (stable_refl_mod0 source))
      as (s' & b' & -> & L1 & L2 & S1).
    rewrite Hsize. cbn. eauto 8.
Qed.
End Numeric.

(** ** Booleans *)
Lemma bool_loop_is {V} (f : V -> bool) source : forall output fp tp,
  bool_loop f source output fp tp = segment_loop (fun v => if f v then 1 else 0) source output [fp; tp].
Proof.
  induction source as [|v source IH]; intros output fp tp; [reflexivity|].
  cbn [bool_loop segment_loop]. destruct (f v); cbn [nth_error]; destruct (assign_at output _ v); cbn [set_nth]; try reflexivity; apply IH.
Qed.
Lemma bool_spec {V} moved (f : V -> bool) source buffer : length source = length buffer ->
  exists buffer', bool_sort_copy moved f source buffer = Some (map moved source, buffer') /\
    stable_sorting (fun a b => negb (f a) && f b) source buffer'.
Proof.
  intro Hl. set (d := fun v => if f v then 1 else 0). exists (groups d 0 2 source).
  assert (Hd : forall v, In v source -> d v < 2) by (intros v _; unfold d; destruct (f v); lia).
  split.
  - unfold bool_sort_copy. rewrite bool_loop_is. fold d.
    rewrite (segment_loop_spec d 2 source source [] buffer); [reflexivity|reflexivity|exact Hd|lia|reflexivity| |cbn; lia].
    intros i Hi. destruct i as [|[|i]]; [reflexivity| |lia]. cbn [nth_error]. f_equal.
    change (@length V (group d 1 [])) with 0. rewrite Nat.add_0_r. unfold start. rewrite groups_S. cbn [groups seq flat_map].
    unfold groups. cbn. rewrite app_nil_r. unfold group. f_equal. apply filter_ext. intro v. unfold d. destruct (f v); reflexivity.
  - eapply stable_ext; [|apply groups_stable; exact Hd].
    intros a b. unfold by_d, d. destruct (f a), (f b); reflexivity.
Qed.

(** ** Keys *)
Fixpoint key_induction (P : key -> Prop) (Hb : forall b, P (Kb b)) (Hu : forall z, P (Ku z))
    (Hl : forall ks, Forall P ks -> P (Kl ks)) (k : key) : P k :=
  match k with
  | Kb b => Hb b
  | Ku z => Hu z
  | Kl ks => Hl ks ((fix go ks : Forall P ks := match ks with [] => Forall_nil _ | k :: ks => Forall_cons _ (key_induction P Hb Hu Hl k) (go ks) end) ks)
  end.
Fixpoint kind_induction (P : kind -> Prop) (Hb : P KBool) (Hu : forall n, P (KUint n))
    (Hl : forall ks, Forall P ks -> P (KList ks)) (k : kind) : P k :=
  match k with
  | KBool => Hb
  | KUint n => Hu n
  | KList ks => Hl ks ((fix go ks : Forall P ks := match ks with [] => Forall_nil _ | k :: ks => Forall_cons _ (kind_induction P Hb Hu Hl k) (go ks) end) ks)
  end.

Lemma compare_opp a : forall b, compare_keys b a = CompOpp (compare_keys a b).
Proof.
  induction a as [x|x|xs IH] using key_induction; intros [y|y|ys]; try reflexivity.
  - destruct x, y; reflexivity.
  - cbn. apply Z.compare_antisym.
  - revert ys. induction IH as [|x xs Hx _ IH]; intros [|y ys]; try reflexivity.
    specialize (IH ys). cbn in IH |- *. rewrite Hx. destruct (compare_keys x y); cbn; auto.
Qed.
Lemma key_less_cons x xs y ys : key_less (Kl (x :: xs)) (Kl (y :: ys)) = key_less x y || (negb (key_less y x) && key_less (Kl xs) (Kl ys)).
Proof. unfold key_less. rewrite (compare_opp x y). cbn. destruct (compare_keys x y); reflexivity. Qed.

Section Keys.
Context {V : Type} (moved : V -> V).

Definition by_key (ex : V -> key) (a b : V) : bool := key_less (ex a) (ex b).

Definition list_of (k : key) : list key := match k with Kl ks => ks | _ => [] end.
Definition tail_key (i : nat) (k : key) : key := Kl (skipn i (list_of k)).
Lemma tail_step (ex : V -> key) i : (forall v, i < length (list_of (ex v))) ->
  forall a b, lex (by_key (fun v => element i (ex v))) (by_key (fun v => tail_key (S i) (ex v))) a b = by_key (fun v => tail_key i (ex v)) a b.
Proof.
  intros H a b.
  assert (E : forall v, tail_key i (ex v) = Kl (element i (ex v) :: skipn (S i) (list_of (ex v)))).
  { intro v. specialize (H v). unfold tail_key. destruct (ex v) as [x|x|ks]; try (cbn in H; lia). cbn [list_of element] in *.
    f_equal. revert H. clear. revert i. induction ks as [|k ks IH]; intros i H; cbn in H; [lia|]. destruct i; [reflexivity|]. cbn. apply IH. lia. }
  unfold lex, by_key. rewrite !E, key_less_cons. reflexivity.
Qed.
Lemma tail_end (ex : V -> key) i : (forall v, length (list_of (ex v)) <= i) -> forall a b, by_key (fun v => tail_key i (ex v)) a b = false.
Proof. intros H a b. unfold by_key, tail_key. rewrite !skipn_all2 by apply H. reflexivity. Qed.
Lemma never_swo : strict_weak_order (fun _ _ : V => false).
Proof. split; [|split]; intros; try reflexivity; discriminate. Qed.
Lemma never_stable (l : list V) : stable_sorting (fun _ _ => false) l l.
Proof. split; [split; [reflexivity|]|reflexivity]. intros i j a b _ _ _. reflexivity. Qed.

Lemma of_list ks k : has_kind (KList ks) k -> k = Kl (list_of k) /\ Forall2 has_kind ks (list_of k).
Proof. inversion 1; subst. auto. Qed.
Lemma Forall2_app_len {A B} (R : A -> B -> Prop) l l' : Forall2 R l l' -> length l = length l'.
Proof. induction 1; cbn; lia. Qed.
Lemma Forall2_nth {A B} (R : A -> B -> Prop) l l' i a b : Forall2 R l l' -> nth_error l i = Some a -> nth_error l' i = Some b -> R a b.
Proof. intro H. revert i. induction H; intros [|i]; cbn; try discriminate; [congruence|apply IHForall2]. Qed.

Definition of_kind (k : kind) (ex : V -> key) : Prop := forall v, has_kind k (ex v).
Lemma element_kind done k ks (ex : V -> key) : of_kind (KList (done ++ k :: ks)) ex -> of_kind k (fun v => element (length done) (ex v)).
Proof.
  intros H v. destruct (of_list _ _ (H v)) as [E F]. rewrite E. cbn [element].
  pose proof (Forall2_app_len _ _ _ F) as Hl. rewrite app_length in Hl. cbn in Hl.
  eapply (Forall2_nth _ _ _ (length done)); [exact F|rewrite nth_error_app2, Nat.sub_diag by lia; reflexivity|].
  apply nth_error_nth'. lia.
Qed.
Lemma length_kind ks (ex : V -> key) : of_kind (KList ks) ex -> forall v, length (list_of (ex v)) = length ks.
Proof. intros H v. destruct (of_list _ _ (H v)) as [_ F]. symmetry. eapply Forall2_app_len, F. Qed.

Lemma tails_swo (ks : list kind) : Forall (fun k => forall ex, of_kind k ex -> strict_weak_order (by_key ex)) ks ->
  forall done ex, of_kind (KList (done ++ ks)) ex -> strict_weak_order (by_key (fun v => tail_key (length done) (ex v))).
Proof.
  induction 1 as [|k ks Hk _ IH]; intros done ex Hex.
  - eapply swo_ext; [|apply never_swo]. intros a b. symmetry. apply tail_end. intro v. rewrite (length_kind _ _ Hex), app_length. cbn. lia.
  - eapply swo_ext.
    + apply (tail_step ex (length done)). intro v. rewrite (length_kind _ _ Hex), app_length. cbn. lia.
    + apply swo_lex.
      * apply Hk. eapply element_kind. exact Hex.
      * specialize (IH (done ++ [k]) ex). rewrite app_length, Nat.add_1_r in IH. apply IH. rewrite <- app_assoc. exact Hex.
Qed.
Lemma whole_tail (ex : V -> key) ks : of_kind (KList ks) ex -> forall a b, by_key (fun v => tail_key 0 (ex v)) a b = by_key ex a b.
Proof. intros H a b. unfold by_key, tail_key. cbn [skipn]. rewrite <- (proj1 (of_list _ _ (H a))), <- (proj1 (of_list _ _ (H b))). reflexivity. Qed.
Lemma key_swo k : forall ex, of_kind k ex -> strict_weak_order (by_key ex).
Proof.
  induction k as [|n|ks IH] using kind_induction; intros ex Hex.
  - eapply swo_ext; [|apply (by_d_swo (fun v => if as_bool (ex v) then 1 else 0))].
    intros a b. unfold by_d, by_key. pose proof (Hex a) as Ha. pose proof (Hex b) as Hb. inversion Ha as [x E| |]. inversion Hb as [y E'| |].
    destruct x, y; reflexivity.
  - eapply swo_ext; [|apply (by_mod_swo (fun v => as_uint (ex v)) n)].
    intros a b. unfold by_mod, by_key. pose proof (Hex a) as Ha. pose proof (Hex b) as Hb. inversion Ha as [|m x Hx|]. inversion Hb as [|m' y Hy|].
    cbn [as_uint]. rewrite !Z.mod_small by assumption. unfold key_less. cbn. reflexivity.
  - eapply swo_ext; [apply (whole_tail ex ks Hex)|]. apply (tails_swo ks IH [] ex Hex).
Qed.

Lemma impl_spec k : builtin_kind k -> forall ex source buffer, of_kind k ex -> length source = length buffer ->
  exists which source' buffer', double_buffered_sort_impl moved k ex source buffer = Some (which, source', buffer') /\
    length source' = length source /\ length buffer' = length source /\
    stable_sorting (by_key ex) source (if which then buffer' else source').
Proof.
  induction k as [|n|ks IH] using kind_induction; intros Hk ex source buffer Hex Hlen.
  - destruct (bool_spec moved (fun v => as_bool (ex v)) source buffer Hlen) as (b' & E & Hs).
    cbn [double_buffered_sort_impl]. rewrite E. exists true, (map moved source), b'.
    split; [reflexivity|]. split; [apply map_length|]. split; [symmetry; apply Permutation_length, Hs|].
    eapply stable_ext; [|exact Hs]. intros a b. unfold by_key.
    pose proof (Hex a) as Ha. pose proof (Hex b) as Hb. inversion Ha as [x Ex| |]. inversion Hb as [y Ey| |]. destruct x, y; reflexivity.
  - inversion Hk as [|n' Hn|]. subst n'.
    destruct (numeric_spec moved (fun v => as_uint (ex v)) n source buffer) as (w & s' & b' & E & L1 & L2 & Hs).
    + cbn in Hn. destruct Hn as [<-|[<-|[<-|[<-|[<-|[]]]]]]; auto.
    + exact Hlen.
    + cbn [double_buffered_sort_impl]. rewrite E. exists w, s', b'. split; [reflexivity|]. split; [exact L1|]. split; [exact L2|].
      eapply stable_ext; [|exact Hs].
      intros a b. unfold by_mod, by_key. pose proof (Hex a) as Ha. pose proof (Hex b) as Hb. inversion Ha as [|m x Hx|]. inversion Hb as [|m' y Hy|].
      cbn [as_uint]. rewrite !Z.mod_small by assumption. unfold key_less. cbn. reflexivity.
  - inversion Hk as [| |ks' Hks]. subst ks'. clear Hk.
    cbn [double_buffered_sort_impl].
    match goal with |- exists w s b, ?f ks 0 = _ /\ _ => set (loop := f) end.
    assert (Hloop : forall todo done, Forall builtin_kind todo ->
      Forall (fun k => builtin_kind k -> forall ex source buffer, of_kind k ex -> length source = length buffer ->
        exists which source' buffer', double_buffered_sort_impl moved k ex source buffer = Some (which, source', buffer') /\
        length source' = length source /\ length buffer' = length source /\
        stable_sorting (by_key ex) source (if which then buffer' else source')) todo ->
      of_kind (KList (done ++ todo)) ex ->
      exists which source' buffer', loop todo (length done) = Some (which, source', buffer') /\
        length source' = length source /\ length buffer' = length source /\
        stable_sorting (by_key (fun v => tail_key (length done) (ex v))) source (if which then buffer' else source')).
    { clear Hex. intro todo. induction todo as [|k todo IHt]; intros done Hb Hi Hd.
      - exists false, source, buffer. split; [reflexivity|]. split; [reflexivity|]. split; [lia|].
        eapply stable_ext; [|apply never_stable]. intros a b. symmetry. apply tail_end. intro v. rewrite (length_kind _ _ Hd), app_length. cbn. lia.
      - inversion Hb as [|? ? Hbk Hbt]. subst. inversion Hi as [|? ? Hik Hit]. subst.
        destruct (IHt (done ++ [k]) Hbt Hit) as (w & s & b & E & L1 & L2 & Hs); [rewrite <- app_assoc; exact Hd|].
        rewrite app_length, Nat.add_1_r in E, Hs.
        assert (Hk : of_kind k (fun v => element (length done) (ex v))) by (eapply element_kind; exact Hd).
        assert (Hlast : forall l2, stable_sorting (by_key (fun v => element (length done) (ex v))) (if w then b else s) l2 ->
                  stable_sorting (by_key (fun v => tail_key (length done) (ex v))) source l2).
        { intros l2 H2. eapply stable_ext.
          - apply (tail_step ex (length done)). intro v. rewrite (length_kind _ _ Hd), app_length. cbn. lia.
          - eapply stable_then; [apply (key_swo k), Hk| |exact Hs|exact H2].
            assert (Hd' : of_kind (KList ((done ++ [k]) ++ todo)) ex) by (rewrite <- app_assoc; exact Hd).
            pose proof (tails_swo todo) as Ht. specialize (Ht ltac:(apply Forall_forall; intros; apply (key_swo x); assumption) (done ++ [k]) ex Hd').
            rewrite app_length, Nat.add_1_r in Ht. exact Ht. }
        unfold loop in *. rewrite E. destruct w.
        + destruct (Hik Hbk (fun v => element (length done) (ex v)) b s Hk ltac:(lia)) as (w' & b' & s' & E' & L1' & L2' & Hs').
          rewrite E'. exists (negb w'), s', b'. split; [reflexivity|]. split; [lia|]. split; [lia|].
          apply Hlast. destruct w'; exact Hs'.
        + destruct (Hik Hbk (fun v => element (length done) (ex v)) s b Hk ltac:(lia)) as (w' & s' & b' & E' & L1' & L2' & Hs').
          rewrite E'. exists w', s', b'. split; [reflexivity|]. split; [lia|]. split; [lia|].
          apply Hlast. exact Hs'. }
    destruct (Hloop ks [] Hks IH Hex) as (w & s & b & E & L1 & L2 & Hs).
    exists w, s, b. split; [exact E|]. split; [exact L1|]. split; [exact L2|].
    eapply stable_ext; [apply (whole_tail ex ks Hex)|]. exact Hs.
Qed.
End Keys.
