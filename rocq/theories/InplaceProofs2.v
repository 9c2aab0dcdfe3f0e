(** * partition with a predicate that has effects; the passes of ska_byte_sort and american_flag_sort *)

From Coq Require Import List Arith Bool Permutation Lia ZArith.
From Verif Require Import Mem MemLemmas SpecSort SortLemmas AlgoProofs DoubleBuffer RadixLemmas DoubleBufferProofs InplaceRadix InplaceProofs.
Import ListNotations.
Local Open Scope nat_scope.

Section Partition.
Context {A St : Type} (predicate : A -> St -> option (bool * St)).
Context (ok : A -> Prop) (I : St -> Prop) (grows : St -> St -> Prop) (prog : St -> St -> Prop) (fin : A -> St -> Prop) (yes : A -> Prop).
Context (grows_refl : forall s, grows s s) (grows_trans : forall a b c, grows a b -> grows b c -> grows a c).
Context (fin_grows : forall a s s', fin a s -> grows s s' -> fin a s').
Context (prog_grows : forall a b c, prog a b -> grows b c -> prog a c) (grows_prog : forall a b c, grows a b -> prog b c -> prog a c).
Context (step : forall a s, ok a -> I s -> exists b s', predicate a s = Some (b, s') /\ I s' /\ grows s s' /\
  (b = false -> fin a s') /\ (b = true -> yes a /\ prog s s')).

Definition at_is (P : A -> Prop) (l : list A) (k : nat) : Prop := exists a, nth_error l k = Some a /\ P a.
Definition all_ok (l : list A) : Prop := forall a, In a l -> ok a.

Lemma advance_first_spec : forall n l first s, all_ok l -> first + n <= length l -> I s ->
  exists f s', advance_first predicate n l first s = Some (f, s') /\ I s' /\ grows s s' /\ first <= f <= first + n /\
    (forall k, first <= k < f -> at_is yes l k) /\ (f < first + n -> at_is (fun a => fin a s') l f) /\ (first < f -> prog s s').
Proof.
  induction n as [|n IH]; intros l first s Hok Hn Hs; cbn [advance_first].
  - exists first, s. split; [reflexivity|]. split; [exact Hs|]. split; [apply grows_refl|]. split; [lia|]. split; [lia|]. split; lia.
  - destruct (nth_error l first) as [a|] eqn:E; [|apply nth_error_None in E; lia].
    destruct (step a s (Hok _ (nth_error_In _ _ E)) Hs) as (b & s1 & -> & I1 & G1 & F1 & Y1). destruct b.
    + destruct (Y1 eq_refl) as [Y2 M]. destruct (IH l (S first) s1 Hok ltac:(lia) I1) as (f & s' & -> & I2 & G2 & R & K1 & K2 & K3).
      exists f, s'. split; [reflexivity|]. split; [exact I2|]. split; [eauto|]. split; [lia|]. split; [|split].
      * intros k Hk. destruct (Nat.eq_dec k first) as [->|]; [exists a; auto|]. apply K1. lia.
      * intro Hf. apply K2. lia.
      * intros _. eauto.
    + exists first, s1. split; [reflexivity|]. split; [exact I1|]. split; [exact G1|]. split; [lia|]. split; [lia|].
      split; [intros _; exists a; auto|lia].
Qed.
Lemma advance_last_spec : forall n l first s, all_ok l -> first + n <= length l -> I s ->
  exists q s', advance_last predicate n l first s = Some (q, s') /\ I s' /\ grows s s' /\ first <= q <= first + n /\ (0 < n -> q < first + n) /\
    (forall k, q < k < first + n -> at_is (fun a => fin a s') l k) /\ (q <> first -> at_is yes l q /\ prog s s').
Proof.
  induction n as [|n IH]; intros l first s Hok Hn Hs; cbn [advance_last].
  - exists first, s. split; [reflexivity|]. split; [exact Hs|]. split; [apply grows_refl|]. split; [lia|]. split; [lia|]. split; [lia|]. intro T. now contradiction T.
  - destruct (nth_error l (first + n)) as [a|] eqn:E; [|apply nth_error_None in E; lia].
    destruct (step a s (Hok _ (nth_error_In _ _ E)) Hs) as (b & s1 & -> & I1 & G1 & F1 & Y1). destruct b.
    + destruct (Y1 eq_refl) as [Y2 M]. exists (first + n), s1. split; [reflexivity|]. split; [exact I1|]. split; [exact G1|]. split; [lia|].
      split; [lia|]. split; [lia|]. intros _. split; [exists a; auto|exact M].
    + destruct (IH l first s1 Hok ltac:(lia) I1) as (q & s' & -> & I2 & G2 & R & R' & K1 & K2).
      exists q, s'. split; [reflexivity|]. split; [exact I2|]. split; [eauto|]. split; [lia|]. split; [lia|]. split.
      * intros k Hk. destruct (Nat.eq_dec k (first + n)) as [->|]; [exists a; eauto|]. apply K1. lia.
      * intro Hq. destruct (K2 Hq) as [Y2 M]. split; [exact Y2|]. eauto.
Qed.

Lemma at_is_fin_grows l k s s' : grows s s' -> at_is (fun a => fin a s) l k -> at_is (fun a => fin a s') l k.
Proof. intros G (a & Ha & F). exists a. eauto. Qed.

Lemma partition_loop_spec last0 : forall fuel l first last s, all_ok l -> first <= last < length l -> last <= last0 <= length l -> I s ->
  last - first < fuel ->
  (forall k, k < first -> at_is yes l k) -> (forall k, last < k < last0 -> at_is (fun a => fin a s) l k) ->
  (last < last0 -> at_is (fun a => fin a s) l first) ->
  (first <> last -> at_is yes l last /\ last < last0) ->
  exists r l' s', partition_loop predicate fuel l first last s = Some (r, l', s') /\ I s' /\ grows s s' /\ r <= last0 /\ first <= r /\
    Permutation l l' /\ (forall k, last0 <= k -> nth_error l' k = nth_error l k) /\
    (forall k, k < r -> at_is yes l' k) /\ (forall k, r <= k < last0 -> at_is (fun a => fin a s') l' k).
Proof.
  induction fuel as [|fuel IH]; intros l first last s Hok Hfl Hl0 Hs Hf Hy Hfin Hff Hyl; [lia|]. cbn [partition_loop].
  destruct (Nat.eqb_spec first last) as [<-|Hne].
  - exists first, l, s. split; [reflexivity|]. split; [exact Hs|]. split; [apply grows_refl|]. split; [lia|]. split; [lia|]. split; [reflexivity|].
    split; [auto|]. split; [exact Hy|].
    intros k Hk. destruct (Nat.eq_dec k first) as [->|]; [|apply Hfin; lia]. apply Hff. lia.
  - rewrite swap_at_is by lia. set (l1 := swapl l first last).
    destruct (Hyl Hne) as [Yl Hll]. specialize (Hff Hll).
    assert (P1 : Permutation l l1) by apply swapl_perm.
    assert (Len1 : length l1 = length l) by apply swapl_length.
    assert (Hok1 : all_ok l1) by (intros a Ha; apply Hok; eapply Permutation_in; [symmetry; exact P1|exact Ha]).
    assert (N1 : forall k, nth_error l1 k = if k =? last then nth_error l first else if k =? first then nth_error l last else nth_error l k)
      by (intro k; apply swapl_nth; lia).
    destruct (advance_first_spec (last - first) l1 first s Hok1 ltac:(lia) Hs) as (f & s1 & -> & I1 & G1 & R1 & K1 & K2 & _).
    assert (Hy1 : forall k, k < f -> at_is yes l1 k).
    { intros k Hk. destruct (Nat.lt_ge_cases k first) as [T|T]; [|apply K1; lia].
      destruct (Hy k T) as (a & Ha & Y). exists a. rewrite N1. destruct (Nat.eqb_spec k last), (Nat.eqb_spec k first); try lia. auto. }
    assert (Hfin1 : forall k, last <= k < last0 -> at_is (fun a => fin a s1) l1 k).
    { intros k Hk. apply (at_is_fin_grows _ _ s s1 G1). destruct (Nat.eq_dec k last) as [->|T].
      - destruct Hff as (a & Ha & F). exists a. rewrite N1, Nat.eqb_refl. auto.
      - destruct (Hfin k ltac:(lia)) as (a & Ha & F). exists a. rewrite N1. destruct (Nat.eqb_spec k last), (Nat.eqb_spec k first); try lia. auto. }
    assert (Out1 : forall k, last0 <= k -> nth_error l1 k = nth_error l k).
    { intros k Hk. rewrite N1. destruct (Nat.eqb_spec k last), (Nat.eqb_spec k first); try lia. reflexivity. }
    destruct (Nat.eqb_spec f last) as [Ef|Ef].
    + exists f, l1, s1. split; [reflexivity|]. split; [exact I1|]. split; [exact G1|]. split; [lia|]. split; [lia|]. split; [exact P1|].
      split; [exact Out1|]. split; [exact Hy1|]. intros k Hk. apply Hfin1. lia.
    + destruct (advance_last_spec (last - f) l1 f s1 Hok1 ltac:(lia) I1) as (q & s2 & -> & I2 & G2 & R2 & R2' & K3 & K4).
      replace (f + (last - f)) with last in * by lia.
      destruct (IH l1 f q s2) as (r & l' & s' & -> & I3 & G3 & R3 & R4 & P3 & O3 & Y3 & F3).
      * exact Hok1.
      * lia.
      * lia.
      * exact I2.
      * specialize (R2' ltac:(lia)). lia.
      * exact Hy1.
      * intros k Hk. destruct (Nat.lt_ge_cases k last) as [T|T]; [apply K3; lia|]. apply (at_is_fin_grows _ _ s1 s2 G2), Hfin1. lia.
      * intros _. apply (at_is_fin_grows _ _ s1 s2 G2), K2. lia.
      * intro T. destruct (K4 ltac:(auto)) as [Y _]. split; [exact Y|]. specialize (R2' ltac:(lia)). lia.
      * exists r, l', s'. split; [reflexivity|]. split; [exact I3|]. split; [eauto|]. split; [exact R3|]. split; [lia|].
        split; [etransitivity; eauto|]. split; [intros k Hk; rewrite O3 by assumption; auto|]. split; [exact Y3|exact F3].
Qed.

Lemma partition_range_spec l last s : all_ok l -> last <= length l -> I s ->
  exists r l' s', partition_range predicate l last s = Some (r, l', s') /\ I s' /\ grows s s' /\ r <= last /\
    Permutation l l' /\ (forall k, last <= k -> nth_error l' k = nth_error l k) /\
    (forall k, k < r -> at_is yes l' k) /\ (forall k, r <= k < last -> at_is (fun a => fin a s') l' k) /\ (0 < r -> prog s s').
Proof.
  intros Hok Hl Hs. unfold partition_range.
  destruct (advance_first_spec last l 0 s Hok ltac:(lia) Hs) as (f & s1 & -> & I1 & G1 & R1 & K1 & K2 & M1). rewrite Nat.add_0_l in *.
  destruct (advance_last_spec (last - f) l f s1 Hok ltac:(lia) I1) as (q & s2 & -> & I2 & G2 & R2 & R2' & K3 & K4).
  replace (f + (last - f)) with last in * by lia.
  destruct (Nat.eq_dec f last) as [Ef|Ef].
  - assert (q = f) as -> by lia. cbn [partition_loop]. rewrite Nat.eqb_refl.
    exists f, l, s2. split; [reflexivity|]. split; [exact I2|]. split; [eauto|]. split; [lia|]. split; [reflexivity|]. split; [auto|].
    split; [intros k Hk; apply K1; lia|]. split; [lia|]. intro T. specialize (M1 T). eauto.
  - destruct (partition_loop_spec last (S (q - f)) l f q s2) as (r & l' & s' & E & I3 & G3 & R3 & R4 & P3 & O3 & Y3 & F3).
    + exact Hok.
    + specialize (R2' ltac:(lia)). lia.
    + lia.
    + exact I2.
    + lia.
    + intros k Hk. apply K1. lia.
    + exact K3.
    + intros _. apply (at_is_fin_grows _ _ s1 s2 G2), K2. lia.
    + intro T. destruct (K4 ltac:(auto)) as [Y _]. split; [exact Y|]. specialize (R2' ltac:(lia)). lia.
    + exists r, l', s'. split; [exact E|]. split; [exact I3|]. split; [eauto|]. split; [lia|]. split; [exact P3|]. split; [exact O3|].
      split; [exact Y3|]. split; [exact F3|].
      intro T.
      destruct (Nat.eq_dec f 0) as [->|]; [|specialize (M1 ltac:(lia)); eauto].
      destruct (Nat.eq_dec q 0) as [->|Hq]; [|destruct (K4 Hq) as [_ M]; eauto].
      exfalso. cbn [Nat.sub partition_loop] in E. rewrite Nat.eqb_refl in E. injection E as <- _ _. lia.
Qed.
End Partition.

(** A predicate without effects *)
Lemma pure_partition {A} (pr : A -> bool) (l : list A) :
  exists r l', partition_range (fun v (s : unit) => Some (pr v, s)) l (length l) tt = Some (r, l', tt) /\ r <= length l /\ Permutation l l' /\
    (forall v, In v (firstn r l') -> pr v = true) /\ (forall v, In v (skipn r l') -> pr v = false).
Proof.
  destruct (partition_range_spec (fun v (s : unit) => Some (pr v, s)) (fun _ => True) (fun _ => True) (fun _ _ => True) (fun _ _ => True)
    (fun a _ => pr a = false) (fun a => pr a = true)) with (l := l) (last := length l) (s := tt)
    as (r & l' & [] & E & _ & _ & R & P & _ & Y & F & _); auto.
  - intros a s _ _. exists (pr a), s. repeat split; auto.
  - intros a _. exact I.
  - exists r, l'. split; [exact E|]. split; [exact R|]. split; [exact P|]. split.
    + intros v Hv. apply In_nth_error in Hv as [k Hk]. assert (k < length (firstn r l')) as Hl by (apply nth_error_Some; congruence).
      rewrite firstn_length in Hl. destruct (Y k ltac:(lia)) as (a & Ha & Hp).
      assert (nth_error (firstn r l') k = nth_error l' k) as E1.
      { rewrite <- (firstn_skipn r l') at 2. rewrite nth_error_app1; [reflexivity|]. rewrite firstn_length. lia. }
      congruence.
    + intros v Hv. apply In_nth_error in Hv as [k Hk]. assert (k < length (skipn r l')) as Hl by (apply nth_error_Some; congruence).
      rewrite skipn_length in Hl. pose proof (Permutation_length P) as Pl. destruct (F (r + k) ltac:(lia)) as (a & Ha & Hp).
      assert (nth_error (skipn r l') k = nth_error l' (r + k)) as E1.
      { rewrite <- (firstn_skipn r l') at 2. rewrite nth_error_app2; rewrite firstn_length; [|lia]. f_equal. lia. }
      congruence.
Qed.

(** ** ska_byte_sort *)
Section Ska.
Context {V : Type} (d : V -> nat) (l : list V).
Context (Hd : forall v, In v l -> d v < 256).
Local Notation st := (start d l).
Context (next : list nat) (Hnext : forall i, i < 256 -> nth_error next i = Some (st (S i))).

(** How much is not in place. *)
Definition left_over (off : list nat) : nat := list_sum next - list_sum off.

Lemma nth_off off (o : nat -> nat) : length off = 256 -> (forall i, i < 256 -> nth_error off i = Some (o i)) -> forall i, i < 256 -> nth i off 0 = o i.
Proof. intros Hl H i Hi. apply (nth_error_nth off i 0 (H i Hi)). Qed.
Lemma sum_lt (a : list nat) : forall b, length a = length b -> (forall i, i < length a -> nth i a 0 <= nth i b 0) ->
  (exists i, i < length a /\ nth i a 0 < nth i b 0) -> list_sum a < list_sum b.
Proof.
  induction a as [|x a IH]; intros [|y b] Hl H (i & Hi & Hlt); cbn in Hl; try (cbn in Hi; lia).
  pose proof (H 0 ltac:(cbn; lia)) as H0. cbn in H0.
  assert (Ht : forall i, i < length a -> nth i a 0 <= nth i b 0) by (intros j Hj; apply (H (S j)); cbn; lia).
  pose proof (sum_le a b ltac:(lia) Ht) as Hle. unfold list_sum in *. cbn [fold_right].
  destruct i as [|i]; cbn in Hlt, Hi; [lia|].
  assert (Hx : exists i, i < length a /\ nth i a 0 < nth i b 0) by (exists i; split; [lia|exact Hlt]).
  specialize (IH b ltac:(lia) Ht Hx). lia.
Qed.
Lemma here_sum s o (Hnl : length next = 256) : here d l s o -> list_sum (snd s) <= list_sum next.
Proof.
  intros (Hl & [_ HI] & Ho). apply sum_le; [lia|]. intros i Hi. rewrite Hl in Hi.
  rewrite (nth_off _ _ Hl Ho i Hi), (nth_error_nth next i 0 (Hnext i Hi)). apply (HI i Hi).
Qed.

Lemma ska_byte_loop_spec (Hnl : length next = 256) : forall fuel rem last s o, here d l s o -> last <= length rem ->
  NoDup rem -> (forall i, In i rem -> i < 256) ->
  (forall i, i < 256 -> o i = st (S i) \/ exists k, k < last /\ nth_error rem k = Some i) ->
  left_over (snd s) < fuel ->
  exists arr rem', ska_byte_loop fuel d next rem last s = Some (arr, rem') /\ grouped d l arr /\ Permutation rem rem'.
Proof.
  assert (Hend : forall fuel rem last s o, here d l s o -> (forall i, i < 256 -> o i = st (S i) \/ exists k, k < last /\ nth_error rem k = Some i) ->
    last <= 1 -> exists arr rem', ska_byte_loop fuel d next rem last s = Some (arr, rem') /\ grouped d l arr /\ Permutation rem rem').
  { intros fuel rem last s o Hh Hdone Hl1. exists (fst s), rem. split; [|split; [|reflexivity]].
    { destruct (Nat.leb_spec last 1) as [T|T]; [|lia]. apply Nat.leb_le in T. destruct fuel; cbn [ska_byte_loop]; rewrite T; reflexivity. }
    destruct Hh as (_ & HI & _).
    destruct (nth_error rem 0) as [c|] eqn:E.
    + apply (all_but_one d l Hd _ o c HI). intros i Hi Hne. destruct (Hdone i Hi) as [|(k & Hk & Ek)]; [assumption|].
      assert (k = 0) as -> by lia. congruence.
    + apply (all_placed d l _ o HI). intros i Hi. destruct (Hdone i Hi) as [|(k & Hk & Ek)]; [assumption|].
      assert (k = 0) as -> by lia. congruence. }
  induction fuel as [|fuel IH]; intros rem last s o Hh Hlast Hnd Hrem Hdone Hf; [lia|]. 
  destruct (Nat.le_gt_cases last 1) as [Hl1|Hl1]; [eapply Hend; eauto|]. cbn [ska_byte_loop].
  destruct (Nat.leb_spec last 1) as [T|_]; [lia|].
  - assert (Hn : forall s o, here d l s o -> forall i, i < 256 -> nth i (snd s) 0 = o i) by (intros s0 o0 (H1 & _ & H3); apply nth_off; assumption).
    destruct (partition_range_spec (place d next) (fun i => i < 256) (fun s => exists o, here d l s o)
      (fun s s' => forall i, i < 256 -> nth i (snd s) 0 <= nth i (snd s') 0)
      (fun s s' => (forall i, i < 256 -> nth i (snd s) 0 <= nth i (snd s') 0) /\ exists i, i < 256 /\ nth i (snd s) 0 < nth i (snd s') 0)
      (fun i s => i < 256 /\ st (S i) <= nth i (snd s) 0) (fun _ => True)) with (l := rem) (last := last) (s := s)
      as (r & rem1 & s1 & E & (o1 & Hh1) & G & R & P & Out & _ & F & M).
    + auto.
    + intros a b c H1 H2 i Hi. specialize (H1 i Hi). specialize (H2 i Hi). lia.
    + intros a s0 s0' [H1 H2] H3. split; [exact H1|]. specialize (H3 a H1). lia.
    + intros a b c [H1 (i & Hi & Hlt)] H2. split; [intros j Hj; specialize (H1 j Hj); specialize (H2 j Hj); lia|].
      exists i. split; [exact Hi|]. specialize (H2 i Hi). lia.
    + intros a b c H2 [H1 (i & Hi & Hlt)]. split; [intros j Hj; specialize (H1 j Hj); specialize (H2 j Hj); lia|].
      exists i. split; [exact Hi|]. specialize (H2 i Hi). lia.
    + intros a s0 Ha (o0 & H0). destruct (place_spec d l Hd next Hnext a s0 o0 Ha H0) as (b & s' & o' & E & H1 & H2 & H3 & H4).
      exists b, s'. split; [exact E|]. split; [eauto|]. split; [|split].
      * intros i Hi. rewrite (Hn _ _ H0), (Hn _ _ H1) by assumption. auto.
      * intros ->. destruct (H3 eq_refl) as (E1 & -> & ->). split; [exact Ha|]. rewrite (Hn _ _ H0) by assumption. lia.
      * intros ->. split; [exact I|]. split; [intros i Hi; rewrite (Hn _ _ H0), (Hn _ _ H1) by assumption; auto|].
        destruct (H4 eq_refl) as (i & Hi & Hlt). exists i. rewrite (Hn _ _ H0), (Hn _ _ H1) by assumption. auto.
    + exact Hrem.
    + exact Hlast.
    + eauto.
    + rewrite E.
      assert (Hdone1 : forall i, i < 256 -> o1 i = st (S i) \/ exists k, k < r /\ nth_error rem1 k = Some i).
      { intros i Hi. pose proof (proj1 (proj2 (proj1 (proj2 Hh1)) i Hi)) as Ri. destruct (Hdone i Hi) as [D|(k & Hk & Ek)].
        - left. specialize (G i Hi). rewrite (Hn _ _ Hh), (Hn _ _ Hh1) in G by assumption. lia.
        - assert (In i rem1) as Hin by (eapply Permutation_in; [exact P|eapply nth_error_In, Ek]).
          apply In_nth_error in Hin as [k1 Hk1]. destruct (Nat.lt_ge_cases k1 r) as [T|T]; [right; eauto|].
          destruct (Nat.lt_ge_cases k1 last) as [T'|T'].
          + left. destruct (F k1 ltac:(lia)) as (a & Ha & _ & Hfin). assert (a = i) as -> by congruence. rewrite (Hn _ _ Hh1) in Hfin by assumption. lia.
          + exfalso. rewrite Out in Hk1 by assumption. rewrite NoDup_nth_error in Hnd. specialize (Hnd k k1).
            assert (k < length rem) by (apply nth_error_Some; congruence). specialize (Hnd H ltac:(congruence)). lia. }
      destruct (Nat.le_gt_cases r 1) as [Hr1|Hr1].
      { destruct (Hend fuel rem1 r s1 o1 Hh1 Hdone1 Hr1) as (arr & rem' & E1 & K1 & K2). exists arr, rem'. split; [exact E1|]. split; [exact K1|]. etransitivity; eauto. }
      destruct (IH rem1 r s1 o1 Hh1) as (arr & rem' & E1 & K1 & K2).
      * rewrite <- (Permutation_length P). lia.
      * eapply Permutation_NoDup; eauto.
      * intros i Hi. apply Hrem. eapply Permutation_in; [symmetry; exact P|exact Hi].
      * exact Hdone1.
      * destruct (M ltac:(lia)) as [M1 M2]. unfold left_over in *.
        assert (list_sum (snd s) < list_sum (snd s1)).
        { apply sum_lt; rewrite (proj1 Hh); [rewrite (proj1 Hh1); reflexivity|exact M1|exact M2]. }
        pose proof (here_sum s1 o1 Hnl Hh1). lia.
      * exists arr, rem'. split; [exact E1|]. split; [exact K1|]. etransitivity; eauto.
Qed.
End Ska.
