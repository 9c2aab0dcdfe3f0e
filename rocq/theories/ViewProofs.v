(** * Proofs about the views that cut a range *)

From Coq Require Import List ZArith Bool Lia.
From Verif Require Import Range SpecRange Views RangeProofs.
Import ListNotations.
Local Open Scope nat_scope.

Lemma nth_error_firstn {A} (xs : list A) k i x : nth_error (firstn k xs) i = Some x -> nth_error xs i = Some x.
Proof.
  revert k i. induction xs as [|y xs IH]; intros [|k] [|i] H; cbn in *; try discriminate; auto. eapply IH; eauto.
Qed.

Ltac bools := repeat match goal with |- context [Nat.eqb ?a ?b] => destruct (Nat.eqb_spec a b) | |- context [Z.eqb ?a ?b] => destruct (Z.eqb_spec a b)
  | |- context [Z.leb ?a ?b] => destruct (Z.leb_spec a b) | |- context [Z.ltb ?a ?b] => destruct (Z.ltb_spec a b) end; cbn; try lia; try reflexivity.

(** ** take *)
Section Take.
Context {I A : Type} (r : range I A) (it : nat -> I) (xs : list A) (max_count count : Z).
Hypothesis H : lists_at r it xs.
Hypothesis Hcount : (0 <= count <= max_count)%Z.
Let top := Z.min count (Z.min (reach r) max_count).
Let at_ i := (it i, (top - Z.of_nat i)%Z).

Lemma take_counted_lists_at (ex : bool) ys : ys = firstn (Z.to_nat count) xs -> (ex = true -> ys = xs) ->
  lists_at (take_counted ex max_count count r) at_ ys.
Proof.
  intros Hys Hex. laws H.
  assert (length ys = Nat.min (Z.to_nat count) (length xs)) as Hlen by (subst; apply firstn_length).
  assert (forall i x, nth_error ys i = Some x -> nth_error xs i = Some x) as Hnth by (subst; intros; eapply nth_error_firstn; eauto).
  assert (ex = true -> length xs <= Z.to_nat count) as Hex' by (intros E; rewrite (Hex E) in Hlen; lia).
  clear Hys. unfold at_, top. constructor; cbn -[Z.of_nat Z.sub]; auto.
  - rewrite l_first0. cbn -[Z.of_nat Z.sub]. do 2 f_equal. lia.
  - intros i Hi. destruct ex.
    + rewrite l_stop0 by lia. cbn -[Z.of_nat Z.sub]. specialize (Hex' eq_refl). bools.
    + rewrite l_stop0 by lia. bools; f_equal; bools.
  - intros i Hi. rewrite l_next0 by lia. cbn -[Z.of_nat Z.sub]. unfold assume. bools. do 2 f_equal. lia.
  - intros i j Hi Hj. f_equal. bools.
  - destruct (prev r) as [f|]; [|exact Logic.I]. cbn -[Z.of_nat Z.sub] in *. intros i Hi. rewrite l_prev0 by lia.
    cbn -[Z.of_nat Z.sub]. unfold assume. bools. do 2 f_equal. lia.
  - destruct (plus r) as [f|]; [|exact Logic.I]. cbn -[Z.of_nat Z.sub] in *. intros i d Hi Hd Hb. rewrite l_plus0 by (auto; lia).
    cbn -[Z.of_nat Z.sub]. unfold assume. bools. do 2 f_equal. lia.
  - intros i j Hi Hj. f_equal. lia.
  - intros i j Hi Hj. f_equal. destruct (Nat.compare_spec i j); [apply Z.compare_eq_iff|apply Z.compare_lt_iff|apply Z.compare_gt_iff]; lia.
  - lia.
Qed.

Lemma take_random_lists_at r' : take_random max_count count r = Some r' -> lists_at r' it (firstn (Z.to_nat count) xs).
Proof.
  intros Hr. laws H. unfold take_random in Hr.
  destruct (size r) as [size_|] eqn:Es; [|discriminate]. destruct (plus r) as [plus_|] eqn:Ep; [|discriminate].
  destruct (minus r) as [minus_|] eqn:Em; [|discriminate]. destruct (same r) as [same_|] eqn:Ea; [|discriminate].
  injection Hr as <-. cbn -[Z.of_nat Z.sub] in *. subst size_.
  assert (length (firstn (Z.to_nat count) xs) = Nat.min (Z.to_nat count) (length xs)) as Hlen by apply firstn_length.
  assert (Z.to_nat (Z.of_nat 0 + Z.min (Z.of_nat (length xs)) count) = length (firstn (Z.to_nat count) xs)) as Hend by lia.
  assert (forall i x, nth_error (firstn (Z.to_nat count) xs) i = Some x -> nth_error xs i = Some x) as Hnth by (intros; eapply nth_error_firstn; eauto).
  constructor; cbn -[Z.of_nat Z.sub firstn]; auto.
  - intros i Hi. rewrite l_first0. cbn -[Z.of_nat Z.sub firstn]. rewrite l_plus0 by lia. rewrite Hend. cbn -[Z.of_nat Z.sub firstn]. now rewrite l_same0 by lia.
  - intros i Hi. rewrite l_plus0 by lia. bools. do 2 f_equal. lia.
  - intros i j Hi Hj. apply l_same0; lia.
  - rewrite l_first0. cbn -[Z.of_nat Z.sub firstn]. rewrite l_plus0 by lia. now rewrite Hend.
  - destruct (backward r) eqn:Eb; [|exact Logic.I]. intros i Hi. rewrite l_plus0 by lia. do 2 f_equal. lia.
  - intros i d Hi Hd Hb. rewrite l_plus0 by (auto; lia). reflexivity.
  - intros i j Hi Hj. rewrite l_minus0 by lia. cbn -[Z.of_nat Z.sub]. unfold assume. bools.
  - destruct (order r) as [f|]; [|exact Logic.I]. cbn in *. intros i j Hi Hj. apply l_order0; lia.
  - lia.
  - f_equal. lia.
Qed.

End Take.

(** ** drop *)
Section Drop.
Context {I A : Type} (r : range I A) (it : nat -> I) (xs : list A).
Hypothesis H : lists_at r it xs.
Lemma reduced_lists_at k mx s : k <= length xs -> (Z.of_nat (length xs - k) <= mx)%Z ->
  if_any s (fun s => s = Val (Z.of_nat (length xs - k))) ->
  lists_at (reduced_range mx (Val (it k)) s r) (fun i => it (k + i)) (skipn k xs).
Proof.
  intros Hk Hmax Hs. laws H. assert (length (skipn k xs) = length xs - k) as Hlen by apply skipn_length.
  assert (forall i, i <= length xs - k -> forall f, same r = Some f -> f (it (k + i)) (it (length xs)) = Val (i =? length xs - k)) as Hend.
  { intros i Hi f E. rewrite E in l_same0. cbn in l_same0. rewrite l_same0 by lia. f_equal. bools. }
  unfold reduced_range. constructor; cbn -[Z.of_nat Z.sub skipn]; auto; rewrite ?Hlen.
  - do 2 f_equal. lia.
  - intros i Hi. assert (stop r (it (k + i)) = Val (i =? length xs - k)) as Hst by (rewrite l_stop0 by lia; f_equal; bools).
    destruct s as [s|]; [|exact Hst]. cbn in Hs. subst s.
    destruct (plus r) as [f|]; [|exact Hst]. destruct (minus r); [|exact Hst]. destruct (same r) as [g|] eqn:E; [|exact Hst].
    cbn -[Z.of_nat Z.sub] in *. rewrite l_plus0 by lia. cbn -[Z.of_nat]. replace (Z.to_nat (Z.of_nat k + Z.of_nat (length xs - k))) with (length xs) by lia.
    apply Hend; auto.
  - intros i x Hx. apply l_get0. now rewrite nth_error_skip in Hx.
  - intros i Hi. rewrite l_next0 by lia. bools. do 2 f_equal. lia.
  - destruct (same r) as [f|]; [|exact Logic.I]. cbn in *. intros i j Hi Hj. rewrite l_same0 by lia. f_equal. bools.
  - assert (if_any (last r) (fun e => e = Val (it (k + (length xs - k))))) as Hst
      by (destruct (last r); [|exact Logic.I]; cbn in *; subst; do 2 f_equal; lia).
    destruct s as [s|]; [|exact Hst]. cbn in Hs. subst s.
    destruct (plus r) as [f|]; [|exact Hst]. destruct (minus r); [|exact Hst]. destruct (same r) as [g|] eqn:E; [|exact Hst].
    cbn -[Z.of_nat Z.sub] in *. rewrite l_plus0 by lia. do 2 f_equal. lia.
  - destruct (prev r) as [f|]; [|exact Logic.I]. cbn in *. intros i Hi. replace (k + S i) with (S (k + i)) by lia. rewrite l_prev0 by lia. bools.
  - destruct (plus r) as [f|]; [|exact Logic.I]. cbn -[Z.of_nat] in *. intros i d Hi Hd Hb. rewrite l_plus0 by (auto; lia). do 2 f_equal. lia.
  - destruct (minus r) as [f|]; [|exact Logic.I]. cbn -[Z.of_nat Z.sub] in *. intros i j Hi Hj. rewrite l_minus0 by lia. cbn -[Z.of_nat Z.sub].
    unfold assume. bools. f_equal. lia.
  - destruct (order r) as [f|]; [|exact Logic.I]. cbn in *. intros i j Hi Hj. rewrite l_order0 by lia. f_equal.
    destruct (Nat.compare_spec (k + i) (k + j)); destruct (Nat.compare_spec i j); lia || reflexivity.
  - exact Hmax.
  - exact Hs.
Qed.

Lemma advance_at n k : k + n <= length xs -> advance n r (it k) = Val (it (k + n)).
Proof.
  revert k. induction n as [|n IH]; intros k Hk; cbn; [do 2 f_equal; lia|]. rewrite (l_next _ _ _ H) by lia. cbn. rewrite IH by lia. do 2 f_equal. lia.
Qed.
Lemma next_by_at n k : k + n <= length xs -> next_by r (it k) (Z.of_nat n) = Val (it (k + n)).
Proof.
  intros Hk. unfold next_by. pose proof (l_plus _ _ _ H) as Hp. destruct (plus r) as [f|].
  - cbn -[Z.of_nat] in Hp. rewrite Hp by lia. do 2 f_equal. lia.
  - rewrite Nat2Z.id. now apply advance_at.
Qed.
Lemma drop_loop_at ex n k : k <= length xs -> (ex = true -> k + n <= length xs) ->
  drop_loop n ex r (it k) = Val (it (Nat.min (k + n) (length xs))).
Proof.
  revert k. induction n as [|n IH]; intros k Hk Hex; cbn; [do 2 f_equal; lia|]. rewrite (l_stop _ _ _ H) by lia. cbn. destruct (Nat.eqb_spec k (length xs)) as [->|Hne].
  - destruct ex; [lia|]. do 2 f_equal. lia.
  - rewrite (l_next _ _ _ H) by lia. cbn. rewrite IH; [do 2 f_equal; lia|lia|intros E; specialize (Hex E); lia].
Qed.
Lemma drop_loop_throws n k : k <= length xs -> length xs < k + n -> drop_loop n true r (it k) = Thrown.
Proof.
  revert k. induction n as [|n IH]; intros k Hk Hn; cbn; [lia|]. rewrite (l_stop _ _ _ H) by lia. cbn.
  destruct (Nat.eqb_spec k (length xs)) as [->|Hne]; [reflexivity|].
  rewrite (l_next _ _ _ H) by lia. cbn. apply IH; lia.
Qed.
End Drop.

Section Statements.
Context {I A : Type} (r : range I A) (xs : list A).
Hypothesis H : lists r xs.

Lemma take_counted_lists max_count count : (0 <= count <= max_count)%Z ->
  lists (take_counted false max_count count r) (firstn (Z.to_nat count) xs).
Proof. intros Hc. destruct H as [it Hit]. eexists. eapply take_counted_lists_at; eauto. discriminate. Qed.
Lemma take_checked_lists max_count count : (0 <= count <= max_count)%Z -> (Z.of_nat (length xs) <= count)%Z ->
  lists (take_counted true max_count count r) xs.
Proof. intros Hc Hl. destruct H as [it Hit]. eexists. eapply take_counted_lists_at; eauto. symmetry. apply firstn_all2. lia. Qed.
Lemma take_random_lists max_count count r' : (0 <= count <= max_count)%Z -> take_random max_count count r = Some r' ->
  lists r' (firstn (Z.to_nat count) xs).
Proof. intros Hc Hr. destruct H as [it Hit]. exists it. eapply take_random_lists_at; eauto. Qed.
Lemma take_checked_throws max_count count : (0 <= count <= max_count)%Z -> (count < Z.of_nat (length xs))%Z ->
  exists it, walk (Z.to_nat count) (take_counted true max_count count r) = Val (firstn (Z.to_nat count) xs, it) /\
    stop (take_counted true max_count count r) it = Thrown.
Proof.
  intros Hc Hl. destruct H as [it Hit]. set (m := Z.min (reach r) max_count).
  assert (Z.min count m = count) as Hm. { pose proof (l_reach _ _ _ Hit). lia. }
  assert (forall n k, k + n = Z.to_nat count ->
    walk_from n (take_counted true max_count count r) (it k, count - Z.of_nat k)%Z = Val (firstn n (skipn k xs), (it (Z.to_nat count), 0%Z))) as Hw.
  { induction n as [|n IH]; intros k Hk; cbn -[Z.of_nat Z.sub skipn].
    - do 2 f_equal. f_equal; [f_equal; lia|lia].
    - rewrite (l_stop _ _ _ Hit) by lia. cbn -[Z.of_nat Z.sub skipn]. destruct (Nat.eqb_spec k (length xs)) as [->|Hne]; [lia|].
      destruct (Z.eqb_spec (count - Z.of_nat k) 0) as [|_]; [lia|]. cbn -[Z.of_nat Z.sub skipn].
      destruct (nth_error_below xs k ltac:(lia)) as [x Hx]. rewrite (l_get _ _ _ Hit _ _ Hx). cbn -[Z.of_nat Z.sub skipn].
      fold m. destruct (Z.eqb_spec m 0) as [|_]; [lia|].
      rewrite (l_next _ _ _ Hit) by lia. cbn -[Z.of_nat Z.sub skipn]. unfold assume.
      replace ((0 <=? count - Z.of_nat k - 1) && (count - Z.of_nat k - 1 <=? m))%Z with true by (symmetry; apply andb_true_intro; split; apply Z.leb_le; lia).
      cbn -[Z.of_nat Z.sub skipn]. replace (count - Z.of_nat k - 1)%Z with (count - Z.of_nat (S k))%Z by lia.
      rewrite IH by lia. cbn -[skipn]. now rewrite (skipn_nth _ _ _ Hx). }
  exists (it (Z.to_nat count), 0%Z). split.
  - unfold walk. cbn -[walk_from]. rewrite (l_first _ _ _ Hit). cbn -[walk_from]. fold m. rewrite Hm.
    specialize (Hw (Z.to_nat count) 0 eq_refl). cbn -[walk_from firstn] in Hw. rewrite Z.sub_0_r in Hw. exact Hw.
  - cbn. rewrite (l_stop _ _ _ Hit) by lia. cbn. destruct (Nat.eqb_spec (Z.to_nat count) (length xs)); [lia|reflexivity].
Qed.

Lemma check_size_lists count e : check_size_not_greater_than count r = Some e ->
  e = if (Z.of_nat (length xs) <=? count)%Z then Val r else Thrown.
Proof.
  destruct H as [it Hit]. unfold check_size_not_greater_than. pose proof (l_size _ _ _ Hit) as Hs. destruct (size r) as [s|]; [|discriminate].
  cbn in Hs. subst s. intros E. injection E as <-. cbn. destruct (Z.ltb_spec count (Z.of_nat (length xs))), (Z.leb_spec (Z.of_nat (length xs)) count); lia || reflexivity.
Qed.

Lemma drop_sized_lists ex max_size min_count count e : (Z.of_nat (length xs) <= max_size)%Z -> (0 <= min_count <= count)%Z ->
  drop_sized ex max_size min_count count r = Some e ->
  if ex && (Z.of_nat (length xs) <? count)%Z then e = Thrown else exists r', e = Val r' /\ lists r' (skipn (Z.to_nat count) xs).
Proof.
  intros Hmax Hc. destruct H as [it Hit]. unfold drop_sized. pose proof (l_size _ _ _ Hit) as Hs. destruct (size r) as [s|] eqn:Es; [|discriminate].
  cbn in Hs. subst s. intros E. injection E as <-. cbn -[Z.of_nat Z.sub].
  set (n := length xs) in *. set (k := Z.to_nat (Z.min (Z.of_nat n) count)).
  assert (skipn (Z.to_nat count) xs = skipn k xs) as Hsk.
  { destruct (Z.leb_spec count (Z.of_nat n)); [unfold k; f_equal; lia|]. rewrite !skipn_all2; auto; unfold k, n in *; lia. }
  assert (forall rem, rem = Z.of_nat (n - k) -> exists r', (let* it0 := first r in let* it1 := next_by r it0 (Z.min (Z.of_nat n) count) in
    Val (reduced_range (Z.max (max_size - min_count) 0) (Val it1) (Some (Val rem)) r)) = Val r' /\ lists r' (skipn k xs)) as Hgo.
  { intros rem ->. rewrite (l_first _ _ _ Hit). cbn -[Z.of_nat Z.sub next_by reduced_range].
    replace (Z.min (Z.of_nat n) count) with (Z.of_nat k) by (unfold k; lia).
    rewrite (next_by_at _ _ _ Hit) by (fold n; unfold k; lia). cbn -[Z.of_nat Z.sub reduced_range]. eexists. split; [reflexivity|].
    eexists. apply (reduced_lists_at _ _ _ Hit); cbn; fold n; unfold k in *; try lia; reflexivity. }
  rewrite Hsk. destruct ex; cbn -[Z.of_nat Z.sub].
  - destruct (Z.ltb_spec (Z.of_nat n) count) as [Hlt|Hle].
    + destruct (Z.leb_spec 0 (Z.of_nat n - count)); [lia|]. reflexivity.
    + destruct (Z.leb_spec 0 (Z.of_nat n - count)); [|lia]. destruct (Z.leb_spec (Z.of_nat n - count) max_size); [|lia].
      cbn -[Z.of_nat Z.sub]. apply Hgo. unfold k. lia.
  - apply Hgo. unfold k. lia.
Qed.
Lemma drop_unsized_lists ex min_count count : (0 <= min_count <= count)%Z ->
  if ex && (Z.of_nat (length xs) <? count)%Z then drop_unsized ex min_count count r = Thrown
  else exists r', drop_unsized ex min_count count r = Val r' /\ lists r' (skipn (Z.to_nat count) xs).
Proof.
  intros Hc. destruct H as [it Hit]. unfold drop_unsized. rewrite (l_first _ _ _ Hit). cbn -[Z.of_nat Z.sub drop_loop reduced_range].
  destruct ex, (Z.ltb_spec (Z.of_nat (length xs)) count) as [Hlt|Hle]; cbn [andb].
  - now rewrite (drop_loop_throws _ _ _ Hit) by lia.
  - rewrite (drop_loop_at _ _ _ Hit) by lia. eexists. split; [reflexivity|]. eexists.
    replace (skipn (Z.to_nat count) xs) with (skipn (Nat.min (0 + Z.to_nat count) (length xs)) xs) by (f_equal; lia).
    pose proof (l_reach _ _ _ Hit). apply (reduced_lists_at _ _ _ Hit); cbn; auto; try lia.
  - rewrite (drop_loop_at _ _ _ Hit) by (try discriminate; lia). eexists. split; [reflexivity|]. eexists.
    replace (skipn (Z.to_nat count) xs) with (skipn (Nat.min (0 + Z.to_nat count) (length xs)) xs) by (rewrite !skipn_all2; auto; lia).
    pose proof (l_reach _ _ _ Hit). apply (reduced_lists_at _ _ _ Hit); cbn; auto; try lia.
  - rewrite (drop_loop_at _ _ _ Hit) by (try discriminate; lia). eexists. split; [reflexivity|]. eexists.
    replace (skipn (Z.to_nat count) xs) with (skipn (Nat.min (0 + Z.to_nat count) (length xs)) xs) by (f_equal; lia).
    pose proof (l_reach _ _ _ Hit). apply (reduced_lists_at _ _ _ Hit); cbn; auto; try lia.
Qed.

Lemma drop_back_lists {J} (take_ : Z -> range I A -> option (range J A)) count e : (0 <= count)%Z ->
  (forall n r', (0 <= n <= Z.of_nat (length xs))%Z -> take_ n r = Some r' -> lists r' (firstn (Z.to_nat n) xs)) ->
  drop_back_exactly take_ count r = Some e ->
  if (Z.of_nat (length xs) <? count)%Z then e = Thrown else exists r', e = Val r' /\ lists r' (firstn (length xs - Z.to_nat count) xs).
Proof.
  intros Hc Ht. destruct H as [it Hit]. unfold drop_back_exactly. pose proof (l_size _ _ _ Hit) as Hs. destruct (size r) as [s|]; [|discriminate].
  cbn in Hs. subst s. destruct (Z.ltb_spec (Z.of_nat (length xs)) count) as [Hlt|Hle]; [intros E; now injection E as <-|].
  intros E. destruct (take_ _ r) as [r'|] eqn:Et; [|discriminate]. injection E as <-. exists r'. split; [reflexivity|].
  apply Ht in Et; [|lia]. replace (length xs - Z.to_nat count) with (Z.to_nat (Z.of_nat (length xs) - count)) by lia. exact Et.
Qed.
End Statements.
