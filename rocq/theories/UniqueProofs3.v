(** * Proofs about the unique functions: merging *)

From Coq Require Import List Arith Bool Lia.
From Verif Require Import Mem MemLemmas SpecSort SortLemmas Unique SpecUnique UniqueProofs UniqueProofs2.
Import ListNotations.
Local Open Scope nat_scope.

Section Merge.
Context {V : Type} (moved self_moved : V -> V) (less : V -> V -> bool).
Notation arrays := (arrays (V := V)).
Notation fine_self := (fine_self self_moved).
Notation umerge := (umerge less).
Notation skip := (skip less).
Notation merge_copy := (unique_merge_copy moved self_moved less).

Lemma next_greater_ok l : forall (h : arrays) b i x, array_at h b i l ->
  exists j, next_greater less h b i (length l) x = Some j /\ j + length (skip x l) = i + length l /\ i <= j /\ array_at h b j (skip x l).
Proof.
  unfold next_greater. induction l as [|v l IH]; intros h b i x Ha; cbn [length find_if UniqueProofs.skip].
  - exists i. repeat split; auto.
  - assert (Ha' := Ha). apply array_cons in Ha' as (Hv & Ha'). rewrite Hv. destruct (less x v) eqn:E.
    + exists i. repeat split; auto.
    + destruct (IH h b (S i) x Ha') as (j & Hj & H1 & H2 & H3). exists j. repeat split; auto; lia.
Qed.

Lemma merge_ok t fuel : forall (h : arrays) b1 i1 l1 b2 i2 l2 c o, length l1 + length l2 < fuel ->
  array_at h b1 i1 l1 -> array_at h b2 i2 l2 -> b1 <> c -> t = Copy \/ b1 <> b2 ->
  b2 <> c \/ o + length l1 < i2 \/ (o + length l1 <= i2 /\ fine_self t) ->
  (forall k, o <= k < o + length (umerge fuel l1 l2) -> read h c k <> None) ->
  exists h', merge_copy fuel t h b1 i1 (length l1) b2 i2 (length l2) c o = Some (h', o + length (umerge fuel l1 l2)) /\ same_shape h h' /\
    array_at h' c o (umerge fuel l1 l2) /\
    forall d k, ~ (d = c /\ o <= k < o + length (umerge fuel l1 l2)) ->
      t = Copy \/ ~ (d = b1 /\ i1 <= k < i1 + length l1) /\ ~ (d = b2 /\ i2 <= k < i2 + length l2) -> read h' d k = read h d k.
Proof.
  induction fuel as [|fuel IH]; intros h b1 i1 l1 b2 i2 l2 c o Hfuel Ha1 Ha2 Hc1 Hb Hc2 Hroom; [lia|].
  destruct l1 as [|v1 t1]; [|destruct l2 as [|v2 t2]].
  - cbn [length unique_merge_copy UniqueProofs.umerge] in *. unfold unique_copy_less.
    destruct (copy_ok moved self_moved (not_less less) t l2 h b2 i2 c o Ha2 Hroom) as (h' & Hr & Hs & Hk & Hf).
    { destruct Hc2 as [H|[H|(H & H')]]; [left; exact H | right; left; lia | right; right; split; [lia | exact H']]. }
    exists h'. split; [exact Hr|]. split; [exact Hs|]. split; [exact Hk|].
    intros d k H1 H2. apply Hf; [exact H1|]. destruct H2 as [H2|(_ & H2)]; auto.
  - cbn [unique_merge_copy UniqueProofs.umerge] in *. change (length (@nil V)) with 0 in *. cbn iota. unfold unique_copy_less.
    destruct (copy_ok moved self_moved (not_less less) t (v1 :: t1) h b1 i1 c o Ha1 Hroom) as (h' & Hr & Hs & Hk & Hf).
    { left. exact Hc1. }
    exists h'. split; [exact Hr|]. split; [exact Hs|]. split; [exact Hk|].
    intros d k H1 H2. apply Hf; [exact H1|]. destruct H2 as [H2|(H2 & _)]; auto.
  - cbn [unique_merge_copy length].
    assert (Ha1' := Ha1). assert (Ha2' := Ha2). apply array_cons in Ha1' as (Hv1 & Ha1'). apply array_cons in Ha2' as (Hv2 & Ha2').
    rewrite Hv1, Hv2. cbn [UniqueProofs.umerge] in *. destruct (less v2 v1) eqn:E.
    + cbn [length] in Hroom.
      destruct (assign_ok moved self_moved t h c o b2 i2 v2 Hv2) as (h1 & -> & Hs1 & Hr1 & Hf1); [apply Hroom; lia|].
      assert (Hx1 : read h1 c o = Some v2).
      { apply Hr1. right. left. intros E'. injection E' as -> ->. cbn [length] in Hc2. lia. }
      rewrite Hx1.
      assert (Hn1 : array_at h1 b1 i1 (v1 :: t1)).
      { eapply array_frame; [exact Ha1|]. intros k Hk. apply Hf1; [congruence|]. destruct Hb as [Hb|Hb]; [now left | right; congruence]. }
      assert (Hn2 : array_at h1 b2 (S i2) t2).
      { eapply array_frame; [exact Ha2'|]. intros k Hk. apply Hf1; [|right; intros E'; injection E'; lia].
        intros E'. injection E' as -> ->. cbn [length] in Hc2. lia. }
      destruct (next_greater_ok _ h1 b1 i1 v2 Hn1) as (j1 & Hj1 & Hl1 & Hle1 & Hm1).
      destruct (next_greater_ok _ h1 b2 (S i2) v2 Hn2) as (j2 & Hj2 & Hl2 & Hle2 & Hm2).
      replace (i1 + S (length t1) - i1) with (length (v1 :: t1)) by (cbn [length]; lia).
      replace (i2 + S (length t2) - S i2) with (length t2) by lia.
      rewrite Hj1, Hj2.
      pose proof (skip_length less v2 (v1 :: t1)) as Hk1. pose proof (skip_length less v2 t2) as Hk2. cbn [length] in *.
      replace (i1 + S (length t1) - j1) with (length (skip v2 (v1 :: t1))) by lia.
      replace (i2 + S (length t2) - j2) with (length (skip v2 t2)) by lia.
      destruct (IH h1 b1 j1 (skip v2 (v1 :: t1)) b2 j2 (skip v2 t2) c (S o)) as (h' & -> & Hs & Hk & Hf); auto; [lia| | |].
      * destruct Hc2 as [H|[H|(H & H')]]; [left; exact H | right; left; lia | right; right; split; [lia | exact H']].
      * intros k Hk. apply shape_read with (h := h); [exact Hs1|]. apply Hroom. lia.
      * exists h'. split; [do 2 f_equal; lia|]. split; [eapply shape_trans; eauto|]. split.
        -- apply array_cons. split; [|exact Hk]. rewrite Hf; [exact Hx1 | lia|].
           right. split; [intros (H & _); congruence|]. intros (<- & H). lia.
        -- intros d k H1 H2. rewrite Hf; [apply Hf1| |].
           ++ intros E'. injection E' as -> ->. lia.
           ++ destruct H2 as [H2|H2]; [now left|]. right. intros E'. injection E' as -> ->. lia.
           ++ lia.
           ++ destruct H2 as [H2|H2]; [now left|]. right. lia.
    + cbn [length] in Hroom.
      destruct (assign_ok moved self_moved t h c o b1 i1 v1 Hv1) as (h1 & -> & Hs1 & Hr1 & Hf1); [apply Hroom; lia|].
      assert (Hx1 : read h1 c o = Some v1) by (apply Hr1; right; left; congruence).
      rewrite Hx1.
      assert (Hn1 : array_at h1 b1 (S i1) t1).
      { eapply array_frame; [exact Ha1'|]. intros k Hk. apply Hf1; [congruence|]. right; intros E'; injection E'; lia. }
      assert (Hn2 : array_at h1 b2 i2 (v2 :: t2)).
      { eapply array_frame; [exact Ha2|]. intros k Hk. apply Hf1.
        - intros E'. injection E' as -> ->. cbn [length] in Hc2. lia.
        - destruct Hb as [Hb|Hb]; [now left | right; congruence]. }
      destruct (next_greater_ok _ h1 b1 (S i1) v1 Hn1) as (j1 & Hj1 & Hl1 & Hle1 & Hm1).
      destruct (next_greater_ok _ h1 b2 i2 v1 Hn2) as (j2 & Hj2 & Hl2 & Hle2 & Hm2).
      replace (i2 + S (length t2) - i2) with (length (v2 :: t2)) by (cbn [length]; lia).
      replace (i1 + S (length t1) - S i1) with (length t1) by lia.
      rewrite Hj1, Hj2.
      pose proof (skip_length less v1 (v2 :: t2)) as Hk2. pose proof (skip_length less v1 t1) as Hk1. cbn [length] in *.
      replace (i1 + S (length t1) - j1) with (length (skip v1 t1)) by lia.
      replace (i2 + S (length t2) - j2) with (length (skip v1 (v2 :: t2))) by lia.
      destruct (IH h1 b1 j1 (skip v1 t1) b2 j2 (skip v1 (v2 :: t2)) c (S o)) as (h' & -> & Hs & Hk & Hf); auto; [lia| | |].
      * destruct Hc2 as [H|[H|(H & H')]]; [left; exact H | right; left; lia | right; right; split; [lia | exact H']].
      * intros k Hk. apply shape_read with (h := h); [exact Hs1|]. apply Hroom. lia.
      * exists h'. split; [do 2 f_equal; lia|]. split; [eapply shape_trans; eauto|]. split.
        -- apply array_cons. split; [|exact Hk]. rewrite Hf; [exact Hx1 | lia|].
           right. split; [intros (H & _); congruence|]. intros (<- & H). lia.
        -- intros d k H1 H2. rewrite Hf; [apply Hf1| |].
           ++ intros E'. injection E' as -> ->. lia.
           ++ destruct H2 as [H2|H2]; [now left|]. right. intros E'. injection E' as -> ->. lia.
           ++ lia.
           ++ destruct H2 as [H2|H2]; [now left|]. right. lia.
Qed.

Lemma move_out_ok l : forall (h : arrays) b i, array_at h b i l ->
  exists h', move_out moved (length l) h b i = Some (l, h') /\ same_shape h h' /\
    forall d k, ~ (d = b /\ i <= k < i + length l) -> read h' d k = read h d k.
Proof.
  induction l as [|v l IH]; intros h b i Ha; cbn [length move_out].
  - exists h. repeat split; auto.
  - apply array_cons in Ha as (Hv & Ha). rewrite Hv.
    destruct (write_ok h b i (moved v)) as (h1 & -> & Hs1 & _ & Hf1); [congruence|].
    destruct (IH h1 b (S i)) as (h' & -> & Hs & Hf).
    + eapply array_frame; [exact Ha|]. intros k Hk. apply Hf1. intros E. injection E. lia.
    + exists h'. split; [reflexivity|]. split; [eapply shape_trans; eauto|].
      intros d k H. rewrite Hf, Hf1; auto; [intros E; injection E as -> ->|]; lia.
Qed.

Lemma read_last (h : arrays) l d k : read (h ++ [l]) d k = if d <? length h then read h d k else if d =? length h then nth_error l k else None.
Proof.
  unfold read. destruct (Nat.ltb_spec d (length h)) as [H|H]; [now rewrite nth_error_app1|].
  rewrite nth_error_app2 by lia. destruct (Nat.eqb_spec d (length h)) as [->|Hd]; [now rewrite Nat.sub_diag|].
  destruct (d - length h) as [|n] eqn:E; [lia|]. cbn. destruct n; reflexivity.
Qed.
Lemma read_firstn (h : arrays) n d k : d < n -> read (firstn n h) d k = read h d k.
Proof. intros H. unfold read. f_equal. revert n d H. induction h as [|x h IH]; intros [|n] [|d] H; cbn; auto; try lia. rewrite IH; [reflexivity | lia]. Qed.
Lemma read_block (h : arrays) d k : read h d k <> None -> d < length h.
Proof. unfold read. intros H. apply nth_error_Some. intros E. rewrite E in H. auto. Qed.
Lemma shape_firstn (h h' : arrays) l : same_shape (h ++ [l]) h' -> same_shape h (firstn (length h) h').
Proof.
  unfold same_shape. intros H. rewrite <- firstn_map, H, map_app, firstn_app, map_length, Nat.sub_diag. cbn. rewrite app_nil_r.
  rewrite firstn_all2; [reflexivity|]. rewrite map_length. lia.
Qed.

(** [l1] is at [target], and from [new_middle] on there is [l2] *)
Lemma from_temporary_ok l1 l2 (h : arrays) b target new_middle : fine_self Move ->
  array_at h b target l1 -> array_at h b new_middle l2 -> target + length l1 <= new_middle ->
  (forall k, target <= k < new_middle -> read h b k <> None) -> 0 < length l1 ->
  exists h' r, merge_from_temporary moved self_moved less h b target (target + length l1) new_middle (new_middle + length l2)
      = Some (h', target + length r) /\ r = umerge (S (length l1 + length l2)) l1 l2 /\ same_shape h h' /\ array_at h' b target r /\
    forall d k, ~ (d = b /\ target <= k < new_middle + length l2) -> read h' d k = read h d k.
Proof.
  intros Hself Ha1 Ha2 Hle Hroom Hpos. unfold merge_from_temporary.
  replace (target + length l1 - target) with (length l1) by lia. replace (new_middle + length l2 - new_middle) with (length l2) by lia.
  destruct (move_out_ok l1 h b target Ha1) as (h1 & -> & Hs1 & Hf1).
  assert (Hb : b < length h) by (apply read_block with target, Hroom; lia).
  assert (Hl : length h1 = length h) by (apply shape_length, Hs1).
  pose proof (umerge_length less (S (length l1 + length l2)) l1 l2) as Hul.
  destruct (merge_ok Move (S (length l1 + length l2)) (h1 ++ [l1]) (length h1) 0 l1 b new_middle l2 b target) as (h' & Hr & Hs & Hk & Hf); auto.
  - intros k v Hk. rewrite read_last, Nat.ltb_irrefl, Nat.eqb_refl. exact Hk.
  - intros k v Hk. rewrite read_last, (proj2 (Nat.ltb_lt _ _)) by lia. rewrite Hf1 by lia. now apply Ha2.
  - lia.
  - right. lia.
  - intros k Hk. rewrite read_last, (proj2 (Nat.ltb_lt _ _)) by lia. apply shape_read with (h := h); [exact Hs1|].
    destruct (Nat.lt_ge_cases k new_middle) as [H|H]; [apply Hroom; lia|]. eapply array_room; [exact Ha2 | lia].
  - rewrite Hr. eexists. exists (umerge (S (length l1 + length l2)) l1 l2). split; [reflexivity|]. split; [reflexivity|].
    split; [eapply shape_trans; [exact Hs1 | apply (shape_firstn _ _ _ Hs)]|]. split.
    + intros k v Hkv. rewrite read_firstn by lia. now apply Hk.
    + intros d k Hd. destruct (Nat.lt_ge_cases d (length h1)) as [H|H].
      * rewrite read_firstn by exact H. rewrite Hf; [|lia|right; lia]. rewrite read_last, (proj2 (Nat.ltb_lt _ _)) by exact H. apply Hf1. lia.
      * unfold read. rewrite (proj2 (nth_error_None (firstn (length h1) h') d)), (proj2 (nth_error_None h d)); auto; try lia.
        rewrite firstn_length. lia.
Qed.

Lemma to_move_ok l : forall (h : arrays) b x before m, array_at h b before (x :: l) ->
  exists p y q, x :: l = p ++ y :: q /\ find_first_to_move less (length l) h b before (S before) m = Some (before + length p, S (before + length p)) /\
    (forall v, In v (p ++ [y]) -> v = x \/ less m v = false) /\ match q with [] => True | v :: _ => less m v = true end.
Proof.
  induction l as [|v l IH]; intros h b x before m Ha; cbn [length find_first_to_move].
  - exists [], x, []. cbn. rewrite Nat.add_0_r. repeat split; auto. intros u [<-|[]]. now left.
  - apply array_cons in Ha as (Hx & Ha). pose proof (proj1 (array_cons _ _ _ _ _) Ha) as (Hv & _). rewrite Hv.
    destruct (less m v) eqn:E.
    + exists [], x, (v :: l). cbn. rewrite Nat.add_0_r. repeat split; auto. intros u [<-|[]]. now left.
    + destruct (IH h b v (S before) m Ha) as (p & y & q & H1 & H2 & H3 & H4).
      exists (x :: p), y, q. cbn [app length]. rewrite H1. split; [reflexivity|]. split; [rewrite H2; do 2 f_equal; lia|]. split; [|exact H4].
      intros u [<-|Hu]; [now left|]. right. destruct (H3 u Hu) as [->|H]; auto.
Qed.

Context (Hlt : strict_weak_order less).
Lemma steady_ordered l : ordered less l -> steady (not_less less) l.
Proof.
  intros Ho l1 u v l2 w -> Hw He. unfold not_less in *. apply ordered_app in Ho as (_ & Ho & _). apply ordered_cons in Ho as (H1 & Ho).
  apply ordered_cons in Ho as (H2 & _). apply negb_true_iff in He. f_equal.
  assert (less v u = false) by (apply H1; now left).
  destruct (less v w) eqn:E; [eapply (ge_lt_trans less Hlt); eauto|].
  destruct (less u w) eqn:E'; [|reflexivity]. rewrite <- E. symmetry. eapply (ge_lt_trans less Hlt); eauto.
Qed.

Lemma inplace_merge_ok l1 l2 (h : arrays) b first : fine_self Move -> increasing less l1 -> ordered less l2 -> array_at h b first (l1 ++ l2) ->
  exists h' r, unique_inplace_merge moved self_moved less h b first (first + length l1) (first + length (l1 ++ l2)) = Some (h', first + length r) /\
    uniques less (l1 ++ l2) r /\ same_shape h h' /\ array_at h' b first r /\
    forall d k, ~ (d = b /\ first <= k < first + length (l1 ++ l2)) -> read h' d k = read h d k.
Proof.
  intros Hself Hi1 Ho2 Ha. unfold unique_inplace_merge. rewrite app_length.
  destruct (Nat.eqb_spec first (first + length l1)) as [E1|E1];
    [|destruct (Nat.eqb_spec (first + length l1) (first + (length l1 + length l2))) as [E2|E2]]; cbn [orb].
  1, 2 : assert (Ho : ordered less (l1 ++ l2)) by
    (destruct l1; [exact Ho2|]; destruct l2; [rewrite app_nil_r; apply increasing_ordered; auto | cbn in *; lia]);
    unfold unique_less; replace (first + (length l1 + length l2) - first) with (length (l1 ++ l2)) by (rewrite app_length; lia);
    destruct (unique_ok moved self_moved (not_less less) (l1 ++ l2) h b first Ha) as (h' & Hr & Hs & Hk & Hf); [apply steady_ordered, Ho|];
    exists h', (dedup (not_less less) (l1 ++ l2)); rewrite app_length in Hf; split; [exact Hr|]; split; [apply uniques_dedup; auto|]; auto.
  destruct l1 as [|f l1]; [cbn in E1; lia|]. destruct l2 as [|m l2]; [cbn in E2; lia|].
  assert (Ha' := Ha). apply array_app in Ha' as (Ha1 & Ha2).
  assert (Hf : read h b first = Some f) by (apply array_cons in Ha1; tauto).
  assert (Hm : read h b (first + length (f :: l1)) = Some m) by (apply array_cons in Ha2; tauto).
  rewrite Hf, Hm. destruct (less m f) eqn:Efm.
  - destruct (from_temporary_ok (f :: l1) (m :: l2) h b first (first + length (f :: l1)) Hself Ha1 Ha2) as (h' & r & Hr & -> & Hs & Hk & Hfr);
      [lia | intros k Hk; eapply array_room; [exact Ha1 | lia] | cbn; lia|].
    exists h'. eexists. rewrite <- Nat.add_assoc in Hr. split; [exact Hr|]. split; [|repeat split; auto].
    + apply uniques_merge; auto. apply increasing_ordered; auto.
    + intros d k Hd. apply Hfr. lia.
  - replace (first + length (f :: l1) - S first) with (length l1) by (cbn [length]; lia).
    destruct (to_move_ok l1 h b f first m Ha1) as (p & y & q & Hl & -> & Hle & Hq). rewrite Hl in *.
    assert (Hle' : forall v, In v (p ++ [y]) -> less m v = false) by (intros v Hv; destruct (Hle v Hv) as [->|H]; auto). clear Hle.
    assert (Hle : forall u w, In u (p ++ [y]) -> In w (m :: l2) -> less w u = false).
    { intros u w Hu [<-|Hw]; [auto|]. apply ordered_cons in Ho2 as (H & _). eapply (ge_trans less Hlt); [apply Hle', Hu | apply H, Hw]. }
    apply array_app in Ha1 as (Hap & Hay). assert (Hay' := Hay). apply array_cons in Hay as (Hy & Haq).
    rewrite app_length in *. cbn [length] in *.
    destruct q as [|z q].
    + rewrite (proj2 (Nat.eqb_eq _ _)) by (cbn [length]; lia). unfold unique_less.
      cbn [length] in *. replace (first + (length p + 1 + S (length l2)) - (first + length p)) with (length (y :: m :: l2)) by (cbn [length]; lia).
      assert (Hol : ordered less (y :: m :: l2)).
      { apply ordered_cons. split; [|exact Ho2]. intros w Hw. apply Hle; [|exact Hw]. apply in_or_app. right. now left. }
      destruct (unique_ok moved self_moved (not_less less) (y :: m :: l2) h b (first + length p)) as (h' & Hr & Hs & Hk & Hfr).
      * rewrite <- app_assoc in Ha. cbn [app] in Ha. exact (proj2 (proj1 (array_app _ _ _ _ _) Ha)).
      * apply steady_ordered, Hol.
      * exists h', (dedup (not_less less) (p ++ y :: m :: l2)). rewrite dedup_prefix by auto. rewrite Hr, app_length.
        split; [do 2 f_equal; lia|]. split; [|split; [exact Hs|]; split].
        -- rewrite <- dedup_prefix, <- app_assoc by auto. cbn [app]. apply uniques_dedup; auto.
           rewrite <- (app_nil_l (m :: l2)). change (y :: [] ++ m :: l2) with ([y] ++ m :: l2). rewrite app_assoc.
           apply ordered_app. split; [apply increasing_ordered; auto|]. split; [exact Ho2|].
           intros u w Hu Hw. apply Hle; auto.
        -- apply array_app. split; [|exact Hk]. eapply array_frame; [exact Hap|]. intros k Hkp. apply Hfr. lia.
        -- intros d k Hd. apply Hfr. cbn [length]. lia.
    + rewrite (proj2 (Nat.eqb_neq _ _)) by (cbn [length]; lia). rewrite Hy. cbn [length] in *.
      replace (first + (length p + S (S (length q)) + S (length l2)) - (first + (length p + S (S (length q))))) with (length (m :: l2)) by (cbn [length]; lia).
      destruct (next_greater_ok _ h b _ y Ha2) as (j & -> & Hj1 & Hj2 & Hj3). cbn [length] in Hj1.
      destruct (from_temporary_ok (z :: q) (skip y (m :: l2)) h b (S (first + length p)) j Hself Haq Hj3) as (h' & r & Hr & Hrv & Hs & Hk & Hfr).
      * cbn [length]. lia.
      * intros k Hk. eapply array_room; [exact Ha|]. rewrite !app_length. cbn [length]. lia.
      * cbn; lia.
      * exists h', (p ++ y :: r). cbn [length] in Hr.
        replace (S (first + length p) + S (length q)) with (first + (length p + S (S (length q)))) in Hr by lia.
        replace (j + length (skip y (m :: l2))) with (first + (length p + S (S (length q)) + S (length l2))) in Hr by lia.
        rewrite Hr, app_length. cbn [length]. split; [do 2 f_equal; lia|]. split; [|split; [exact Hs|]; split].
        -- apply uniques_prefix; auto. subst r. change (length (z :: q)) with (S (length q)).
           apply uniques_merge; auto; cbn [length]; [|apply skip_ordered; auto].
           apply increasing_ordered; auto. clear -Hi1. induction p as [|a p IH]; cbn [app] in Hi1; apply increasing_cons in Hi1 as (_ & Hi1); auto.
        -- apply array_app. split; [eapply array_frame; [exact Hap|]; intros k Hkp; apply Hfr; lia|].
           apply array_cons. split; [rewrite Hfr by lia; exact Hy | exact Hk].
        -- intros d k Hd. apply Hfr. lia.
Qed.
End Merge.
