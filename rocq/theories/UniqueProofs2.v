(** * Proofs about the unique functions: memory *)

From Coq Require Import List Arith Bool Lia.
From Verif Require Import Mem MemLemmas SpecSort SortLemmas Unique SpecUnique UniqueProofs.
Import ListNotations.
Local Open Scope nat_scope.

Section Arrays.
Context {V : Type}.
Notation arrays := (arrays (V := V)).
Lemma shape_refl (h : arrays) : same_shape h h.
Proof. reflexivity. Qed.
Lemma shape_trans (h h' h'' : arrays) : same_shape h h' -> same_shape h' h'' -> same_shape h h''.
Proof. unfold same_shape. congruence. Qed.
Lemma shape_length (h h' : arrays) : same_shape h h' -> length h' = length h.
Proof. intros H. rewrite <- (map_length (@length V) h'), H. apply map_length. Qed.
Lemma shape_read (h h' : arrays) b i : same_shape h h' -> read h b i <> None -> read h' b i <> None.
Proof.
  unfold same_shape, read. intros Hs H.
  assert (He : option_map (@length V) (nth_error h' b) = option_map (@length V) (nth_error h b)) by (rewrite <- !nth_error_map; congruence).
  destruct (nth_error h b) as [l|]; [|congruence]. destruct (nth_error h' b) as [l'|]; [|discriminate]. cbn in He. injection He as He.
  apply nth_error_Some. apply nth_error_Some in H. lia.
Qed.

Lemma write_ok (h : arrays) b i v : read h b i <> None ->
  exists h', write h b i v = Some h' /\ same_shape h h' /\ read h' b i = Some v /\
             forall c j, (c, j) <> (b, i) -> read h' c j = read h c j.
Proof.
  unfold read, write. destruct (nth_error h b) as [l|] eqn:E; [|congruence]. intros Hi. apply nth_error_Some in Hi.
  assert (Hb : b < length h) by (apply nth_error_Some; congruence).
  rewrite (proj2 (Nat.ltb_lt _ _) Hi). eexists. split; [reflexivity|]. split; [|split].
  - unfold same_shape. clear Hi. revert b E Hb. induction h as [|x h IH]; intros b E Hb; [destruct b; discriminate|].
    destruct b as [|b]; cbn in *; [injection E as ->; now rewrite length_set_nth|]. f_equal. apply IH; auto. lia.
  - rewrite nth_error_set_nth, Nat.eqb_refl, (proj2 (Nat.ltb_lt _ _) Hb). cbn [andb].
    rewrite nth_error_set_nth, Nat.eqb_refl, (proj2 (Nat.ltb_lt _ _) Hi). reflexivity.
  - intros c j Hne. rewrite nth_error_set_nth. destruct (Nat.eqb_spec c b) as [->|Hc]; cbn [andb]; [|reflexivity].
    rewrite (proj2 (Nat.ltb_lt _ _) Hb), E, nth_error_set_nth. destruct (Nat.eqb_spec j i) as [->|Hj]; [congruence | reflexivity].
Qed.

Lemma array_cons (h : arrays) b i v l : array_at h b i (v :: l) <-> read h b i = Some v /\ array_at h b (S i) l.
Proof.
  unfold array_at. split.
  - intros H. split; [rewrite <- (Nat.add_0_r i); now apply H|]. intros k u Hk. replace (S i + k) with (i + S k) by lia. now apply H.
  - intros (H0 & H1) [|k] u Hk; [injection Hk as <-; now rewrite Nat.add_0_r|]. replace (i + S k) with (S i + k) by lia. now apply H1.
Qed.
Lemma array_nil (h : arrays) b i : array_at h b i [].
Proof. intros k v Hk. destruct k; discriminate. Qed.
Lemma array_app (h : arrays) b i l l' : array_at h b i (l ++ l') <-> array_at h b i l /\ array_at h b (i + length l) l'.
Proof.
  revert i. induction l as [|v l IH]; intros i; cbn [app length].
  - rewrite Nat.add_0_r. split; [intros H; split; [apply array_nil | exact H] | tauto].
  - rewrite !array_cons, IH. replace (S i + length l) with (i + S (length l)) by lia. tauto.
Qed.
Lemma array_frame (h h' : arrays) b i l : array_at h b i l -> (forall k, i <= k < i + length l -> read h' b k = read h b k) -> array_at h' b i l.
Proof.
  intros H Hf k v Hk. rewrite Hf; [now apply H|]. assert (k < length l) by (apply nth_error_Some; congruence). lia.
Qed.
Lemma array_room (h : arrays) b i l k : array_at h b i l -> i <= k < i + length l -> read h b k <> None.
Proof.
  intros H Hk. destruct (nth_error l (k - i)) as [v|] eqn:E; [|apply nth_error_None in E; lia].
  specialize (H _ _ E). replace (i + (k - i)) with k in H by lia. congruence.
Qed.

End Arrays.

Section Memory.
Context {V : Type} (moved self_moved : V -> V).
Notation arrays := (arrays (V := V)).
Notation assign := (assign moved self_moved).
Notation unique_common := (unique_common moved self_moved).
Notation unique_copy := (unique_copy moved self_moved).
Notation unique := (unique moved self_moved).

Lemma assign_ok t (h : arrays) b i c j v : read h c j = Some v -> read h b i <> None ->
  exists h', assign t h (b, i) (c, j) = Some h' /\ same_shape h h' /\
    (t = Copy \/ (b, i) <> (c, j) \/ self_moved v = v -> read h' b i = Some v) /\
    forall d k, (d, k) <> (b, i) -> t = Copy \/ (d, k) <> (c, j) -> read h' d k = read h d k.
Proof.
  intros Hv Hd. unfold Unique.assign. rewrite Hv. destruct t.
  - destruct (write_ok h b i v Hd) as (h' & -> & Hs & Hr & Hf). exists h'. repeat split; auto.
  - destruct (Nat.eqb_spec b c) as [<-|Hbc]; [destruct (Nat.eqb_spec i j) as [<-|Hij]|]; cbn [andb].
    + destruct (write_ok h b i (self_moved v) Hd) as (h' & -> & Hs & Hr & Hf). exists h'. split; [reflexivity|].
      split; [exact Hs|]. split; [|auto]. intros [H|[H|H]]; congruence.
    + destruct (write_ok h b i v Hd) as (h1 & -> & Hs1 & Hr1 & Hf1).
      assert (Hj : read h1 b j <> None) by (rewrite Hf1; congruence).
      destruct (write_ok h1 b j (moved v) Hj) as (h2 & -> & Hs2 & Hr2 & Hf2). exists h2. split; [reflexivity|].
      split; [eapply shape_trans; eauto|]. split.
      * intros _. rewrite Hf2; [exact Hr1 | congruence].
      * intros d k H1 [H|H]; [discriminate|]. rewrite Hf2, Hf1; auto.
    + destruct (write_ok h b i v Hd) as (h1 & -> & Hs1 & Hr1 & Hf1).
      assert (Hj : read h1 c j <> None) by (rewrite Hf1; congruence).
      destruct (write_ok h1 c j (moved v) Hj) as (h2 & -> & Hs2 & Hr2 & Hf2). exists h2. split; [reflexivity|].
      split; [eapply shape_trans; eauto|]. split.
      * intros _. rewrite Hf2; [exact Hr1 | congruence].
      * intros d k H1 [H|H]; [discriminate|]. rewrite Hf2, Hf1; auto.
Qed.

Definition fine_self (t : transfer) : Prop := t = Copy \/ forall v, self_moved v = v.
(** The output does not get into the input that is left. *)
Definition safe (t : transfer) (b i c o : nat) : Prop := b <> c \/ S o < i \/ (o < i /\ fine_self t).

Definition untouched (t : transfer) (h h' : arrays) (c o m b i n : nat) : Prop :=
  forall d k, ~ (d = c /\ o <= k < o + m) -> t = Copy \/ ~ (d = b /\ i <= k < i + n) -> read h' d k = read h d k.

Lemma common_ok equal t l : forall (h : arrays) b i c o u, array_at h b i l -> read h c o = Some u ->
  (forall k, S o <= k < S o + length (keep equal u l) -> read h c k <> None) -> safe t b i c o ->
  exists h', unique_common equal t (length l) h b i c o = Some (h', S o + length (keep equal u l)) /\ same_shape h h' /\
    array_at h' c o (u :: keep equal u l) /\ untouched t h h' c (S o) (length (keep equal u l)) b i (length l).
Proof.
  induction l as [|v l IH]; intros h b i c o u Ha Hu Hroom Hsafe; cbn [length keep Unique.unique_common] in *.
  - exists h. rewrite Nat.add_0_r. split; [reflexivity|]. split; [apply shape_refl|]. split; [|intros d k _ _; reflexivity].
    apply array_cons. split; [exact Hu | apply array_nil].
  - apply array_cons in Ha as (Hv & Ha). rewrite Hu, Hv. destruct (equal u v) eqn:E.
    + destruct (IH h b (S i) c o u Ha Hu Hroom) as (h' & Hr & Hs & Hk & Hf); [unfold safe in *; lia|].
      exists h'. split; [exact Hr|]. split; [exact Hs|]. split; [exact Hk|].
      intros d k H1 H2. apply Hf; [exact H1|]. destruct H2 as [H2|H2]; [now left | right; lia].
    + cbn [length] in *.
      destruct (assign_ok t h c (S o) b i v Hv) as (h1 & Has & Hs1 & Hr1 & Hf1); [apply Hroom; lia|]. rewrite Has.
      assert (Hv1 : read h1 c (S o) = Some v).
      { apply Hr1. destruct Hsafe as [H|[H|(H & [H'|H'])]]; [right; left; congruence | right; left; intros E'; injection E'; lia | now left | right; right; apply H']. }
      assert (Hu1 : read h1 c o = Some u).
      { rewrite Hf1; [exact Hu | intros E'; injection E'; lia | right; intros E'; injection E' as -> ->]. unfold safe in Hsafe. lia. }
      destruct (IH h1 b (S i) c (S o) v) as (h' & Hr & Hs & Hk & Hf).
      * eapply array_frame; [exact Ha|]. intros k Hk. apply Hf1; [|right; intros E'; injection E'; lia].
        intros E'. injection E' as -> ->. unfold safe in Hsafe. lia.
      * exact Hv1.
      * intros k Hk. apply shape_read with (h := h); [exact Hs1|]. apply Hroom. lia.
      * destruct Hsafe as [H|[H|(H & H')]]; [left; exact H | right; left; lia | right; right; split; [lia | exact H']].
      * exists h'. split; [rewrite Hr; do 2 f_equal; lia|]. split; [eapply shape_trans; eauto|]. split.
        -- apply array_cons. split; [|exact Hk]. rewrite Hf; [exact Hu1 | lia |]. right. intros (-> & H). unfold safe in Hsafe. lia.
        -- intros d k H1 H2. rewrite Hf; [apply Hf1| |].
           ++ intros E'. injection E' as -> ->. lia.
           ++ destruct H2 as [H2|H2]; [now left|]. right. intros E'. injection E' as -> ->. lia.
           ++ lia.
           ++ destruct H2 as [H2|H2]; [now left|]. right. lia.
Qed.

Lemma copy_ok equal t l (h : arrays) b i c o : array_at h b i l ->
  (forall k, o <= k < o + length (dedup equal l) -> read h c k <> None) -> safe t b (S i) c o ->
  exists h', unique_copy equal t h b i (length l) c o = Some (h', o + length (dedup equal l)) /\ same_shape h h' /\
    array_at h' c o (dedup equal l) /\ untouched t h h' c o (length (dedup equal l)) b i (length l).
Proof.
  intros Ha Hroom Hsafe. destruct l as [|v l]; cbn [length Unique.unique_copy dedup] in *.
  - exists h. rewrite Nat.add_0_r. split; [reflexivity|]. split; [apply shape_refl|]. split; [apply array_nil | intros d k _ _; reflexivity].
  - apply array_cons in Ha as (Hv & Ha).
    destruct (assign_ok t h c o b i v Hv) as (h1 & Has & Hs1 & Hr1 & Hf1); [apply Hroom; lia|]. rewrite Has.
    assert (Hv1 : read h1 c o = Some v).
    { apply Hr1. destruct Hsafe as [H|[H|(H & [H'|H'])]]; [right; left; congruence | right; left; intros E'; injection E'; lia | now left | right; right; apply H']. }
    destruct (common_ok equal t l h1 b (S i) c o v) as (h' & Hr & Hs & Hk & Hf); auto.
    + eapply array_frame; [exact Ha|]. intros k Hk. apply Hf1; [|right; intros E'; injection E'; lia].
      intros E'. injection E' as -> ->. unfold safe in Hsafe. lia.
    + intros k Hk. apply shape_read with (h := h); [exact Hs1|]. apply Hroom. lia.
    + exists h'. split; [rewrite Hr; do 2 f_equal; lia|]. split; [eapply shape_trans; eauto|]. split; [exact Hk|].
      intros d k H1 H2. rewrite Hf; [apply Hf1| |].
      * intros E'. injection E' as -> ->. lia.
      * destruct H2 as [H2|H2]; [now left|]. right. intros E'. injection E' as -> ->. lia.
      * lia.
      * destruct H2 as [H2|H2]; [now left|]. right. lia.
Qed.

Lemma find_ok (pr : V -> bool) l : forall (h : arrays) b i, array_at h b i l ->
  exists l1 l2, l = l1 ++ l2 /\ find_if pr (length l) h b i = Some (i + length l1) /\
    (forall v, In v l1 -> pr v = false) /\ match l2 with [] => True | v :: _ => pr v = true end.
Proof.
  induction l as [|v l IH]; intros h b i Ha; cbn [length find_if].
  - exists [], []. rewrite Nat.add_0_r. repeat split; auto; intros v [].
  - apply array_cons in Ha as (Hv & Ha). rewrite Hv. destruct (pr v) eqn:E.
    + exists [], (v :: l). rewrite Nat.add_0_r. repeat split; auto; intros u [].
    + destruct (IH h b (S i) Ha) as (l1 & l2 & -> & -> & H1 & H2). exists (v :: l1), l2. cbn [length app].
      repeat split; auto; [f_equal; lia|]. intros u [<-|Hu]; auto.
Qed.

(** Up to the first element that is equal to the one before it nothing is dropped. *)
Lemma first_equal_loop_ok equal l : forall (h : arrays) b p u, array_at h b p (u :: l) ->
  exists l1 l2, l = l1 ++ l2 /\ find_first_equal_loop equal (length l) h b p (S p) = Some (S p + length l1) /\
    match l2 with
    | [] => keep equal u l = l
    | v :: l2 => exists w l0, u :: l1 = l0 ++ [w] /\ equal w v = true /\ forall m, keep equal u (l1 ++ m) = l1 ++ keep equal w m
    end.
Proof.
  induction l as [|v l IH]; intros h b p u Ha; cbn [length find_first_equal_loop].
  - exists [], []. cbn. rewrite Nat.add_0_r. auto.
  - apply array_cons in Ha as (Hu & Ha). pose proof (proj1 (array_cons _ _ _ _ _) Ha) as (Hv & _). rewrite Hu, Hv.
    destruct (equal u v) eqn:E.
    + exists [], (v :: l). cbn [length app]. rewrite Nat.add_0_r. split; [reflexivity|]. split; [reflexivity|]. exists u, []. auto.
    + destruct (IH h b (S p) v Ha) as (l1 & l2 & -> & Hr & H). exists (v :: l1), l2. cbn [app length]. split; [reflexivity|].
      split; [rewrite Hr; f_equal; lia|]. destruct l2 as [|x l2].
      * cbn [keep]. rewrite E. now f_equal.
      * destruct H as (w & l0 & H1 & H2 & H3). exists w, (u :: l0). split; [rewrite H1; reflexivity|]. split; [exact H2|].
        intros m. cbn [keep app]. rewrite E. f_equal. apply H3.
Qed.
Lemma keep_skips (equal : V -> V -> bool) u l1 l2 : (forall v, In v l1 -> equal u v = true) -> keep equal u (l1 ++ l2) = keep equal u l2.
Proof. induction l1 as [|v l1 IH]; intros H; cbn [app keep]; [reflexivity|]. rewrite H by now left. apply IH. intros w Hw. apply H. now right. Qed.

(** What [unique] needs: of two equal neighbours the second is equal to the same elements as the first. *)
Definition steady (equal : V -> V -> bool) (l : list V) : Prop :=
  forall l1 u v l2 w, l = l1 ++ u :: v :: l2 -> In w l2 -> equal u v = true -> equal u w = equal v w.

Lemma unique_ok equal l (h : arrays) b i : array_at h b i l -> steady equal l ->
  exists h', unique equal h b i (length l) = Some (h', i + length (dedup equal l)) /\ same_shape h h' /\
    array_at h' b i (dedup equal l) /\ forall d k, ~ (d = b /\ i <= k < i + length l) -> read h' d k = read h d k.
Proof.
  intros Ha Hst. unfold Unique.unique. destruct l as [|u l]; cbn [length find_first_equal dedup].
  - rewrite !Nat.add_0_r, Nat.eqb_refl. exists h. repeat split; auto.
  - destruct (first_equal_loop_ok equal l h b i u Ha) as (l1 & l2 & -> & -> & H).
    destruct l2 as [|v l2].
    + rewrite app_nil_r in *. replace (S i + length l1 =? i + S (length l1)) with true by (symmetry; apply Nat.eqb_eq; lia).
      exists h. rewrite H. cbn [length]. split; [do 2 f_equal; lia|]. split; [apply shape_refl|]. split; [exact Ha | auto].
    + destruct H as (w & l0 & H1 & H2 & H3).
      rewrite app_length. cbn [length].
      replace (S i + length l1 =? i + S (length l1 + S (length l2))) with false by (symmetry; apply Nat.eqb_neq; lia).
      assert (Ha' := Ha). apply array_cons in Ha' as (Hu & Ha'). apply array_app in Ha' as (Ha1 & Ha2). apply array_cons in Ha2 as (Hv & Ha2).
      rewrite Hv. replace (i + S (length l1 + S (length l2)) - S (S i + length l1)) with (length l2) by lia.
      assert (Hwv : forall x, In x l2 -> equal w x = equal v x).
      { intros x Hx. apply (Hst l0 w v l2 x); auto. change (u :: l1 ++ v :: l2) with ((u :: l1) ++ v :: l2). rewrite H1, <- app_assoc. reflexivity. }
      destruct (find_ok (fun value => negb (equal v value)) l2 h b (S (S i + length l1)) Ha2) as (m1 & m2 & -> & -> & Hm1 & Hm2).
      rewrite app_length in *.
      assert (Hkeep : keep equal u (l1 ++ v :: m1 ++ m2) = l1 ++ keep equal w m2).
      { rewrite H3. f_equal. change (v :: m1 ++ m2) with ((v :: m1) ++ m2). apply keep_skips.
        intros x [<-|Hx]; [exact H2|]. rewrite Hwv by (apply in_or_app; auto). specialize (Hm1 x Hx). now apply negb_false_iff. }
      rewrite Hkeep. destruct m2 as [|x m2].
      * rewrite (proj2 (Nat.eqb_eq _ _)) by (cbn [length]; lia). exists h. cbn [keep]. rewrite app_nil_r. cbn [length].
        split; [do 2 f_equal; lia|]. split; [apply shape_refl|]. split; [|auto]. apply array_cons. auto.
      * rewrite (proj2 (Nat.eqb_neq _ _)) by (cbn [length]; lia).
        apply array_app in Ha2 as (Hm & Hx). apply array_cons in Hx as (Hx & Hm').
        destruct (assign_ok Move h b (S i + length l1) b (S (S i + length l1) + length m1) x Hx) as (h1 & -> & Hs1 & Hr1 & Hf1); [congruence|].
        assert (Hx1 : read h1 b (S i + length l1) = Some x) by (apply Hr1; right; left; intros E; injection E; lia). clear Hr1.
        assert (Hwx : equal w x = false) by (rewrite Hwv by (apply in_or_app; right; now left); cbn in Hm2; now apply negb_true_iff).
        cbn [keep]. rewrite Hwx. cbn [length]. 
        replace (i + S (length l1 + S (length m1 + S (length m2))) - S (S (S i + length l1) + length m1)) with (length m2) by lia.
        pose proof (keep_length equal x m2) as Hlen.
        destruct (common_ok equal Move m2 h1 b (S (S (S i + length l1) + length m1)) b (S i + length l1) x) as (h' & -> & Hs & Hk & Hf).
        -- eapply array_frame; [exact Hm'|]. intros k Hk. apply Hf1; [|right]; intros E; injection E; lia.
        -- exact Hx1.
        -- intros k Hk. apply shape_read with (h := h); [exact Hs1|]. eapply array_room; [exact Ha|]. cbn [length]. rewrite !app_length. cbn [length]. rewrite app_length. cbn [length]. lia.
        -- right. left. lia.
        -- exists h'. split; [do 2 f_equal; rewrite app_length; cbn [length]; lia|]. split; [eapply shape_trans; eauto|]. split.
           ++ apply array_cons. split; [rewrite Hf, Hf1; auto; try lia; [intros E; injection E; lia | right; intros E; injection E; lia]|].
              apply array_app. split; [|exact Hk]. eapply array_frame; [exact Ha1|]. intros k Hk'.
              rewrite Hf, Hf1; auto; try lia; [intros E; injection E; lia | right; intros E; injection E; lia].
           ++ intros d k Hd. rewrite Hf, Hf1; auto; try lia; [| right]; intros E; injection E as -> ->; lia.
Qed.
End Memory.
