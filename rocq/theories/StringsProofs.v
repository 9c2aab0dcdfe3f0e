(** * Texts: proofs *)

From Coq Require Import List ZArith Bool Lia.
From Verif Require Import Range SpecRange Sequence SpecSequence RangeProofs SequenceProofs Strings SpecStrings.
Import ListNotations.
Local Open Scope Z_scope.

Lemma holds_read m p cs i c : holds m p cs -> nth_error cs i = Some c -> read m p (Z.of_nat i) = Val c.
Proof.
  destruct p as [[b offset]|]; cbn [holds].
  - intros (before & after & E & ->) Hi. unfold read. rewrite E. destruct (Z.leb_spec 0 (Z.of_nat (length before) + Z.of_nat i)); [|lia].
    replace (Z.to_nat (Z.of_nat (length before) + Z.of_nat i)) with (length before + i)%nat by lia.
    rewrite nth_error_app2 by lia. replace (length before + i - length before)%nat with i by lia.
    rewrite nth_error_app1; [now rewrite Hi|]. apply nth_error_Some. congruence.
  - intros -> Hi. destruct i; discriminate.
Qed.
Lemma holds_advance m p cs i : holds m p cs -> 0 <= i <= Z.of_nat (length cs) -> exists q, advance m p i = Val q.
Proof.
  destruct p as [[b offset]|]; cbn [holds].
  - intros (before & after & E & ->) Hi. unfold advance. rewrite E. rewrite !app_length.
    rewrite (proj2 (Z.leb_le _ _)), (proj2 (Z.leb_le _ _)) by lia. cbn. eauto.
  - intros -> Hi. cbn in *. replace i with 0 by lia. cbn. eauto.
Qed.
Lemma characters_lists m t cs : shows m t cs -> lists_at (characters m t) Z.of_nat cs.
Proof.
  intros (H & Hs & Hm). unfold characters. constructor; cbn [first stop get next same last prev plus backward minus order reach size if_any].
  - reflexivity.
  - intros i Hi. destruct (holds_advance m (t_data t) cs (t_size t) H) as [q ->]; [lia|]. cbn. rewrite Hs. f_equal.
    destruct (Nat.eqb_spec i (length cs)); [apply Z.eqb_eq|apply Z.eqb_neq]; lia.
  - intros i x Hx. apply (holds_read m _ cs); assumption.
  - intros i Hi. destruct (holds_advance m (t_data t) cs (Z.of_nat i + 1) H) as [q ->]; [lia|]. cbn. f_equal. lia.
  - intros i j Hi Hj. f_equal. destruct (Nat.eqb_spec i j); [apply Z.eqb_eq|apply Z.eqb_neq]; lia.
  - destruct (holds_advance m (t_data t) cs (0 + t_size t) H) as [q ->]; [lia|]. cbn. f_equal. lia.
  - intros i Hi. destruct (holds_advance m (t_data t) cs (Z.of_nat (S i) + -1) H) as [q ->]; [lia|]. cbn [bind]. f_equal. lia.
  - intros i d Hi Hd _. destruct (holds_advance m (t_data t) cs (Z.of_nat i + d) H) as [q ->]; [lia|]. cbn [bind]. f_equal. lia.
  - reflexivity.
  - intros i j Hi Hj. f_equal. apply Nat2Z.inj_compare.
  - exact Hm.
  - now rewrite Hs.
Qed.

Lemma length_loop_spec m p : forall rest i fuel, (forall k c, nth_error rest k = Some c -> read m p (i + Z.of_nat k) = Val c) ->
  forall cs tail, rest = cs ++ 0 :: tail -> ~ In 0 cs -> (length cs < fuel)%nat -> length_loop fuel m p i = Val (i + Z.of_nat (length cs)).
Proof.
  induction rest as [|c rest IH]; intros i fuel H cs tail E Hn Hf; [destruct cs; discriminate|].
  destruct fuel as [|fuel]; [lia|]. cbn [length_loop].
  pose proof (H 0%nat c eq_refl) as H0. rewrite Z.add_0_r in H0. rewrite H0. cbn [bind].
  destruct cs as [|c' cs]; cbn in E; injection E as -> E.
  - cbn. f_equal. lia.
  - destruct (Z.eqb_spec c' 0) as [->|_]; [exfalso; apply Hn; now left|].
    rewrite (IH (i + 1) fuel) with (cs := cs) (tail := tail); [cbn [length]; f_equal; lia| |exact E| |cbn in Hf; lia].
    + intros k c Hk. rewrite <- (H (S k) c Hk). f_equal. lia.
    + intro Hin. apply Hn. now right.
Qed.
Lemma read_all_spec m p : forall cs i, (forall k c, nth_error cs k = Some c -> read m p (i + Z.of_nat k) = Val c) -> read_all m p i (length cs) = Val cs.
Proof.
  induction cs as [|c cs IH]; intros i H; [reflexivity|]. cbn [length read_all].
  pose proof (H 0%nat c eq_refl) as H0. rewrite Z.add_0_r in H0. rewrite H0. cbn [bind]. rewrite IH; [reflexivity|].
  intros k x Hk. rewrite <- (H (S k) x Hk). f_equal. lia.
Qed.
Lemma holds_app m p cs ds : holds m p (cs ++ ds) -> holds m p cs.
Proof.
  destruct p as [[b offset]|]; cbn [holds].
  - intros (before & after & E & ->). exists before, (ds ++ after). rewrite E, <- app_assoc. auto.
  - intro E. now destruct cs.
Qed.
Lemma holds_skip m b offset cs ds : holds m (Some (b, offset)) (cs ++ ds) -> holds m (Some (b, offset + Z.of_nat (length cs))) ds.
Proof.
  intros (before & after & E & ->). exists (before ++ cs), after. rewrite E, <- !app_assoc, app_length. split; [reflexivity|lia].
Qed.
(** The comparison of texts in the two orders of characters. *)
Lemma std_same xs ys : plain xs -> plain ys -> forall o, lexicographic compare_chars xs ys o <-> lexicographic std_compare_chars xs ys o.
Proof.
  intros Hx Hy. unfold plain in *. rewrite Forall_forall in Hx, Hy.
  assert (E : forall k x y, nth_error xs k = Some x -> nth_error ys k = Some y -> std_compare_chars x y = compare_chars x y).
  { intros k x y Ex Ey. apply nth_error_In in Ex, Ey. unfold std_compare_chars, unsigned. specialize (Hx x Ex). specialize (Hy y Ey). rewrite !Z.mod_small by lia. reflexivity. }
  assert (D : forall k, first_difference (fun x y => compare_chars x y = Equivalent) xs ys k <-> first_difference (fun x y => std_compare_chars x y = Equivalent) xs ys k).
  { intro k. unfold first_difference, agree. split; intros [A N]; split.
    - intros i Hi. destruct (A i Hi) as (x & y & Ex & Ey & P). exists x, y. rewrite (E i) by assumption. auto.
    - intros x y Ex Ey. rewrite (E k) by assumption. auto.
    - intros i Hi. destruct (A i Hi) as (x & y & Ex & Ey & P). exists x, y. rewrite <- (E i) by assumption. auto.
    - intros x y Ex Ey. rewrite <- (E k) by assumption. auto. }
  intro o. unfold lexicographic. split; intros (k & Hd & Ho); exists k; (split; [apply D, Hd|]);
    destruct (nth_error xs k) eqn:Ex, (nth_error ys k) eqn:Ey; try assumption; [now rewrite (E k)|now rewrite <- (E k)].
Qed.
Lemma of_comparison_eq x y : compare_chars x y = Equivalent <-> x = y.
Proof. unfold compare_chars, of_comparison. destruct (Z.compare_spec x y); split; try discriminate; try lia; auto. Qed.
