(** * Proofs about iterators for the standard library *)

From Coq Require Import List ZArith Bool Lia.
From Verif Require Import Range SpecRange Pieces PiecesProofs Legacy.
Import ListNotations.
Local Open Scope Z_scope.

Lemma to_ptrdiff_small z : - 2 ^ 63 <= z < 2 ^ 63 -> to_ptrdiff z = z.
Proof. intros H. unfold to_ptrdiff. rewrite Z.mod_small by lia. lia. Qed.

Lemma legacy_lists_at {I A} (r : range I A) it xs : lists_at r it xs -> Z.of_nat (length xs) < 2 ^ 63 ->
  lists_at (legacy_operations r) (fun i => Some (it i)) xs.
Proof.
  intros [] Hn. constructor; cbn [legacy_operations first stop get next same last prev plus backward minus order reach size].
  - rewrite l_first. reflexivity.
  - exact l_stop.
  - exact l_get.
  - intros i Hi. unfold legacy_next. now rewrite l_next by auto.
  - destruct (same r); cbn in *; auto.
  - destruct (last r); cbn in *; auto. now rewrite l_last.
  - destruct (prev r); cbn in *; auto. intros i Hi. now rewrite l_prev by auto.
  - destruct (plus r) as [f|]; cbn in *; auto. intros i d Hi Hd Hb. unfold legacy_plus. destruct (Z.eqb_spec d 0) as [->|Hz].
    + now rewrite Z.add_0_r, Nat2Z.id.
    + assert ((((if backward r then - reach r else 0) <=? d) && (d <=? reach r)) = true) as ->.
      { apply andb_true_iff. rewrite !Z.leb_le. destruct (backward r); [lia|]. destruct Hb; [discriminate|lia]. }
      cbn [assume]. now rewrite l_plus by auto.
  - destruct (minus r) as [f|]; cbn in *; auto. intros i j Hi Hj. unfold legacy_minus. cbn. rewrite l_minus by auto. cbn. rewrite to_ptrdiff_small by lia. reflexivity.
  - destruct (order r) as [f|]; cbn in *; auto.
  - lia.
  - exact Logic.I.
Qed.
Lemma legacy_range_lists {I A} (r : range I A) xs e : lists r xs -> Z.of_nat (length xs) < 2 ^ 63 -> legacy_range r = Some e ->
  exists l, e = Val l /\ lists l xs /\ abilities l = [true; true; has (prev r); has (plus r); backward r; has (minus r); has (order r); has (minus r)].
Proof.
  intros [it H] Hn. unfold legacy_range. pose proof (l_last _ _ _ H) as Hl. destruct (last r) as [e0|] eqn:E; [|discriminate].
  destruct (same r) as [s|] eqn:Es; [|discriminate]. intros Hr. injection Hr as <-. cbn in Hl. subst e0. rewrite (l_first _ _ _ H). cbn [bind].
  eexists. split; [reflexivity|]. split.
  - exists (fun i => Some (it (0 + i)%nat)). pose proof (legacy_lists_at r it xs H Hn) as HL.
    pose proof (subrange_lists_at (legacy_operations r) _ xs 0 (length xs) HL) as K. cbn in K. rewrite Es in K.
    specialize (K ltac:(discriminate) ltac:(lia)). rewrite Nat.sub_0_r, firstn_all in K. exact K.
  - unfold abilities. cbn. rewrite Es. destruct (prev r), (plus r), (minus r), (order r); reflexivity.
Qed.
