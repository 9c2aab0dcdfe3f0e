(** * Properties C107 and C109, exactly: which operations of these iterators are undefined *)

From Coq Require Import List ZArith Bool Lia.
From Verif Require Import Range SpecRange Views Pieces RangeProofs ViewProofs PiecesProofs JoinProofs PropsPieces.
Import ListNotations.
Local Open Scope Z_scope.

(** ** C107. The groups of g consecutive elements: everything but differences is right, and a difference is right unless it is that between
    the first and the last iterator (in either order), there is a group, and the size of the range is the largest its type has. *)
Theorem C107_difference_exactly : forall I A (r : range I A) xs g, lists r xs -> (0 < g)%nat -> exists it,
  lists_at (without_difference (reach r) (adjacent g r)) it (windows g xs) /\
  if_any (minus (adjacent g r)) (fun f => forall i j, (i <= length (windows g xs))%nat -> (j <= length (windows g xs))%nat ->
    f (it i) (it j) =
    if (g <=? length xs)%nat && (Z.of_nat (length xs) =? reach r) && (Nat.max i j =? length (windows g xs))%nat && (Nat.min i j =? 0)%nat
    then Undefined else Val (Z.of_nat i - Z.of_nat j)).
Proof.
  intros I A r xs g [it H] Hg. eexists. split; [eapply adjacent_lists_at; eauto|].
  assert (length (windows g xs) = length xs + 1 - g)%nat as Hlen by now apply windows_length.
  pose proof (l_reach _ _ _ H) as Hreach.
  pose proof (l_minus _ _ _ H) as Hs. unfold adjacent, decrease_by. cbn -[Z.of_nat Z.sub Nat.min Nat.max windows seq map].
  destruct (minus r) as [f|]; [|exact Logic.I]. cbn -[Z.of_nat Z.sub Nat.min Nat.max windows seq map] in *. rewrite Hlen. intros i j Hi Hj.
  rewrite !(group_back it xs g Hg). cbn -[Z.of_nat Z.sub Nat.min Nat.max]. rewrite Hs by lia. cbn -[Z.of_nat Z.sub Nat.min Nat.max]. unfold assume.
  replace (Z.of_nat (Nat.min (i + g - 1) (length xs)) - Z.of_nat (Nat.min (j + g - 1) (length xs))) with (Z.of_nat i - Z.of_nat j) by lia.
  assert (forall (c : bool) (x : Z), (if c then Val x else Undefined) = (if negb c then Undefined else Val x) :> res Z) as -> by (intros [] x; reflexivity).
  match goal with |- (if ?c then _ else _) = (if ?d then _ else _) => assert (c = true <-> d = true) as E; [|destruct c, d; auto; destruct E as [E1 E2]; [discriminate (E1 eq_refl)|discriminate (E2 eq_refl)]] end.
  rewrite negb_true_iff, andb_false_iff, !andb_true_iff, !Z.leb_gt, Nat.leb_le, Z.eqb_eq, !Nat.eqb_eq. lia.
Qed.
Print Assumptions C107_difference_exactly.

(** ** C109. Without the operations that add to an iterator every integer_range is right. With them, it is right exactly
    when its type has ranges that are not empty. *)
Definition without_offset {I A} (r : range I A) : range I A :=
  Range (first r) (stop r) (get r) (next r) (same r) (last r) (prev r) None (backward r) (minus r) (order r) (reach r) (size r).
Theorem C109_integer_range_exactly : forall min max min_step f l step n,
  1 <= min_step <= step -> min <= f -> l <= max -> l = f + Z.of_nat n * step ->
  exists r, integer_range min max min_step f l step = Val r /\
    lists (without_offset r) (progression f step n) /\
    (lists r (progression f step n) <-> exists f' l', min <= f' /\ l' <= max /\ f' + min_step <= l').
Proof.
  intros min max min_step f l step n Hs Hf Hl Hn.
  assert (0 <= Z.of_nat n * step) as Hp by (apply Z.mul_nonneg_nonneg; lia).
  destruct (Z.le_gt_cases (min + min_step) max) as [Hr|Hr].
  - destruct (integer_range_lists_at min max min_step f l step n Hs Hf Hl Hn Hr) as (r & E & H).
    exists r. split; [exact E|]. split.
    + exists (fun i => f + Z.of_nat i * step). pose proof H as H0. laws H0. constructor; auto. exact Logic.I.
    + split; [intros _; exists min, max; lia|intros _; eexists; exact H].
  - assert (n = 0%nat) as -> by (destruct n; [reflexivity|nia]). assert (l = f) as -> by lia. clear Hn Hp.
    assert ((max - min) ÷ min_step = 0) as D by (apply Z.quot_small; lia).
    unfold integer_range. rewrite D, Z.sub_diag, Z.rem_0_l by lia. cbn -[Z.of_nat]. eexists. split; [reflexivity|].
    assert ((min <=? f) && (f <=? max) = true) as R by lia.
    split.
    + exists (fun _ => f). unfold without_offset, assume. rewrite R. constructor; cbn -[Z.of_nat]; try exact Logic.I; try rewrite R; try reflexivity; try lia.
      * intros i Hi. assert (i = 0%nat) as -> by lia. cbn. now rewrite Z.eqb_refl.
      * intros [|i] x H; discriminate H.
      * intros i j Hi Hj. assert (i = 0%nat) as -> by lia. assert (j = 0%nat) as -> by lia. now rewrite Z.eqb_refl.
      * intros i j Hi Hj. assert (i = 0%nat) as -> by lia. assert (j = 0%nat) as -> by lia. rewrite Z.sub_diag, Z.quot_0_l by lia. reflexivity.
      * intros i j Hi Hj. assert (i = 0%nat) as -> by lia. assert (j = 0%nat) as -> by lia. now rewrite Z.compare_refl.
      * cbn. rewrite Z.sub_diag, Z.quot_0_l by lia. reflexivity.
    + split; [|intros (? & ? & ?); lia]. intros [it H]. pose proof (l_plus _ _ _ H 0%nat 0) as K. cbn -[Z.of_nat] in K.
      specialize (K ltac:(lia) ltac:(lia) ltac:(auto)). discriminate K.
Qed.
Print Assumptions C109_integer_range_exactly.

(** Both sides of it: groups of two of three elements, and ranges of types without and with values. *)
Example exactly_pieces_cases :
  let r := array_range 3 [1; 2; 3] in let s := array_range 4 [1; 2; 3] in
  (let* a := first (adjacent 2 r) in let* b := next (adjacent 2 r) a in let* c := next (adjacent 2 r) b in
   match minus (adjacent 2 r) with Some f => let* x := f b a in let* y := f c b in Val (x, y) | None => Undefined end) = Val (1, 1) /\
  (let* a := first (adjacent 2 s) in let* b := next (adjacent 2 s) a in let* c := next (adjacent 2 s) b in
   match minus (adjacent 2 s) with Some f => f c a | None => Undefined end) = Val 2 /\
  (let* r := integer_range 0 5 1 3 3 1 in match plus r with Some p => p 3 0 | None => Undefined end) = Val 3 /\
  (let* r := integer_range 3 3 1 3 3 1 in match plus r with Some p => p 3 0 | None => Undefined end) = Undefined.
Proof. vm_compute. repeat split. Qed.
