(** * Proofs about ranges and the views of one range *)

From Coq Require Import List ZArith Bool Lia.
From Verif Require Import Range SpecRange Views.
Import ListNotations.
Local Open Scope nat_scope.

Lemma nth_error_in_length {A} (xs : list A) i x : nth_error xs i = Some x -> i < length xs.
Proof. intros H. apply nth_error_Some. now rewrite H. Qed.
Lemma nth_error_below {A} (xs : list A) i : i < length xs -> exists x, nth_error xs i = Some x.
Proof. intros H. apply nth_error_Some in H. destruct (nth_error xs i); [eauto|easy]. Qed.
Lemma nth_error_app_left {A} (xs ys : list A) i : i < length xs -> nth_error (xs ++ ys) i = nth_error xs i.
Proof. apply nth_error_app1. Qed.
Lemma nth_error_rev_at {A} (xs : list A) i : i < length xs -> nth_error (rev xs) i = nth_error xs (length xs - 1 - i).
Proof.
  revert i. induction xs as [|x xs IH]; intros i Hi; [cbn in Hi; lia|]. cbn [rev]. cbn [length] in *.
  destruct (Nat.eq_dec i (length xs)) as [->|Hn].
  - rewrite nth_error_app2 by (rewrite rev_length; lia). rewrite rev_length, Nat.sub_diag.
    replace (S (length xs) - 1 - length xs) with 0 by lia. reflexivity.
  - rewrite nth_error_app1 by (rewrite rev_length; lia). rewrite IH by lia.
    replace (S (length xs) - 1 - i) with (S (length xs - 1 - i)) by lia. reflexivity.
Qed.
Lemma skipn_nth {A} (xs : list A) k x : nth_error xs k = Some x -> skipn k xs = x :: skipn (S k) xs.
Proof. revert k. induction xs as [|y xs IH]; intros [|k] H; try discriminate; cbn in *; [congruence|]. now apply IH. Qed.
Lemma nth_error_skip {A} (xs : list A) k i : nth_error (skipn k xs) i = nth_error xs (k + i).
Proof. revert xs. induction k as [|k IH]; intros xs; [reflexivity|]. destruct xs; [now destruct i|]. cbn. apply IH. Qed.

(** The laws of a range, by name. *)
Ltac laws H :=
  pose proof (l_first _ _ _ H) as l_first0;
  pose proof (l_stop _ _ _ H) as l_stop0;
  pose proof (l_get _ _ _ H) as l_get0;
  pose proof (l_next _ _ _ H) as l_next0;
  pose proof (l_same _ _ _ H) as l_same0;
  pose proof (l_last _ _ _ H) as l_last0;
  pose proof (l_prev _ _ _ H) as l_prev0;
  pose proof (l_plus _ _ _ H) as l_plus0;
  pose proof (l_minus _ _ _ H) as l_minus0;
  pose proof (l_order _ _ _ H) as l_order0;
  pose proof (l_reach _ _ _ H) as l_reach0;
  pose proof (l_size _ _ _ H) as l_size0;
  clear H.

(** ** Arrays *)
Lemma array_lists_at {A} max (xs : list A) : (Z.of_nat (length xs) <= max)%Z -> lists_at (array_range max xs) Z.of_nat xs.
Proof.
  intros Hmax. constructor; cbn -[Z.of_nat]; auto.
  - intros i Hi. f_equal. destruct (Nat.eqb_spec i (length xs)); [apply Z.eqb_eq|apply Z.eqb_neq]; lia.
  - intros i x H. replace (0 <=? Z.of_nat i)%Z with true by (symmetry; apply Z.leb_le; lia). now rewrite Nat2Z.id, H.
  - intros i Hi. unfold assume. replace ((0 <=? Z.of_nat i + 1) && (Z.of_nat i + 1 <=? Z.of_nat (length xs)))%Z with true.
    + f_equal. lia.
    + symmetry. apply andb_true_intro. split; apply Z.leb_le; lia.
  - intros i j Hi Hj. f_equal. destruct (Nat.eqb_spec i j); [apply Z.eqb_eq|apply Z.eqb_neq]; lia.
  - intros i Hi. unfold assume. replace ((0 <=? Z.of_nat (S i) + -1) && (Z.of_nat (S i) + -1 <=? Z.of_nat (length xs)))%Z with true.
    + f_equal. lia.
    + symmetry. apply andb_true_intro. split; apply Z.leb_le; lia.
  - intros i d Hi Hd _. unfold assume. replace ((0 <=? Z.of_nat i + d) && (Z.of_nat i + d <=? Z.of_nat (length xs)))%Z with true.
    + f_equal. lia.
    + symmetry. apply andb_true_intro. split; apply Z.leb_le; lia.
  - intros i j Hi Hj. f_equal. rewrite Nat2Z.inj_compare. reflexivity.
Qed.
Lemma array_lists {A} max (xs : list A) : (Z.of_nat (length xs) <= max)%Z -> lists (array_range max xs) xs.
Proof. intros H. exists Z.of_nat. now apply array_lists_at. Qed.
Lemma bidirectional_lists {I A} (r : range I A) xs : lists r xs -> lists (as_bidirectional r) xs.
Proof. intros [it H]. exists it. laws H. now constructor. Qed.
Lemma forward_lists {I A} (r : range I A) xs : lists r xs -> lists (as_forward r) xs.
Proof. intros [it H]. exists it. laws H. now constructor. Qed.
Lemma input_lists {I A} (r : range I A) xs : lists r xs -> lists (as_input r) xs.
Proof. intros [it H]. exists it. laws H. now constructor. Qed.

(** ** A range-based for loop *)
Lemma visit_from_lists {I A} (r : range I A) it xs : lists_at r it xs -> forall fuel k, k <= length xs -> length xs - k < fuel ->
  visit_from fuel r (it k) = Val (skipn k xs).
Proof.
  intros H. induction fuel as [|fuel IH]; intros k Hk Hf; [lia|]. cbn. rewrite (l_stop _ _ _ H) by auto. cbn.
  destruct (Nat.eqb_spec k (length xs)) as [->|Hn]; [now rewrite skipn_all|].
  destruct (nth_error_below xs k ltac:(lia)) as [x Hx]. rewrite (l_get _ _ _ H k x Hx). cbn.
  rewrite (l_next _ _ _ H) by lia. cbn. rewrite IH by lia. cbn. now rewrite (skipn_nth _ _ _ Hx).
Qed.
Lemma visit_lists {I A} (r : range I A) xs fuel : lists r xs -> length xs < fuel -> visit fuel r = Val xs.
Proof.
  intros [it H] Hf. unfold visit. rewrite (l_first _ _ _ H). cbn. now rewrite (visit_from_lists _ _ _ H) by lia.
Qed.
(** What a range lists is determined. *)
Lemma lists_unique {I A} (r : range I A) xs ys : lists r xs -> lists r ys -> xs = ys.
Proof.
  intros Hx Hy. pose proof (visit_lists r xs (S (length xs + length ys)) Hx ltac:(lia)).
  pose proof (visit_lists r ys (S (length xs + length ys)) Hy ltac:(lia)). congruence.
Qed.

(** ** transform *)
Lemma transform_lists {I A B} (f : A -> B) (r : range I A) xs : lists r xs -> lists (transform f r) (map f xs).
Proof.
  intros [it H]. exists it. laws H. constructor; cbn; rewrite ?map_length; auto.
  intros i y Hy. rewrite nth_error_map in Hy. destruct (nth_error xs i) as [x|] eqn:Hx; [|discriminate].
  rewrite (l_get0 _ _ Hx). cbn in *. congruence.
Qed.

(** ** reversed *)
Lemma reversed_lists {I A} (r r' : range I A) xs : lists r xs -> reversed r = Some r' -> lists r' (rev xs).
Proof.
  intros [it H] Hr. exists (fun i => it (length xs - i)). laws H. unfold reversed in Hr.
  destruct (same r) as [same_|]; [|discriminate]. destruct (last r) as [last_|]; [|discriminate].
  destruct (prev r) as [prev_|]; [|discriminate]. injection Hr as <-.
  cbn in l_same0, l_last0, l_prev0. constructor; cbn; rewrite ?rev_length; auto.
  - rewrite l_last0. f_equal. f_equal. lia.
  - intros i Hi. rewrite l_first0. cbn. rewrite l_same0 by lia. f_equal.
    destruct (Nat.eqb_spec 0 (length xs - i)); destruct (Nat.eqb_spec i (length xs)); lia || reflexivity.
  - intros i x Hx. pose proof (nth_error_in_length _ _ _ Hx) as Hi. rewrite rev_length in Hi.
    rewrite nth_error_rev_at in Hx by lia. replace (length xs - i) with (S (length xs - 1 - i)) by lia.
    rewrite l_prev0 by lia. cbn. now apply l_get0.
  - intros i Hi. replace (length xs - i) with (S (length xs - S i)) by lia. now rewrite l_prev0 by lia.
  - intros i j Hi Hj. rewrite l_same0 by lia. f_equal.
    destruct (Nat.eqb_spec (length xs - j) (length xs - i)); destruct (Nat.eqb_spec i j); lia || reflexivity.
  - now rewrite Nat.sub_diag.
  - intros i Hi. rewrite l_next0 by lia. do 2 f_equal. lia.
  - destruct (backward r) eqn:Hb; [|exact Logic.I]. destruct (plus r) as [plus_|]; [|exact Logic.I]. cbn in *.
    intros i d Hi Hd _. rewrite l_plus0; auto; try lia. do 2 f_equal. lia.
  - destruct (minus r) as [minus_|]; [|exact Logic.I]. cbn in *. intros i j Hi Hj. rewrite l_minus0 by lia. f_equal. lia.
  - destruct (order r) as [order_|]; [|exact Logic.I]. cbn in *. intros i j Hi Hj. rewrite l_order0 by lia. f_equal.
    destruct (Nat.compare_spec (length xs - j) (length xs - i)); destruct (Nat.compare_spec i j); lia || reflexivity.
Qed.

(** ** filter *)
Fixpoint scan {A} (p : A -> bool) (xs : list A) : nat :=
  match xs with [] => 0 | x :: xs => if p x then 0 else S (scan p xs) end.
Fixpoint pos {A} (p : A -> bool) (xs : list A) (i : nat) : nat :=
  match xs with
  | [] => 0
  | x :: xs => if p x then match i with 0 => 0 | S i => S (pos p xs i) end else S (pos p xs i)
  end.
Lemma pos_le {A} (p : A -> bool) xs i : pos p xs i <= length xs.
Proof.
  revert i. induction xs as [|x xs IH]; intros i; cbn [pos length]; [lia|]. destruct (p x).
  - destruct i as [|i]; [lia|]. specialize (IH i). lia.
  - specialize (IH i). lia.
Qed.
Lemma pos_end {A} (p : A -> bool) xs : pos p xs (length (List.filter p xs)) = length xs.
Proof. induction xs as [|x xs IH]; cbn; [reflexivity|]. destruct (p x); cbn; now rewrite IH. Qed.
Lemma pos_lt {A} (p : A -> bool) xs i j : i < j -> j <= length (List.filter p xs) -> pos p xs i < pos p xs j.
Proof.
  revert i j. induction xs as [|x xs IH]; intros i j Hij Hj; cbn in *; [lia|]. destruct (p x); cbn in *.
  - destruct j as [|j]; [lia|]. destruct i as [|i]; [lia|]. specialize (IH i j). lia.
  - specialize (IH i j Hij Hj). lia.
Qed.
Lemma pos_eqb {A} (p : A -> bool) xs i j : i <= length (List.filter p xs) -> j <= length (List.filter p xs) ->
  Nat.eqb (pos p xs i) (pos p xs j) = Nat.eqb i j.
Proof.
  intros Hi Hj. destruct (Nat.eqb_spec i j) as [->|Hn]; [now rewrite Nat.eqb_refl|]. apply Nat.eqb_neq.
  destruct (Nat.lt_total i j) as [H|[H|H]]; [|lia|]; pose proof (pos_lt p xs _ _ H); lia.
Qed.
Lemma pos_compare {A} (p : A -> bool) xs i j : i <= length (List.filter p xs) -> j <= length (List.filter p xs) ->
  Nat.compare (pos p xs i) (pos p xs j) = Nat.compare i j.
Proof.
  intros Hi Hj. destruct (Nat.compare_spec i j) as [->|H|H]; [now rewrite Nat.compare_refl| |].
  - apply Nat.compare_lt_iff. now apply pos_lt.
  - apply Nat.compare_gt_iff. now apply pos_lt.
Qed.
Lemma pos_nth {A} (p : A -> bool) xs i x : nth_error (List.filter p xs) i = Some x -> nth_error xs (pos p xs i) = Some x.
Proof.
  revert i. induction xs as [|y xs IH]; intros i H; cbn in *; [now destruct i|]. destruct (p y); cbn in *; auto.
  destruct i; cbn in *; auto.
Qed.
Lemma scan_pos {A} (p : A -> bool) xs : scan p xs = pos p xs 0.
Proof. induction xs as [|x xs IH]; cbn; [reflexivity|]. destruct (p x); auto. Qed.
Lemma pos_next {A} (p : A -> bool) xs i : i < length (List.filter p xs) ->
  S (pos p xs i) + scan p (skipn (S (pos p xs i)) xs) = pos p xs (S i).
Proof.
  assert (forall k y (ys : list A), skipn (S k) (y :: ys) = skipn k ys) as Hskip by reflexivity.
  revert i. induction xs as [|x xs IH]; intros i Hi; cbn [List.filter length] in *; [lia|]. rewrite Hskip. cbn [pos].
  destruct (p x); cbn [length] in Hi.
  - destruct i as [|i]; [cbn [skipn]; rewrite scan_pos; lia|]. specialize (IH i ltac:(lia)). lia.
  - specialize (IH i Hi). lia.
Qed.
Lemma scan_le {A} (p : A -> bool) xs : scan p xs <= length xs.
Proof. rewrite scan_pos. apply pos_le. Qed.
Lemma find_if_lists {I A} (r : range I A) it xs p : lists_at r it xs -> forall fuel k, k <= length xs -> length xs - k < fuel ->
  find_if fuel r p (it k) = Val (it (k + scan p (skipn k xs))).
Proof.
  intros H. induction fuel as [|fuel IH]; intros k Hk Hf; [lia|]. cbn [find_if]. rewrite (l_stop _ _ _ H) by auto. cbn [bind].
  destruct (Nat.eqb_spec k (length xs)) as [->|Hn]; [rewrite skipn_all; cbn; f_equal; f_equal; lia|].
  destruct (nth_error_below xs k ltac:(lia)) as [x Hx]. rewrite (l_get _ _ _ H k x Hx). cbn [bind].
  rewrite (skipn_nth _ _ _ Hx). cbn [scan]. destruct (p x); [f_equal; f_equal; lia|].
  rewrite (l_next _ _ _ H) by lia. cbn [bind]. rewrite IH by lia. f_equal. f_equal. lia.
Qed.
Lemma filter_length {A} (p : A -> bool) xs : length (List.filter p xs) <= length xs.
Proof. induction xs as [|x xs IH]; cbn; [lia|]. destruct (p x); cbn; lia. Qed.
Lemma filter_lists {I A} fuel p (r : range I A) xs : lists r xs -> length xs < fuel -> lists (filter fuel p r) (List.filter p xs).
Proof.
  intros [it H] Hf. exists (fun i => it (pos p xs i)). pose proof (find_if_lists r it xs p H) as Hfind. laws H.
  pose proof (filter_length p xs) as Hlen.
  constructor; cbn; auto.
  - rewrite l_first0. cbn. rewrite Hfind by lia. cbn. now rewrite scan_pos.
  - intros i Hi. rewrite l_stop0 by apply pos_le. f_equal. rewrite <- (pos_end p xs) at 1. apply pos_eqb; auto.
  - intros i x Hx. apply l_get0. now apply pos_nth.
  - intros i Hi. rewrite l_stop0 by apply pos_le.
    assert (pos p xs i < length xs) as Hp. { rewrite <- (pos_end p xs). now apply pos_lt. }
    replace (pos p xs i =? length xs) with false by (symmetry; apply Nat.eqb_neq; lia). cbn.
    rewrite l_next0 by auto. cbn. rewrite Hfind by lia. f_equal. f_equal. now apply pos_next.
  - destruct (same r) as [f|]; [|exact Logic.I]. cbn in *. intros i j Hi Hj.
    rewrite l_same0 by apply pos_le. f_equal. now apply pos_eqb.
  - destruct (last r); [|exact Logic.I]. cbn in *. now rewrite pos_end.
  - destruct (order r) as [f|]; [|exact Logic.I]. cbn in *. intros i j Hi Hj.
    rewrite l_order0 by apply pos_le. f_equal. now apply pos_compare.
  - lia.
Qed.

(** ** remove_none *)
Definition some {A} (o : option A) : bool := match o with Some _ => true | None => false end.
Fixpoint somes {A} (xs : list (option A)) : list A :=
  match xs with [] => [] | Some x :: xs => x :: somes xs | None :: xs => somes xs end.
Lemma somes_filter {A} (xs : list (option A)) : map Some (somes xs) = List.filter some xs.
Proof. induction xs as [|[x|] xs IH]; cbn; congruence. Qed.
Lemma somes_length {A} (xs : list (option A)) : length (somes xs) = length (List.filter some xs).
Proof. now rewrite <- somes_filter, map_length. Qed.
(** The cached value at position [i]: the element there, or at the end the last element that was read. *)
Definition cached_at {A} (xs : list (option A)) (i : nat) : option A :=
  match nth_error (somes xs) i with
  | Some x => Some x
  | None => match length xs with O => None | S n => nth n xs None end
  end.
Lemma advance_lists {I A} (r : range I (option A)) it xs : lists_at r it xs -> forall fuel k c, k <= length xs -> length xs - k < fuel ->
  advance_to_first_value fuel r (it k) c =
  Val (let j := k + scan some (skipn k xs) in
       (it j, match nth_error xs j with Some v => v | None => if k =? length xs then c else nth (length xs - 1) xs None end)).
Proof.
  intros H. induction fuel as [|fuel IH]; intros k c Hk Hf; [lia|]. cbn [advance_to_first_value]. rewrite (l_stop _ _ _ H) by auto.
  cbn [bind]. destruct (Nat.eqb_spec k (length xs)) as [->|Hn].
  - rewrite skipn_all. cbn. rewrite Nat.add_0_r. destruct (nth_error xs (length xs)) eqn:E; [|reflexivity].
    apply nth_error_in_length in E. lia.
  - destruct (nth_error_below xs k ltac:(lia)) as [x Hx]. rewrite (l_get _ _ _ H k x Hx). cbn [bind].
    rewrite (skipn_nth _ _ _ Hx). cbn [scan]. destruct x as [x|]; cbn [some].
    + rewrite Nat.add_0_r, Hx. reflexivity.
    + rewrite (l_next _ _ _ H) by lia. cbn [bind]. rewrite IH by lia. cbn zeta.
      replace (S k + scan some (skipn (S k) xs)) with (k + S (scan some (skipn (S k) xs))) by lia.
      f_equal. f_equal. destruct (nth_error xs (k + S (scan some (skipn (S k) xs)))); [reflexivity|].
      destruct (Nat.eqb_spec (S k) (length xs)) as [He|]; [|reflexivity].
      replace (length xs - 1) with k by lia. now rewrite (nth_error_nth _ _ _ Hx).
Qed.
Lemma somes_nth {A} (xs : list (option A)) i : i < length (somes xs) -> nth_error xs (pos some xs i) = Some (nth_error (somes xs) i).
Proof.
  intros Hi. destruct (nth_error_below _ _ Hi) as [x Hx]. rewrite Hx. apply pos_nth. rewrite <- somes_filter, nth_error_map, Hx. reflexivity.
Qed.
Lemma advance_at {A} (xs : list (option A)) i c : length xs > 0 -> i <= length (somes xs) ->
  (match nth_error xs (pos some xs i) with Some v => v | None => c end) = match nth_error (somes xs) i with Some x => Some x | None => c end.
Proof.
  intros Hn Hi. destruct (Nat.eq_dec i (length (somes xs))) as [->|Hne].
  - rewrite somes_length, pos_end. rewrite <- somes_length.
    destruct (nth_error xs (length xs)) eqn:E; [apply nth_error_in_length in E; lia|].
    destruct (nth_error (somes xs) (length (somes xs))) eqn:E'; [apply nth_error_in_length in E'; lia|]. reflexivity.
  - rewrite somes_nth by lia. destruct (nth_error_below (somes xs) i ltac:(lia)) as [x Hx]. now rewrite Hx.
Qed.
Lemma remove_none_lists {I A} fuel (r : range I (option A)) xs : lists r xs -> length xs < fuel -> lists (remove_none fuel r) (somes xs).
Proof.
  intros [it H] Hf. exists (fun i => (it (pos some xs i), cached_at xs i)). pose proof (advance_lists r it xs H) as Hadv. laws H.
  pose proof (filter_length some xs) as Hlen. rewrite <- somes_length in Hlen.
  constructor; cbn -[cached_at]; auto.
  - rewrite l_first0. cbn [bind]. rewrite Hadv by lia. cbn [skipn Nat.add]. cbn zeta. rewrite scan_pos. f_equal. f_equal.
    unfold cached_at. destruct xs as [|x xs]; [reflexivity|]. set (ys := x :: xs) in *.
    rewrite (advance_at ys 0) by (cbn; lia). replace (0 =? length ys) with false by reflexivity.
    destruct (nth_error (somes ys) 0); [reflexivity|]. cbn [length ys]. f_equal. lia.
  - intros i Hi. rewrite l_stop0 by apply pos_le. f_equal. rewrite somes_length in *.
    rewrite <- (pos_end some xs) at 1. apply pos_eqb; auto.
  - intros i x Hx. unfold cached_at. now rewrite Hx.
  - intros i Hi. assert (pos some xs i < length xs) as Hp.
    { rewrite <- (pos_end some xs). apply pos_lt; rewrite <- ?somes_length; lia. }
    rewrite l_next0 by auto. cbn [bind]. rewrite Hadv by lia. cbn zeta. rewrite pos_next by (rewrite <- somes_length; lia).
    f_equal. f_equal. unfold cached_at. destruct (length xs) as [|n] eqn:En; [lia|]. rewrite advance_at by lia.
    destruct (nth_error (somes xs) (S i)) eqn:E; [reflexivity|].
    replace (S n - 1) with n by lia. destruct (Nat.eqb_spec (S (pos some xs i)) (S n)) as [He|]; [|reflexivity].
    unfold cached_at. destruct (nth_error_below (somes xs) i ltac:(lia)) as [x Hx]. rewrite Hx.
    pose proof (somes_nth xs i ltac:(lia)) as Hnth. rewrite Hx in Hnth. injection He as He. rewrite He in Hnth.
    now rewrite (nth_error_nth _ _ _ Hnth).
  - destruct (same r) as [f|]; [|exact Logic.I]. cbn in *. intros i j Hi Hj.
    rewrite l_same0 by apply pos_le. f_equal. rewrite somes_length in *. now apply pos_eqb.
  - lia.
Qed.
