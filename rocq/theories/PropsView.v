(** * Views of ranges: properties C97 to C102

    A range consists of the elements [xs], with all that its iterators can do, when [lists r xs] (SpecRange.v). *)

From Coq Require Import List ZArith Bool.
From Verif Require Import Range SpecRange Views RangeProofs ViewProofs ZipProofs.
Import ListNotations.
Local Open Scope Z_scope.

(** An array with room for ten elements, and what is less than an array. *)
Definition digits : range Z Z := array_range 10 [3; 1; 4; 1; 5; 9; 2].
Example digits_lists : lists digits [3; 1; 4; 1; 5; 9; 2] /\ lists (as_bidirectional digits) [3; 1; 4; 1; 5; 9; 2] /\
  lists (as_forward digits) [3; 1; 4; 1; 5; 9; 2] /\ lists (as_input digits) [3; 1; 4; 1; 5; 9; 2] /\ random_access digits.
Proof.
  assert (lists digits [3; 1; 4; 1; 5; 9; 2]) as H by (now apply array_lists).
  split; [exact H|]. split; [now apply bidirectional_lists|]. split; [now apply forward_lists|]. split; [now apply input_lists|]. reflexivity.
Qed.
(** [lists] says what a range-based for loop sees, and a range lists only one sequence of elements. *)
Lemma lists_visit : forall I A (r : range I A) xs fuel, lists r xs -> (length xs < fuel)%nat -> visit fuel r = Val xs.
Proof. intros. now apply visit_lists. Qed.
Lemma lists_one : forall I A (r : range I A) xs ys, lists r xs -> lists r ys -> xs = ys.
Proof. intros. eapply lists_unique; eauto. Qed.

Lemma random_parts {I A} (r : range I A) : random_access r ->
  exists f l p q m o s, same r = Some f /\ last r = Some l /\ prev r = Some p /\ plus r = Some q /\ backward r = true /\ minus r = Some m /\ order r = Some o /\ size r = Some s.
Proof.
  unfold random_access, abilities. intros H. injection H as E1 E2 E3 E4 E5 E6 E7 E8.
  destruct (same r); [|discriminate]. destruct (last r); [|discriminate]. destruct (prev r); [|discriminate]. destruct (plus r); [|discriminate].
  destruct (minus r); [|discriminate]. destruct (order r); [|discriminate]. destruct (size r); [|discriminate]. do 7 eexists. eauto 10.
Qed.
Ltac parts H := apply random_parts in H as (f0 & l0 & p0 & q0 & m0 & o0 & s0 & Ef & El & Ep & Eq & Eb & Em & Eo & Es).

(** ** C97. transform and reversed *)
Theorem C97_transform : forall I A B (f : A -> B) (r : range I A) xs,
  lists r xs -> lists (transform f r) (map f xs) /\ abilities (transform f r) = abilities r.
Proof. intros. split; [now apply transform_lists|reflexivity]. Qed.
Print Assumptions C97_transform.
Theorem C97_reversed : forall I A (r r' : range I A) xs,
  lists r xs -> reversed r = Some r' -> lists r' (rev xs) /\ (random_access r -> random_access r').
Proof.
  intros I A r r' xs H Hr. split; [eapply reversed_lists; eauto|]. intros Ha. parts Ha. unfold reversed in Hr.
  rewrite Ef, El, Ep, Eq, Eb, Em, Eo, Es in Hr. injection Hr as <-. reflexivity.
Qed.
Print Assumptions C97_reversed.
Theorem C97_reversible : forall I A (r : range I A),
  has (same r) = true -> has (last r) = true -> has (prev r) = true -> exists r', reversed r = Some r'.
Proof. intros I A r. unfold reversed. destruct (same r), (last r), (prev r); try discriminate. eauto. Qed.
Print Assumptions C97_reversible.

Example C97_example :
  match reversed (transform (Z.mul 2) digits) with
  | Some r => lists r [4; 18; 10; 2; 8; 2; 6] /\ random_access r /\ visit 8 r = Val [4; 18; 10; 2; 8; 2; 6] /\
      match plus r, minus r, first r with
      | Some p, Some m, Val b => (let* it := p b 2 in get r it) = Val 10 /\ (let* it := p b 5 in m it b) = Val 5
      | _, _, _ => False
      end
  | None => False
  end.
Proof.
  destruct (reversed (transform (Z.mul 2) digits)) as [r|] eqn:E; [|discriminate].
  destruct (C97_transform _ _ _ (Z.mul 2) digits _ (proj1 digits_lists)) as [H _]. destruct (C97_reversed _ _ _ _ _ H E) as [Hr Ha].
  split; [exact Hr|]. split; [now apply Ha|]. injection E as <-. vm_compute. repeat split.
Qed.

(** ** C98. filter and remove_none *)
Theorem C98_filter : forall I A fuel p (r : range I A) xs, lists r xs -> (length xs < fuel)%nat ->
  lists (filter fuel p r) (List.filter p xs) /\
  abilities (filter fuel p r) = [has (same r); has (last r); false; false; false; false; has (order r); false].
Proof. intros. split; [now apply filter_lists|reflexivity]. Qed.
Print Assumptions C98_filter.
(** The elements that are not none, without the optional around them. *)
Theorem C98_remove_none : forall I A fuel (r : range I (option A)) xs ys, lists r xs -> (length xs < fuel)%nat ->
  map Some ys = List.filter (fun o => has o) xs -> lists (remove_none fuel r) ys.
Proof.
  intros I A fuel r xs ys H Hf Hy. replace ys with (somes xs); [now apply remove_none_lists|].
  assert (map Some (somes xs) = map Some ys) as E by (rewrite somes_filter, Hy; reflexivity). clear - E.
  revert ys E. induction (somes xs) as [|x l IH]; intros [|y ys] E; try discriminate; [reflexivity|]. injection E as -> E. f_equal. now apply IH.
Qed.
Print Assumptions C98_remove_none.

Example C98_example : lists (filter 8 Z.odd (as_input digits)) [3; 1; 1; 5; 9] /\
  visit 8 (filter 8 Z.odd digits) = Val [3; 1; 1; 5; 9] /\
  lists (remove_none 5 (array_range 5 [None; Some 1; None; Some 2])) [1; 2] /\
  visit 8 (remove_none 5 (array_range 5 [None; Some 1; None; Some 2])) = Val [1; 2].
Proof.
  destruct (C98_filter _ _ 8%nat Z.odd (as_input digits) _ ltac:(apply digits_lists) ltac:(repeat constructor)) as [H _]. split; [exact H|]. split; [reflexivity|].
  split; [|reflexivity]. eapply C98_remove_none; [apply array_lists; discriminate|repeat constructor|reflexivity].
Qed.

(** ** C99. take and check_size_not_greater_than. [max_count] is the largest value of the type of the count. *)
Theorem C99_take : forall I A (r : range I A) xs max_count count, lists r xs -> 0 <= count <= max_count ->
  lists (take_counted false max_count count r) (firstn (Z.to_nat count) xs) /\
  (forall r', take_random max_count count r = Some r' -> lists r' (firstn (Z.to_nat count) xs) /\ (random_access r -> random_access r')) /\
  (random_access r -> exists r', take_random max_count count r = Some r').
Proof.
  intros I A r xs max_count count H Hc. split; [eapply take_counted_lists; eauto|]. split.
  - intros r' Hr. split; [eapply take_random_lists; eauto|]. intros Ha. parts Ha. unfold take_random in Hr.
    rewrite Ef, Eq, Eb, Em, Eo, Es in Hr. injection Hr as <-. reflexivity.
  - intros Ha. parts Ha. unfold take_random. rewrite Ef, Eq, Em, Es. eexists. reflexivity.
Qed.
Print Assumptions C99_take.
Theorem C99_check_size : forall I A (r : range I A) xs count e, lists r xs ->
  check_size_not_greater_than count r = Some e -> e = if Z.of_nat (length xs) <=? count then Val r else Thrown.
Proof. intros I A r xs count e H. now apply (check_size_lists _ _ H). Qed.
Print Assumptions C99_check_size.
(** Without a size: a range that is small enough is not changed. Of another one the first elements are seen, and then there is an
    exception. *)
Theorem C99_check_unsized : forall I A (r : range I A) xs max_count count, lists r xs -> 0 <= count <= max_count ->
  if Z.of_nat (length xs) <=? count then lists (take_counted true max_count count r) xs
  else exists it, walk (Z.to_nat count) (take_counted true max_count count r) = Val (firstn (Z.to_nat count) xs, it) /\
         stop (take_counted true max_count count r) it = Thrown.
Proof.
  intros I A r xs max_count count H Hc. destruct (Z.leb_spec (Z.of_nat (length xs)) count).
  - eapply take_checked_lists; eauto.
  - eapply take_checked_throws; eauto.
Qed.
Print Assumptions C99_check_unsized.

Example C99_example : lists (take_counted false 5 3 (as_input digits)) [3; 1; 4] /\
  visit 8 (take_counted false 5 3 (as_input digits)) = Val [3; 1; 4] /\
  visit 8 (take_counted false 20 12 (as_input digits)) = Val [3; 1; 4; 1; 5; 9; 2] /\
  visit 8 (take_counted true 20 3 (as_input digits)) = Thrown /\ check_size_not_greater_than 3 digits = Some Thrown /\
  match take_random 5 3 digits with Some r => lists r [3; 1; 4] /\ visit 8 r = Val [3; 1; 4] /\ size r = Some (Val 3) | None => False end.
Proof.
  destruct (C99_take _ _ (as_input digits) _ 5 3 ltac:(apply digits_lists) ltac:(easy)) as [H _].
  destruct (C99_take _ _ digits _ 5 3 ltac:(apply digits_lists) ltac:(easy)) as (_ & H' & _).
  split; [exact H|]. repeat (split; [reflexivity|]). split; [apply (H' _ eq_refl)|]. split; reflexivity.
Qed.

(** ** C100. drop, drop_exactly and drop_back_exactly. [max_size] is the largest value of the type of the size, [min_count] the
    smallest of the type of the count; [exactly] says which of drop and drop_exactly it is. *)
Theorem C100_drop_sized : forall I A (r : range I A) xs exactly max_size min_count count e,
  lists r xs -> Z.of_nat (length xs) <= max_size -> 0 <= min_count <= count ->
  drop_sized exactly max_size min_count count r = Some e ->
  if exactly && (Z.of_nat (length xs) <? count) then e = Thrown
  else exists r', e = Val r' /\ lists r' (skipn (Z.to_nat count) xs) /\ (random_access r -> random_access r').
Proof.
  intros I A r xs exactly max_size min_count count e H Hs Hc He. pose proof (drop_sized_lists _ _ H _ _ _ _ _ Hs Hc He) as Hd.
  destruct (exactly && (Z.of_nat (length xs) <? count)); [exact Hd|]. destruct Hd as (r' & -> & Hr). exists r'. split; [reflexivity|]. split; [exact Hr|].
  clear - He. intros Ha. unfold drop_sized in He. destruct (size r) as [s|]; [|discriminate]. injection He as He.
  destruct s as [s| | |]; try discriminate. cbn [bind] in He. match type of He with context [bind ?x _] => destruct x as [m| | |]; try discriminate end. cbn [bind] in He.
  destruct (first r); try discriminate. cbn [bind] in He. match type of He with context [bind ?x _] => destruct x; try discriminate end. cbn [bind] in He. injection He as <-.
  parts Ha. unfold random_access, abilities, reduced_range. rewrite Ef, Ep, Eq, Em, Eo. cbn. now rewrite Eb.
Qed.
Print Assumptions C100_drop_sized.
Theorem C100_drop_unsized : forall I A (r : range I A) xs exactly min_count count, lists r xs -> 0 <= min_count <= count ->
  if exactly && (Z.of_nat (length xs) <? count) then drop_unsized exactly min_count count r = Thrown
  else exists r', drop_unsized exactly min_count count r = Val r' /\ lists r' (skipn (Z.to_nat count) xs).
Proof. intros I A r xs exactly min_count count H. now apply (drop_unsized_lists _ _ H). Qed.
Print Assumptions C100_drop_unsized.
(** drop_back_exactly is take of what is left, for a range with a size. *)
Theorem C100_drop_back : forall I A (r : range I A) xs max_count count, lists r xs -> 0 <= count -> Z.of_nat (length xs) <= max_count ->
  (forall e, drop_back_exactly (fun n r => Some (take_counted false max_count n r)) count r = Some e ->
     if Z.of_nat (length xs) <? count then e = Thrown
     else exists r', e = Val r' /\ lists r' (firstn (length xs - Z.to_nat count) xs)) /\
  (forall e, drop_back_exactly (take_random max_count) count r = Some e ->
     if Z.of_nat (length xs) <? count then e = Thrown
     else exists r', e = Val r' /\ lists r' (firstn (length xs - Z.to_nat count) xs)).
Proof.
  intros I A r xs max_count count H Hc Hm. assert (forall n, 0 <= n <= Z.of_nat (length xs) -> 0 <= n <= max_count) as Hle.
  { intros n [Hn Hn']. split; [exact Hn|]. eapply Z.le_trans; eauto. }
  split; intros e; apply (drop_back_lists _ _ H); auto.
  - intros n r' Hn Hr. injection Hr as <-. apply (take_counted_lists _ _ H). auto.
  - intros n r' Hn Hr. apply (take_random_lists _ _ H max_count); auto.
Qed.
Print Assumptions C100_drop_back.

Example C100_example :
  (exists r, drop_sized false 10 0 3 digits = Some (Val r) /\ lists r [1; 5; 9; 2]) /\
  match drop_sized false 10 0 3 digits with Some (Val r) => visit 8 r = Val [1; 5; 9; 2] /\ size r = Some (Val 4) | _ => False end /\
  drop_sized true 10 0 8 digits = Some Thrown /\ drop_unsized true 0 8 (as_input digits) = Thrown /\
  (let* r := drop_unsized false 0 3 (as_input digits) in visit 8 r) = Val [1; 5; 9; 2] /\
  (let* r := drop_unsized false 0 9 (as_input digits) in visit 8 r) = Val [] /\
  match drop_back_exactly (take_random 10) 5 digits with Some (Val r) => visit 8 r = Val [3; 1] | _ => False end.
Proof.
  split; [|vm_compute; repeat split].
  destruct (drop_sized false 10 0 3 digits) as [e|] eqn:E; [|discriminate].
  destruct (C100_drop_sized _ _ digits _ false 10 0 3 _ (proj1 digits_lists) ltac:(easy) ltac:(easy) E) as (r' & -> & Hl & _). eauto.
Qed.

(** ** C101. zip and zip_smallest: rows of one element of each range *)
Theorem C101_zip : forall I A (rs : list (range I A)) xss, Forall2 lists rs xss ->
  ((exists n, Forall (fun xs => length xs = n) xss) -> exists z, zip rs = Val z /\ lists z (rows xss)) /\
  (~ (exists n, Forall (fun xs => length xs = n) xss) ->
     if forallb (fun r => has (size r)) rs then zip rs = Thrown
     else exists z it, zip rs = Val z /\ walk (length (rows xss)) z = Val (rows xss, it) /\ stop z it = Thrown).
Proof.
  intros I A rs xss H. split; [intros (n & Hn); eapply zip_lists; eauto|]. intros Hn. destruct (forallb _ rs) eqn:E.
  - eapply zip_sized_throws; eauto. unfold sizes. clear - E. induction rs as [|r rs IH]; [discriminate|]. cbn in *. destruct (size r); [|discriminate].
    specialize (IH E). destruct (all_have size rs); [discriminate|exact IH].
  - eapply zip_unsized_throws; eauto. unfold sizes. clear - E. induction rs as [|r rs IH]; [discriminate|]. cbn in *. destruct (size r); [|reflexivity].
    specialize (IH E). now destruct (all_have size rs).
Qed.
Print Assumptions C101_zip.
Theorem C101_zip_smallest : forall I A (rs : list (range I A)) xss, Forall2 lists rs xss -> rs <> [] ->
  lists (zip_smallest_unsized rs) (rows xss) /\
  (forall max_count, Forall (fun xs => Z.of_nat (length xs) <= max_count) xss -> Forall random_access rs ->
     exists z, zip_smallest (take_random max_count) rs = Some (Val z) /\ lists z (rows xss)).
Proof.
  intros I A rs xss H Hne. split; [now apply zip_smallest_unsized_lists|]. intros max_count Hm Hr.
  assert (exists e, zip_smallest (take_random max_count) rs = Some e) as [e He].
  { unfold zip_smallest, zip_smallest_sized. assert (exists ns, sizes rs = Some (Val ns)) as [ns ->].
    { unfold sizes. clear - H Hr. induction H as [|r xs rs xss Hl H IH]; [cbn; eauto|]. pose proof (Forall_inv Hr) as Hr1. destruct (IH (Forall_inv_tail Hr)) as [ns Hns].
      destruct Hl as [it Hl]. pose proof (l_size _ _ _ Hl) as Hs. cbn. destruct (size r) as [s|] eqn:E; [|unfold random_access, abilities in Hr1; rewrite E in Hr1; discriminate].
      cbn in Hs. subst s. destruct (all_have size rs) as [ss|]; [|discriminate]. cbn in *. injection Hns as ->. cbn. eauto. }
    assert (exists cuts, all_have (take_random max_count match ns with [] => 0 | n :: ns => fold_left Z.min ns n end) rs = Some cuts) as [cuts ->].
    { generalize match ns with [] => 0 | n :: ns => fold_left Z.min ns n end. intros m. clear - Hr. induction Hr as [|r rs Hr Hrs IH]; [cbn; eauto|].
      destruct IH as [cuts Hcuts]. cbn. rewrite Hcuts. unfold take_random. unfold random_access, abilities in Hr.
      destruct (size r), (plus r), (minus r), (same r); try (exfalso; revert Hr; cbn; congruence). eexists. reflexivity. }
    cbn. eauto. }
  rewrite He. assert (exists z, e = Val z /\ lists z (rows xss)) as (z & -> & Hz).
  { eapply zip_smallest_lists; eauto. intros n r r' xs Hin Hl Hn Hc. apply (take_random_lists _ _ Hl max_count); [|exact Hc]. split; [apply Hn|].
    assert (In xs xss) as Hx.
    { clear - H Hin Hl. induction H as [|r0 xs0 rs xss Hl0 H IH]; [easy|]. destruct Hin as [->|Hin]; [left; eapply lists_unique; eauto|right; auto]. }
    rewrite Forall_forall in Hm. specialize (Hm _ Hx). eapply Z.le_trans; [apply Hn|exact Hm]. }
  eauto.
Qed.
Print Assumptions C101_zip_smallest.
(** The rows are what they should be: as many as the shortest list has elements, and the i-th consists of the i-th elements. *)
Theorem C101_rows : forall A (xss : list (list A)), xss <> [] ->
  Forall (fun xs => length (rows xss) <= length xs)%nat xss /\ Exists (fun xs => length xs = length (rows xss)) xss /\
  forall i row, nth_error (rows xss) i = Some row -> row_of xss i row.
Proof.
  intros A xss Hne. rewrite rows_length. split; [apply least_le|]. split; [now apply least_hit|]. intros. now apply rows_row.
Qed.
Print Assumptions C101_rows.

Example C101_example :
  Forall2 lists [digits; array_range 10 [10; 20; 30]] [[3; 1; 4; 1; 5; 9; 2]; [10; 20; 30]] /\
  Forall random_access [digits; array_range 10 [10; 20; 30]] /\
  rows [[3; 1; 4; 1; 5; 9; 2]; [10; 20; 30]] = [[3; 10]; [1; 20]; [4; 30]] /\
  zip [digits; array_range 10 [10; 20; 30]] = Thrown /\
  (let* z := zip [as_input digits; as_input digits] in visit 8 z) = Val [[3; 3]; [1; 1]; [4; 4]; [1; 1]; [5; 5]; [9; 9]; [2; 2]] /\
  visit 8 (zip_smallest_unsized [as_input digits; as_input (array_range 10 [10; 20; 30])]) = Val [[3; 10]; [1; 20]; [4; 30]] /\
  match zip_smallest (take_random 10) [digits; array_range 10 [10; 20; 30]] with
  | Some (Val z) => visit 8 z = Val [[3; 10]; [1; 20]; [4; 30]] /\ size z = Some (Val 3)
  | _ => False
  end.
Proof.
  split; [repeat constructor; [apply digits_lists|now apply array_lists]|]. split; [repeat constructor|]. vm_compute. repeat split.
Qed.

(** ** C102. concatenate_view *)
Theorem C102_concatenate_view : forall I A (rs : list (range I A)) xss, Forall2 lists rs xss ->
  lists (concatenate_view rs) (concat xss) /\
  (Forall random_access rs -> abilities (concatenate_view rs) = [true; true; false; true; false; true; true; true]).
Proof.
  intros I A rs xss H. split; [now apply concatenate_view_lists|]. intros Hr. clear H.
  assert (forall T (op : range I A -> option T), (forall r, random_access r -> has (op r) = true) -> exists l, all_have op rs = Some l) as Hall.
  { intros T op Hop. induction Hr as [|r rs Hr Hrs IH]; [cbn; eauto|]. cbn. specialize (Hop r Hr). destruct (op r); [|discriminate]. destruct IH as [l ->]. eauto. }
  assert (forall r : range I A, random_access r -> has (same r) = true /\ has (last r) = true /\ has (plus r) = true /\ has (minus r) = true /\ has (order r) = true /\ has (size r) = true) as Ha.
  { clear. intros r Hr. unfold random_access, abilities in Hr. injection Hr as E1 E2 E3 E4 E5 E6 E7 E8. auto 10. }
  destruct (Hall _ same) as [l1 E1]; [apply Ha|]. destruct (Hall _ last) as [l2 E2]; [apply Ha|]. destruct (Hall _ plus) as [l3 E3]; [apply Ha|].
  destruct (Hall _ minus) as [l4 E4]; [apply Ha|]. destruct (Hall _ order) as [l5 E5]; [apply Ha|]. destruct (Hall _ size) as [l6 E6]; [apply Ha|].
  unfold abilities, concatenate_view, sizes. rewrite E1, E2, E3, E4, E5, E6. reflexivity.
Qed.
Print Assumptions C102_concatenate_view.

Example C102_example :
  Forall2 lists [digits; array_range 0 []; array_range 2 [7; 8]] [[3; 1; 4; 1; 5; 9; 2]; []; [7; 8]] /\
  (let r := concatenate_view [digits; array_range 0 []; array_range 2 [7; 8]] in
   visit 10 r = Val [3; 1; 4; 1; 5; 9; 2; 7; 8] /\ size r = Some (Val 9) /\
   match plus r, minus r, first r with
   | Some p, Some m, Val b => (let* it := p b 8 in get r it) = Val 8 /\ (let* it := p b 8 in m b it) = Val (-8)
   | _, _, _ => False
   end) /\
  visit 10 (concatenate_view [as_input (array_range 0 []); as_input digits; as_input (array_range 2 [7; 8])]) = Val [3; 1; 4; 1; 5; 9; 2; 7; 8].
Proof.
  split; [repeat constructor; [apply digits_lists|now apply array_lists|now apply array_lists]|]. vm_compute. repeat split.
Qed.

(** A view of views: every other theorem applies to what a theorem says. *)
Example C102_composed :
  let r := filter 20 Z.odd (transform (Z.add 1) (concatenate_view [digits; array_range 2 [7; 8]])) in
  lists r [5; 3; 9] /\ visit 10 r = Val [5; 3; 9].
Proof.
  split; [|reflexivity].
  destruct (C102_concatenate_view _ _ [digits; array_range 2 [7; 8]] [[3; 1; 4; 1; 5; 9; 2]; [7; 8]]) as [H _];
    [repeat constructor; [apply digits_lists|now apply array_lists]|].
  destruct (C97_transform _ _ _ (Z.add 1) _ _ H) as [H' _]. destruct (C98_filter _ _ 20%nat Z.odd _ _ H' ltac:(vm_compute; repeat constructor)) as [H'' _].
  exact H''.
Qed.
