(** * Proofs about views whose elements are ranges: split, adjacent, chunk_by, batched *)

From Coq Require Import List ZArith Bool Lia Sorted.
From Verif Require Import Range SpecRange Views Pieces RangeProofs ViewProofs.
Import ListNotations.
Local Open Scope nat_scope.

(** ** Walking through a range *)
Inductive run {I A} (r : range I A) : I -> list I -> list A -> Prop :=
| run_end s : stop r s = Val true -> run r s [s] []
| run_step s s' ss x xs : stop r s = Val false -> get r s = Val x -> next r s = Val s' -> run r s' ss xs -> run r s (s :: ss) (x :: xs).
Lemma run_length {I A} (r : range I A) s ss xs : run r s ss xs -> length ss = S (length xs).
Proof. induction 1; cbn; congruence. Qed.
Lemma run_head {I A} (r : range I A) s ss xs d : run r s ss xs -> nth 0 ss d = s.
Proof. now destruct 1. Qed.
Lemma run_stop {I A} (r : range I A) s ss xs d i : run r s ss xs -> i <= length xs -> stop r (nth i ss d) = Val (i =? length xs).
Proof.
  intros H. revert i. induction H as [s H|s s' ss x xs Hs Hg Hn Hr IH]; intros i Hi; cbn in Hi.
  - now replace i with 0 by lia.
  - destruct i as [|i]; cbn; [auto|]. apply IH. lia.
Qed.
Lemma run_get {I A} (r : range I A) s ss xs d i x : run r s ss xs -> nth_error xs i = Some x -> get r (nth i ss d) = Val x.
Proof.
  intros H. revert i. induction H as [s H|s s' ss y xs Hs Hg Hn Hr IH]; intros i Hx; [now destruct i|].
  destruct i as [|i]; cbn in *; [congruence|]. now apply IH.
Qed.
Lemma run_next {I A} (r : range I A) s ss xs d i : run r s ss xs -> i < length xs -> next r (nth i ss d) = Val (nth (S i) ss d).
Proof.
  intros H. revert i. induction H as [s H|s s' ss y xs Hs Hg Hn Hr IH]; intros i Hi; [cbn in Hi; lia|].
  destruct i as [|i]; cbn in *; [|apply IH; lia]. rewrite Hn. f_equal. now destruct Hr.
Qed.
Lemma run_lists_at {I A} (r : range I A) s ss xs : first r = Val s -> run r s ss xs ->
  if_any (same r) (fun f => forall i j a b, nth_error ss i = Some a -> nth_error ss j = Some b -> f a b = Val (i =? j)) ->
  if_any (order r) (fun f => forall i j a b, nth_error ss i = Some a -> nth_error ss j = Some b -> f a b = Val (Nat.compare i j)) ->
  last r = None -> prev r = None -> plus r = None -> minus r = None -> size r = None -> (Z.of_nat (length xs) <= reach r)%Z ->
  lists_at r (fun i => nth i ss s) xs.
Proof.
  intros Hf Hr Hsame Horder Hl Hp Hplus Hminus Hsize Hreach. pose proof (run_length _ _ _ _ Hr) as Hlen.
  assert (forall i, i <= length xs -> nth_error ss i = Some (nth i ss s)) as Hnth.
  { intros i Hi. apply nth_error_nth'. lia. }
  constructor; rewrite ?Hl, ?Hp, ?Hplus, ?Hminus, ?Hsize; cbn; auto.
  - rewrite Hf. f_equal. symmetry. eapply run_head; eauto.
  - intros i Hi. eapply run_stop; eauto.
  - intros i x Hx. eapply run_get; eauto.
  - intros i Hi. eapply run_next; eauto.
  - destruct (same r) as [f|]; [|exact Logic.I]. cbn in *. intros i j Hi Hj. apply Hsame; auto.
  - destruct (order r) as [f|]; [|exact Logic.I]. cbn in *. intros i j Hi Hj. apply Horder; auto.
Qed.
Lemma sorted_nth ks i j a b : StronglySorted lt ks -> nth_error ks i = Some a -> nth_error ks j = Some b -> i < j -> a < b.
Proof.
  intros H. revert i j. induction H as [|k ks Hs IH Hk]; intros i j Hi Hj Hij; [now destruct i|].
  destruct j as [|j]; [lia|]. destruct i as [|i]; cbn in *; [|apply (IH i j); auto; lia].
  injection Hi as ->. rewrite Forall_forall in Hk. apply Hk. eapply nth_error_In; eauto.
Qed.
Lemma sorted_eqb ks i j a b : StronglySorted lt ks -> nth_error ks i = Some a -> nth_error ks j = Some b -> (a =? b) = (i =? j).
Proof.
  intros H Hi Hj. destruct (Nat.lt_total i j) as [Hij|[->|Hij]].
  - pose proof (sorted_nth _ _ _ _ _ H Hi Hj Hij). bools.
  - assert (a = b) as -> by congruence. now rewrite !Nat.eqb_refl.
  - pose proof (sorted_nth _ _ _ _ _ H Hj Hi Hij). bools.
Qed.
Lemma sorted_compare ks i j a b : StronglySorted lt ks -> nth_error ks i = Some a -> nth_error ks j = Some b -> Nat.compare a b = Nat.compare i j.
Proof.
  intros H Hi Hj. destruct (Nat.compare_spec i j) as [->|Hij|Hij].
  - assert (a = b) as -> by congruence. apply Nat.compare_refl.
  - apply Nat.compare_lt_iff. eapply sorted_nth; eauto.
  - apply Nat.compare_gt_iff. eapply sorted_nth; eauto.
Qed.

(** ** Parts of a range *)
Lemma firstn_skipn_nth {A} (xs : list A) a n i x : nth_error (firstn n (skipn a xs)) i = Some x -> nth_error xs (a + i) = Some x.
Proof. intros H. apply nth_error_firstn in H. now rewrite nth_error_skip in H. Qed.
Lemma subrange_lists_at {I A} (r : range I A) it xs a b : lists_at r it xs -> same r <> None -> a <= b <= length xs ->
  lists_at (subrange r (it a) (it b)) (fun i => it (a + i)) (firstn (b - a) (skipn a xs)).
Proof.
  intros H Hs Hab. laws H. unfold subrange. assert (length (firstn (b - a) (skipn a xs)) = b - a) as Hlen by (rewrite firstn_length, skipn_length; lia).
  constructor; cbn -[Z.of_nat Z.sub]; rewrite ?Hlen; auto.
  - do 2 f_equal. lia.
  - intros i Hi. destruct (same r) as [f|]; [|easy]. cbn in *. rewrite l_same0 by lia. f_equal. bools.
  - intros i x Hx. apply l_get0. eapply firstn_skipn_nth; eauto.
  - intros i Hi. rewrite l_next0 by lia. do 2 f_equal. lia.
  - destruct (same r) as [f|]; [|easy]. cbn in *. intros i j Hi Hj. rewrite l_same0 by lia. f_equal. bools.
  - do 2 f_equal. lia.
  - destruct (prev r) as [f|]; [|easy]. cbn in *. intros i Hi. replace (a + S i) with (S (a + i)) by lia. apply l_prev0. lia.
  - destruct (plus r) as [f|]; [|easy]. cbn -[Z.of_nat] in *. intros i d Hi Hd Hb. rewrite l_plus0 by (auto; lia). do 2 f_equal. lia.
  - destruct (minus r) as [f|]; [|easy]. cbn -[Z.of_nat Z.sub] in *. intros i j Hi Hj. rewrite l_minus0 by lia. f_equal. lia.
  - destruct (order r) as [f|]; [|easy]. cbn in *. intros i j Hi Hj. rewrite l_order0 by lia. f_equal.
    destruct (Nat.compare_spec (a + i) (a + j)); destruct (Nat.compare_spec i j); lia || reflexivity.
  - lia.
  - destruct (minus r) as [f|]; [|easy]. cbn -[Z.of_nat Z.sub] in *. rewrite l_minus0 by lia. f_equal. lia.
Qed.
Lemma rest_of_lists_at {I A} (r : range I A) it xs a : lists_at r it xs -> a <= length xs ->
  lists_at (rest_of r (it a)) (fun i => it (a + i)) (skipn a xs).
Proof.
  intros H Ha. laws H. unfold rest_of. assert (length (skipn a xs) = length xs - a) as Hlen by apply skipn_length.
  constructor; cbn -[Z.of_nat Z.sub]; rewrite ?Hlen; auto.
  - do 2 f_equal. lia.
  - intros i Hi. rewrite l_stop0 by lia. f_equal. bools.
  - intros i x Hx. apply l_get0. now rewrite nth_error_skip in Hx.
  - intros i Hi. rewrite l_next0 by lia. do 2 f_equal. lia.
  - destruct (same r) as [f|]; [|easy]. cbn in *. intros i j Hi Hj. rewrite l_same0 by lia. f_equal. bools.
  - destruct (last r) as [e|]; [|easy]. cbn in *. subst e. do 2 f_equal. lia.
  - destruct (prev r) as [f|]; [|easy]. cbn in *. intros i Hi. replace (a + S i) with (S (a + i)) by lia. apply l_prev0. lia.
  - destruct (plus r) as [f|]; [|easy]. cbn -[Z.of_nat] in *. intros i d Hi Hd Hb. rewrite l_plus0 by (auto; lia). do 2 f_equal. lia.
  - destruct (minus r) as [f|]; [|easy]. cbn -[Z.of_nat Z.sub] in *. intros i j Hi Hj. rewrite l_minus0 by lia. f_equal. lia.
  - destruct (order r) as [f|]; [|easy]. cbn in *. intros i j Hi Hj. rewrite l_order0 by lia. f_equal.
    destruct (Nat.compare_spec (a + i) (a + j)); destruct (Nat.compare_spec i j); lia || reflexivity.
  - lia.
  - destruct (last r) as [e|]; [|easy]. destruct (minus r) as [f|]; [|easy]. cbn -[Z.of_nat Z.sub] in *. subst e. cbn -[Z.of_nat Z.sub].
    rewrite l_minus0 by lia. f_equal. lia.
Qed.

(** ** split *)
Fixpoint begins_b {A} (ds : list (A -> bool)) (xs : list A) : bool :=
  match ds, xs with
  | [], _ => true
  | d :: ds, x :: xs => d x && begins_b ds xs
  | _ :: _, [] => false
  end.
Lemma begins_spec {A} (ds : list (A -> bool)) xs : begins_b ds xs = true <-> begins ds xs.
Proof.
  revert xs. induction ds as [|d ds IH]; intros [|x xs]; cbn; try easy. rewrite andb_true_iff, IH. easy.
Qed.
Lemma begins_length {A} (ds : list (A -> bool)) xs : begins_b ds xs = true -> length ds <= length xs.
Proof.
  revert xs. induction ds as [|d ds IH]; intros [|x xs] H; cbn in *; try discriminate; try lia. apply andb_prop in H as [_ H]. apply IH in H. lia.
Qed.
Lemma begins_firstn {A} (ds : list (A -> bool)) xs : begins_b ds xs = true -> begins ds (firstn (length ds) xs).
Proof.
  revert xs. induction ds as [|d ds IH]; intros [|x xs] H; cbn in *; try easy. apply andb_prop in H as [H1 H]. auto.
Qed.
Fixpoint loc {A} (ds : list (A -> bool)) (xs : list A) : nat :=
  if begins_b ds xs then 0 else match xs with [] => 0 | _ :: xs => S (loc ds xs) end.
Lemma loc_le {A} (ds : list (A -> bool)) xs : loc ds xs <= length xs.
Proof. induction xs as [|x xs IH]; cbn [loc length]; destruct (begins_b _ _); lia. Qed.
Lemma loc_before {A} (ds : list (A -> bool)) xs i : i < loc ds xs -> begins_b ds (skipn i xs) = false.
Proof.
  revert i. induction xs as [|x xs IH]; intros i; cbn [loc]; [destruct (begins_b ds []); lia|].
  destruct (begins_b ds (x :: xs)) eqn:E; intros Hi; [lia|]. destruct i as [|i]; [exact E|]. cbn. apply IH. lia.
Qed.
Lemma loc_at {A} (ds : list (A -> bool)) xs : loc ds xs < length xs -> begins_b ds (skipn (loc ds xs) xs) = true.
Proof.
  induction xs as [|x xs IH]; cbn [loc length]; [destruct (begins_b ds []); lia|]. destruct (begins_b ds (x :: xs)) eqn:E; intros Hi; [exact E|].
  cbn. apply IH. lia.
Qed.
Lemma loc_none {A} (ds : list (A -> bool)) xs i : 0 < length ds -> loc ds xs = length xs -> begins_b ds (skipn i xs) = false.
Proof.
  intros Hd Hl. destruct (Nat.lt_ge_cases i (length xs)) as [Hi|Hi]; [apply loc_before; lia|]. rewrite skipn_all2 by auto. destruct ds; cbn in *; [lia|reflexivity].
Qed.
Lemma cut_length {A} (ds : list (A -> bool)) xs ps dels : cut_by ds xs ps dels -> length ps = S (length dels) /\ length dels * length ds <= length xs.
Proof.
  induction 1 as [xs H|p del rest ps dels Hl Hb Hp _ [IH1 IH2]]; cbn; [lia|]. split; [lia|]. rewrite !app_length. lia.
Qed.

Lemma cut_here {A} (ds : list (A -> bool)) ys ps dels : loc ds ys < length ys ->
  cut_by ds (skipn (loc ds ys + length ds) ys) ps dels ->
  cut_by ds ys (firstn (loc ds ys) ys :: ps) (firstn (length ds) (skipn (loc ds ys) ys) :: dels).
Proof.
  intros Hl Hc. pose proof (loc_at _ _ Hl) as Hb. pose proof (begins_length _ _ Hb) as Hlen. rewrite skipn_length in Hlen.
  assert (ys = firstn (loc ds ys) ys ++ firstn (length ds) (skipn (loc ds ys) ys) ++ skipn (loc ds ys + length ds) ys) as E.
  { rewrite <- (firstn_skipn (loc ds ys) ys) at 1. f_equal. rewrite <- (firstn_skipn (length ds) (skipn (loc ds ys) ys)) at 1. f_equal.
    clear. generalize (loc ds ys). intros n. revert ys. induction n as [|n IH]; intros ys; cbn; [reflexivity|]. destruct ys; [apply skipn_nil|apply IH]. }
  rewrite E at 1. constructor; auto.
  - rewrite firstn_length, skipn_length. lia.
  - now apply begins_firstn.
  - rewrite <- E. rewrite firstn_length. intros i Hi Hbeg. apply begins_spec in Hbeg. rewrite loc_before in Hbeg by lia. discriminate.
Qed.

Lemma skipn_add {A} (xs : list A) a b : skipn a (skipn b xs) = skipn (b + a) xs.
Proof. revert xs. induction b as [|b IH]; intros xs; cbn; [reflexivity|]. destruct xs; [apply skipn_nil|apply IH]. Qed.

(** What find and skip of a delimiter have to do. *)
Record delimits {I A} (r : range I A) (it : nat -> I) (xs : list A) (d : delimiter I) (ds : list (A -> bool)) : Prop := {
  d_find : forall k, k <= length xs -> find d (it k) = Val (it (k + loc ds (skipn k xs)));
  d_skip : forall k, k <= length xs -> begins_b ds (skipn k xs) = true -> skip d (it k) = Val (it (k + length ds));
  d_size : (1 <= min_size d <= Z.of_nat (length ds))%Z }.

Section Split.
Context {I A : Type} (r : range I A) (it : nat -> I) (xs : list A) (d : delimiter I) (ds : list (A -> bool)).
Hypothesis H : lists_at r it xs.
Hypothesis Hsame : same r <> None.
Hypothesis Hd : delimits r it xs d ds.

Let st k f := Split (it k) (it (k + loc ds (skipn k xs))) (k =? length xs) f.
Let fin f := Split (it (length xs)) (it (length xs)) false f.

Lemma piece_lists k l : k + l <= length xs -> lists (subrange r (it k) (it (k + l))) (firstn l (skipn k xs)).
Proof.
  intros Hk. eexists. replace l with (k + l - k) at 2 by lia. apply subrange_lists_at; auto. lia.
Qed.
Lemma split_here k : k <= length xs -> k + loc ds (skipn k xs) <= length xs.
Proof. intros Hk. pose proof (loc_le ds (skipn k xs)) as Hl. rewrite skipn_length in Hl. lia. Qed.

Lemma even_double k : Nat.even (2 * k) = true.
Proof. rewrite Nat.even_mul. reflexivity. Qed.
(** The position of an iterator: its first element, and whether it is the end. *)
Definition described (s : split_iterator I) (kk : nat) : Prop :=
  exists k e, kk = 2 * k + (if e : bool then 1 else 0) /\ k <= length xs /\ m_first s = it k /\ m_empty_trailing_range s = ((k =? length xs) && negb e) /\
    (e = true -> k = length xs).

Lemma split_run f : forall k, k <= length xs ->
  exists ss rs pss dels ks, run (split_view false r d) (st k f) ss rs /\ Forall2 lists rs pss /\ cut_by ds (skipn k xs) pss dels /\
    Forall2 described ss ks /\ StronglySorted lt ks /\ Forall (fun kk => 2 * k <= kk) ks /\
    (forall i kk, nth_error ks i = Some kk -> i < length rs -> Nat.even kk = true).
Proof.
  destruct Hd as [Hfind Hskip Hsize].
  enough (forall m k, length xs - k <= m -> k <= length xs ->
    exists ss rs pss dels ks, run (split_view false r d) (st k f) ss rs /\ Forall2 lists rs pss /\ cut_by ds (skipn k xs) pss dels /\
      Forall2 described ss ks /\ StronglySorted lt ks /\ Forall (fun kk => 2 * k <= kk) ks /\
      (forall i kk, nth_error ks i = Some kk -> i < length rs -> Nat.even kk = true)) as Hgo by (intros k Hk; eapply Hgo; eauto).
  induction m as [m IH] using lt_wf_ind. intros k Hm Hk. set (l := loc ds (skipn k xs)).
  pose proof (split_here k Hk) as Hkl. fold l in Hkl.
  assert (stop (split_view false r d) (st k f) = Val false) as Hstop.
  { cbn. rewrite (l_stop _ _ _ H) by auto. cbn. now destruct (k =? length xs). }
  assert (get (split_view false r d) (st k f) = Val (subrange r (it k) (it (k + l)))) as Hget by reflexivity.
  assert (described (st k f) (2 * k)) as Hdesc.
  { exists k, false. cbn. repeat split; auto; try lia; try discriminate. now rewrite andb_true_r. }
  destruct (Nat.eq_dec (k + l) (length xs)) as [He|He].
  - exists [st k f; fin f], [subrange r (it k) (it (k + l))], [firstn l (skipn k xs)], [], [2 * k; 2 * length xs + 1].
    assert (firstn l (skipn k xs) = skipn k xs) as Eall by (apply firstn_all2; rewrite skipn_length; lia).
    split; [|split; [|split; [|split; [|split; [|split]]]]].
    + eapply run_step; [exact Hstop|exact Hget| |].
      * cbn. unfold split_next. cbn. fold l. rewrite (l_stop _ _ _ H) by lia. replace (k + l =? length xs) with true by (symmetry; now apply Nat.eqb_eq).
        cbn. rewrite He. reflexivity.
      * apply run_end. cbn. rewrite (l_stop _ _ _ H) by lia. now rewrite Nat.eqb_refl.
    + constructor; [|constructor]. now apply piece_lists.
    + rewrite Eall. constructor. intros i Hb. apply begins_spec in Hb. rewrite loc_none in Hb; [discriminate|lia|]. fold l. rewrite skipn_length. lia.
    + constructor; [exact Hdesc|]. constructor; [|constructor]. exists (length xs), true. cbn. repeat split; auto; try lia; now rewrite ?andb_false_r.
    + repeat constructor. lia.
    + repeat constructor; lia.
    + intros i kk Hi Hlt. cbn in Hlt. replace i with 0 in Hi by lia. injection Hi as <-. apply (even_double k).
  - assert (begins_b ds (skipn (k + l) xs) = true) as Hb.
    { rewrite <- skipn_add. apply loc_at. fold l. rewrite skipn_length. lia. }
    pose proof (begins_length _ _ Hb) as Hlen. rewrite skipn_length in Hlen.
    set (k' := k + l + length ds).
    destruct (IH (length xs - k') ltac:(unfold k'; lia) k' ltac:(lia) ltac:(unfold k'; lia)) as (ss & rs & pss & dels & ks & Hrun & Hls & Hcut & Hdes & Hsort & Hall & Heven).
    exists (st k f :: ss), (subrange r (it k) (it (k + l)) :: rs), (firstn l (skipn k xs) :: pss), (firstn (length ds) (skipn l (skipn k xs)) :: dels), (2 * k :: ks).
    split; [|split; [|split; [|split; [|split; [|split]]]]].
    + eapply run_step; [exact Hstop|exact Hget| |exact Hrun].
      cbn. unfold split_next. cbn. fold l. rewrite (l_stop _ _ _ H) by lia. replace (k + l =? length xs) with false by (symmetry; now apply Nat.eqb_neq).
      cbn. replace (k =? length xs) with false by (symmetry; apply Nat.eqb_neq; lia). cbn. rewrite Hskip by (auto; lia). cbn. fold k'.
      rewrite (l_stop _ _ _ H) by (unfold k'; lia). cbn. rewrite Hfind by (unfold k'; lia). reflexivity.
    + constructor; [now apply piece_lists|exact Hls].
    + apply cut_here; [fold l; rewrite skipn_length; lia|]. fold l. rewrite skipn_add. now replace (k + (l + length ds)) with k' by (unfold k'; lia).
    + constructor; [exact Hdesc|exact Hdes].
    + constructor; [exact Hsort|]. revert Hall. apply Forall_impl. intros kk. unfold k'. lia.
    + constructor; [lia|]. revert Hall. apply Forall_impl. intros kk. unfold k'. lia.
    + intros [|i] kk Hi Hlt; [injection Hi as <-; apply (even_double k)|]. cbn in Hlt. apply (Heven i); auto. lia.
Qed.

Lemma split_begin_at keep : first (split_view keep r d) = Val (st 0 (negb (loc ds xs =? length xs))).
Proof.
  destruct Hd as [Hfind _ _]. cbn. unfold split_begin. rewrite (l_first _ _ _ H). cbn. rewrite Hfind by lia. cbn.
  rewrite (l_stop _ _ _ H) by lia. cbn. rewrite (l_stop _ _ _ H) by apply loc_le. reflexivity.
Qed.
Lemma pieces_fit n : n * length ds <= length xs -> (Z.of_nat n <= reach r / min_size d)%Z.
Proof.
  intros Hn. destruct Hd as [_ _ Hsize]. pose proof (l_reach _ _ _ H) as Hr. apply Z.div_le_lower_bound; [lia|].
  apply Z.le_trans with (Z.of_nat (length ds) * Z.of_nat n)%Z; [apply Z.mul_le_mono_nonneg_r; lia|]. lia.
Qed.
Lemma described_same s t kk jj f : described s kk -> described t jj -> same r = Some f ->
  (let* c := f (m_first s) (m_first t) in Val (c && Bool.eqb (m_empty_trailing_range s) (m_empty_trailing_range t))) = Val (kk =? jj).
Proof.
  intros (k & e & -> & Hk & Hs & Het & He) (j & g & -> & Hj & Ht & Hgt & Hg) Ef. pose proof (l_same _ _ _ H) as Hf. rewrite Ef in Hf. cbn in Hf.
  rewrite Hs, Ht, Hf, Het, Hgt by auto. cbn [bind]. f_equal. destruct e, g; cbn -[Nat.mul Nat.add];
  try (specialize (He eq_refl)); try (specialize (Hg eq_refl)); bools.
Qed.
Lemma described_order s t kk jj f : described s kk -> described t jj -> order r = Some f -> Nat.even kk = true -> Nat.even jj = true ->
  (let* c := f (m_first s) (m_first t) in
       Val (match c with
            | Eq => match m_empty_trailing_range s, m_empty_trailing_range t with
                    | false, true => Lt | true, false => Gt | _, _ => Eq
                    end
            | _ => c
            end)) = Val (Nat.compare kk jj).
Proof.
  intros (k & e & -> & Hk & Hs & Het & He) (j & g & -> & Hj & Ht & Hgt & Hg) Ef Ek Ej. pose proof (l_order _ _ _ H) as Hf. rewrite Ef in Hf. cbn in Hf.
  assert (e = false) as -> by (destruct e; [rewrite Nat.even_add, Nat.even_mul in Ek; discriminate|reflexivity]).
  assert (g = false) as -> by (destruct g; [rewrite Nat.even_add, Nat.even_mul in Ej; discriminate|reflexivity]).
  rewrite Hs, Ht, Hf, Het, Hgt by auto. cbn [bind]. f_equal. rewrite !Nat.add_0_r, !andb_true_r.
  destruct (Nat.compare_spec k j) as [->|Hlt|Hlt]; symmetry.
  - destruct (j =? length xs); apply Nat.compare_refl.
  - apply Nat.compare_lt_iff. lia.
  - apply Nat.compare_gt_iff. lia.
Qed.

Lemma split_lists_at : exists it' rs pss dels, lists_at (without_order (split_view false r d)) it' rs /\ Forall2 lists rs pss /\ cut_by ds xs pss dels /\
  (forall f i j, order (split_view false r d) = Some f -> i < length rs -> j < length rs -> f (it' i) (it' j) = Val (Nat.compare i j)).
Proof.
  destruct (split_run (negb (loc ds xs =? length xs)) 0 ltac:(lia)) as (ss & rs & pss & dels & ks & Hrun & Hls & Hcut & Hdes & Hsort & Hall & Heven).
  cbn in Hcut. exists (fun i => nth i ss (st 0 (negb (loc ds xs =? length xs)))), rs, pss, dels.
  assert (forall i a, nth_error ss i = Some a -> exists kk, nth_error ks i = Some kk /\ described a kk) as Hat.
  { clear - Hdes. induction Hdes as [|s kk ss ks Hd _ IH]; intros i a Hi; [now destruct i|]. destruct i as [|i]; cbn in *; [|auto]. injection Hi as <-. eauto. }
  split; [|split; [exact Hls|split; [exact Hcut|]]].
  - apply run_lists_at; auto.
    + apply (split_begin_at false).
    + clear - Hrun. induction Hrun; [now apply run_end|]. eapply run_step; eauto.
    + cbn. destruct (same r) as [f|] eqn:Ef; [|exact Logic.I]. cbn. intros i j a b Ha Hb.
      destruct (Hat _ _ Ha) as (kk & Hkk & Dk). destruct (Hat _ _ Hb) as (jj & Hjj & Dj). rewrite (described_same _ _ _ _ _ Dk Dj Ef). f_equal.
      eapply sorted_eqb; eauto.
    + exact Logic.I.
    + cbn. destruct (cut_length _ _ _ _ Hcut) as [Hl1 Hl2]. assert (length rs = length pss) as -> by (clear - Hls; induction Hls; cbn; congruence).
      rewrite Hl1. pose proof (pieces_fit (length dels) Hl2). lia.
  - intros f i j Ef Hi Hj. cbn in Ef. destruct (order r) as [o|] eqn:Eo; [|discriminate]. injection Ef as <-.
    pose proof (run_length _ _ _ _ Hrun) as Hlen.
    assert (forall i, i < length rs -> nth_error ss i = Some (nth i ss (st 0 (negb (loc ds xs =? length xs))))) as Hnth by (intros; apply nth_error_nth'; lia).
    destruct (Hat _ _ (Hnth _ Hi)) as (kk & Hkk & Dk). destruct (Hat _ _ (Hnth _ Hj)) as (jj & Hjj & Dj).
    etransitivity; [apply (described_order _ _ _ _ _ Dk Dj Eo); eauto|]. f_equal. eapply sorted_compare; eauto.
Qed.

Lemma keep_run : forall k, k <= length xs ->
  exists ss rs pss dels, run (split_view true r d) (st k (negb (k + loc ds (skipn k xs) =? length xs))) ss rs /\
    Forall2 lists rs (alternate pss dels) /\ cut_by ds (skipn k xs) pss dels.
Proof.
  destruct Hd as [Hfind Hskip Hsize].
  enough (forall m k, length xs - k <= m -> k <= length xs ->
    exists ss rs pss dels, run (split_view true r d) (st k (negb (k + loc ds (skipn k xs) =? length xs))) ss rs /\
      Forall2 lists rs (alternate pss dels) /\ cut_by ds (skipn k xs) pss dels) as Hgo by (intros k Hk; eapply Hgo; eauto).
  induction m as [m IH] using lt_wf_ind. intros k Hm Hk. set (l := loc ds (skipn k xs)).
  pose proof (split_here k Hk) as Hkl. fold l in Hkl. set (f := negb (k + l =? length xs)).
  assert (stop (split_view true r d) (st k f) = Val false) as Hstop.
  { cbn. rewrite (l_stop _ _ _ H) by auto. cbn. now destruct (k =? length xs). }
  assert (get (split_view true r d) (st k f) = Val (subrange r (it k) (it (k + l)))) as Hget by reflexivity.
  destruct (Nat.eq_dec (k + l) (length xs)) as [He|He].
  - exists [st k f; fin false], [subrange r (it k) (it (k + l))], [firstn l (skipn k xs)], [].
    assert (firstn l (skipn k xs) = skipn k xs) as Eall by (apply firstn_all2; rewrite skipn_length; lia).
    assert (f = false) as Ef by (unfold f; rewrite He, Nat.eqb_refl; reflexivity).
    split; [|split].
    + eapply run_step; [exact Hstop|exact Hget| |].
      * cbn. unfold split_keep_next. cbn. fold l. rewrite (l_stop _ _ _ H) by lia. cbn. rewrite Ef. destruct (Nat.eqb_spec k (length xs)) as [Ek|Ek].
        -- cbn. rewrite He, Ek. reflexivity.
        -- cbn. rewrite He. rewrite Hfind by lia. rewrite skipn_all. assert (loc ds [] = 0) as -> by (destruct ds; reflexivity). rewrite Nat.add_0_r. cbn.
           rewrite (l_stop _ _ _ H) by lia. cbn. rewrite Nat.eqb_refl. reflexivity.
      * apply run_end. cbn. rewrite (l_stop _ _ _ H) by lia. now rewrite Nat.eqb_refl.
    + cbn [alternate]. constructor; [|constructor]. now apply piece_lists.
    + rewrite Eall. constructor. intros i Hb. apply begins_spec in Hb. rewrite loc_none in Hb; [discriminate|lia|]. fold l. rewrite skipn_length. lia.
  - assert (begins_b ds (skipn (k + l) xs) = true) as Hb.
    { rewrite <- skipn_add. apply loc_at. fold l. rewrite skipn_length. lia. }
    pose proof (begins_length _ _ Hb) as Hlen. rewrite skipn_length in Hlen.
    set (k' := k + l + length ds).
    assert (f = true) as Ef by (unfold f; destruct (Nat.eqb_spec (k + l) (length xs)); [lia|reflexivity]).
    destruct (IH (length xs - k') ltac:(unfold k'; lia) k' ltac:(lia) ltac:(unfold k'; lia)) as (ss & rs & pss & dels & Hrun & Hls & Hcut).
    exists (st k f :: Split (it (k + l)) (it k') (k' =? length xs) false :: ss), (subrange r (it k) (it (k + l)) :: subrange r (it (k + l)) (it k') :: rs),
      (firstn l (skipn k xs) :: pss), (firstn (length ds) (skipn l (skipn k xs)) :: dels).
    split; [|split].
    + eapply run_step; [exact Hstop|exact Hget| |].
      * cbn. unfold split_keep_next. cbn. fold l. rewrite (l_stop _ _ _ H) by lia. cbn. rewrite Ef. rewrite andb_diag.
        destruct (Nat.eqb_spec k (length xs)); [lia|]. cbn. rewrite Hskip by (auto; lia). cbn. fold k'. rewrite (l_stop _ _ _ H) by (unfold k'; lia). reflexivity.
      * eapply run_step; [| | |exact Hrun].
        -- cbn. rewrite (l_stop _ _ _ H) by lia. cbn. destruct (Nat.eqb_spec (k + l) (length xs)); [lia|reflexivity].
        -- reflexivity.
        -- cbn. unfold split_keep_next. cbn. rewrite (l_stop _ _ _ H) by lia. cbn. destruct (Nat.eqb_spec (k + l) (length xs)); [lia|]. rewrite andb_false_r.
           rewrite Hfind by (unfold k'; lia). cbn. rewrite (l_stop _ _ _ H) by (apply split_here; unfold k'; lia). reflexivity.
    + cbn [alternate]. constructor; [now apply piece_lists|]. constructor; [|exact Hls]. rewrite skipn_add. unfold k'. apply piece_lists. lia.
    + apply cut_here; [fold l; rewrite skipn_length; lia|]. fold l. rewrite skipn_add. now replace (k + (l + length ds)) with k' by (unfold k'; lia).
Qed.
Lemma alternate_length {B} (ps dels : list B) : length ps = S (length dels) -> length (alternate ps dels) = length dels * 2 + 1.
Proof. revert ps. induction dels as [|e dels IH]; intros [|p [|p' ps]] Hl; cbn in *; try lia. f_equal. f_equal. apply (IH (p' :: ps)). cbn. lia. Qed.
Lemma keep_lists_at : exists it' rs pss dels, lists_at (without_comparison (split_view true r d)) it' rs /\
  Forall2 lists rs (alternate pss dels) /\ cut_by ds xs pss dels.
Proof.
  destruct (keep_run 0 ltac:(lia)) as (ss & rs & pss & dels & Hrun & Hls & Hcut). cbn in Hcut. do 4 eexists. split; [|split; [exact Hls|exact Hcut]].
  apply run_lists_at; auto.
  - apply (split_begin_at true).
  - cbn in Hrun. instantiate (1 := ss). clear - Hrun. remember (st 0 (negb (loc ds xs =? length xs))) as s0. clear Heqs0.
    induction Hrun; [now apply run_end|]. eapply run_step; eauto.
  - exact Logic.I.
  - exact Logic.I.
  - cbn. destruct (cut_length _ _ _ _ Hcut) as [Hl1 Hl2]. assert (length rs = length (alternate pss dels)) as -> by (clear - Hls; induction Hls; cbn; congruence).
    rewrite (alternate_length _ _ Hl1). pose proof (pieces_fit (length dels) Hl2). lia.
Qed.
End Split.

(** ** Delimiters *)
Lemma single_delimits {I A} fuel (r : range I A) it xs p : lists_at r it xs -> length xs < fuel ->
  delimits r it xs (single_element_delimiter fuel r p) [p].
Proof.
  intros H Hf. assert (forall ys : list A, loc [p] ys = scan p ys) as Hloc.
  { induction ys as [|y ys IH]; cbn; [reflexivity|]. rewrite IH. now destruct (p y). }
  constructor; cbn -[loc begins_b].
  - intros k Hk. rewrite Hloc. apply (find_if_lists _ _ _ _ H); lia.
  - intros k Hk Hb. rewrite (l_next _ _ _ H); [do 2 f_equal; lia|]. pose proof (begins_length _ _ Hb) as Hl. rewrite skipn_length in Hl. cbn in Hl. lia.
  - lia.
Qed.
Lemma matches_lists {I A} (r : range I A) it xs equal ds k : lists_at r it xs -> k <= length xs ->
  matches r equal ds (it k) = Val (begins_b (map (fun d x => equal x d) ds) (skipn k xs)).
Proof.
  intros H. revert k. induction ds as [|d ds IH]; intros k Hk; cbn; [reflexivity|]. rewrite (l_stop _ _ _ H) by auto. cbn.
  destruct (Nat.eqb_spec k (length xs)) as [->|Hn]; [now rewrite skipn_all|]. destruct (nth_error_below xs k ltac:(lia)) as [x Hx].
  rewrite (l_get _ _ _ H _ _ Hx). cbn. rewrite (skipn_nth _ _ _ Hx). destruct (equal x d); cbn; [|reflexivity]. rewrite (l_next _ _ _ H) by lia. cbn. apply IH. lia.
Qed.
Lemma search_lists {I A} (r : range I A) it xs equal ds : lists_at r it xs -> forall fuel k, k <= length xs -> length xs - k < fuel ->
  search fuel r equal ds (it k) = Val (it (k + loc (map (fun d x => equal x d) ds) (skipn k xs))).
Proof.
  intros H. induction fuel as [|fuel IH]; intros k Hk Hf; [lia|]. cbn [search]. rewrite (matches_lists _ _ _ _ _ _ H) by auto. cbn [bind].
  destruct (begins_b _ (skipn k xs)) eqn:E.
  - assert (loc (map (fun d x => equal x d) ds) (skipn k xs) = 0) as -> by (destruct (skipn k xs); cbn [loc]; now rewrite E). do 2 f_equal. lia.
  - rewrite (l_stop _ _ _ H) by auto. cbn [bind]. destruct (Nat.eqb_spec k (length xs)) as [->|Hn].
    + rewrite skipn_all in *. cbn [loc]. rewrite E. do 2 f_equal. lia.
    + destruct (nth_error_below xs k ltac:(lia)) as [x Hx]. rewrite (l_next _ _ _ H) by lia. cbn [bind]. rewrite IH by lia.
      rewrite (skipn_nth _ _ _ Hx) in E |- *. cbn [loc]. rewrite E. do 2 f_equal. lia.
Qed.
Lemma range_delimits {I A} fuel (r : range I A) it xs equal min ds : lists_at r it xs -> length xs < fuel ->
  0 < length ds -> (min <= Z.of_nat (length ds))%Z ->
  delimits r it xs (range_delimiter fuel r equal min ds) (map (fun d x => equal x d) ds).
Proof.
  intros H Hf Hds Hmin. unfold range_delimiter. constructor; cbn -[loc Z.of_nat]; rewrite ?map_length.
  - intros k Hk. apply (search_lists _ _ _ _ _ H); lia.
  - intros k Hk Hb. pose proof (begins_length _ _ Hb) as Hl. rewrite map_length, skipn_length in Hl. pose proof (l_reach _ _ _ H).
    unfold assume. replace (Z.of_nat (length ds) <=? reach r)%Z with true by (symmetry; apply Z.leb_le; lia). apply (next_by_at _ _ _ H). lia.
  - lia.
Qed.

(** ** adjacent *)
Lemma windows_length {A} g (xs : list A) : 0 < g -> length (windows g xs) = length xs + 1 - g.
Proof.
  intros Hg. induction xs as [|x xs IH]; cbn -[Nat.leb firstn Nat.sub Nat.add]; [lia|]. destruct (Nat.leb_spec g (S (length xs))); cbn -[firstn Nat.sub Nat.add]; [rewrite IH|]; lia.
Qed.
Lemma windows_nth {A} g (xs : list A) i : 0 < g -> i + g <= length xs -> nth_error (windows g xs) i = Some (firstn g (skipn i xs)).
Proof.
  intros Hg. revert i. induction xs as [|x xs IH]; intros i Hi; cbn in Hi; [lia|]. cbn [windows]. cbn [length].
  destruct (Nat.leb_spec g (S (length xs))); [|lia]. destruct i as [|i]; [reflexivity|]. cbn -[firstn]. apply IH. lia.
Qed.

Lemma back_seq {I} (h : nat -> I) k m : back (map h (seq k (S m))) = Val (h (k + m)).
Proof.
  revert k. induction m as [|m IH]; intros k; [cbn; now rewrite Nat.add_0_r|].
  transitivity (back (map h (seq (S k) (S m)))); [reflexivity|]. rewrite IH. do 2 f_equal. lia.
Qed.
Section Adjacent.
Context {I A : Type} (r : range I A) (it : nat -> I) (xs : list A) (g : nat).
Hypothesis H : lists_at r it xs.
Hypothesis Hg : 0 < g.
Let n := length xs.
(** The iterators of a group: none is past the end. *)
Let group k := map (fun i => it (Nat.min i n)) (seq k g).
Lemma group_back k : back (group k) = Val (it (Nat.min (k + g - 1) n)).
Proof. unfold group. replace g with (S (g - 1)) at 1 by lia. rewrite back_seq. do 3 f_equal. lia. Qed.
Lemma group_from k m : k <= n -> adjacent_from m r (it k) = Val (map (fun i => it (Nat.min i n)) (seq k m)).
Proof.
  revert k. induction m as [|m IH]; intros k Hk; [reflexivity|]. cbn [adjacent_from seq map]. rewrite (l_stop _ _ _ H) by auto. cbn [bind].
  rewrite (Nat.min_l k) by auto. fold n. destruct (Nat.eqb_spec k n) as [->|Hne].
  - cbn [bind]. rewrite IH by auto. cbn [bind]. do 2 f_equal. rewrite <- seq_shift, map_map.
    apply map_ext_in. intros i Hi. apply in_seq in Hi. f_equal. lia.
  - rewrite (l_next _ _ _ H) by (fold n; lia). cbn [bind]. now rewrite IH by lia.
Qed.
Lemma group_next_from m k : k + S m <= n -> adjacent_next r (map (fun i => it (Nat.min i n)) (seq k (S m))) = Val (map (fun i => it (Nat.min i n)) (seq (S k) (S m))).
Proof.
  revert k. induction m as [|m IH]; intros k Hk.
  - cbn -[Nat.min]. rewrite (Nat.min_l k), (l_next _ _ _ H) by (fold n; lia). cbn -[Nat.min]. do 3 f_equal. lia.
  - transitivity (let* its := adjacent_next r (map (fun i => it (Nat.min i n)) (seq (S k) (S m))) in Val (it (Nat.min (S k) n) :: its)); [reflexivity|].
    rewrite IH by lia. reflexivity.
Qed.
Lemma group_next k : k + g <= n -> adjacent_next r (group k) = Val (group (S k)).
Proof. unfold group. intros Hk. replace g with (S (g - 1)) by lia. apply group_next_from. lia. Qed.
Lemma each_map {X Y Z} (f : Y -> res Z) (h : X -> Y) (h' : X -> Z) l : (forall x, In x l -> f (h x) = Val (h' x)) -> each f (map h l) = Val (map h' l).
Proof.
  induction l as [|x l IH]; intros Hf; cbn; [reflexivity|]. rewrite Hf by (now left). cbn. rewrite IH; [reflexivity|]. intros y Hy. apply Hf. now right.
Qed.
Lemma group_get k m : k + m <= n -> each (get r) (map (fun i => it (Nat.min i n)) (seq k m)) = Val (firstn m (skipn k xs)).
Proof.
  revert k. induction m as [|m IH]; intros k Hk; [reflexivity|]. destruct (nth_error_below xs k ltac:(fold n; lia)) as [x Hx].
  rewrite (skipn_nth _ _ _ Hx). cbn -[Nat.min skipn]. rewrite (Nat.min_l k), (l_get _ _ _ H _ _ Hx) by lia. cbn -[Nat.min skipn]. now rewrite IH by lia.
Qed.
Lemma adjacent_lists_at : lists_at (without_difference (reach r) (adjacent g r)) group (windows g xs).
Proof.
  assert (length (windows g xs) = n + 1 - g) as Hlen by now apply windows_length.
  pose proof (l_reach _ _ _ H) as Hreach. fold n in Hreach.
  unfold without_difference, adjacent. constructor; cbn -[Z.of_nat Z.sub Nat.min windows adjacent_from adjacent_next]; rewrite ?Hlen; try exact Logic.I.
  - rewrite (l_first _ _ _ H). cbn. rewrite group_from by lia. reflexivity.
  - intros i Hi. rewrite group_back. cbn -[Nat.min]. rewrite (l_stop _ _ _ H) by (fold n; lia). fold n. f_equal. bools.
  - intros i x Hx. assert (i < n + 1 - g) as Hi by (rewrite <- Hlen; eapply nth_error_in_length; eauto). rewrite windows_nth in Hx by (fold n; lia). injection Hx as <-.
    apply group_get. lia.
  - intros i Hi. apply group_next. lia.
  - pose proof (l_same _ _ _ H) as Hs. destruct (same r) as [f|]; [|exact Logic.I]. cbn -[Nat.min] in *. intros i j Hi Hj. rewrite !group_back.
    cbn -[Nat.min]. rewrite Hs by (fold n; lia). f_equal. bools.
  - pose proof (l_prev _ _ _ H) as Hs. destruct (prev r) as [f|]; [|exact Logic.I]. cbn -[Nat.min] in *. intros i Hi. unfold group.
    rewrite <- seq_shift, map_map. apply each_map. intros x Hx. apply in_seq in Hx. rewrite (Nat.min_l (S x)), (Nat.min_l x) by lia. apply Hs. fold n. lia.
  - pose proof (l_plus _ _ _ H) as Hs. destruct (plus r) as [f|]; [|exact Logic.I]. cbn -[Nat.min Z.of_nat] in *. intros i d Hi Hd Hb. unfold group.
    destruct (Nat.le_gt_cases g n) as [Hgn|Hgn].
    + assert (seq (Z.to_nat (Z.of_nat i + d)) g = map (fun x => Z.to_nat (Z.of_nat x + d)) (seq i g)) as ->.
      { assert (forall m i, (0 <= Z.of_nat i + d)%Z -> seq (Z.to_nat (Z.of_nat i + d)) m = map (fun x => Z.to_nat (Z.of_nat x + d)) (seq i m)) as Hshift.
        { clear. induction m as [|m IH]; intros i Hi; [reflexivity|]. cbn -[Z.of_nat]. f_equal. rewrite <- IH by lia. f_equal. lia. }
        apply Hshift. lia. }
      rewrite map_map. apply each_map. intros x Hx. apply in_seq in Hx. rewrite !Nat.min_l by lia. rewrite Hs; auto; fold n; lia.
    + assert (i = 0 /\ d = 0%Z) as [-> ->] by lia. apply each_map. intros x Hx. rewrite Hs by (fold n; lia). do 2 f_equal. lia.
  - pose proof (l_order _ _ _ H) as Hs. destruct (order r) as [f|]; [|exact Logic.I]. cbn -[Nat.min] in *. intros i j Hi Hj. rewrite !group_back.
    cbn -[Nat.min]. rewrite Hs by (fold n; lia). f_equal. destruct (Nat.compare_spec i j); [subst; apply Nat.compare_refl|apply Nat.compare_lt_iff|apply Nat.compare_gt_iff]; lia.
  - lia.
  - pose proof (l_size _ _ _ H) as Hs. destruct (size r) as [s|]; [|exact Logic.I]. cbn -[Z.of_nat] in *. subst s. fold n. cbn -[Z.of_nat]. f_equal.
    destruct (Z.ltb_spec (Z.of_nat n) (Z.of_nat g)); lia.
Qed.
(** With room for one more in difference_type, differences are right too. *)
Lemma adjacent_lists_at_all : n < g \/ (Z.of_nat n < reach r)%Z -> lists_at (adjacent g r) group (windows g xs).
Proof.
  intros Hroom. assert (length (windows g xs) = n + 1 - g) as Hlen by now apply windows_length.
  pose proof adjacent_lists_at as Hadj. laws Hadj. constructor; auto.
  - pose proof (l_minus _ _ _ H) as Hs. clear - Hs Hroom Hlen Hg. unfold adjacent, decrease_by. cbn -[Z.of_nat Z.sub Nat.min windows].
    destruct (minus r) as [f|]; [|exact Logic.I]. cbn -[Z.of_nat Z.sub Nat.min windows] in *. rewrite Hlen. intros i j Hi Hj. rewrite !group_back.
    cbn -[Z.of_nat Z.sub Nat.min]. rewrite Hs by (fold n; lia). cbn -[Z.of_nat Z.sub Nat.min]. unfold assume.
    match goal with |- (if ?c then _ else _) = _ => replace c with true end; [f_equal; lia|].
    symmetry. apply andb_true_intro. split; apply Z.leb_le; lia.
  - unfold adjacent, decrease_by. cbn -[Z.of_nat windows]. rewrite Hlen. lia.
Qed.
End Adjacent.

(** ** chunk_by *)
Fixpoint chunk_length {A} (p : A -> A -> bool) (xs : list A) : nat :=
  match xs with
  | [] => 0
  | x :: xs' => match xs' with [] => 1 | y :: _ => if p x y then S (chunk_length p xs') else 1 end
  end.
Definition broken {A} (p : A -> A -> bool) (xs : list A) : bool := match xs with [x; y] => negb (p x y) | _ => false end.
Lemma chunk_length_scan {A} (p : A -> A -> bool) x y xs : chunk_length p (x :: y :: xs) = S (scan (broken p) (windows 2 (x :: y :: xs))).
Proof.
  revert x y. induction xs as [|z xs IH]; intros x y; [cbn; now destruct (p x y)|].
  change (chunk_length p (x :: y :: z :: xs)) with (if p x y then S (chunk_length p (y :: z :: xs)) else 1).
  change (windows 2 (x :: y :: z :: xs)) with ([x; y] :: windows 2 (y :: z :: xs)). cbn [scan broken]. destruct (p x y); cbn [negb]; [|reflexivity]. now rewrite IH.
Qed.
Lemma chunk_length_le {A} (p : A -> A -> bool) xs : chunk_length p xs <= length xs.
Proof. induction xs as [|x [|y xs] IH]; [cbn; lia|cbn; lia|]. change (chunk_length p (x :: y :: xs)) with (if p x y then S (chunk_length p (y :: xs)) else 1). cbn [length] in *. destruct (p x y); lia. Qed.
Lemma chunk_length_pos {A} (p : A -> A -> bool) xs : xs <> [] -> 0 < chunk_length p xs.
Proof. destruct xs as [|x [|y xs]]; intros; [easy|cbn; lia|]. change (chunk_length p (x :: y :: xs)) with (if p x y then S (chunk_length p (y :: xs)) else 1). destruct (p x y); lia. Qed.
Lemma find_if_without {I A} fuel (r : range I A) m p it : find_if fuel (without_difference m r) p it = find_if fuel r p it.
Proof.
  revert it. induction fuel as [|fuel IH]; intros it; [reflexivity|]. cbn. destruct (stop r it) as [[]| | |]; cbn; auto. destruct (get r it); cbn; auto.
  destruct (p a); auto. destruct (next r it); cbn; auto.
Qed.
Section Chunk.
Context {I A : Type} (r : range I A) (it : nat -> I) (xs : list A) (p : A -> A -> bool) (fuel : nat).
Hypothesis H : lists_at r it xs.
Hypothesis Hsame : same r <> None.
Hypothesis Hfuel : length xs < fuel.

Lemma chunk_find k : k <= length xs -> find_from_first fuel r p (it k) = Val (it (k + chunk_length p (skipn k xs))).
Proof.
  intros Hk. pose proof (rest_of_lists_at _ _ _ k H Hk) as Hrest. pose proof (adjacent_lists_at _ _ _ 2 Hrest ltac:(lia)) as Hadj.
  assert (length (skipn k xs) = length xs - k) as Hlen by apply skipn_length.
  unfold find_from_first. pose proof (l_first _ _ _ Hadj) as Hf. cbn [first without_difference] in Hf. rewrite Hf. cbn [bind].
  rewrite <- (find_if_without _ _ (reach (rest_of r (it k)))).
  assert (length (windows 2 (skipn k xs)) = length (skipn k xs) + 1 - 2) as Hw by (apply windows_length; lia).
  pose proof (find_if_lists _ _ _ (broken p) Hadj fuel 0 ltac:(lia) ltac:(lia)) as Hfind. cbn beta in Hfind. fold (broken p). rewrite Hfind. cbn [bind skipn Nat.add].
  rewrite (group_back (fun i => it (k + i)) (skipn k xs) 2) by lia. do 2 f_equal.
  destruct (skipn k xs) as [|x [|y ys]] eqn:E.
  - cbn. lia.
  - cbn. lia.
  - rewrite chunk_length_scan. pose proof (scan_le (broken p) (windows 2 (x :: y :: ys))) as Hs. rewrite Hw in Hs. cbn [length] in *. lia.
Qed.
Lemma chunk_linked ys : linked p (firstn (chunk_length p ys) ys).
Proof.
  induction ys as [|x [|y ys] IH]; [easy|easy|]. change (chunk_length p (x :: y :: ys)) with (if p x y then S (chunk_length p (y :: ys)) else 1).
  destruct (p x y) eqn:E; [|easy]. cbn [firstn]. pose proof (chunk_length_pos p (y :: ys) ltac:(easy)) as Hp.
  destruct (chunk_length p (y :: ys)) as [|m]; [lia|]. cbn [firstn] in *. split; auto.
Qed.
Lemma chunk_breaks ys y zs : skipn (chunk_length p ys) ys = y :: zs -> exists ws x, firstn (chunk_length p ys) ys = ws ++ [x] /\ p x y = false.
Proof.
  revert y zs. induction ys as [|x [|z ys] IH]; intros y zs Hs; [discriminate|discriminate|]. 
  change (chunk_length p (x :: z :: ys)) with (if p x z then S (chunk_length p (z :: ys)) else 1) in *. destruct (p x z) eqn:E.
  - change (skipn (S (chunk_length p (z :: ys))) (x :: z :: ys)) with (skipn (chunk_length p (z :: ys)) (z :: ys)) in Hs. apply IH in Hs as (ws & w & Hw & Hp).
    exists (x :: ws), w. change (firstn (S (chunk_length p (z :: ys))) (x :: z :: ys)) with (x :: firstn (chunk_length p (z :: ys)) (z :: ys)). rewrite Hw. auto.
  - cbn in Hs. injection Hs as -> ->. exists [], x. auto.
Qed.

Let st k := (it k, it (k + chunk_length p (skipn k xs))).
Lemma chunk_run : forall k, k <= length xs ->
  exists ss rs pss ks, run (chunk_by fuel p r) (st k) ss rs /\ Forall2 lists rs pss /\ concat pss = skipn k xs /\ Forall (linked p) pss /\ breaks p pss /\
    Forall2 (fun s k => fst s = it k /\ k <= length xs) ss ks /\ StronglySorted lt ks /\ Forall (fun j => k <= j) ks.
Proof.
  enough (forall m k, length xs - k <= m -> k <= length xs ->
    exists ss rs pss ks, run (chunk_by fuel p r) (st k) ss rs /\ Forall2 lists rs pss /\ concat pss = skipn k xs /\ Forall (linked p) pss /\ breaks p pss /\
      Forall2 (fun s k => fst s = it k /\ k <= length xs) ss ks /\ StronglySorted lt ks /\ Forall (fun j => k <= j) ks) as Hgo by (intros k Hk; eapply Hgo; eauto).
  induction m as [m IH] using lt_wf_ind. intros k Hm Hk. destruct (Nat.eq_dec k (length xs)) as [He|He].
  - exists [st k], [], [], [k]. assert (stop (chunk_by fuel p r) (st k) = Val true) as Hst by (cbn; rewrite (l_stop _ _ _ H) by auto; now rewrite He, Nat.eqb_refl).
    split; [now apply run_end|]. split; [constructor|]. split; [rewrite He, skipn_all; reflexivity|]. repeat (split; [repeat constructor; auto|]). repeat constructor.
  - pose proof (chunk_length_le p (skipn k xs)) as Hle. rewrite skipn_length in Hle.
    assert (0 < chunk_length p (skipn k xs)) as Hpos by (apply chunk_length_pos; intros E; apply (f_equal (@length A)) in E; rewrite skipn_length in E; cbn in E; lia).
    set (l := chunk_length p (skipn k xs)) in *. set (k' := k + l).
    destruct (IH (length xs - k') ltac:(unfold k'; lia) k' ltac:(lia) ltac:(unfold k'; lia)) as (ss & rs & pss & ks & Hrun & Hls & Hcat & Hlink & Hbr & Hks & Hsort & Hall).
    exists (st k :: ss), (subrange r (it k) (it k') :: rs), (firstn l (skipn k xs) :: pss), (k :: ks).
    assert (length (firstn l (skipn k xs)) = l) as Hlen by (rewrite firstn_length, skipn_length; lia).
    split; [|split; [|split; [|split; [|split; [|split; [|split]]]]]].
    + eapply run_step; [| | |exact Hrun].
      * cbn. rewrite (l_stop _ _ _ H) by auto. f_equal. now apply Nat.eqb_neq.
      * reflexivity.
      * cbn -[find_from_first]. fold l. fold k'. rewrite chunk_find by (unfold k'; lia). reflexivity.
    + constructor; [|exact Hls]. eexists. replace l with (k' - k) by (unfold k'; lia). apply subrange_lists_at; auto. unfold k'. lia.
    + cbn. rewrite Hcat. unfold k'. rewrite <- skipn_add. apply firstn_skipn.
    + constructor; [apply chunk_linked|exact Hlink].
    + cbn [breaks]. split; [|split; [exact Hbr|]].
      * intros E. rewrite E in Hlen. cbn in Hlen. lia.
      * destruct pss as [|[|y q] pss]; auto. apply chunk_breaks with (zs := q ++ concat pss). fold l. rewrite skipn_add. fold k'. rewrite <- Hcat. reflexivity.
    + constructor; [split; [reflexivity|auto]|exact Hks].
    + constructor; [exact Hsort|]. revert Hall. apply Forall_impl. unfold k'. lia.
    + constructor; [lia|]. revert Hall. apply Forall_impl. unfold k'. lia.
Qed.
Lemma breaks_length pss : breaks p pss -> length pss <= length (concat pss).
Proof.
  induction pss as [|q pss IH]; cbn; [lia|]. intros (Hq & Hb & _). specialize (IH Hb). rewrite app_length. destruct q; [easy|]. cbn. lia.
Qed.
Lemma chunk_by_lists : exists rs pss, lists (chunk_by fuel p r) rs /\ Forall2 lists rs pss /\ concat pss = xs /\ Forall (linked p) pss /\ breaks p pss.
Proof.
  destruct (chunk_run 0 ltac:(lia)) as (ss & rs & pss & ks & Hrun & Hls & Hcat & Hlink & Hbr & Hks & Hsort & Hall). cbn in Hcat.
  exists rs, pss. split; [|auto]. eexists.
  assert (forall i a, nth_error ss i = Some a -> exists k, nth_error ks i = Some k /\ fst a = it k /\ k <= length xs) as Hat.
  { clear - Hks. induction Hks as [|s k ss ks Hd _ IH]; intros i a Hi; [now destruct i|]. destruct i as [|i]; cbn in *; [|auto]. injection Hi as <-. eauto. }
  eapply run_lists_at; eauto.
  - cbn -[find_from_first]. rewrite (l_first _ _ _ H). cbn -[find_from_first]. rewrite chunk_find by lia. reflexivity.
  - pose proof (l_same _ _ _ H) as Hs. cbn. destruct (same r) as [f|]; [|exact Logic.I]. cbn in *. intros i j a b Ha Hb.
    destruct (Hat _ _ Ha) as (k & Hk & -> & Hkl). destruct (Hat _ _ Hb) as (k' & Hk' & -> & Hkl'). rewrite Hs by auto. f_equal. eapply sorted_eqb; eauto.
  - pose proof (l_order _ _ _ H) as Hs. cbn. destruct (order r) as [f|]; [|exact Logic.I]. cbn in *. intros i j a b Ha Hb.
    destruct (Hat _ _ Ha) as (k & Hk & -> & Hkl). destruct (Hat _ _ Hb) as (k' & Hk' & -> & Hkl'). rewrite Hs by auto. f_equal. eapply sorted_compare; eauto.
  - cbn. pose proof (l_reach _ _ _ H). pose proof (breaks_length _ Hbr) as Hle. rewrite Hcat in Hle.
    assert (length rs = length pss) as E by (clear - Hls; induction Hls; cbn; congruence). lia.
Qed.
End Chunk.

(** ** batched *)
Section Batched.
Context {I A : Type} (r : range I A) (it : nat -> I) (xs : list A) (batches : nat) (max_count : Z).
Hypothesis H : lists_at r it xs.
Hypothesis Hsame : same r <> None.
Hypothesis Hb : 0 < batches.
Hypothesis Hmax : (Z.of_nat batches <= max_count)%Z.
Let n := length xs.
Definition before (b : nat) : nat := n / batches * b + Nat.min (n mod batches) b.
Lemma before_step b : b < batches -> before (S b) = before b + n / batches + (if b <? n mod batches then 1 else 0).
Proof. intros Hlt. unfold before. destruct (Nat.ltb_spec b (n mod batches)); lia. Qed.
Lemma before_all : before batches = n.
Proof.
  unfold before. pose proof (Nat.mod_upper_bound n batches ltac:(lia)). pose proof (Nat.div_mod n batches ltac:(lia)). rewrite Nat.min_l by lia. lia.
Qed.
Lemma before_mono a b : a <= b -> before a <= before b.
Proof. intros Hab. unfold before. pose proof (Nat.mul_le_mono_l a b (n / batches) Hab). lia. Qed.
Lemma before_le b : b <= batches -> before b <= n.
Proof. intros Hle. rewrite <- before_all. now apply before_mono. Qed.
Definition batch_ranges : list (range I A) := map (fun b => subrange r (it (before b)) (it (before (S b)))) (seq 0 batches).
Definition batch_lists : list (list A) := map (fun b => firstn (before (S b) - before b) (skipn (before b) xs)) (seq 0 batches).
Lemma before_model b : b <= batches -> elements_prior_to_batch r (Z.of_nat n) (Z.of_nat batches) (Z.of_nat b) = Val (Z.of_nat (before b)).
Proof.
  intros Hle. unfold elements_prior_to_batch. rewrite <- Nat2Z.inj_div, <- Nat2Z.inj_mod, <- Nat2Z.inj_mul, <- Nat2Z.inj_min, <- Nat2Z.inj_add.
  fold (before b). pose proof (before_le b Hle) as Hn. pose proof (l_reach _ _ _ H) as Hr. fold n in Hr. unfold assume.
  replace (Z.of_nat (before b) <=? reach r)%Z with true by (symmetry; apply Z.leb_le; lia). reflexivity.
Qed.
Lemma batched_lists_at z : batched max_count (Z.of_nat batches) r = Some z -> lists_at z Z.of_nat batch_ranges /\ Forall2 lists batch_ranges batch_lists.
Proof.
  intros Hz. unfold batched in Hz. pose proof (l_size _ _ _ H) as Hs. pose proof (l_plus _ _ _ H) as Hp.
  destruct (size r) as [s|]; [|discriminate]. destruct (plus r) as [f|]; [|discriminate]. cbn -[Z.of_nat] in Hs, Hp. subst s. fold n in Hz, Hp.
  assert (length batch_ranges = batches) as Hlen by (unfold batch_ranges; rewrite map_length, seq_length; reflexivity).
  split.
  - injection Hz as <-. constructor; cbn -[Z.of_nat elements_prior_to_batch]; rewrite ?Hlen; try exact Logic.I; auto.
    + intros i Hi. f_equal. bools.
    + intros i x Hx. assert (i < batches) as Hi by (rewrite <- Hlen; eapply nth_error_in_length; eauto).
      unfold batch_ranges in Hx. rewrite nth_error_map in Hx. destruct (nth_error (seq 0 batches) i) as [j|] eqn:E; [|discriminate]. cbn -[subrange] in Hx. injection Hx as <-.
      assert (j = i) as -> by (apply (nth_error_nth _ _ 0) in E; rewrite seq_nth in E by auto; lia).
      unfold assume. replace ((0 <=? Z.of_nat i + 1) && (Z.of_nat i + 1 <=? max_count))%Z with true by (symmetry; apply andb_true_intro; split; apply Z.leb_le; lia).
      cbn -[Z.of_nat elements_prior_to_batch]. rewrite before_model by lia. cbn -[Z.of_nat elements_prior_to_batch]. rewrite (l_first _ _ _ H). cbn -[Z.of_nat elements_prior_to_batch].
      pose proof (before_le i ltac:(lia)). pose proof (before_le (S i) ltac:(lia)).
      rewrite Hp by lia. cbn -[Z.of_nat elements_prior_to_batch]. replace (Z.of_nat i + 1)%Z with (Z.of_nat (S i)) by lia. rewrite before_model by lia. cbn -[Z.of_nat].
      rewrite Hp by lia. cbn -[Z.of_nat]. do 2 f_equal; f_equal; lia.
    + intros i Hi. unfold assume. replace ((0 <=? Z.of_nat i + 1) && (Z.of_nat i + 1 <=? max_count))%Z with true by (symmetry; apply andb_true_intro; split; apply Z.leb_le; lia). f_equal. lia.
    + intros i j Hi Hj. f_equal. bools.
    + intros i Hi. unfold assume. replace ((0 <=? Z.of_nat (S i) + -1) && (Z.of_nat (S i) + -1 <=? max_count))%Z with true by (symmetry; apply andb_true_intro; split; apply Z.leb_le; lia). f_equal. lia.
    + intros i d Hi Hd _. unfold assume. replace ((0 <=? Z.of_nat i + d) && (Z.of_nat i + d <=? max_count))%Z with true by (symmetry; apply andb_true_intro; split; apply Z.leb_le; lia). f_equal. lia.
    + intros i j Hi Hj. f_equal. rewrite Nat2Z.inj_compare. reflexivity.
    + f_equal. lia.
  - unfold batch_ranges, batch_lists. assert (forall l, (forall b, In b l -> b < batches) ->
      Forall2 lists (map (fun b => subrange r (it (before b)) (it (before (S b)))) l) (map (fun b => firstn (before (S b) - before b) (skipn (before b) xs)) l)) as Hgo.
    { induction l as [|b l IH]; intros Hl; cbn -[subrange skipn]; constructor; [|apply IH; intros; apply Hl; now right].
      eexists. apply subrange_lists_at; auto. split; [apply before_mono; lia|]. apply before_le. specialize (Hl b (or_introl eq_refl)). lia. }
    apply Hgo. intros b Hin. apply in_seq in Hin. lia.
Qed.
Lemma batches_all : concat batch_lists = xs.
Proof.
  unfold batch_lists. assert (forall m b, b + m <= batches -> concat (map (fun b => firstn (before (S b) - before b) (skipn (before b) xs)) (seq b m)) = firstn (before (b + m) - before b) (skipn (before b) xs)) as Hgo.
  { induction m as [|m IH]; intros b Hbm; cbn -[skipn before]; [rewrite Nat.add_0_r, Nat.sub_diag; reflexivity|]. rewrite IH by lia.
    pose proof (before_mono b (S b) ltac:(lia)). pose proof (before_mono (S b) (b + S m) ltac:(lia)). replace (S b + m) with (b + S m) by lia.
    replace (before (b + S m) - before b) with ((before (S b) - before b) + (before (b + S m) - before (S b))) by lia.
    replace (skipn (before (S b)) xs) with (skipn (before (S b) - before b) (skipn (before b) xs)) by (rewrite skipn_add; f_equal; lia).
    generalize (before (S b) - before b) (before (b + S m) - before (S b)) (skipn (before b) xs). clear. induction n as [|a IH]; intros c ys; [reflexivity|].
    destruct ys as [|y ys]; cbn; [now rewrite firstn_nil|]. f_equal. apply IH. }
  rewrite Hgo by lia. cbn [Nat.add]. rewrite before_all. assert (before 0 = 0) as -> by (unfold before; lia). cbn [skipn]. apply firstn_all2. fold n. lia.
Qed.
Lemma batches_sizes : map (@length A) batch_lists = map (fun b => n / batches + (if b <? n mod batches then 1 else 0)) (seq 0 batches).
Proof.
  unfold batch_lists. rewrite map_map. apply map_ext_in. intros b Hin. apply in_seq in Hin. rewrite firstn_length, skipn_length. fold n.
  pose proof (before_step b ltac:(lia)) as Hs. pose proof (before_le (S b) ltac:(lia)). lia.
Qed.
End Batched.
