(** * Proofs about set_intersection_pair *)

From Coq Require Import List ZArith Bool Lia.
From Verif Require Import Range SpecRange Views RangeProofs ViewProofs Sequence SpecSequence SequenceProofs.
Import ListNotations.
Local Open Scope nat_scope.

(** ** Orders *)
Section Order.
Context {A : Type} (less : A -> A -> bool) (W : weak_order less).

Lemma less_asymmetric x y : less x y = true -> less y x = false.
Proof. intros Hxy. destruct (less y x) eqn:E; [|reflexivity]. pose proof (w_transitive _ W _ _ _ Hxy E) as Hx. now rewrite (w_irreflexive _ W) in Hx. Qed.
Lemma equivalent_iff x y : equivalent less x y = true <-> less x y = false /\ less y x = false.
Proof. unfold equivalent. rewrite andb_true_iff, !negb_true_iff. reflexivity. Qed.
Lemma equivalent_sym x y : equivalent less x y = equivalent less y x.
Proof. unfold equivalent. apply andb_comm. Qed.
Lemma equivalent_trans x y z : equivalent less x y = true -> equivalent less y z = true -> equivalent less x z = true.
Proof. rewrite !equivalent_iff. intros [? ?] [? ?]. now apply (w_equivalent _ W x y z). Qed.
Lemma equivalent_congr a x y : equivalent less x y = true -> equivalent less a x = equivalent less a y.
Proof.
  intros E. destruct (equivalent less a x) eqn:E1, (equivalent less a y) eqn:E2; auto.
  - rewrite (equivalent_trans _ _ _ E1 E) in E2. discriminate.
  - rewrite equivalent_sym in E. rewrite (equivalent_trans _ _ _ E2 E) in E1. discriminate.
Qed.
Lemma equivalent_less a x y : equivalent less a x = true -> less x y = true -> less a y = true.
Proof.
  intros E Hl. destruct (less a y) eqn:E1; [reflexivity|]. destruct (less y a) eqn:E2.
  - apply equivalent_iff in E as [_ E]. rewrite (w_transitive _ W _ _ _ Hl E2) in E. discriminate.
  - assert (equivalent less a y = true) as E' by (apply equivalent_iff; auto). rewrite equivalent_sym in E.
    pose proof (equivalent_trans _ _ _ E E') as Ex. apply equivalent_iff in Ex. destruct Ex. congruence.
Qed.
Lemma less_equivalent a x y : equivalent less a x = true -> less y x = true -> less y a = true.
Proof.
  intros E Hl. destruct (less y a) eqn:E1; [reflexivity|]. destruct (less a y) eqn:E2.
  - apply equivalent_iff in E as [E _]. rewrite (w_transitive _ W _ _ _ E2 Hl) in E. discriminate.
  - assert (equivalent less y a = true) as E' by (apply equivalent_iff; auto).
    pose proof (equivalent_trans _ _ _ E' E) as Ex. apply equivalent_iff in Ex. destruct Ex. congruence.
Qed.
(** a <= b < c gives a < c, written with the negation of less than. *)
Lemma less_after a b c : less b a = false -> less b c = true -> less a c = true.
Proof.
  intros Hab Hbc. destruct (less a b) eqn:E; [eapply (w_transitive _ W); eauto|].
  eapply equivalent_less; eauto. apply equivalent_iff. auto.
Qed.
Lemma not_less_trans a b c : less b a = false -> less c b = false -> less c a = false.
Proof. intros Hab Hbc. destruct (less c a) eqn:E; [|reflexivity]. rewrite (less_after b c a Hbc E) in Hab. discriminate. Qed.

Lemma in_order_adjacent xs : in_order less xs <-> forall i x y, nth_error xs i = Some x -> nth_error xs (S i) = Some y -> less y x = false.
Proof.
  split; [intros Ho i x y Hx Hy; apply (Ho i (S i) x y); auto|].
  intros Ha i j x y Hij Hx. revert y. induction Hij as [|j Hij IH]; intros y Hy; [eapply Ha; eauto|].
  assert (j < length xs) as Hj by (apply nth_error_in_length in Hy; lia). destruct (nth_error_below _ _ Hj) as [z Hz].
  apply not_less_trans with z; [now apply IH|]. eapply Ha; eauto.
Qed.
Lemma in_order_skip xs k : in_order less xs -> in_order less (skipn k xs).
Proof. intros Ho i j x y Hij. rewrite !nth_error_skip. apply Ho. lia. Qed.
Lemma in_order_head x xs y : in_order less (x :: xs) -> In y (x :: xs) -> less y x = false.
Proof.
  intros Ho [->|Hy]; [apply (w_irreflexive _ W)|]. apply In_nth_error in Hy as [i Hi]. apply (Ho 0 (S i) x y); auto. lia.
Qed.
End Order.

(** ** The positions of the pairs *)
Section Meet.
Context {A : Type} (less : A -> A -> bool) (xs ys : list A).

Fixpoint meets (fuel i j : nat) : list (nat * nat) :=
  match fuel with
  | O => []
  | S fuel =>
      match nth_error xs i, nth_error ys j with
      | Some x, Some y =>
          if less x y then meets fuel (S i) j else if less y x then meets fuel i (S j) else (i, j) :: meets fuel (S i) (S j)
      | _, _ => []
      end
  end.
Lemma meets_fuel f : forall g i j, length xs - i + (length ys - j) < f -> length xs - i + (length ys - j) < g -> meets f i j = meets g i j.
Proof.
  induction f as [|f IH]; intros [|g] i j Hf Hg; try lia. cbn. destruct (nth_error xs i) eqn:Ex; [|reflexivity].
  destruct (nth_error ys j) eqn:Ey; [|reflexivity]. apply nth_error_in_length in Ex. apply nth_error_in_length in Ey.
  destruct (less a a0); [apply IH; lia|]. destruct (less a0 a); [apply IH; lia|]. f_equal. apply IH; lia.
Qed.
(** The first pair: where it is, and what comes after it. *)
Lemma meets_cons f : forall i j a b rest, meets f i j = (a, b) :: rest ->
  exists x y, nth_error xs a = Some x /\ nth_error ys b = Some y /\ less x y = false /\ less y x = false /\ i <= a /\ j <= b /\
    (length xs - i + (length ys - j) < f -> rest = meets f (S a) (S b)).
Proof.
  induction f as [|f IH]; intros i j a b rest Hm; [discriminate|]. cbn in Hm.
  destruct (nth_error xs i) as [x|] eqn:Ex; [|discriminate]. destruct (nth_error ys j) as [y|] eqn:Ey; [|discriminate].
  assert (i < length xs) by (now apply nth_error_in_length in Ex). assert (j < length ys) by (now apply nth_error_in_length in Ey).
  destruct (less x y) eqn:E1; [|destruct (less y x) eqn:E2].
  - destruct (IH _ _ _ _ _ Hm) as (x' & y' & Hx & Hy & Hl & Hg & Hi & Hj & Hr). exists x', y'. repeat split; auto; try lia.
    intros Hf. rewrite Hr by lia. apply meets_fuel; apply nth_error_in_length in Hx; apply nth_error_in_length in Hy; lia.
  - destruct (IH _ _ _ _ _ Hm) as (x' & y' & Hx & Hy & Hl & Hg & Hi & Hj & Hr). exists x', y'. repeat split; auto; try lia.
    intros Hf. rewrite Hr by lia. apply meets_fuel; apply nth_error_in_length in Hx; apply nth_error_in_length in Hy; lia.
  - injection Hm as <- <- <-. exists x, y. repeat split; auto. intros Hf. apply meets_fuel; lia.
Qed.
Definition enough : nat := S (length xs + length ys).
Notation P := (meets enough 0 0).
Lemma meets_nth m i j a b : length xs - i + (length ys - j) < enough -> nth_error (meets enough i j) m = Some (a, b) ->
  (exists x y, nth_error xs a = Some x /\ nth_error ys b = Some y /\ less x y = false /\ less y x = false) /\ i + m <= a /\ j + m <= b /\
  (forall m', nth_error (meets enough i j) (S m + m') = nth_error (meets enough (S a) (S b)) m').
Proof.
  revert i j. induction m as [|m IH]; intros i j Hf Hm; destruct (meets enough i j) as [|[a' b'] rest] eqn:E; try discriminate.
  - injection Hm as -> ->. destruct (meets_cons _ _ _ _ _ _ E) as (x & y & Hx & Hy & Hl & Hg & Hi & Hj & Hr).
    split; [eauto 10|]. split; [lia|]. split; [lia|]. intros m'. cbn [nth_error Nat.add]. now rewrite Hr by auto.
  - destruct (meets_cons _ _ _ _ _ _ E) as (x & y & Hx & Hy & Hl & Hg & Hi & Hj & Hr). rewrite Hr in Hm by auto. cbn in Hm.
    destruct (IH (S a') (S b')) as (Hs & Ha & Hb & Hn); [unfold enough; lia|exact Hm|]. split; [exact Hs|]. split; [lia|]. split; [lia|].
    intros m'. cbn [Nat.add nth_error]. rewrite Hr by auto. apply (Hn m').
Qed.
Lemma enough_at i j : length xs - i + (length ys - j) < enough.
Proof. unfold enough. lia. Qed.
(** The position of the [m]-th pair in the first list; the end is that of the list. *)
Definition pos1 (m : nat) : nat := match nth_error P m with Some p => fst p | None => length xs end.
Definition pos2 (m : nat) : nat := match nth_error P m with Some p => snd p | None => length ys end.
Lemma meet_at m : m < length P -> exists x y, nth_error P m = Some (pos1 m, pos2 m) /\ nth_error xs (pos1 m) = Some x /\ nth_error ys (pos2 m) = Some y /\
  less x y = false /\ less y x = false /\ m <= pos1 m /\ m <= pos2 m.
Proof.
  intros Hm. destruct (nth_error_below _ _ Hm) as [[a b] E]. destruct (meets_nth m 0 0 a b (enough_at 0 0) E) as ((x & y & Hx & Hy & Hl & Hg) & Ha & Hb & _).
  unfold pos1, pos2. rewrite E. exists x, y. cbn. repeat split; auto.
Qed.
Lemma meet_end m : length P <= m -> pos1 m = length xs /\ pos2 m = length ys.
Proof. intros Hm. apply nth_error_None in Hm. unfold pos1, pos2. now rewrite Hm. Qed.
Lemma meet_next m : m < length P -> pos1 (S m) = match meets enough (S (pos1 m)) (S (pos2 m)) with p :: _ => fst p | [] => length xs end /\
  pos2 (S m) = match meets enough (S (pos1 m)) (S (pos2 m)) with p :: _ => snd p | [] => length ys end.
Proof.
  intros Hm. destruct (meet_at m Hm) as (x & y & E & _). destruct (meets_nth m 0 0 _ _ (enough_at 0 0) E) as (_ & _ & _ & Hn).
  specialize (Hn 0). rewrite Nat.add_0_r in Hn. unfold pos1 at 1, pos2 at 2. rewrite Hn. now destruct (meets enough (S (pos1 m)) (S (pos2 m))).
Qed.
Lemma pos1_le m : pos1 m <= length xs.
Proof.
  destruct (Nat.lt_ge_cases m (length P)) as [Hm|Hm]; [|destruct (meet_end m Hm); lia].
  destruct (meet_at m Hm) as (x & y & _ & Hx & _). apply nth_error_in_length in Hx. lia.
Qed.
Lemma pos1_step m : m < length P -> pos1 m < pos1 (S m).
Proof.
  intros Hm. destruct (meet_at m Hm) as (x & y & _ & Hx & _). apply nth_error_in_length in Hx. destruct (meet_next m Hm) as [E _]. rewrite E.
  destruct (meets enough (S (pos1 m)) (S (pos2 m))) as [|[a b] rest] eqn:Em; [lia|].
  destruct (meets_cons _ _ _ _ _ _ Em) as (? & ? & _ & _ & _ & _ & Hi & _). cbn. lia.
Qed.
Lemma pos1_mono m n : m < n -> n <= length P -> pos1 m < pos1 n.
Proof.
  induction n as [|n IH]; intros Hmn Hn; [lia|]. pose proof (pos1_step n ltac:(lia)). destruct (Nat.eq_dec m n) as [->|]; [auto|].
  specialize (IH ltac:(lia) ltac:(lia)). lia.
Qed.
Lemma pos1_eqb m n : m <= length P -> n <= length P -> Nat.eqb (pos1 m) (pos1 n) = Nat.eqb m n.
Proof.
  intros Hm Hn. destruct (Nat.eqb_spec m n) as [->|Hne]; [apply Nat.eqb_refl|]. apply Nat.eqb_neq.
  destruct (Nat.lt_ge_cases m n) as [Hl|Hl]; [pose proof (pos1_mono m n Hl Hn)|pose proof (pos1_mono n m ltac:(lia) Hm)]; lia.
Qed.
Lemma pos1_compare m n : m <= length P -> n <= length P -> Nat.compare (pos1 m) (pos1 n) = Nat.compare m n.
Proof.
  intros Hm Hn. destruct (Nat.compare_spec m n) as [->|Hl|Hl]; [apply Nat.compare_refl|apply Nat.compare_lt_iff|apply Nat.compare_gt_iff];
    [now apply pos1_mono|now apply pos1_mono].
Qed.
Lemma meets_length : length P <= length xs /\ length P <= length ys.
Proof.
  destruct (length P) as [|n] eqn:E; [lia|]. destruct (meet_at n ltac:(lia)) as (x & y & _ & Hx & Hy & _ & _ & H1 & H2).
  apply nth_error_in_length in Hx. apply nth_error_in_length in Hy. lia.
Qed.

(** The pairs of elements. *)
Definition value_at (p : nat * nat) : list (A * A) :=
  match nth_error xs (fst p), nth_error ys (snd p) with Some x, Some y => [(x, y)] | _, _ => [] end.
Definition values (l : list (nat * nat)) : list (A * A) := flat_map value_at l.
Lemma values_nth l m p x y : (forall q, In q l -> exists a b, value_at q = [(a, b)]) ->
  nth_error l m = Some p -> value_at p = [(x, y)] -> nth_error (values l) m = Some (x, y).
Proof.
  revert m. induction l as [|q l IH]; intros [|m] Hq Hp Hv; try discriminate; cbn [values flat_map].
  - injection Hp as ->. rewrite Hv. reflexivity.
  - destruct (Hq q) as (a & b & E); [now left|]. rewrite E. cbn. apply IH; auto. intros q' Hin. apply Hq. now right.
Qed.
Lemma values_length l : (forall q, In q l -> exists a b, value_at q = [(a, b)]) -> length (values l) = length l.
Proof.
  induction l as [|q l IH]; intros Hq; [reflexivity|]. cbn [values flat_map]. destruct (Hq q) as (a & b & E); [now left|]. rewrite E. cbn. f_equal.
  apply IH. intros q' Hin. apply Hq. now right.
Qed.
Lemma meets_values i j q : In q (meets enough i j) -> exists x y, value_at q = [(x, y)] /\ less x y = false /\ less y x = false.
Proof.
  intros Hq. apply In_nth_error in Hq as [m Hm]. destruct q as [a b]. destruct (meets_nth m i j a b (enough_at i j) Hm) as ((x & y & Hx & Hy & Hl & Hg) & _).
  exists x, y. unfold value_at. cbn. rewrite Hx, Hy. auto.
Qed.

Definition pairs : list (A * A) := values P.
Lemma pairs_length : length pairs = length P.
Proof. apply values_length. intros q Hq. destruct (meets_values 0 0 q Hq) as (x & y & E & _). eauto. Qed.
Lemma pairs_nth m x y : m < length P -> nth_error xs (pos1 m) = Some x -> nth_error ys (pos2 m) = Some y -> nth_error pairs m = Some (x, y).
Proof.
  intros Hm Hx Hy. destruct (meet_at m Hm) as (x' & y' & E & _). eapply values_nth; eauto.
  - intros q Hq. destruct (meets_values 0 0 q Hq) as (a & b & E' & _). eauto.
  - unfold value_at. cbn. now rewrite Hx, Hy.
Qed.

Lemma filter_none {T} (f : T -> bool) l : (forall z, In z l -> f z = false) -> List.filter f l = [].
Proof. induction l as [|z l IH]; intros Hz; [reflexivity|]. cbn. rewrite (Hz z) by now left. apply IH. intros w Hw. apply Hz. now right. Qed.
Lemma combine_none {S T} (l : list S) : combine l (@nil T) = [].
Proof. now destruct l. Qed.

Hypothesis W : weak_order less.
Hypothesis Hxs : in_order less xs.
Hypothesis Hys : in_order less ys.

Lemma meets_class a f : forall i j, length xs - i + (length ys - j) < f ->
  List.filter (fun p => equivalent less a (fst p)) (values (meets f i j)) =
  combine (List.filter (equivalent less a) (skipn i xs)) (List.filter (equivalent less a) (skipn j ys)).
Proof.
  induction f as [|f IH]; intros i j Hf; [lia|]. cbn [meets].
  destruct (nth_error xs i) as [x|] eqn:Ex.
  2:{ apply nth_error_None in Ex. rewrite (skipn_all2 _ Ex). reflexivity. }
  destruct (nth_error ys j) as [y|] eqn:Ey.
  2:{ apply nth_error_None in Ey. rewrite (skipn_all2 _ Ey). symmetry. apply combine_none. }
  assert (i < length xs) by (now apply nth_error_in_length in Ex). assert (j < length ys) by (now apply nth_error_in_length in Ey).
  pose proof (skipn_nth _ _ _ Ex) as Sx. pose proof (skipn_nth _ _ _ Ey) as Sy.
  pose proof (in_order_skip less xs i Hxs) as Ox. rewrite Sx in Ox. pose proof (in_order_skip less ys j Hys) as Oy. rewrite Sy in Oy.
  destruct (less x y) eqn:E1; [|destruct (less y x) eqn:E2].
  - rewrite IH by lia. rewrite Sx. cbn [List.filter]. destruct (equivalent less a x) eqn:Ea; [|reflexivity].
    assert (List.filter (equivalent less a) (skipn j ys) = []) as ->; [|now rewrite !combine_none].
    apply filter_none. intros z Hz. rewrite Sy in Hz. pose proof (in_order_head less W _ _ _ Oy Hz) as Hzy.
    destruct (equivalent less a z) eqn:Ez; [|reflexivity]. apply equivalent_iff in Ez as [Ez _].
    pose proof (equivalent_less less W _ _ _ Ea E1) as Hay.
    destruct (less y z) eqn:Eyz; [rewrite (w_transitive _ W _ _ _ Hay Eyz) in Ez; discriminate|].
    assert (equivalent less z y = true) as Ezy by (apply equivalent_iff; auto). rewrite (less_equivalent less W _ _ _ Ezy Hay) in Ez. discriminate.
  - rewrite IH by lia. rewrite Sy. cbn [List.filter]. destruct (equivalent less a y) eqn:Ea; [|reflexivity].
    assert (List.filter (equivalent less a) (skipn i xs) = []) as ->; [|reflexivity].
    apply filter_none. intros z Hz. rewrite Sx in Hz. pose proof (in_order_head less W _ _ _ Ox Hz) as Hzx.
    destruct (equivalent less a z) eqn:Ez; [|reflexivity]. apply equivalent_iff in Ez as [Ez _].
    pose proof (equivalent_less less W _ _ _ Ea E2) as Hax.
    destruct (less x z) eqn:Exz; [rewrite (w_transitive _ W _ _ _ Hax Exz) in Ez; discriminate|].
    assert (equivalent less z x = true) as Ezx by (apply equivalent_iff; auto). rewrite (less_equivalent less W _ _ _ Ezx Hax) in Ez. discriminate.
  - assert (equivalent less x y = true) as Exy by (apply equivalent_iff; auto).
    rewrite Sx, Sy. unfold values. cbn [flat_map List.filter]. unfold value_at at 1. cbn [fst snd]. rewrite Ex, Ey.
    cbn [app List.filter fst]. rewrite <- (equivalent_congr less W a x y Exy).
    destruct (equivalent less a x); cbn [combine]; [f_equal|]; apply IH; lia.
Qed.
Lemma meets_spec : intersection less xs ys pairs.
Proof.
  split; [|split].
  - intros x y Hin. unfold pairs, values in Hin. apply in_flat_map in Hin as (q & Hq & Hv). destruct (meets_values _ _ _ Hq) as (a & b & E & Hl & Hg).
    rewrite E in Hv. destruct Hv as [[= -> ->]|[]]. apply equivalent_iff. auto.
  - intros i j x y Hij Hx Hy.
    assert (i < length P /\ j < length P) as [Hi Hj].
    { apply nth_error_in_length in Hx. apply nth_error_in_length in Hy. rewrite map_length, pairs_length in Hx, Hy. auto. }
    destruct (meet_at i Hi) as (x1 & y1 & _ & Hx1 & Hy1 & _). destruct (meet_at j Hj) as (x2 & y2 & _ & Hx2 & Hy2 & _).
    rewrite nth_error_map, (pairs_nth _ _ _ Hi Hx1 Hy1) in Hx. rewrite nth_error_map, (pairs_nth _ _ _ Hj Hx2 Hy2) in Hy.
    cbn in Hx, Hy. injection Hx as <-. injection Hy as <-. eapply (Hxs (pos1 i) (pos1 j)); eauto. apply pos1_mono; auto. lia.
  - intros a. unfold pairs. rewrite meets_class by apply enough_at. reflexivity.
Qed.
End Meet.

(** ** The view *)
Section View.
Context {I J A : Type} (less : A -> A -> bool) (r1 : range I A) (r2 : range J A) (it : nat -> I) (jt : nat -> J) (xs ys : list A).
Hypothesis H1 : lists_at r1 it xs.
Hypothesis H2 : lists_at r2 jt ys.

Lemma find_first_matching_at fuel : forall i j, i <= length xs -> j <= length ys -> length xs - i + (length ys - j) < fuel ->
  find_first_matching r1 r2 fuel (less_to_compare less) (it (length xs)) (jt (length ys)) (it i) (jt j) =
  Val match meets less xs ys fuel i j with p :: _ => (it (fst p), jt (snd p)) | [] => (it (length xs), jt (length ys)) end.
Proof.
  induction fuel as [|fuel IH]; intros i j Hi Hj Hf; [lia|]. cbn [find_first_matching meets].
  destruct (at_position _ _ _ _ H1 Hi) as [(E & Hs & Hl)|(x & Hlt & Hs & Hg & Hn & Hl)].
  - rewrite Hs. cbn [bind orb]. rewrite (proj2 (nth_error_None xs i)) by lia. reflexivity.
  - rewrite Hs. cbn [bind]. destruct (nth_error_below xs i Hlt) as [x' Hx]. rewrite Hx. rewrite (l_get _ _ _ H1 _ _ Hx).
    destruct (at_position _ _ _ _ H2 Hj) as [(E' & Hs' & Hl')|(y & Hlt' & Hs' & Hg' & Hn' & Hl')].
    + rewrite Hs'. cbn [bind orb]. rewrite (proj2 (nth_error_None ys j)) by lia. reflexivity.
    + rewrite Hs'. cbn [bind orb]. destruct (nth_error_below ys j Hlt') as [y' Hy]. rewrite Hy. rewrite (l_get _ _ _ H2 _ _ Hy). cbn [bind].
      unfold less_to_compare. destruct (less x' y'); cbn [is_less is_greater].
      * rewrite Hn. cbn [bind]. apply IH; lia.
      * destruct (less y' x'); cbn [is_less is_greater]; [|reflexivity]. rewrite Hn'. cbn [bind]. apply IH; lia.
Qed.

Lemma set_intersection_pair_lists fuel e : weak_order less -> length xs + length ys < fuel -> set_intersection_pair fuel less r1 r2 = Some e ->
  (in_order less xs -> in_order less ys -> exists r', e = Val r' /\ lists r' (pairs less xs ys) /\
     abilities r' = [true; true; false; false; false; false; has (order r1); false]) /\
  (~ in_order less xs \/ ~ in_order less ys -> e = Undefined).
Proof.
  intros W Hf. unfold set_intersection_pair. pose proof (l_last _ _ _ H1) as L1. pose proof (l_last _ _ _ H2) as L2.
  pose proof (l_same _ _ _ H1) as Sa. pose proof (l_order _ _ _ H1) as Or.
  destruct (last r1) as [end1|]; [|discriminate]. destruct (last r2) as [end2|]; [|discriminate]. destruct (same r1) as [same1|]; [|discriminate].
  destruct (same r2) as [same2|]; [|discriminate]. cbn in L1, L2, Sa. subst end1 end2. intros [= <-].
  destruct (is_sorted_lists r1 it xs H1 less fuel) as (b1 & -> & S1); [lia|]. destruct (is_sorted_lists r2 jt ys H2 less fuel) as (b2 & -> & S2); [lia|].
  rewrite <- (in_order_adjacent less W) in S1. rewrite <- (in_order_adjacent less W) in S2. cbn [bind]. split.
  - intros O1 O2. apply S1 in O1 as ->. apply S2 in O2 as ->. unfold assume. eexists. split; [reflexivity|]. split; [|destruct (order r1); reflexivity].
    assert (forall i j, i <= length xs -> j <= length ys ->
      find_first_matching r1 r2 fuel (less_to_compare less) (it (length xs)) (jt (length ys)) (it i) (jt j) =
      Val match meets less xs ys (enough xs ys) i j with p :: _ => (it (fst p), jt (snd p)) | [] => (it (length xs), jt (length ys)) end) as Hfind.
    { intros i j Hi Hj. rewrite find_first_matching_at by lia. rewrite (meets_fuel less xs ys fuel (enough xs ys)) by (unfold enough; lia). reflexivity. }
    exists (fun m => (it (pos1 less xs ys m), jt (pos2 less xs ys m))).
    pose proof (pairs_length less xs ys) as Hlen. pose proof (meets_length less xs ys) as [Hm1 Hm2].
    assert (forall m, m < length (pairs less xs ys) -> m < length (meets less xs ys (enough xs ys) 0 0)) as Hin by (intros; lia).
    constructor; cbn [first stop get next same last prev plus backward minus order reach size fst snd]; auto.
    + rewrite (l_first _ _ _ H1), (l_first _ _ _ H2). cbn [bind]. rewrite Hfind by lia. f_equal. unfold pos1, pos2.
      now destruct (meets less xs ys (enough xs ys) 0 0).
    + intros m Hm. rewrite Sa by (auto using pos1_le). f_equal. rewrite Hlen in *.
      destruct (meet_end less xs ys _ (Nat.le_refl _)) as [<- _]. apply pos1_eqb; lia.
    + intros m [x y] Hm. assert (m < length (pairs less xs ys)) as Hb by (now apply nth_error_in_length in Hm).
      destruct (meet_at less xs ys m (Hin m Hb)) as (x' & y' & _ & Hx & Hy & _). rewrite (pairs_nth less xs ys m x' y') in Hm by auto. injection Hm as -> ->.
      rewrite (l_get _ _ _ H1 _ _ Hx), (l_get _ _ _ H2 _ _ Hy). reflexivity.
    + intros m Hm. destruct (meet_at less xs ys m (Hin m Hm)) as (x' & y' & _ & Hx & Hy & _). apply nth_error_in_length in Hx. apply nth_error_in_length in Hy.
      rewrite (l_next _ _ _ H1), (l_next _ _ _ H2) by auto. cbn [bind]. rewrite Hfind by lia. f_equal.
      destruct (meet_next less xs ys m (Hin m Hm)) as [-> ->]. now destruct (meets less xs ys (enough xs ys) (S (pos1 less xs ys m)) (S (pos2 less xs ys m))).
    + cbn [if_any fst]. intros i j Hi Hj. rewrite Sa by (auto using pos1_le). rewrite pos1_eqb by lia. reflexivity.
    + cbn [if_any]. rewrite Hlen. destruct (meet_end less xs ys _ (Nat.le_refl _)) as [-> ->]. reflexivity.
    + exact Logic.I.
    + exact Logic.I.
    + exact Logic.I.
    + destruct (order r1) as [o|]; [|exact Logic.I]. cbn [if_any option_map fst] in *. intros i j Hi Hj. rewrite Or by (auto using pos1_le). rewrite pos1_compare by lia. reflexivity.
    + pose proof (l_reach _ _ _ H1). pose proof (l_reach _ _ _ H2). lia.
    + exact Logic.I.
  - intros [Hn|Hn].
    + destruct b1; [exfalso; apply Hn; now apply S1|reflexivity].
    + destruct b2; [exfalso; apply Hn; now apply S2|]. now destruct b1.
Qed.
End View.
