(** * Proofs about the algorithms on whole ranges *)

From Coq Require Import List ZArith Bool Lia.
From Verif Require Import Range SpecRange Views RangeProofs ViewProofs Sequence SpecSequence.
Import ListNotations.
Local Open Scope nat_scope.

(** ** Comparison *)
Fixpoint lexi {A B} (cmp : A -> B -> ordering) (xs : list A) (ys : list B) : ordering :=
  match xs, ys with
  | [], [] => Equivalent
  | [], _ :: _ => Less
  | _ :: _, [] => Greater
  | x :: xs, y :: ys => if differs (cmp x y) then cmp x y else lexi cmp xs ys
  end.
Fixpoint all_equal {A B} (cmp : A -> B -> bool) (xs : list A) (ys : list B) : bool :=
  match xs, ys with
  | [], [] => true
  | x :: xs, y :: ys => cmp x y && all_equal cmp xs ys
  | _, _ => false
  end.
Fixpoint common {A B} (p : A -> B -> bool) (xs : list A) (ys : list B) : nat :=
  match xs, ys with
  | x :: xs, y :: ys => if p x y then S (common p xs ys) else 0
  | _, _ => 0
  end.

Lemma agree_O {A B} (p : A -> B -> Prop) xs ys : agree p xs ys 0.
Proof. intros i Hi. lia. Qed.
Lemma agree_S {A B} (p : A -> B -> Prop) x y xs ys k : p x y -> agree p xs ys k -> agree p (x :: xs) (y :: ys) (S k).
Proof. intros Hp H [|i] Hi; [exists x, y; auto|]. apply H. lia. Qed.
Lemma common_within {A B} (p : A -> B -> bool) xs ys : common p xs ys <= length xs /\ common p xs ys <= length ys.
Proof.
  revert ys. induction xs as [|x xs IH]; intros [|y ys]; cbn; try lia. destruct (p x y); [|lia]. specialize (IH ys). lia.
Qed.
Lemma common_difference {A B} (p : A -> B -> bool) xs ys : first_difference (fun x y => p x y = true) xs ys (common p xs ys).
Proof.
  revert ys. induction xs as [|x xs IH]; intros [|y ys]; cbn; try (split; [apply agree_O|intros a b Ha Hb; discriminate]).
  destruct (p x y) eqn:E.
  - destruct (IH ys) as [Ha Hn]. split; [now apply agree_S|exact Hn].
  - split; [apply agree_O|]. intros a b [= <-] [= <-]. congruence.
Qed.
Lemma lexi_spec {A B} (cmp : A -> B -> ordering) xs ys : lexicographic cmp xs ys (lexi cmp xs ys).
Proof.
  revert ys. induction xs as [|x xs IH]; intros [|y ys]; cbn.
  - exists 0. split; [split; [apply agree_O|intros a b Ha Hb; discriminate]|reflexivity].
  - exists 0. split; [split; [apply agree_O|intros a b Ha Hb; discriminate]|reflexivity].
  - exists 0. split; [split; [apply agree_O|intros a b Ha Hb; discriminate]|reflexivity].
  - destruct (differs (cmp x y)) eqn:E.
    + exists 0. split; [split; [apply agree_O|]|reflexivity]. intros a b [= <-] [= <-] H. rewrite H in E. discriminate.
    + assert (cmp x y = Equivalent) as Ee by (now destruct (cmp x y)).
      destruct (IH ys) as (k & [Ha Hn] & Hk). exists (S k). split; [split; [now apply agree_S|exact Hn]|exact Hk].
Qed.
(** The specification determines the result. *)
Lemma lexicographic_one {A B} (cmp : A -> B -> ordering) xs ys o : lexicographic cmp xs ys o -> o = lexi cmp xs ys.
Proof.
  intros (k & [Ha Hn] & Hk). revert xs ys Ha Hn Hk. induction k as [|k IH]; intros xs ys Ha Hn Hk.
  - destruct xs as [|x xs], ys as [|y ys]; cbn in *; auto. specialize (Hn _ _ eq_refl eq_refl). destruct (cmp x y); cbn; auto. contradiction.
  - destruct (Ha 0) as (x & y & Hx & Hy & He); [lia|]. destruct xs as [|x' xs]; [discriminate|]. destruct ys as [|y' ys]; [discriminate|].
    injection Hx as ->. injection Hy as ->. cbn. rewrite He. cbn. apply IH; auto. intros i Hi. apply (Ha (S i)). lia.
Qed.
Lemma all_equal_spec {A B} (cmp : A -> B -> bool) xs ys : all_equal cmp xs ys = true <-> Forall2 (fun x y => cmp x y = true) xs ys.
Proof.
  revert ys. induction xs as [|x xs IH]; intros [|y ys]; cbn; split; intros H; try discriminate; auto; try now inversion H.
  - apply andb_prop in H as [Hx H]. constructor; [exact Hx|]. now apply IH.
  - inversion H; subst. apply andb_true_intro. split; [auto|]. now apply IH.
Qed.
Lemma all_equal_length {A B} (cmp : A -> B -> bool) xs ys : length xs <> length ys -> all_equal cmp xs ys = false.
Proof. revert ys. induction xs as [|x xs IH]; intros [|y ys] H; cbn in *; auto; [contradiction|]. rewrite IH by lia. apply andb_false_r. Qed.

Section Two.
Context {I J A B : Type} (r1 : range I A) (r2 : range J B) (it : nat -> I) (jt : nat -> J) (xs : list A) (ys : list B).
Hypothesis H1 : lists_at r1 it xs.
Hypothesis H2 : lists_at r2 jt ys.

(** At a position, a range is at its end or has an element. *)
Lemma at_position {K T} (r : range K T) kt zs k : lists_at r kt zs -> k <= length zs ->
  (k = length zs /\ stop r (kt k) = Val true /\ skipn k zs = []) \/
  (exists z, k < length zs /\ stop r (kt k) = Val false /\ get r (kt k) = Val z /\ next r (kt k) = Val (kt (S k)) /\ skipn k zs = z :: skipn (S k) zs).
Proof.
  intros H Hk. destruct (Nat.eq_dec k (length zs)) as [->|Hn].
  - left. rewrite (l_stop _ _ _ H) by lia. rewrite Nat.eqb_refl, skipn_all. auto.
  - right. destruct (nth_error_below zs k) as [z Hz]; [lia|]. exists z. rewrite (l_stop _ _ _ H), (l_next _ _ _ H), (l_get _ _ _ H _ _ Hz) by lia.
    apply Nat.eqb_neq in Hn. rewrite Hn. rewrite <- (skipn_nth _ _ _ Hz). repeat split; auto. now apply nth_error_in_length in Hz.
Qed.

Lemma compare_loop_at cmp fuel k : k <= length xs -> k <= length ys -> length xs - k < fuel ->
  compare_loop r1 r2 fuel cmp (it k) (jt k) = Val (lexi cmp (skipn k xs) (skipn k ys)).
Proof.
  revert k. induction fuel as [|fuel IH]; intros k Hx Hy Hf; [lia|]. cbn [compare_loop].
  destruct (at_position _ _ _ _ H1 Hx) as [(E & Hs & Hl)|(x & Hlt & Hs & Hg & Hn & Hl)];
  destruct (at_position _ _ _ _ H2 Hy) as [(E' & Hs' & Hl')|(y & Hlt' & Hs' & Hg' & Hn' & Hl')];
  rewrite Hs, ?Hs'; cbn; rewrite ?Hs, ?Hs'; cbn; rewrite Hl, Hl'; auto.
  rewrite Hg, Hg'. cbn -[skipn]. destruct (differs (cmp x y)); [reflexivity|]. rewrite Hn, Hn'. cbn -[skipn]. apply IH; lia.
Qed.
Lemma compare_same_size_loop_at cmp fuel k : length xs = length ys -> k <= length xs -> length xs - k < fuel ->
  compare_same_size_loop r1 r2 fuel cmp (it k) (jt k) = Val (lexi cmp (skipn k xs) (skipn k ys)).
Proof.
  intros Hlen. revert k. induction fuel as [|fuel IH]; intros k Hx Hf; [lia|]. cbn [compare_same_size_loop].
  assert (k <= length ys) as Hy by lia.
  destruct (at_position _ _ _ _ H1 Hx) as [(E & Hs & Hl)|(x & Hlt & Hs & Hg & Hn & Hl)];
  destruct (at_position _ _ _ _ H2 Hy) as [(E' & Hs' & Hl')|(y & Hlt' & Hs' & Hg' & Hn' & Hl')]; try lia;
  rewrite Hs; cbn -[skipn]; rewrite Hl, Hl'; auto.
  rewrite Hg, Hg'. cbn -[skipn]. destruct (differs (cmp x y)); [reflexivity|]. rewrite Hn, Hn'. cbn -[skipn]. apply IH; lia.
Qed.
Lemma equal_loop_at cmp fuel k : k <= length xs -> k <= length ys -> length xs - k < fuel ->
  equal_loop r1 r2 fuel cmp (it k) (jt k) = Val (all_equal cmp (skipn k xs) (skipn k ys)).
Proof.
  revert k. induction fuel as [|fuel IH]; intros k Hx Hy Hf; [lia|]. cbn [equal_loop].
  destruct (at_position _ _ _ _ H1 Hx) as [(E & Hs & Hl)|(x & Hlt & Hs & Hg & Hn & Hl)];
  destruct (at_position _ _ _ _ H2 Hy) as [(E' & Hs' & Hl')|(y & Hlt' & Hs' & Hg' & Hn' & Hl')];
  rewrite Hs, ?Hs'; cbn; rewrite ?Hs, ?Hs'; cbn; rewrite Hl, Hl'; auto.
  rewrite Hg, Hg'. cbn -[skipn]. destruct (cmp x y); [|reflexivity]. rewrite Hn, Hn'. cbn -[skipn]. apply IH; lia.
Qed.
Lemma equal_same_size_loop_at cmp fuel k : length xs = length ys -> k <= length xs -> length xs - k < fuel ->
  equal_same_size_loop r1 r2 fuel cmp (it k) (jt k) = Val (all_equal cmp (skipn k xs) (skipn k ys)).
Proof.
  intros Hlen. revert k. induction fuel as [|fuel IH]; intros k Hx Hf; [lia|]. cbn [equal_same_size_loop].
  assert (k <= length ys) as Hy by lia.
  destruct (at_position _ _ _ _ H1 Hx) as [(E & Hs & Hl)|(x & Hlt & Hs & Hg & Hn & Hl)];
  destruct (at_position _ _ _ _ H2 Hy) as [(E' & Hs' & Hl')|(y & Hlt' & Hs' & Hg' & Hn' & Hl')]; try lia;
  rewrite Hs; cbn -[skipn]; rewrite Hl, Hl'; auto.
  rewrite Hg, Hg'. cbn -[skipn]. destruct (cmp x y); [|reflexivity]. rewrite Hn, Hn'. cbn -[skipn]. apply IH; lia.
Qed.
Lemma mismatch_loop_at p fuel k : k <= length xs -> k <= length ys -> length xs - k < fuel ->
  mismatch_loop r1 r2 fuel p (it k) (jt k) = Val (it (k + common p (skipn k xs) (skipn k ys)), jt (k + common p (skipn k xs) (skipn k ys))).
Proof.
  revert k. induction fuel as [|fuel IH]; intros k Hx Hy Hf; [lia|]. cbn [mismatch_loop].
  destruct (at_position _ _ _ _ H1 Hx) as [(E & Hs & Hl)|(x & Hlt & Hs & Hg & Hn & Hl)];
  destruct (at_position _ _ _ _ H2 Hy) as [(E' & Hs' & Hl')|(y & Hlt' & Hs' & Hg' & Hn' & Hl')];
  rewrite Hs, ?Hs'; cbn -[skipn]; rewrite ?Hs'; cbn -[skipn]; rewrite Hl, Hl'; cbn -[skipn]; rewrite ?Nat.add_0_r; auto.
  rewrite Hg, Hg'. cbn -[skipn]. destruct (p x y); [|now rewrite Nat.add_0_r]. rewrite Hn, Hn'. cbn -[skipn]. rewrite IH by lia.
  rewrite <- !Nat.add_succ_comm. reflexivity.
Qed.

Lemma assert_same_size_lists {T} (e : res T) : assert_same_size r1 r2 e =
  if has (size r1) && has (size r2) && negb (Nat.eqb (length xs) (length ys)) then Undefined else e.
Proof.
  unfold assert_same_size. pose proof (l_size _ _ _ H1) as S1. pose proof (l_size _ _ _ H2) as S2.
  destruct (size r1), (size r2); cbn in *; auto. subst. cbn. unfold assume.
  destruct (Nat.eqb_spec (length xs) (length ys)), (Z.eqb_spec (Z.of_nat (length xs)) (Z.of_nat (length ys))); cbn; auto; lia.
Qed.
Lemma compare_same_size_lists cmp fuel : length xs < fuel -> length xs = length ys ->
  lexicographical_compare_assume_same_size r1 r2 fuel cmp = Val (lexi cmp xs ys).
Proof.
  intros Hf Hlen. unfold lexicographical_compare_assume_same_size. rewrite assert_same_size_lists, Hlen, Nat.eqb_refl, andb_false_r.
  rewrite (l_first _ _ _ H1), (l_first _ _ _ H2). cbn -[skipn]. apply (compare_same_size_loop_at cmp fuel 0); lia.
Qed.
Lemma compare_lists cmp fuel : length xs < fuel -> lexicographical_compare r1 r2 fuel cmp = Val (lexi cmp xs ys).
Proof.
  intros Hf. unfold lexicographical_compare. rewrite (l_first _ _ _ H1), (l_first _ _ _ H2). cbn -[skipn]. apply (compare_loop_at cmp fuel 0); lia.
Qed.
Lemma equal_same_size_lists cmp fuel : length xs < fuel -> length xs = length ys ->
  equal_assume_same_size r1 r2 fuel cmp = Val (all_equal cmp xs ys).
Proof.
  intros Hf Hlen. unfold equal_assume_same_size. rewrite assert_same_size_lists, Hlen, Nat.eqb_refl, andb_false_r.
  rewrite (l_first _ _ _ H1), (l_first _ _ _ H2). cbn -[skipn]. apply (equal_same_size_loop_at cmp fuel 0); lia.
Qed.
Lemma equal_lists cmp fuel : length xs < fuel -> equal r1 r2 fuel cmp = Val (all_equal cmp xs ys).
Proof.
  intros Hf. unfold equal. pose proof (l_size _ _ _ H1) as S1. pose proof (l_size _ _ _ H2) as S2.
  assert ((let* first1 := first r1 in let* first2 := first r2 in equal_loop r1 r2 fuel cmp first1 first2) = Val (all_equal cmp xs ys)) as He.
  { rewrite (l_first _ _ _ H1), (l_first _ _ _ H2). cbn -[skipn]. apply (equal_loop_at cmp fuel 0); lia. }
  destruct (size r1), (size r2); cbn in S1, S2; auto. subst. cbn [bind].
  destruct (Z.eqb_spec (Z.of_nat (length xs)) (Z.of_nat (length ys))); [apply equal_same_size_lists; lia|].
  rewrite all_equal_length by lia. reflexivity.
Qed.
Lemma mismatch_lists p fuel : length xs < fuel -> mismatch r1 r2 fuel p = Val (it (common p xs ys), jt (common p xs ys)).
Proof.
  intros Hf. unfold mismatch. rewrite (l_first _ _ _ H1), (l_first _ _ _ H2). cbn -[skipn]. apply (mismatch_loop_at p fuel 0); lia.
Qed.
Lemma shortlex_lists cmp fuel e : length xs < fuel -> shortlex_compare r1 r2 fuel cmp = Some e -> exists o, e = Val o /\ shortlex cmp xs ys o.
Proof.
  intros Hf. unfold shortlex_compare, shortlex. pose proof (l_size _ _ _ H1) as S1. pose proof (l_size _ _ _ H2) as S2.
  destruct (size r1), (size r2); try discriminate. cbn in S1, S2. subst. intros [= <-]. cbn [bind]. rewrite Nat2Z.inj_compare.
  destruct (Nat.compare_spec (length xs) (length ys)) as [E|E|E]; cbn; eauto.
  rewrite compare_same_size_lists by lia. eexists. split; [reflexivity|]. apply lexi_spec.
Qed.
End Two.

(** ** Orders of lists *)
Lemma lexi_opposite {A} (cmp : A -> A -> ordering) : (forall x y, cmp y x = opposite (cmp x y)) ->
  forall xs ys, lexi cmp ys xs = opposite (lexi cmp xs ys).
Proof.
  intros Hc xs. induction xs as [|x xs IH]; intros [|y ys]; cbn; auto. rewrite (Hc x y).
  destruct (cmp x y); cbn; auto.
Qed.
Lemma lexi_transitive {A} (cmp : A -> A -> ordering) :
  (forall x y z o, cmp x y = o -> cmp y z = o -> cmp x z = o) ->
  (forall x y z, cmp x y = Equivalent -> cmp x z = cmp y z) -> (forall x y z, cmp y z = Equivalent -> cmp x z = cmp x y) ->
  forall xs ys zs o, o <> Unordered -> lexi cmp xs ys = o -> lexi cmp ys zs = o -> lexi cmp xs zs = o.
Proof.
  intros Ht Hl Hr xs. induction xs as [|x xs IH]; intros [|y ys] [|z zs] o Ho Hxy Hyz; cbn in *; try congruence.
  destruct (cmp x y) eqn:Exy; cbn in Hxy.
  - subst o. destruct (cmp y z) eqn:Eyz; cbn in Hyz; try discriminate.
    + now rewrite (Ht _ _ _ _ Exy Eyz).
    + now rewrite (Hr _ _ _ Eyz), Exy.
  - rewrite (Hl _ _ _ Exy). destruct (cmp y z) eqn:Eyz; cbn in *; auto. eapply IH; eauto.
  - subst o. destruct (cmp y z) eqn:Eyz; cbn in Hyz; try discriminate.
    + now rewrite (Hr _ _ _ Eyz), Exy.
    + now rewrite (Ht _ _ _ _ Exy Eyz).
  - congruence.
Qed.
Lemma lexi_equivalent {A B} (cmp : A -> B -> ordering) xs ys : lexi cmp xs ys = Equivalent <-> Forall2 (fun x y => cmp x y = Equivalent) xs ys.
Proof.
  revert ys. induction xs as [|x xs IH]; intros [|y ys]; cbn; split; intros H; try discriminate; auto; try now inversion H.
  - destruct (cmp x y) eqn:E; cbn in H; try congruence. constructor; [exact E|]. now apply IH.
  - inversion H as [|? ? ? ? Hx Hxs]; subst. rewrite Hx. cbn. now apply IH.
Qed.

(** ** Beginnings and ends *)
Lemma starts_with_lists {I J A B} fuel cmp max_size (full : range I A) (prefix : range J B) xs ys e :
  lists full xs -> lists prefix ys -> length ys < fuel -> (Z.of_nat (length ys) <= max_size)%Z ->
  starts_with fuel cmp max_size full prefix = Some e -> e = Val (all_equal cmp (firstn (length ys) xs) ys).
Proof.
  intros H1 [jt H2] Hf Hm. unfold starts_with. pose proof (l_size _ _ _ H2) as S2. destruct (size prefix) as [s|]; [|discriminate].
  cbn in S2. subst s. intros [= <-]. cbn [bind].
  assert (length (firstn (length ys) xs) < fuel) by (rewrite firstn_length; lia).
  destruct (take_random max_size (Z.of_nat (length ys)) full) as [taken|] eqn:E.
  - apply (take_random_lists _ _ H1) in E as [kt E]; [|lia]. rewrite Nat2Z.id in E. now apply (equal_lists _ _ _ _ _ _ E H2).
  - destruct (take_counted_lists _ _ H1 max_size (Z.of_nat (length ys))) as [kt E']; [lia|]. rewrite Nat2Z.id in E'.
    now apply (equal_lists _ _ _ _ _ _ E' H2).
Qed.
Lemma ends_with_lists {I J A B} fuel cmp max_full min_suffix (full : range I A) (suffix : range J B) xs ys e :
  lists full xs -> lists suffix ys -> length xs < fuel -> (Z.of_nat (length xs) <= max_full)%Z -> (min_suffix <= Z.of_nat (length ys))%Z ->
  ends_with fuel cmp max_full min_suffix full suffix = Some e ->
  e = Val (Nat.leb (length ys) (length xs) && all_equal cmp (skipn (length xs - length ys) xs) ys).
Proof.
  intros H1 [jt H2] Hf Hm Hmin. unfold ends_with. pose proof (l_size _ _ _ H2) as S2.
  assert (exists it, lists_at full it xs) as [it H1'] by exact H1. pose proof (l_size _ _ _ H1') as S1.
  destruct (size full) as [s1|] eqn:Es; [|discriminate]. destruct (size suffix) as [s2|]; [|discriminate]. cbn in S1, S2. subst s1 s2.
  destruct (Z.ltb_spec max_full min_suffix) as [Hlt|Hlt].
  - intros [= <-]. f_equal. destruct (Nat.leb_spec (length ys) (length xs)); [lia|reflexivity].
  - intros [= <-]. cbn [bind]. destruct (Z.ltb_spec (Z.of_nat (length xs)) (Z.of_nat (length ys))) as [Hl|Hl].
    + destruct (Nat.leb_spec (length ys) (length xs)); [lia|reflexivity].
    + destruct (drop_sized true max_full 0 (Z.of_nat (length xs) - Z.of_nat (length ys)) full) as [d|] eqn:Ed.
      * apply (drop_sized_lists _ _ H1) in Ed; [|lia|lia].
        destruct (Z.ltb_spec (Z.of_nat (length xs)) (Z.of_nat (length xs) - Z.of_nat (length ys))); [lia|]. cbn [andb] in Ed.
        destruct Ed as (r' & -> & kt & Hr). cbn [bind].
        replace (Z.to_nat (Z.of_nat (length xs) - Z.of_nat (length ys))) with (length xs - length ys) in Hr by lia.
        rewrite (equal_lists _ _ _ _ _ _ Hr H2) by (rewrite skipn_length; lia).
        destruct (Nat.leb_spec (length ys) (length xs)); [reflexivity|lia].
      * unfold drop_sized in Ed. rewrite Es in Ed. discriminate.
Qed.
Lemma prefix_spec {A B} (cmp : A -> B -> bool) xs ys : all_equal cmp (firstn (length ys) xs) ys = true <->
  exists zs rest, xs = zs ++ rest /\ Forall2 (fun x y => cmp x y = true) zs ys.
Proof.
  rewrite all_equal_spec. split.
  - intros H. exists (firstn (length ys) xs), (skipn (length ys) xs). split; [now rewrite firstn_skipn|exact H].
  - intros (zs & rest & -> & H). assert (length zs = length ys) as <- by (clear -H; induction H; cbn; lia).
    rewrite firstn_app, Nat.sub_diag, firstn_all. cbn. now rewrite app_nil_r.
Qed.
Lemma suffix_spec {A B} (cmp : A -> B -> bool) xs ys : Nat.leb (length ys) (length xs) && all_equal cmp (skipn (length xs - length ys) xs) ys = true <->
  exists before zs, xs = before ++ zs /\ Forall2 (fun x y => cmp x y = true) zs ys.
Proof.
  rewrite andb_true_iff, all_equal_spec. split.
  - intros [_ H]. exists (firstn (length xs - length ys) xs), (skipn (length xs - length ys) xs). split; [now rewrite firstn_skipn|exact H].
  - intros (before & zs & -> & H). assert (length zs = length ys) as <- by (clear -H; induction H; cbn; lia).
    rewrite app_length. split; [apply Nat.leb_le; lia|]. replace (length before + length zs - length zs) with (length before) by lia.
    rewrite skipn_app, Nat.sub_diag, skipn_all. exact H.
Qed.

(** ** Counting and single elements *)
Section One.
Context {I A : Type} (r : range I A) (it : nat -> I) (xs : list A).
Hypothesis H : lists_at r it xs.

Lemma count_if_loop_at p fuel k sum : k <= length xs -> length xs - k < fuel -> (0 <= sum <= Z.of_nat k)%Z ->
  count_if_loop r fuel p (it k) sum = Val (sum + Z.of_nat (length (List.filter p (skipn k xs))))%Z.
Proof.
  revert k sum. induction fuel as [|fuel IH]; intros k sum Hk Hf Hs; [lia|]. cbn [count_if_loop].
  destruct (at_position _ _ _ _ H Hk) as [(E & Hst & Hl)|(x & Hlt & Hst & Hg & Hn & Hl)]; rewrite Hst; cbn -[skipn]; rewrite Hl.
  - cbn. f_equal. lia.
  - rewrite Hg, Hn. pose proof (l_reach _ _ _ H). cbn -[skipn Z.of_nat]. destruct (p x).
    + unfold assume. replace (sum + 1 <=? reach r)%Z with true by (symmetry; apply Z.leb_le; lia). cbn -[skipn Z.of_nat]. rewrite IH by lia.
      cbn -[skipn Z.of_nat]. f_equal. lia.
    + cbn -[skipn Z.of_nat]. rewrite IH by lia. reflexivity.
Qed.
Lemma count_if_lists p fuel : length xs < fuel -> count_if r fuel p = Val (Z.of_nat (length (List.filter p xs))).
Proof. intros Hf. unfold count_if. rewrite (l_first _ _ _ H). cbn -[skipn]. rewrite (count_if_loop_at p fuel 0) by lia. reflexivity. Qed.
Lemma distance_loop_at fuel k d : k <= length xs -> length xs - k < fuel -> (0 <= d <= Z.of_nat k)%Z ->
  distance_loop r fuel (it k) d = Val (d + Z.of_nat (length xs - k))%Z.
Proof.
  revert k d. induction fuel as [|fuel IH]; intros k d Hk Hf Hd; [lia|]. cbn [distance_loop].
  destruct (at_position _ _ _ _ H Hk) as [(E & Hst & Hl)|(x & Hlt & Hst & Hg & Hn & Hl)]; rewrite Hst; cbn -[skipn Z.of_nat].
  - f_equal. lia.
  - rewrite Hn. pose proof (l_reach _ _ _ H). cbn -[skipn Z.of_nat]. unfold assume.
    replace (d + 1 <=? reach r)%Z with true by (symmetry; apply Z.leb_le; lia). rewrite IH by lia. f_equal. lia.
Qed.
Lemma distance_lists fuel k : k <= length xs -> length xs < fuel -> distance_to_end r fuel (it k) = Val (Z.of_nat (length xs) - Z.of_nat k)%Z.
Proof.
  intros Hk Hf. unfold distance_to_end.
  assert (distance_loop r fuel (it k) 0 = Val (Z.of_nat (length xs) - Z.of_nat k)%Z) as Hd by (rewrite distance_loop_at by lia; f_equal; lia).
  pose proof (l_last _ _ _ H) as Hl. pose proof (l_minus _ _ _ H) as Hm. destruct (last r), (minus r); auto. cbn in Hl, Hm. subst.
  cbn. now apply Hm.
Qed.
Lemma is_empty_lists min_size : (min_size <= Z.of_nat (length xs))%Z -> is_empty r min_size = Val (Nat.eqb (length xs) 0).
Proof.
  intros Hm. unfold is_empty. destruct (Z.ltb_spec 0 min_size).
  - f_equal. destruct (length xs); [lia|reflexivity].
  - rewrite (l_first _ _ _ H). cbn. rewrite (l_stop _ _ _ H) by lia. f_equal. now destruct (length xs).
Qed.
Lemma front_lists min_size : (min_size <= Z.of_nat (length xs))%Z -> front r min_size = match xs with [] => Undefined | x :: _ => Val x end.
Proof.
  intros Hm. unfold front. rewrite is_empty_lists by auto. cbn. rewrite (l_first _ _ _ H). destruct xs as [|x l] eqn:E; [reflexivity|]. cbn.
  apply (l_get _ _ _ H). reflexivity.
Qed.
Lemma back_lists min_size e : (min_size <= Z.of_nat (length xs))%Z -> back r min_size = Some e ->
  e = match rev xs with [] => Undefined | x :: _ => Val x end.
Proof.
  intros Hm. unfold back. rewrite is_empty_lists by auto. pose proof (l_last _ _ _ H) as Hl. pose proof (l_prev _ _ _ H) as Hp.
  destruct (last r); [|discriminate]. destruct (prev r); [|discriminate]. cbn in Hl, Hp. subst. intros [= <-]. cbn.
  destruct (rev xs) as [|x l] eqn:E.
  - apply (f_equal (@length A)) in E. rewrite rev_length in E. cbn in E. rewrite E. reflexivity.
  - assert (xs = rev l ++ [x]) as Ex by (rewrite <- (rev_involutive xs), E; reflexivity).
    assert (length xs = S (length l)) as El by (apply (f_equal (@length A)) in E; rewrite rev_length in E; exact E).
    rewrite El. cbn. rewrite Hp by lia. cbn. apply (l_get _ _ _ H). rewrite Ex, nth_error_app2 by (rewrite rev_length; lia).
    rewrite rev_length, Nat.sub_diag. reflexivity.
Qed.
Lemma size_lists max_size e : (Z.of_nat (length xs) <= max_size)%Z -> size_by_difference r max_size = Some e -> e = Val (Z.of_nat (length xs)).
Proof.
  intros Hm. unfold size_by_difference. pose proof (l_last _ _ _ H) as Hl. pose proof (l_minus _ _ _ H) as Hd.
  destruct (last r); [|discriminate]. destruct (minus r); [|discriminate]. cbn in Hl, Hd. subst. intros [= <-]. cbn [bind].
  rewrite (l_first _ _ _ H). cbn [bind]. rewrite Hd by lia. cbn [bind]. unfold assume. replace (Z.of_nat (length xs) - Z.of_nat 0)%Z with (Z.of_nat (length xs)) by lia.
  destruct (Z.leb_spec 0 (Z.of_nat (length xs))); [|lia]. destruct (Z.leb_spec (Z.of_nat (length xs)) max_size); [reflexivity|lia].
Qed.
Lemma at_lists index e : at_ r index = Some e ->
  e = if (0 <=? index)%Z then match nth_error xs (Z.to_nat index) with Some x => Val x | None => Thrown end else Thrown.
Proof.
  unfold at_. pose proof (l_size _ _ _ H) as Hs. pose proof (l_plus _ _ _ H) as Hp.
  destruct (size r); [|discriminate]. destruct (plus r); [|discriminate]. cbn in Hs, Hp. subst. intros [= <-]. cbn [bind].
  destruct (Z.leb_spec 0 index) as [H0|H0]; [|reflexivity]. destruct (Z.leb_spec index (Z.of_nat (length xs) - 1)) as [Hi|Hi].
  - cbn. rewrite (l_first _ _ _ H). cbn [bind]. rewrite Hp by lia. cbn [bind]. replace (Z.to_nat (Z.of_nat 0 + index)) with (Z.to_nat index) by lia.
    destruct (nth_error_below xs (Z.to_nat index)) as [x Hx]; [lia|]. rewrite Hx. now apply (l_get _ _ _ H).
  - cbn. rewrite (proj2 (nth_error_None xs (Z.to_nat index))) by lia. reflexivity.
Qed.
Lemma at_unchecked_lists index x e : (0 <= index)%Z -> nth_error xs (Z.to_nat index) = Some x -> at_unchecked r index = Some e -> e = Val x.
Proof.
  intros H0 Hx. unfold at_unchecked. pose proof (l_plus _ _ _ H) as Hp. destruct (plus r); [|discriminate]. cbn in Hp. intros [= <-].
  assert (Z.to_nat index < length xs) by (now apply nth_error_in_length in Hx). rewrite (l_first _ _ _ H). cbn [bind]. rewrite Hp by lia.
  cbn [bind]. replace (Z.to_nat (Z.of_nat 0 + index)) with (Z.to_nat index) by lia. now apply (l_get _ _ _ H).
Qed.
Lemma is_sorted_loop_at less fuel k x : nth_error xs k = Some x -> length xs - S k < fuel ->
  exists b, is_sorted_loop fuel r less (it k) (it (S k)) = Val b /\
    (b = true <-> forall i a c, k <= i -> nth_error xs i = Some a -> nth_error xs (S i) = Some c -> less c a = false).
Proof.
  revert k x. induction fuel as [|fuel IH]; intros k x Hx Hf; [lia|]. cbn [is_sorted_loop].
  assert (k < length xs) as Hk by (now apply nth_error_in_length in Hx). assert (S k <= length xs) as Hk' by lia.
  destruct (at_position _ _ _ _ H Hk') as [(E & Hst & Hl)|(y & Hlt & Hst & Hg & Hn & Hl)]; rewrite Hst; cbn [bind].
  - exists true. split; [reflexivity|]. split; [|auto]. intros _ i a c Hi Ha Hc. apply nth_error_in_length in Hc. lia.
  - assert (nth_error xs (S k) = Some y) as Hy.
    { pose proof (nth_error_skip xs (S k) 0) as E. rewrite Hl, Nat.add_0_r in E. symmetry. exact E. }
    rewrite Hg, (l_get _ _ _ H _ _ Hx), Hn. cbn [bind]. destruct (less y x) eqn:E.
    + exists false. split; [reflexivity|]. split; [discriminate|]. intros Hall. rewrite (Hall k x y (Nat.le_refl k) Hx Hy) in E. discriminate.
    + destruct (IH (S k) y Hy) as (b & Hb & Hspec); [lia|]. exists b. split; [exact Hb|]. rewrite Hspec. split.
      * intros Hall i a c Hi Ha Hc. destruct (Nat.eq_dec i k) as [->|]; [congruence|]. apply (Hall i); auto. lia.
      * intros Hall i a c Hi Ha Hc. apply (Hall i); auto. lia.
Qed.
Lemma is_sorted_lists less fuel : length xs < fuel ->
  exists b, is_sorted fuel r less = Val b /\
    (b = true <-> forall i a c, nth_error xs i = Some a -> nth_error xs (S i) = Some c -> less c a = false).
Proof.
  intros Hf. unfold is_sorted. rewrite (l_first _ _ _ H). cbn [bind].
  destruct (at_position _ _ _ 0 H ltac:(lia)) as [(E & Hst & Hl)|(y & Hlt & Hst & Hg & Hn & Hl)]; rewrite Hst; cbn [bind].
  - exists true. split; [reflexivity|]. split; [|auto]. intros _ i a c Ha. apply nth_error_in_length in Ha. lia.
  - rewrite Hn. cbn [bind]. assert (nth_error xs 0 = Some y) as Hy by (destruct xs; cbn in Hl; [discriminate|]; cbn; congruence).
    destruct (is_sorted_loop_at less fuel 0 y Hy) as (b & Hb & Hspec); [lia|]. exists b. split; [exact Hb|]. rewrite Hspec.
    split; intros Hall i a c; [intros Ha Hc|intros _ Ha Hc]; apply (Hall i); auto; lia.
Qed.
End One.
