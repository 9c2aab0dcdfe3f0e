(** * Sorting functions built from the fixed-size ones *)

From Coq Require Import List Arith Bool Lia Permutation.
From Verif Require Import Mem MemLemmas SpecVec VecLemmas Sort SpecSort SortLemmas SortProofs.
Import ListNotations.
Local Open Scope nat_scope.

Section Proofs.
Context {V : Type} (moved : V -> V) (lt : V -> V -> bool) (quiet : Prop) (Hlt : strict_weak_order lt).
Local Notation M := (M V).
Local Notation world := (world V).
Local Notation at_ := (@at_ V quiet).
Local Notation sorting_as := (sorting_as lt).

Lemma sorting_as_weaken s l l' : sorting_as true l l' -> sorting_as s l l'.
Proof. destruct s; cbn; auto. intros [H _]. exact H. Qed.
Lemma sorting_as_sorting s l l' : sorting_as s l l' -> sorting lt l l'.
Proof. destruct s; cbn; auto. intros [H _]. exact H. Qed.
Lemma sorting_length l l' : sorting lt l l' -> length l' = length l.
Proof. intros [H _]. symmetry. now apply Permutation_length. Qed.

Lemma wp_sort_exactly_n {Y} (y : Y) cheap b pre l post n t h w (Q : Y -> unit -> world -> Prop) (E : Y -> world -> Prop) :
  in_place_tree n = Some t -> n = length l ->
  at_ w h -> h b = Some (pre ++ map Some l ++ post) ->
  (forall l' w', sorting_as (negb (cheap && (n =? 4))) l l' -> at_ w' (upd h b (Some (pre ++ map Some l' ++ post))) -> Q y tt w') ->
  (forall w', ~ quiet -> at_ w' h -> E y w') ->
  wp (sort_exactly_n moved lt cheap (Some b) (length pre) n) y w Q E.
Proof.
  intros Ht Hn H Hb HQ HE. unfold sort_exactly_n. destruct (cheap && (n <=? 4)) eqn:C.
  - apply andb_prop in C as [-> C]. apply Nat.leb_le in C.
    assert (Hr : exists t', relocate_tree true n = Some t').
    { destruct n as [|[|[|[|[|n]]]]]; try discriminate; [eexists; reflexivity..|lia]. }
    destruct Hr as [t' Ht'].
    eapply wp_with_buffer; [exact H|]. intros temp w1 Htemp H1.
    assert (Db : b <> temp) by congruence.
    apply wp_bind. change 0 with (length (@nil (option V))).
    eapply wp_relocate_sort with (r1 := []) (r2 := []); [exact Hlt|exact Ht'|exact Hn|exact Db|exact H1| | | |].
    + rewrite upd_other by auto. exact Hb.
    + rewrite upd_same. now rewrite app_nil_r.
    + intros l' w2 Hl' H2. cbn [app] in H2. rewrite app_nil_r in H2.
      assert (Ln : length l' = n). { rewrite Hn. apply sorting_length. eapply sorting_as_sorting; eauto. }
      eapply wp_uninitialized_relocate with (l1 := []) (l2 := []) (vs := l') (r1 := pre) (r2 := post);
        [exact H2|congruence| |reflexivity|now symmetry| |reflexivity|].
      * rewrite upd_same. now rewrite app_nil_r.
      * rewrite upd_other, upd_same by auto. reflexivity.
      * intros w3 H3. exists (upd h b (Some (pre ++ map Some l' ++ post))). split.
        -- eapply at_ext; [exact H3|]. cbn [app]. rewrite app_nil_r. intros k. unfold upd.
           destruct (k =? b) eqn:K1; destruct (k =? temp) eqn:K2; auto. apply Nat.eqb_eq in K1, K2. congruence.
        -- intros w4 H4. eapply HQ; [exact Hl'|]. eapply at_ext; [exact H4|]. apply upd_id.
           rewrite upd_other by auto. exact Htemp.
    + intros w2 Hq H2. exists h. split; [exact H2|].
      intros w3 H3. apply HE; auto. eapply at_ext; [exact H3|]. now apply upd_id.
  - eapply wp_in_place; eauto. intros l' w' Hl'. apply HQ. now apply sorting_as_weaken.
Qed.

Lemma ordered_one (a : V) : ordered lt [a].
Proof. apply ordered_cons. split; [contradiction|apply ordered_nil]. Qed.
Lemma stable_same l : ordered lt l -> stable_sorting lt l l.
Proof. intros H. split; [split|]; auto. Qed.
Lemma small_stable l : length l <= 1 -> stable_sorting lt l l.
Proof.
  intros H. apply stable_same. destruct l as [|a [|b l]]; [apply ordered_nil|apply ordered_one|cbn in H; lia].
Qed.

Lemma wp_small_size {Y} (y : Y) cheap b pre l post n large h w (Q : Y -> unit -> world -> Prop) (E : Y -> world -> Prop) :
  n = length l -> at_ w h -> h b = Some (pre ++ map Some l ++ post) ->
  (forall l' w', sorting_as (negb (cheap && (n =? 4))) l l' -> at_ w' (upd h b (Some (pre ++ map Some l' ++ post))) -> Q y tt w') ->
  (forall w', ~ quiet -> at_ w' h -> E y w') ->
  (5 < n -> wp large y w Q E) ->
  wp (small_size_optimized_sort moved lt cheap (Some b) (length pre) n large) y w Q E.
Proof.
  intros Hn H Hb HQ HE HL.
  assert (Hsmall : n <= 1 -> Q y tt w).
  { intros G. apply (HQ l); [apply sorting_as_weaken; cbn; apply small_stable; lia|].
    eapply at_ext; [exact H|]. apply eqh_sym. now apply upd_id. }
  unfold small_size_optimized_sort.
  do 2 (destruct n as [|n]; [apply wp_ret, Hsmall; lia|]).
  do 4 (destruct n as [|n]; [eapply wp_sort_exactly_n; try reflexivity; eauto|]).
  apply HL. lia.
Qed.

(** ** Merging *)
Lemma ordered_snoc l a : ordered lt (l ++ [a]) <-> ordered lt l /\ forall b, In b l -> lt a b = false.
Proof.
  rewrite ordered_app. split.
  - intros (H1 & _ & H3). split; auto. intros b Hb. apply H3; auto. now left.
  - intros (H1 & H2). split; [|split]; auto using ordered_one. intros x z Hx [<-|[]]. auto.
Qed.
Lemma filter_none (f : V -> bool) l : (forall a, In a l -> f a = false) -> filter f l = [].
Proof. induction l as [|a l IH]; cbn; auto. intros H. rewrite H by auto. apply IH. auto. Qed.
Lemma equivalent_lt z a c : lt c a = true -> equivalent lt z a = true -> equivalent lt z c = false.
Proof.
  intros L E. destruct (equivalent lt z c) eqn:F; auto.
  assert (K : equivalent lt c a = true).
  { destruct Hlt as (_ & _ & T). apply T with z; auto. unfold equivalent in *. now rewrite andb_comm. }
  unfold equivalent in K. rewrite L in K. discriminate.
Qed.
(** One step of a merge from the end. *)
Lemma merge_take_1 l1 a l2 m :
  ordered lt (l1 ++ [a]) -> ordered lt l2 -> (forall c, In c l2 -> lt c a = true) ->
  stable_sorting lt (l1 ++ l2) m -> stable_sorting lt ((l1 ++ [a]) ++ l2) (m ++ [a]).
Proof.
  intros O1 O2 L [[P O] S]. split; [split|].
  - rewrite <- app_assoc. etransitivity; [|apply Permutation_app_tail; exact P].
    rewrite <- app_assoc. apply Permutation_app_head. cbn. apply Permutation_cons_append.
  - apply ordered_snoc. split; auto. intros b Hb. apply (Permutation_in _ (Permutation_sym P)) in Hb.
    apply in_app_or in Hb as [Hb|Hb].
    + apply ordered_snoc in O1. now apply O1.
    + apply (lt_asym lt Hlt). auto.
  - intros z. rewrite !filter_app, S, filter_app, <- !app_assoc. f_equal. cbn [filter].
    destruct (equivalent lt z a) eqn:E; [|now rewrite app_nil_r].
    rewrite (filter_none _ l2); auto. intros c Hc. eapply equivalent_lt; eauto.
Qed.
Lemma merge_take_2 l1 l2 c m :
  ordered lt l1 -> ordered lt (l2 ++ [c]) -> (forall a, In a l1 -> lt c a = false) ->
  stable_sorting lt (l1 ++ l2) m -> stable_sorting lt (l1 ++ l2 ++ [c]) (m ++ [c]).
Proof.
  intros O1 O2 L [[P O] S]. split; [split|].
  - rewrite app_assoc. now apply Permutation_app_tail.
  - apply ordered_snoc. split; auto. intros b Hb. apply (Permutation_in _ (Permutation_sym P)) in Hb.
    apply in_app_or in Hb as [Hb|Hb]; auto. apply ordered_snoc in O2. now apply O2.
  - intros z. now rewrite app_assoc, !(filter_app _ _ [c]), S.
Qed.

Lemma repeat_tail {A} (a : A) n l : repeat a (S n) ++ l = repeat a n ++ a :: l.
Proof. rewrite repeat_snoc, <- app_assoc. reflexivity. Qed.

(** The merge, when no element of the second range is less than the whole first range. *)
Lemma wp_merge_loop {Y} (y : Y) fuel b pre l1 n2 dn post b' r1 l2 r2 h w (Q : Y -> unit -> world -> Prop) (E : Y -> world -> Prop) :
  length l1 + n2 <= fuel -> b <> b' -> l1 <> [] -> l2 <> [] -> n2 = length l2 ->
  ordered lt l1 -> ordered lt l2 ->
  (exists m, In m l1 /\ forall c, In c l2 -> lt c m = false) ->
  quiet ->
  at_ w h ->
  h b = Some (pre ++ map Some l1 ++ repeat None n2 ++ map Some dn ++ post) ->
  h b' = Some (r1 ++ map Some l2 ++ r2) ->
  (forall m w', stable_sorting lt (l1 ++ l2) m ->
     at_ w' (upd (upd h b (Some (pre ++ map Some m ++ map Some dn ++ post))) b' (Some (r1 ++ repeat None n2 ++ r2))) -> Q y tt w') ->
  wp (merge_loop moved lt fuel (Some b) (length pre) (length l1) (Some b') (length r1) n2 (length pre + length l1 + n2)) y w Q E.
Proof.
  intros Hf Db. revert l1 n2 dn l2 r2 h w Hf.
  induction fuel as [|fuel IH]; intros l1 n2 dn l2 r2 h w Hf N1 N2 Hn2 O1 O2 Hmin Hq H Hb Hb' HQ.
  { destruct l1; [congruence|]. cbn in Hf. lia. }
  destruct (exists_last N1) as (l1' & a & ->). destruct (exists_last N2) as (l2' & c & ->).
  rewrite !app_length in *. cbn [length] in *. subst n2. cbn [merge_loop].
  replace (length l1' + 1 - 1) with (length l1') by lia. replace (length l2' + 1 - 1) with (length l2') by lia.
  rewrite !map_app in Hb, Hb'. cbn [map] in Hb, Hb'. rewrite <- !app_assoc in Hb, Hb'. cbn [app] in Hb, Hb'.
  apply wp_bind. eapply wp_less_at; [exact H|exact Hb'| |exact Hb| | |].
  { rewrite app_assoc. apply nth_error_mid. now rewrite app_length, map_length. }
  { rewrite app_assoc. apply nth_error_mid. now rewrite app_length, map_length. }
  2:{ intros w' K. destruct (K Hq). }
  intros w1 H1. destruct (lt c a) eqn:C.
  - (* the last element of the first range is the largest *)
    apply wp_bind.
    assert (Ec : forall z, In z (l2' ++ [c]) -> lt z a = true).
    { intros z Hz. apply in_app_or in Hz as [Hz|[<-|[]]]; auto.
      apply ordered_snoc in O2. apply (ge_lt_trans lt Hlt _ c); [|exact C]. now apply O2. }
    eapply wp_relocate_up with (l1 := pre ++ map Some l1') (l2 := repeat None (length l2')) (l3 := map Some dn ++ post) (v := a).
    { exact H1. }
    { rewrite Hb, Nat.add_1_r, repeat_tail, <- app_assoc. reflexivity. }
    { now rewrite app_length, map_length. }
    { rewrite app_length, map_length, repeat_length. lia. }
    intros w2 H2.
    destruct l1' as [|a0 l1''] eqn:El1.
    { (* the first range would be used up: not when it has a smallest element *)
      destruct Hmin as (m & [<-|[]] & Hm). specialize (Hm c). rewrite C in Hm.
      discriminate Hm. apply in_or_app. right. now left. }
    rewrite <- El1 in *. assert (L0 : 0 < length l1') by (rewrite El1; cbn; lia).
    assert (N1' : l1' <> []) by (rewrite El1; discriminate).
    replace (length pre =? length pre + length l1') with false by (symmetry; apply Nat.eqb_neq; lia).
    replace (length pre + (length l1' + 1) + (length l2' + 1) - 1) with (length pre + length l1' + (length l2' + 1)) by lia.
    eapply IH with (l2 := l2' ++ [c]) (dn := a :: dn); [lia|exact N1'|exact N2|rewrite app_length; reflexivity| |exact O2| |exact Hq|exact H2| | |].
    + apply ordered_snoc in O1. apply O1.
    + destruct Hmin as (m & Hm & Hall). apply in_app_or in Hm as [Hm|[<-|[]]].
      * exists m. split; auto.
      * specialize (Hall c). rewrite C in Hall. discriminate Hall. apply in_or_app. right. now left.
    + rewrite upd_same. rewrite Nat.add_1_r, repeat_tail. rewrite <- !app_assoc. cbn [map app].
      f_equal. f_equal. f_equal. cbn [repeat]. now rewrite repeat_app_cons.
    + rewrite upd_other by auto. rewrite Hb', map_app, <- app_assoc. reflexivity.
    + intros m w3 Hm H3. eapply HQ.
      * apply merge_take_1; [exact O1|exact O2|exact Ec|exact Hm].
      * rewrite map_app, <- app_assoc. cbn [map app] in *. eapply at_ext; [exact H3|]. apply upd_eqh, upd_upd.
  - apply wp_bind.
    assert (Ea : forall z, In z (l1' ++ [a]) -> lt c z = false).
    { intros z Hz. apply in_app_or in Hz as [Hz|[<-|[]]]; auto.
      apply ordered_snoc in O1. apply (ge_trans lt Hlt _ a); [|exact C]. now apply O1. }
    eapply wp_relocate_to with (l1 := r1 ++ map Some l2') (l2 := r2) (v := c)
      (r1 := pre ++ map Some l1' ++ Some a :: repeat None (length l2')) (r2 := map Some dn ++ post).
    { exact H1. } { congruence. }
    { rewrite Hb', <- app_assoc. reflexivity. }
    { now rewrite app_length, map_length. }
    { rewrite Hb, Nat.add_1_r, repeat_tail. repeat (rewrite <- ?app_assoc; cbn [app]). reflexivity. }
    { rewrite !app_length, map_length. cbn [length]. rewrite repeat_length. lia. }
    intros w2 H2.
    destruct l2' as [|c0 l2''] eqn:El2.
    + replace (length r1 =? length r1 + length (@nil V)) with true by (symmetry; apply Nat.eqb_eq; cbn; lia).
      apply wp_ret. eapply HQ.
      * apply merge_take_2 with (l2 := []); [exact O1|exact O2|exact Ea|]. rewrite app_nil_r. now apply stable_same.
      * eapply at_ext; [exact H2|]. rewrite map_app. cbn. rewrite app_nil_r, map_app. cbn. rewrite <- !app_assoc. cbn.
        intros k. unfold upd. destruct (k =? b) eqn:K1; destruct (k =? b') eqn:K2; auto. apply Nat.eqb_eq in K1, K2. congruence.
    + rewrite <- El2 in *. assert (L0 : 0 < length l2') by (rewrite El2; cbn; lia).
      assert (N2' : l2' <> []) by (rewrite El2; discriminate).
      replace (length r1 =? length r1 + length l2') with false by (symmetry; apply Nat.eqb_neq; lia).
      replace (length pre + (length l1' + 1) + (length l2' + 1) - 1) with (length pre + (length l1' + 1) + length l2') by lia.
      replace (length l1' + 1) with (length (l1' ++ [a])) by (rewrite app_length; reflexivity).
      eapply IH with (l2 := l2') (dn := c :: dn) (r2 := None :: r2); [rewrite app_length; cbn; lia|exact N1|exact N2'|reflexivity|exact O1| | |exact Hq|exact H2| | |].
      * apply ordered_snoc in O2. apply O2.
      * destruct Hmin as (m & Hm & Hall). exists m. split; auto. intros z Hz. apply Hall. apply in_or_app. now left.
      * rewrite upd_same, map_app. cbn [map]. repeat (rewrite <- ?app_assoc; cbn [app]). reflexivity.
      * rewrite upd_other, upd_same, <- app_assoc by congruence. reflexivity.
      * intros m w3 Hm H3. eapply HQ.
        -- apply merge_take_2; [exact O1|exact O2|exact Ea|exact Hm].
        -- eapply at_ext; [exact H3|]. rewrite map_app, Nat.add_1_r, repeat_tail, <- !app_assoc. cbn [map app].
           intros k. unfold upd. destruct (k =? b) eqn:K1; destruct (k =? b') eqn:K2; auto.
Qed.

Lemma sorting_trans st s c c' m rest r :
  sorting_as st c c' -> stable_sorting lt (s ++ c') m -> sorting_as st (m ++ rest) r ->
  sorting_as st (s ++ c ++ rest) r.
Proof.
  intros Hc [[Pm Om] Sm] Hr.
  assert (P : Permutation (s ++ c ++ rest) r).
  { apply sorting_as_sorting in Hc as [Pc _]. apply sorting_as_sorting in Hr as [Pr _].
    rewrite app_assoc. etransitivity; [|exact Pr]. apply Permutation_app_tail.
    etransitivity; [|exact Pm]. now apply Permutation_app_head. }
  assert (O : ordered lt r) by (apply sorting_as_sorting in Hr; apply Hr).
  destruct st; cbn in *; [|split; auto]. destruct Hc as [_ Sc]. destruct Hr as [_ Sr].
  split; [split|]; auto. intros z. rewrite Sr, !filter_app, Sm, filter_app, Sc. now rewrite app_assoc.
Qed.

(** A smallest element of [l] is in [s]. *)
Definition least_in (s l : list V) : Prop := exists m, In m s /\ forall v, In v l -> lt v m = false.
Lemma least_in_sub s s' l l' : incl s s' -> incl l' l -> least_in s l -> least_in s' l'.
Proof. intros I J (m & Hm & Ha). exists m. split; auto. Qed.

Lemma wp_chunk_loop {Y} (y : Y) cheap k b pre s rest post b' h w (Q : Y -> unit -> world -> Prop) (E : Y -> world -> Prop) :
  b <> b' -> quiet -> length rest = 4 * k -> ordered lt s ->
  (s <> [] -> least_in s rest) -> (s = [] -> least_in (firstn 4 rest) rest \/ rest = []) ->
  at_ w h -> h b = Some (pre ++ map Some (s ++ rest) ++ post) -> h b' = Some (repeat None 4) ->
  (forall m w', sorting_as (negb cheap) (s ++ rest) m -> at_ w' (upd h b (Some (pre ++ map Some m ++ post))) -> Q y tt w') ->
  wp (chunk_loop moved lt cheap (Some b) (length pre) (length pre + length s) (Some b') k) y w Q E.
Proof.
  intros Db Hq. revert s rest h w. induction k as [|k IH]; intros s rest h w Hl Os Hs Hn H Hb Hb' HQ.
  { apply length_zero_iff_nil in Hl. subst rest. apply wp_ret. apply (HQ s).
    - rewrite app_nil_r. apply sorting_as_weaken. now apply stable_same.
    - eapply at_ext; [exact H|]. apply eqh_sym, upd_id. now rewrite app_nil_r in Hb. }
  cbn [chunk_loop].
  destruct rest as [|x1 [|x2 [|x3 [|x4 rest]]]]; cbn in Hl; try lia. assert (Hl' : length rest = 4 * k) by lia.
  set (c := [x1; x2; x3; x4]). change (x1 :: x2 :: x3 :: x4 :: rest) with (c ++ rest) in *.
  assert (Ht : exists t', relocate_tree cheap 4 = Some t') by (destruct cheap; eexists; reflexivity).
  destruct Ht as [t' Ht'].
  apply wp_bind. replace (length pre + length s) with (length (pre ++ map Some s)) by (now rewrite app_length, map_length).
  change 0 with (length (@nil (option V))).
  eapply wp_relocate_sort with (l := c) (post := map Some rest ++ post) (r1 := []) (r2 := []);
    [exact Hlt|exact Ht'|reflexivity|exact Db|exact H| | | |].
  { rewrite Hb, !map_app, <- !app_assoc. reflexivity. }
  { exact Hb'. }
  2:{ intros w' K. destruct (K Hq). }
  intros c' w1 Hc' H1.
  pose proof (sorting_as_sorting _ _ _ Hc') as [Pc Oc].
  assert (Lc : length c' = 4) by (rewrite <- (Permutation_length Pc); reflexivity).
  assert (Hc'' : sorting_as (negb cheap) c c'). { destruct cheap; [now apply sorting_as_sorting in Hc'|exact Hc']. }
  rewrite app_length, map_length. replace (length pre + length s - length pre) with (length s) by lia.
  (* after the merge *)
  assert (Next : forall m w2, stable_sorting lt (s ++ c') m ->
    at_ w2 (upd (upd h b (Some (pre ++ map Some m ++ map Some rest ++ post))) b' (Some (repeat None 4))) ->
    wp (chunk_loop moved lt cheap (Some b) (length pre) (length pre + length s + 4) (Some b') k) y w2 Q E).
  { intros m w2 Hm H2. pose proof Hm as [[Pm Om] _].
    assert (Im : incl (s ++ c) m).
    { intros z Hz. apply (Permutation_in _ Pm). apply in_app_or in Hz as [Hz|Hz]; apply in_or_app; [now left|right].
      now apply (Permutation_in _ Pc). }
    assert (Lm : length m = length s + 4) by (rewrite <- (Permutation_length Pm), app_length; lia).
    replace (length pre + length s + 4) with (length pre + length m) by lia.
    eapply IH with (rest := rest) (s := m); [exact Hl'|exact Om| | |exact H2| | |].
    - intros _. destruct s as [|s0 s'].
      + destruct (Hn eq_refl) as [K|K]; [|discriminate].
        eapply least_in_sub; [|apply incl_appr, incl_refl|exact K]. exact Im.
      + eapply least_in_sub; [| |apply Hs; discriminate].
        * intros z Hz. apply Im. apply in_or_app. now left.
        * apply incl_appr, incl_refl.
    - intros ->. cbn in Lm. lia.
    - rewrite upd_other, upd_same by auto. now rewrite map_app, <- app_assoc.
    - now rewrite upd_same.
    - intros r w3 Hr H3. apply (HQ r).
      + eapply sorting_trans; eauto.
      + eapply at_ext; [exact H3|]. intros j. unfold upd. destruct (j =? b) eqn:K1; destruct (j =? b') eqn:K2; auto.
        apply Nat.eqb_eq in K2. subst j. now rewrite Hb'. }
  apply wp_bind. unfold merge_relocate_second_range. cbn [app] in H1. rewrite app_nil_r in H1.
  destruct (length s =? 0) eqn:L0.
  - apply Nat.eqb_eq, length_zero_iff_nil in L0. subst s.
    eapply wp_uninitialized_relocate with (l1 := []) (l2 := []) (vs := c') (r1 := pre) (r2 := map Some rest ++ post);
      [exact H1|congruence| |reflexivity|now rewrite Lc| |reflexivity|].
    + rewrite upd_same, app_nil_r. reflexivity.
    + rewrite upd_other, upd_same by auto. cbn [map]. rewrite app_nil_r. reflexivity.
    + intros w2 H2. eapply (Next c').
      * cbn [app]. now apply stable_same.
      * eapply at_ext; [exact H2|]. cbn [app map]. rewrite app_nil_r. intros j. unfold upd.
        destruct (j =? b) eqn:K1; destruct (j =? b') eqn:K2; auto. apply Nat.eqb_eq in K1, K2. congruence.
  - assert (Ns : s <> []) by (destruct s; [discriminate|congruence]).
    eapply wp_merge_loop with (l2 := c') (r1 := []) (r2 := []) (dn := []) (post := map Some rest ++ post);
      [lia|exact Db|exact Ns|destruct c'; [discriminate|congruence]|now symmetry|exact Os|exact Oc| |exact Hq|exact H1| | |].
    + destruct (Hs Ns) as (z & Hz & Ha). exists z. split; auto. intros v Hv. apply Ha. apply in_or_app. left.
      now apply (Permutation_in _ (Permutation_sym Pc)).
    + rewrite upd_other, upd_same by auto. cbn [map app]. now rewrite <- app_assoc.
    + rewrite upd_same. cbn [app]. now rewrite app_nil_r.
    + intros m w2 Hm H2. eapply Next; [exact Hm|]. eapply at_ext; [exact H2|]. cbn [app map]. rewrite app_nil_r.
      intros j. unfold upd. destruct (j =? b) eqn:K1; destruct (j =? b') eqn:K2; auto.
Qed.

(** chunked_insertion_sort sorts when a smallest element comes early enough. *)
Lemma wp_chunked {Y} (y : Y) cheap b pre l post n h w (Q : Y -> unit -> world -> Prop) (E : Y -> world -> Prop) :
  quiet -> n = length l ->
  (n < 4 \/ least_in (firstn (if n mod 4 =? 0 then 4 else n mod 4) l) l) ->
  at_ w h -> h b = Some (pre ++ map Some l ++ post) ->
  (forall m w', sorting_as (negb cheap) l m -> at_ w' (upd h b (Some (pre ++ map Some m ++ post))) -> Q y tt w') ->
  wp (chunked_insertion_sort moved lt cheap (Some b) (length pre) n) y w Q E.
Proof.
  intros Hq Hn Hmin H Hb HQ. unfold chunked_insertion_sort.
  assert (D : n = 4 * (n / 4) + n mod 4) by (apply Nat.div_mod; lia).
  assert (M4 : n mod 4 < 4) by (apply Nat.mod_upper_bound; lia).
  remember (n mod 4) as k eqn:Ek. set (u := firstn k l). set (v := skipn k l).
  assert (El : l = u ++ v) by (symmetry; apply firstn_skipn).
  assert (Lu : length u = k) by (unfold u; rewrite firstn_length; lia).
  assert (Lv : length v = 4 * (n / 4)) by (unfold v; rewrite skipn_length; lia).
  apply wp_bind. eapply wp_small_size with (l := u) (post := map Some v ++ post); [now symmetry|exact H| | | |].
  { rewrite Hb. rewrite El at 1. now rewrite map_app, <- app_assoc. }
  2:{ intros w' K. destruct (K Hq). }
  2:{ intros K. lia. }
  intros s w1 Hs H1.
  assert (Hs' : sorting_as (negb cheap) u s). { destruct cheap; [now apply sorting_as_sorting in Hs|exact Hs]. }
  pose proof (sorting_as_sorting _ _ _ Hs) as [Ps Os].
  assert (Ls : length s = k) by (rewrite <- (Permutation_length Ps); exact Lu).
  eapply wp_with_buffer; [exact H1|]. intros b' w2 Hb' H2.
  assert (Db : b <> b'). { intros ->. rewrite upd_same in Hb'. discriminate. }
  rewrite <- Ls. eapply wp_chunk_loop with (rest := v) (s := s); [exact Db|exact Hq|exact Lv|exact Os| | |exact H2| | |].
  - intros Ns. destruct (Nat.eq_dec k 0) as [K0|K0]. { destruct s; [congruence|]. cbn in Ls. lia. }
    destruct (Nat.eqb_spec k 0) as [->|_]; [congruence|].
    destruct Hmin as [Hmin|Hmin].
    + assert (v = []) as ->. { apply length_zero_iff_nil. rewrite Lv, Nat.div_small; auto. }
      destruct s as [|s0 s']; [congruence|]. exists s0. split; [now left|contradiction].
    + eapply least_in_sub; [| |exact Hmin].
      * intros z Hz. now apply (Permutation_in _ Ps).
      * intros z Hz. rewrite El. apply in_or_app. now right.
  - intros ->. cbn in Ls.
    assert (v = l) as Ev by (unfold v; now rewrite <- Ls). rewrite <- Ls in Hmin. cbn [Nat.eqb] in Hmin. destruct Hmin as [Hmin|Hmin].
    + right. apply length_zero_iff_nil. rewrite Lv, Nat.div_small; auto.
    + left. rewrite Ev. exact Hmin.
  - rewrite upd_other, upd_same by auto. now rewrite map_app, <- app_assoc.
  - now rewrite upd_same.
  - intros m w3 Hm H3. exists (upd h b (Some (pre ++ map Some m ++ post))). split.
    + eapply at_ext; [exact H3|]. intros j. unfold upd. destruct (j =? b) eqn:K1; destruct (j =? b') eqn:K2; auto.
      apply Nat.eqb_eq in K1, K2. congruence.
    + intros w4 H4. apply (HQ m).
      * rewrite El. change (u ++ v) with ([] ++ u ++ v). eapply sorting_trans; [exact Hs'|now apply stable_same|exact Hm].
      * eapply at_ext; [exact H4|]. apply upd_id. rewrite upd_other by auto. rewrite upd_other in Hb'; auto.
Qed.

(** ** fixed_size_merge_sort *)
Lemma merge_head_1 l1 a l2 m :
  ordered lt (a :: l1) -> (forall c, In c l2 -> lt c a = false) ->
  stable_sorting lt (l1 ++ l2) m -> stable_sorting lt ((a :: l1) ++ l2) (a :: m).
Proof.
  intros O1 L [[P O] S]. split; [split|].
  - cbn. now constructor.
  - apply ordered_cons. split; auto. intros b Hb. apply (Permutation_in _ (Permutation_sym P)) in Hb.
    apply in_app_or in Hb as [Hb|Hb]; auto. apply ordered_cons in O1. now apply O1.
  - intros z. cbn. now rewrite S.
Qed.
Lemma merge_head_2 l1 l2 c m :
  ordered lt (c :: l2) -> (forall a, In a l1 -> lt c a = true) ->
  stable_sorting lt (l1 ++ l2) m -> stable_sorting lt (l1 ++ c :: l2) (c :: m).
Proof.
  intros O2 L [[P O] S]. split; [split|].
  - etransitivity; [symmetry; apply Permutation_middle|]. now constructor.
  - apply ordered_cons. split; auto. intros b Hb. apply (Permutation_in _ (Permutation_sym P)) in Hb.
    apply in_app_or in Hb as [Hb|Hb].
    + apply (lt_asym lt Hlt). auto.
    + apply ordered_cons in O2. now apply O2.
  - intros z. cbn [filter]. rewrite S, !filter_app. cbn [filter].
    destruct (equivalent lt z c) eqn:E; auto.
    rewrite (filter_none _ l1); auto. intros a Ha.
    destruct (equivalent lt z a) eqn:F; auto. pose proof (equivalent_lt z a c (L a Ha) F). congruence.
Qed.

Lemma wp_fixed_merge_loop {Y} (y : Y) fuel b pre n1 l1 n2 l2 post b' r1 r2 h w (Q : Y -> unit -> world -> Prop) (E : Y -> world -> Prop) :
  n1 + n2 <= fuel -> b <> b' -> l1 <> [] -> l2 <> [] -> n1 = length l1 -> n2 = length l2 ->
  ordered lt l1 -> ordered lt l2 -> quiet ->
  at_ w h ->
  h b = Some (pre ++ repeat None n1 ++ map Some l2 ++ post) ->
  h b' = Some (r1 ++ map Some l1 ++ r2) ->
  (forall m w', stable_sorting lt (l1 ++ l2) m ->
     at_ w' (upd (upd h b (Some (pre ++ map Some m ++ post))) b' (Some (r1 ++ repeat None n1 ++ r2))) -> Q y tt w') ->
  wp (fixed_merge_loop moved lt fuel (Some b) (length pre) (Some b') (length r1) n1 (length pre + n1) n2) y w Q E.
Proof.
  intros Hf Db. revert pre n1 l1 n2 l2 r1 h w Hf.
  induction fuel as [|fuel IH]; intros pre n1 l1 n2 l2 r1 h w Hf N1 N2 Hn1 Hn2 O1 O2 Hq H Hb Hb' HQ.
  { destruct l1; [congruence|]. cbn in Hn1. lia. }
  destruct l1 as [|a l1]; [congruence|]. destruct l2 as [|c l2]; [congruence|]. cbn [length] in Hn1, Hn2. subst n1 n2.
  cbn [fixed_merge_loop]. cbn [map app] in Hb, Hb'.
  apply wp_bind. eapply wp_less_at; [exact H|exact Hb| |exact Hb'| | |].
  { rewrite app_assoc. apply nth_error_mid. now rewrite app_length, repeat_length. }
  { now apply nth_error_mid. }
  2:{ intros w' K. destruct (K Hq). }
  intros w1 H1.
  replace (S (length l1) - 1) with (length l1) by lia. replace (S (length l2) - 1) with (length l2) by lia.
  destruct (lt c a) eqn:C.
  - assert (Ec : forall z, In z (a :: l1) -> lt c z = true).
    { intros z [<-|Hz]; auto. apply ordered_cons in O1. apply (lt_ge_trans lt Hlt _ a); [exact C|]. now apply O1. }
    apply wp_bind. eapply wp_relocate_down with (l1 := pre) (l2 := repeat None (length l1)) (l3 := map Some l2 ++ post) (v := c);
      [exact H1|exact Hb|reflexivity|rewrite repeat_length; lia|].
    intros w2 H2. destruct l2 as [|c2 l2].
    + change (length (@nil V) =? 0) with true. cbn [map app] in H2.
      eapply wp_uninitialized_relocate with (vs := a :: l1) (l1 := r1) (l2 := r2) (r1 := pre ++ [Some c]) (r2 := post);
        [exact H2|congruence| |reflexivity|reflexivity| |now rewrite app_length; cbn; lia|].
      * rewrite upd_other by auto. exact Hb'.
      * rewrite upd_same, <- app_assoc. cbn [app]. now rewrite repeat_app_cons.
      * intros w3 H3. eapply HQ.
        -- apply (merge_head_2 (a :: l1) [] c); [exact O2|exact Ec|]. rewrite app_nil_r. now apply stable_same.
        -- eapply at_ext; [exact H3|]. cbn [map]. rewrite <- !app_assoc. cbn [app].
           intros k. unfold upd. destruct (k =? b) eqn:K1; destruct (k =? b') eqn:K2; auto. apply Nat.eqb_eq in K1, K2. congruence.
    + remember (c2 :: l2) as l2' eqn:E2. assert (Nl : l2' <> []) by (subst; discriminate).
      replace (length l2' =? 0) with false by (subst; reflexivity).
      replace (S (length pre + S (length l1))) with (S (length pre) + S (length l1)) by lia.
      replace (S (length pre)) with (length (pre ++ [Some c])) by (rewrite app_length; cbn; lia).
      eapply IH with (l1 := a :: l1) (l2 := l2') (r1 := r1);
        [cbn in *; lia|exact N1|exact Nl|reflexivity|reflexivity|exact O1| |exact Hq|exact H2| | |].
      * apply ordered_cons in O2. apply O2.
      * rewrite upd_same, <- app_assoc. cbn [app length]. now rewrite repeat_tail.
      * rewrite upd_other by auto. exact Hb'.
      * intros m w3 Hm H3. eapply HQ.
        -- apply merge_head_2; [exact O2|exact Ec|exact Hm].
        -- eapply at_ext; [exact H3|]. cbn [map]. rewrite <- !app_assoc. cbn [app].
           intros k. unfold upd. destruct (k =? b) eqn:K1; destruct (k =? b') eqn:K2; auto.
  - assert (Ea : forall z, In z (c :: l2) -> lt z a = false).
    { intros z [<-|Hz]; auto. apply ordered_cons in O2. apply (ge_trans lt Hlt a c z); [exact C|]. now apply O2. }
    apply wp_bind. eapply wp_relocate_to with (l1 := r1) (l2 := map Some l1 ++ r2) (v := a)
      (r1 := pre) (r2 := repeat None (length l1) ++ Some c :: map Some l2 ++ post);
      [exact H1|congruence|exact Hb'|reflexivity|exact Hb|reflexivity|].
    intros w2 H2. destruct l1 as [|a2 l1].
    + change (length (@nil V) =? 0) with true. apply wp_ret. eapply HQ.
      * apply merge_head_1; [exact O1|exact Ea|]. now apply stable_same.
      * eapply at_ext; [exact H2|]. cbn. intros k. unfold upd.
        destruct (k =? b) eqn:K1; destruct (k =? b') eqn:K2; auto. apply Nat.eqb_eq in K1, K2. congruence.
    + remember (a2 :: l1) as l1' eqn:E1. assert (Nl : l1' <> []) by (subst; discriminate).
      replace (length l1' =? 0) with false by (subst; reflexivity).
      replace (length pre + S (length l1')) with (S (length pre) + length l1') by lia.
      replace (S (length pre)) with (length (pre ++ [Some a])) by (rewrite app_length; cbn; lia).
      replace (S (length r1)) with (length (r1 ++ [@None V])) by (rewrite app_length; cbn; lia).
      eapply IH with (l1 := l1') (l2 := c :: l2);
        [cbn in *; lia|exact Nl|exact N2|reflexivity|reflexivity| |exact O2|exact Hq|exact H2| | |].
      * apply ordered_cons in O1. apply O1.
      * rewrite upd_same, <- app_assoc. reflexivity.
      * rewrite upd_other, upd_same, <- app_assoc by congruence. reflexivity.
      * intros m w3 Hm H3. eapply HQ.
        -- apply merge_head_1; [exact O1|exact Ea|exact Hm].
        -- eapply at_ext; [exact H3|]. cbn [map]. rewrite <- !app_assoc. cbn [app repeat].
           intros k. unfold upd. destruct (k =? b) eqn:K1; destruct (k =? b') eqn:K2; auto.
Qed.

Lemma wp_fixed_merge {Y} (y : Y) cheap b pre l1 l2 post n1 n2 h w (Q : Y -> unit -> world -> Prop) (E : Y -> world -> Prop) :
  quiet -> 1 <= n1 <= 4 -> 1 <= n2 <= 5 -> n1 = length l1 -> n2 = length l2 ->
  at_ w h -> h b = Some (pre ++ map Some (l1 ++ l2) ++ post) ->
  (forall m w', sorting_as (negb (cheap && ((n1 =? 4) || (n2 =? 4)))) (l1 ++ l2) m ->
     at_ w' (upd h b (Some (pre ++ map Some m ++ post))) -> Q y tt w') ->
  wp (fixed_size_merge_sort moved lt cheap (Some b) (length pre) n1 n2) y w Q E.
Proof.
  intros Hq Hn1 Hn2 L1 L2 H Hb HQ. unfold fixed_size_merge_sort.
  assert (Ht2 : exists t, in_place_tree n2 = Some t).
  { destruct n2 as [|[|[|[|[|[|n2]]]]]]; try lia; eexists; reflexivity. }
  assert (Ht1 : exists t, relocate_tree cheap n1 = Some t).
  { destruct n1 as [|[|[|[|[|n1]]]]]; try lia; destruct cheap; eexists; reflexivity. }
  destruct Ht2 as [t2 Ht2]. destruct Ht1 as [t1 Ht1].
  apply wp_bind. replace (length pre + n1) with (length (pre ++ map Some l1)) by (rewrite app_length, map_length; lia).
  eapply wp_sort_exactly_n with (l := l2); [exact Ht2|exact L2|exact H| | |].
  { rewrite Hb, map_app, <- !app_assoc. reflexivity. }
  2:{ intros w' K. destruct (K Hq). }
  intros m2 w1 Hm2 H1. pose proof (sorting_as_sorting _ _ _ Hm2) as [P2 O2].
  eapply wp_with_buffer; [exact H1|]. intros b' w2 Hb' H2.
  assert (Db : b <> b'). { intros ->. rewrite upd_same in Hb'. discriminate. }
  assert (Hb'0 : h b' = None) by (rewrite upd_other in Hb'; auto).
  apply wp_bind. change 0 with (length (@nil (option V))).
  eapply wp_relocate_sort with (l := l1) (r1 := []) (r2 := []) (post := map Some m2 ++ post); [exact Hlt|exact Ht1|exact L1|exact Db|exact H2| | | |].
  { rewrite upd_other, upd_same, <- app_assoc by auto. reflexivity. }
  { rewrite upd_same. cbn [app]. now rewrite app_nil_r. }
  2:{ intros w' K. destruct (K Hq). }
  intros m1 w3 Hm1 H3. pose proof (sorting_as_sorting _ _ _ Hm1) as [P1 O1].
  assert (Lm1 : n1 = length m1) by (rewrite <- (Permutation_length P1); exact L1).
  assert (Lm2 : n2 = length m2) by (rewrite <- (Permutation_length P2); exact L2).
  rewrite app_length, map_length, <- L1. 
  eapply wp_fixed_merge_loop with (l1 := m1) (l2 := m2) (r1 := []) (r2 := []);
    [lia|exact Db|destruct m1; [cbn in *; lia|congruence]|destruct m2; [cbn in *; lia|congruence]|exact Lm1|exact Lm2|exact O1|exact O2|exact Hq|exact H3| | |].
  - rewrite upd_other, upd_same by auto. reflexivity.
  - now rewrite upd_same.
  - intros m w4 Hm H4. exists (upd h b (Some (pre ++ map Some m ++ post))). split.
    + eapply at_ext; [exact H4|]. cbn [app]. rewrite app_nil_r. intros j. unfold upd.
      destruct (j =? b) eqn:K1; destruct (j =? b') eqn:K2; auto; now rewrite app_nil_r.
    + intros w5 H5. apply (HQ m).
      * assert (Pm : Permutation (l1 ++ l2) m).
        { destruct Hm as [[Pm _] _]. etransitivity; [|exact Pm]. now apply Permutation_app. }
        destruct Hm as [[_ Om] Sm].
        destruct cheap; cbn [andb negb] in *; [destruct (n1 =? 4); [|destruct (n2 =? 4)]; cbn [orb negb]|];
          cbn [SortProofs.sorting_as] in *; try (split; assumption);
          (split; [split; assumption|]; intros z; rewrite Sm, !filter_app; now rewrite (proj2 Hm1 z), (proj2 Hm2 z)).
      * eapply at_ext; [exact H5|]. apply upd_id. rewrite upd_other by auto. exact Hb'0.
Qed.
End Proofs.
