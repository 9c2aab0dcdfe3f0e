(** * Properties C74 to C79: flat maps, flat multimaps and linear maps

    A map is the list of its elements, pairs of a key and a mapped value. [flat key_less m] (SpecMap.v): the keys increase; that is what a flat map
    is. [element_of same m k]: the first element of [m] with the key [k], if there is one. Two keys are the same for a flat map when neither is less
    than the other, [equivalent key_less], and for a linear map when they are equal. [sorts key_less sort l]: the sort function that is called
    sorts the range [l]; ska_sort does for all ranges of at most 128 elements, and not for all others (C70). [moved] and [self_moved]: what is left of
    an element that was moved from, or moved to itself. *)

From Coq Require Import List Arith Bool Lia Permutation ZArith.
From Verif Require Import SpecSort Unique SpecUnique FlatMap LinearMap SpecMap FlatMapProofs FlatMapProofs2 LinearMapProofs.
From Verif Require Import DoubleBuffer InplaceRadix SpecRadix PropsRadix.
Import ListNotations.
Local Open Scope nat_scope.

Lemma nat_order : strict_weak_order Nat.ltb.
Proof.
  split; [intros a; apply Nat.ltb_irrefl|]. split.
  - intros a b c H1 H2. apply Nat.ltb_lt in H1, H2. apply Nat.ltb_lt. lia.
  - intros a b c. unfold equivalent. rewrite !andb_true_iff, !negb_true_iff, !Nat.ltb_ge. lia.
Qed.

(** ** C74. find and lookup in a flat map: the element with the key, and the end, or a null pointer, when there is none *)
Theorem C74_find : forall K M key_less (m : list (K * M)) key, strict_weak_order key_less -> flat key_less m ->
  exists it, find key_less m key = Some it /\
    match element_of (equivalent key_less) m key with Some e => nth_error m it = Some e | None => it = length m end.
Proof.
  intros K M key_less m key Hlt Hm. destruct (find_ok key_less Hlt m key) as (r & H1 & H2 & H3); [apply flat_multi; auto|].
  exists r. split; [exact H1|]. destruct (element_of _ m key); [exact H3|]. apply nth_error_None in H3. lia.
Qed.
Print Assumptions C74_find.
Theorem C74_lookup : forall K M key_less (m : list (K * M)) key, strict_weak_order key_less -> flat key_less m ->
  exists o, lookup key_less m key = Some o /\
    match element_of (equivalent key_less) m key with Some e => exists it, o = Some it /\ nth_error m it = Some e | None => o = None end.
Proof.
  intros K M key_less m key Hlt Hm. destruct (C74_find K M key_less m key Hlt Hm) as (it & H1 & H2). unfold lookup. rewrite H1.
  eexists. split; [reflexivity|]. destruct (element_of _ m key) as [e|].
  - assert (it < length m) by (apply nth_error_Some; congruence). rewrite (proj2 (Nat.eqb_neq _ _)) by lia. eauto.
  - rewrite H2, Nat.eqb_refl. reflexivity.
Qed.
Print Assumptions C74_lookup.
(** Whatever the order of the elements, find returns no element with another key. *)
Theorem C74_find_sound : forall K M key_less (m : list (K * M)) key, exists it, find key_less m key = Some it /\ it <= length m /\
  forall e, nth_error m it = Some e -> equivalent key_less key (fst e) = true.
Proof. intros. apply find_sound. Qed.
Print Assumptions C74_find_sound.
Example C74_example : let m := [(2, 20); (5, 50); (7, 70); (9, 90)] in
  flat Nat.ltb m /\ strict_weak_order Nat.ltb /\ lookup Nat.ltb m 7 = Some (Some 2) /\ lookup Nat.ltb m 6 = Some None /\ find Nat.ltb m 1 = Some 4.
Proof.
  cbn zeta. split; [|split; [apply nat_order | repeat split]].
  intros i j a b Hij Ha Hb. do 4 (destruct i as [|i]; [injection Ha as <-; do 4 (destruct j as [|j]; [first [lia | injection Hb as <-; reflexivity]|]); destruct j; discriminate|]).
  destruct i; discriminate.
Qed.

(** ** C75. insert (emplace, lazy_insert) of one key adds an element when the key is new and changes nothing when it is not; erase and erase_if remove
    what they should; the keys keep increasing *)
Theorem C75_lazy_insert : forall K M key_less (m : list (K * M)) key mapped, strict_weak_order key_less -> flat key_less m ->
  exists m' position inserted, lazy_insert key_less m key mapped = Some (m', position, inserted) /\ flat key_less m' /\
    match element_of (equivalent key_less) m key with
    | Some e => inserted = false /\ m' = m /\ nth_error m position = Some e
    | None => inserted = true /\ nth_error m' position = Some (key, mapped) /\ position <= length m /\
              m' = firstn position m ++ (key, mapped) :: skipn position m
    end.
Proof. intros K M key_less m key mapped Hlt. apply lazy_insert_ok. exact Hlt. Qed.
Print Assumptions C75_lazy_insert.
Theorem C75_erase : forall K M key_less (m : list (K * M)) first last, flat key_less m -> first <= last <= length m ->
  flat key_less (erase m first last) /\ forall e, In e (erase m first last) <-> exists i, nth_error m i = Some e /\ ~ (first <= i < last).
Proof. intros. apply erase_ok; auto. Qed.
Print Assumptions C75_erase.
Theorem C75_erase_if : forall K M key_less (m : list (K * M)) predicate, flat key_less m ->
  flat key_less (erase_if m predicate) /\ forall e, In e (erase_if m predicate) <-> In e m /\ predicate e = false.
Proof. intros K M key_less m predicate Hm. exact (erase_if_ok key_less (fun e => e) (fun e => e) (fun l => None) m predicate Hm). Qed.
Print Assumptions C75_erase_if.
(** In a multimap the element goes behind those with the same key. *)
Theorem C75_multi_lazy_insert : forall K M key_less (m : list (K * M)) key mapped, strict_weak_order key_less -> multi_flat key_less m ->
  exists position, let m' := firstn position m ++ (key, mapped) :: skipn position m in
    multi_lazy_insert key_less m key mapped = Some (m', position) /\ position <= length m /\ multi_flat key_less m' /\
    forall i e, nth_error m i = Some e -> equivalent key_less key (fst e) = true -> i < position.
Proof. intros K M key_less m key mapped Hlt. apply multi_lazy_insert_ok. exact Hlt. Qed.
Print Assumptions C75_multi_lazy_insert.
Example C75_example : let m := [(2, 20); (5, 50); (7, 70)] in
  lazy_insert Nat.ltb m 6 0 = Some ([(2, 20); (5, 50); (6, 0); (7, 70)], 2, true) /\ lazy_insert Nat.ltb m 5 0 = Some (m, 1, false) /\
  multi_lazy_insert Nat.ltb m 5 0 = Some ([(2, 20); (5, 50); (5, 0); (7, 70)], 2).
Proof. repeat split. Qed.

(** ** C76. Making a flat map from a range, and inserting a range: the keys increase; elements that were there stay, of new elements with the same key one
    is taken

    Missing: elements that are changed by being moved to themselves (C73), and ranges that ska_sort does not sort (C70). *)
Theorem C76_from_range_partial : forall K M key_less key_equal moved self_moved ska_sort (l : list (K * M)), strict_weak_order key_less ->
  (forall a b, key_equal a b = equivalent key_less a b) -> sorts key_less ska_sort l ->
  exists m, from_range key_equal moved self_moved ska_sort l = Some m /\ flat key_less m /\
    forall k, match element_of (equivalent key_less) m k with
              | Some e => In e l /\ equivalent key_less k (fst e) = true
              | None => forall e, In e l -> equivalent key_less k (fst e) = false
              end.
Proof. intros K M key_less key_equal moved self_moved ska l Hlt. apply from_range_ok. exact Hlt. Qed.
Print Assumptions C76_from_range_partial.
Theorem C76_insert_partial : forall K M key_less moved self_moved ska_sort (m init : list (K * M)), strict_weak_order key_less ->
  (forall e, self_moved e = e) -> flat key_less m -> sorts key_less ska_sort init ->
  exists m', insert key_less moved self_moved ska_sort m init = Some m' /\ flat key_less m' /\
    forall k, match element_of (equivalent key_less) m k with
              | Some e => element_of (equivalent key_less) m' k = Some e
              | None => match element_of (equivalent key_less) m' k with
                        | Some e => In e init /\ equivalent key_less k (fst e) = true
                        | None => forall e, In e init -> equivalent key_less k (fst e) = false
                        end
              end.
Proof. intros K M key_less moved self_moved ska m init Hlt. apply insert_ok. exact Hlt. Qed.
Print Assumptions C76_insert_partial.
Theorem C76_from_unique_partial : forall K M key_less ska_sort (l : list (K * M)), distinct (equivalent key_less) l -> sorts key_less ska_sort l ->
  exists m, from_unique ska_sort l = Some m /\ flat key_less m /\ Permutation l m.
Proof. intros. apply from_unique_ok; auto. Qed.
Print Assumptions C76_from_unique_partial.
Theorem C76_multi_insert_partial : forall K M key_less ska_sort (m init : list (K * M)), strict_weak_order key_less ->
  multi_flat key_less m -> sorts key_less ska_sort init ->
  exists m', multi_insert key_less ska_sort m init = Some m' /\ multi_flat key_less m' /\
    forall k, let with_key := filter (fun e => equivalent key_less k (fst e)) in
      exists new, Permutation (with_key init) new /\ with_key m' = with_key m ++ new.
Proof. intros K M key_less ska m init Hlt. exact (multi_insert_ok key_less Hlt (fun e => e) (fun e => e) ska m init). Qed.
Print Assumptions C76_multi_insert_partial.
(** With the real ska_sort, at most 128 new elements and keys that are compared by what [to_key] makes of them: a boolean, an unsigned integer, or tuples or ranges
    of them ([simple_ranges], SpecRadix.v). [sort_all] is the comparison sort that ska_sort calls. *)
Theorem C76_insert_ska_partial : forall K M moved self_moved (sort_all : list (K * M) -> list (K * M)) t to_key (m init : list (K * M)),
  let key_less := fun a b => key_less (to_key a) (to_key b) in
  strict_weak_order key_less -> (forall e, self_moved e = e) -> (forall g, sorting (by_key key_less) g (sort_all g)) -> simple_ranges t ->
  (forall e, In e init -> has_type t (to_key (fst e))) -> length init <= 128 -> flat key_less m ->
  exists m', insert key_less moved self_moved (ska_sort sort_all t (fun e => to_key (fst e))) m init = Some m' /\ flat key_less m' /\
    forall k, match element_of (equivalent key_less) m k with
              | Some e => element_of (equivalent key_less) m' k = Some e
              | None => match element_of (equivalent key_less) m' k with
                        | Some e => In e init /\ equivalent key_less k (fst e) = true
                        | None => forall e, In e init -> equivalent key_less k (fst e) = false
                        end
              end.
Proof.
  intros K M moved self_moved sort_all t to_key m init kl Hlt Hself Hs Ht Hv Hl Hm. apply C76_insert_partial; auto.
  exact (C70_ska_sort_partial (K * M) sort_all t (fun e => to_key (fst e)) init Hs Ht Hv Hl).
Qed.
Print Assumptions C76_insert_ska_partial.
(** For example for keys that are unsigned integers of 4 bytes. *)
Example C76_ska_example : let key_less := fun a b => key_less (Ku a) (Ku b) in
  strict_weak_order key_less /\ simple_ranges (TUint 4) /\ has_type (TUint 4) (Ku 4000000000) /\
  insert key_less (fun e => (fst e, 0)) (fun e => e) (ska_sort (insertion (by_key key_less)) (TUint 4) (fun e => Ku (fst e)))
    [(2%Z, 20); (5%Z, 50)] [(4000000000%Z, 1); (3%Z, 2); (2%Z, 3)] = Some [(2%Z, 20); (3%Z, 2); (5%Z, 50); (4000000000%Z, 1)].
Proof.
  cbn zeta. split; [|split; [constructor | split; [constructor; cbn; lia | vm_compute; reflexivity]]].
  assert (E : forall a b, key_less (Ku a) (Ku b) = Z.ltb a b) by (intros; unfold key_less, Z.ltb; reflexivity).
  unfold strict_weak_order, equivalent. setoid_rewrite E.
  split; [intros a; apply Z.ltb_irrefl|]. split.
  - intros a b c H1 H2. apply Z.ltb_lt in H1, H2. apply Z.ltb_lt. lia.
  - intros a b c. rewrite !andb_true_iff, !negb_true_iff, !Z.ltb_ge. lia.
Qed.
(** { 2: 20 } and a range { 1: 10, 3: 30 }: the element with the key 3 is moved to itself. *)
Theorem C76_self_move_refuted : exists moved self_moved m', flat Nat.ltb [(2, 20)] /\ (forall l : list (nat * nat), sorts Nat.ltb (fun l => Some (insertion (by_key Nat.ltb) l)) l) /\
  insert Nat.ltb moved self_moved (fun l => Some (insertion (by_key Nat.ltb) l)) [(2, 20)] [(1, 10); (3, 30)] = Some m' /\
  element_of (equivalent Nat.ltb) m' 3 = Some (3, 0).
Proof.
  exists (fun e => (fst e, 0)), (fun e => (fst e, 0)), [(1, 10); (2, 20); (3, 0)]. split; [|split; [|split; reflexivity]].
  - intros [|i] [|j] a b Hij Ha Hb; try lia; [destruct j; discriminate | destruct i; discriminate].
  - assert (Hins : forall x (l : list (nat * nat)), ordered (by_key Nat.ltb) l ->
      Permutation (x :: l) (insert_by (by_key Nat.ltb) x l) /\ ordered (by_key Nat.ltb) (insert_by (by_key Nat.ltb) x l)).
    { intros x l. induction l as [|y l IH]; intros Ho; cbn [insert_by].
      - split; [reflexivity|]. apply SortLemmas.ordered_cons. split; [intros b [] | exact Ho].
      - destruct (by_key Nat.ltb y x) eqn:E.
        + apply SortLemmas.ordered_cons in Ho as (H1 & H2). destruct (IH H2) as (Hp & Ho). split.
          * rewrite perm_swap. apply perm_skip, Hp.
          * apply SortLemmas.ordered_cons. split; [|exact Ho]. intros b Hb. apply (Permutation_in _ (Permutation_sym Hp)) in Hb.
            destruct Hb as [<-|Hb]; [|auto]. unfold by_key in *. apply Nat.ltb_lt in E. apply Nat.ltb_ge. lia.
        + split; [reflexivity|]. apply SortLemmas.ordered_cons. split; [|exact Ho]. intros b [<-|Hb]; [exact E|].
          apply SortLemmas.ordered_cons in Ho as (H1 & _). specialize (H1 b Hb). unfold by_key in *. apply Nat.ltb_ge in E, H1. apply Nat.ltb_ge. lia. }
    assert (Hsort : forall l : list (nat * nat), sorting (by_key Nat.ltb) l (insertion (by_key Nat.ltb) l)).
    { intros l. induction l as [|x l (Hp & Ho)]; cbn [insertion fold_right]; [split; [reflexivity | intros i j a b _ Ha; destruct i; discriminate]|].
      fold (insertion (by_key Nat.ltb) l). destruct (Hins x _ Ho) as (H1 & H2). split; [|exact H2]. rewrite <- H1. apply perm_skip, Hp. }
    intros l. eexists. split; [reflexivity | apply Hsort].
Qed.
Print Assumptions C76_self_move_refuted.
Example C76_example : let sort := fun l => Some (insertion (by_key Nat.ltb) l) in
  insert Nat.ltb (fun e => (fst e, 0)) (fun e => e) sort [(2, 20); (5, 50); (7, 70)] [(6, 1); (5, 2); (6, 3); (9, 4); (1, 5)] =
    Some [(1, 5); (2, 20); (5, 50); (6, 1); (7, 70); (9, 4)] /\
  from_range Nat.eqb (fun e => (fst e, 0)) (fun e => e) sort [(6, 1); (5, 2); (6, 3); (9, 4); (1, 5)] = Some [(1, 5); (5, 2); (6, 1); (9, 4)] /\
  multi_insert Nat.ltb sort [(2, 20); (5, 50)] [(5, 1); (1, 2)] = Some [(1, 2); (2, 20); (5, 50); (5, 1)].
Proof. repeat split. Qed.

(** ** C77. upsert: the elements of a range with distinct keys that are in the map update it, and the others are inserted

    Missing, besides what C76 misses: it holds when every element that is in the map comes at a time when the elements so far, those of the map and then the new ones, are
    in order; in particular when all elements that are in the map come first. Otherwise an update may be lost (next theorem). *)
Theorem C77_upsert_partial : forall K M key_less moved self_moved ska_sort update (m other : list (K * M)), strict_weak_order key_less ->
  (forall e, self_moved e = e) -> flat key_less m -> distinct (equivalent key_less) other ->
  (forall l, incl l other -> length l <= length other -> sorts key_less ska_sort l) ->
  (forall l1 e l2, other = l1 ++ e :: l2 -> element_of (equivalent key_less) m (fst e) <> None ->
     multi_flat key_less (m ++ filter (fun e => match element_of (equivalent key_less) m (fst e) with None => true | Some _ => false end) l1)) ->
  exists m', upsert key_less moved self_moved ska_sort update m other = Some m' /\ flat key_less m' /\
    forall k, element_of (equivalent key_less) m' k =
      match element_of (equivalent key_less) m k, element_of (equivalent key_less) other k with
      | Some e, Some e' => Some (fst e, update (snd e) (snd e'))
      | Some e, None => Some e
      | None, o => o
      end.
Proof. intros K M key_less moved self_moved ska update m other Hlt. apply upsert_ok. exact Hlt. Qed.
Print Assumptions C77_upsert_partial.
(** When the range has only keys that are in the map, or none, or those in the map first. *)
Theorem C77_known_first_partial : forall K M key_less moved self_moved ska_sort update (m known new : list (K * M)), strict_weak_order key_less ->
  (forall e, self_moved e = e) -> flat key_less m -> distinct (equivalent key_less) (known ++ new) ->
  (forall e, In e known -> element_of (equivalent key_less) m (fst e) <> None) -> (forall e, In e new -> element_of (equivalent key_less) m (fst e) = None) ->
  (forall l, incl l (known ++ new) -> length l <= length (known ++ new) -> sorts key_less ska_sort l) ->
  exists m', upsert key_less moved self_moved ska_sort update m (known ++ new) = Some m' /\ flat key_less m' /\
    forall k, element_of (equivalent key_less) m' k =
      match element_of (equivalent key_less) m k, element_of (equivalent key_less) (known ++ new) k with
      | Some e, Some e' => Some (fst e, update (snd e) (snd e'))
      | Some e, None => Some e
      | None, o => o
      end.
Proof.
  intros K M key_less moved self_moved ska update m known new Hlt Hself Hm Hd Hk Hn Hs. apply C77_upsert_partial; auto.
  intros l1 e l2 Hl He.
  assert (Hl1 : forall a, In a l1 -> element_of (equivalent key_less) m (fst a) <> None).
  { intros a Ha. apply Hk. destruct (in_split _ _ Ha) as (x & y & ->).
    clear -Hl He Hn. rewrite <- app_assoc in Hl. cbn [app] in Hl. revert x Hl. induction known as [|b known IH]; intros x Hl.
    - exfalso. apply He. apply Hn. cbn [app] in Hl. rewrite Hl. apply in_or_app. right. right. apply in_or_app. right. now left.
    - destruct x as [|c x]; cbn [app] in Hl; injection Hl as -> Hl; [now left|]. right. eapply IH; eauto. }
  replace (filter _ l1) with (@nil (K * M)); [rewrite app_nil_r; apply flat_multi; auto|].
  clear Hl. induction l1 as [|a l1 IH]; [reflexivity|]. cbn [filter].
  destruct (element_of (equivalent key_less) m (fst a)) eqn:E; [apply IH; intros b Hb; apply Hl1; now right|].
  exfalso. apply (Hl1 a); [now left | exact E].
Qed.
Print Assumptions C77_known_first_partial.
(** In any order of the range: no element is lost and no other is changed, and an element of the map with a key of the range is updated once or left. *)
Theorem C77_upsert_any_partial : forall K M key_less moved self_moved ska_sort update (m other : list (K * M)), strict_weak_order key_less ->
  (forall e, self_moved e = e) -> flat key_less m -> distinct (equivalent key_less) other ->
  (forall l, incl l other -> length l <= length other -> sorts key_less ska_sort l) ->
  exists m', upsert key_less moved self_moved ska_sort update m other = Some m' /\ flat key_less m' /\
    forall k, match element_of (equivalent key_less) m k with
              | Some e => element_of (equivalent key_less) m' k = Some e \/
                          exists e', In e' other /\ equivalent key_less k (fst e') = true /\
                                     element_of (equivalent key_less) m' k = Some (fst e, update (snd e) (snd e'))
              | None => element_of (equivalent key_less) m' k = element_of (equivalent key_less) other k
              end.
Proof. intros K M key_less moved self_moved ska update m other Hlt. apply upsert_any. exact Hlt. Qed.
Print Assumptions C77_upsert_any_partial.
(** { 10: 1 } updated with { 5: 2, 10: 3 }: the search for 10 looks among 10, 5, in this order, and misses it, so that the update is lost. *)
Theorem C77_upsert_refuted : exists m', flat Nat.ltb [(10, 1)] /\ distinct (equivalent Nat.ltb) [(5, 2); (10, 3)] /\
  upsert Nat.ltb (fun e => e) (fun e => e) (fun l => Some (insertion (by_key Nat.ltb) l)) (fun _ new => new) [(10, 1)] [(5, 2); (10, 3)] = Some m' /\
  m' = [(5, 2); (10, 1)].
Proof.
  eexists. split; [|split; [|split; reflexivity]].
  - intros [|i] [|j] a b Hij Ha Hb; try lia; [destruct j; discriminate | destruct i; discriminate].
  - intros i j a b Ha Hb Hs. destruct i as [|[|i]]; [| |destruct i; discriminate]; (destruct j as [|[|j]]; [| |destruct j; discriminate]);
      try reflexivity; injection Ha as <-; injection Hb as <-; discriminate.
Qed.
Print Assumptions C77_upsert_refuted.
Example C77_example : upsert Nat.ltb (fun e => e) (fun e => e) (fun l => Some (insertion (by_key Nat.ltb) l)) Nat.add
  [(2, 20); (5, 50); (7, 70)] [(5, 1); (7, 2); (6, 3); (1, 4)] = Some [(1, 4); (2, 20); (5, 51); (6, 3); (7, 72)].
Proof. reflexivity. Qed.

(** ** C78. Linear maps: find, insert of one key, erase *)
Theorem C78_find : forall K M equal (m : list (K * M)) key,
  match element_of equal m key with
  | Some e => nth_error m (linear_find equal m key) = Some e
  | None => linear_find equal m key = length m
  end.
Proof.
  intros K M equal m key. destruct (linear_find_ok equal m key) as (H1 & H2). destruct (element_of equal m key); [exact H2|].
  apply nth_error_None in H2. lia.
Qed.
Print Assumptions C78_find.
Theorem C78_lazy_insert : forall K M equal (m : list (K * M)) key mapped, equivalence equal -> distinct equal m ->
  exists m' position inserted, linear_lazy_insert equal m key mapped = (m', position, inserted) /\ distinct equal m' /\
    match element_of equal m key with
    | Some e => inserted = false /\ m' = m /\ nth_error m position = Some e
    | None => inserted = true /\ m' = m ++ [(key, mapped)] /\ position = length m
    end.
Proof. intros K M equal m key mapped He. apply linear_lazy_insert_ok. exact He. Qed.
Print Assumptions C78_lazy_insert.
Theorem C78_erase : forall K M equal (m : list (K * M)) first last, equivalence equal -> distinct equal m -> first <= last <= length m ->
  distinct equal (linear_erase m first last) /\
  exists removed, m = firstn first m ++ removed ++ skipn last m /\ length removed = last - first /\
    linear_erase m first last = firstn first m ++ skipn last m.
Proof. intros K M equal m first last He. apply linear_erase_ok. exact He. Qed.
Print Assumptions C78_erase.

(** ** C79. Linear maps: making one from a range and inserting a range: no two elements have the same key, what was there stays at the beginning, and every key of
    the range is there with an element of the range *)
Theorem C79_from_range : forall K M equal (l : list (K * M)), equivalence equal ->
  exists r, linear_from_range equal l = Some r /\ distinct equal r /\ incl r l /\
    forall e, In e l -> exists e', In e' r /\ equal (fst e) (fst e') = true.
Proof. intros K M equal l He. apply linear_from_range_ok. exact He. Qed.
Print Assumptions C79_from_range.
Theorem C79_insert : forall K M equal (m init : list (K * M)), equivalence equal -> distinct equal m ->
  exists r, linear_insert equal m init = Some (m ++ r) /\ distinct equal (m ++ r) /\ incl r init /\
    forall e, In e init -> exists e', In e' (m ++ r) /\ equal (fst e) (fst e') = true.
Proof. intros K M equal m init He. apply linear_insert_ok. exact He. Qed.
Print Assumptions C79_insert.
(** But not always the first of the elements with the same key: from { 1: 1, 1: 2, 2: 3, 2: 4 } the map { 1: 1, 2: 4 } is made. *)
Theorem C79_first_refuted : exists l r, linear_from_range (M := nat) Nat.eqb l = Some r /\ element_of Nat.eqb l 2 = Some (2, 3) /\ element_of Nat.eqb r 2 = Some (2, 4).
Proof. exists [(1, 1); (1, 2); (2, 3); (2, 4)], [(1, 1); (2, 4)]. repeat split. Qed.
Print Assumptions C79_first_refuted.
Example C79_example : linear_insert Nat.eqb [(3, 1); (1, 2)] [(1, 5); (7, 6); (3, 7); (8, 8)] = Some [(3, 1); (1, 2); (8, 8); (7, 6)] /\
  linear_find Nat.eqb [(3, 1); (1, 2)] 1 = 1 /\ equivalence Nat.eqb /\ distinct Nat.eqb [(3, 1); (1, 2)].
Proof.
  repeat split.
  - intros a. apply Nat.eqb_refl.
  - apply Nat.eqb_sym.
  - intros a b c H1 H2. apply Nat.eqb_eq in H1, H2. apply Nat.eqb_eq. congruence.
  - intros i j a b Ha Hb Hs. destruct i as [|[|i]]; [| |destruct i; discriminate]; (destruct j as [|[|j]]; [| |destruct j; discriminate]);
      try reflexivity; injection Ha as <-; injection Hb as <-; discriminate.
Qed.
