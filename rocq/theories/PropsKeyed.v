(** * Properties C118 and C119: erasing, inserting and looking up by key

    A map is the list of its elements (see PropsMap.v): [flat key_less m] is what a flat map is, [multi_flat key_less m] what a flat multimap is,
    [distinct equal m] what a linear map is (SpecMap.v). Two keys are the same for a flat map when neither is less than the other,
    [equivalent key_less], and for a linear map when they are equal. *)

From Coq Require Import List Arith Bool Lia.
From Verif Require Import Mem SpecVec SpecSort SpecUnique SpecAlgo FlatMap LinearMap SpecMap PropsMap Keyed SpecDict KeyedProofs Sort Algo AlgoProofs3 PropsSort PropsAlgo.
Import ListNotations.
Local Open Scope nat_scope.

(** ** C118. keyed_erase removes the elements with the key, and only them, leaves the others in their order and says how many it removed; for
    multimaps these may be many. maybe_find returns a pointer to the first element that fulfils the predicate, and null when there is none. *)
Theorem C118_keyed_erase : forall K M key_less (m : list (K * M)) key, strict_weak_order key_less -> flat key_less m ->
  exists m' n, keyed_erase key_less m key = Some (m', n) /\ flat key_less m' /\
    m' = filter (fun e => negb (equivalent key_less key (fst e))) m /\ n = length (filter (fun e => equivalent key_less key (fst e)) m) /\ n <= 1.
Proof.
  intros K M key_less m key Hlt Hm. destruct (keyed_erase_ok key_less Hlt m key Hm) as (m' & n & H1 & H2 & H3 & H4 & H5).
  exists m', n. repeat split; auto. rewrite H5. destruct (element_of _ m key); lia.
Qed.
Print Assumptions C118_keyed_erase.
Theorem C118_keyed_erase_multimap : forall K M key_less (m : list (K * M)) key, strict_weak_order key_less -> multi_flat key_less m ->
  exists m' n, multi_keyed_erase key_less m key = Some (m', n) /\ multi_flat key_less m' /\
    m' = filter (fun e => negb (equivalent key_less key (fst e))) m /\ n = length (filter (fun e => equivalent key_less key (fst e)) m).
Proof.
  intros K M key_less m key Hlt Hm. destruct (multi_keyed_erase_ok key_less Hlt m key Hm) as (m' & n & H1 & H2 & H3 & H4 & _). exists m', n. auto.
Qed.
Print Assumptions C118_keyed_erase_multimap.
Theorem C118_keyed_erase_linear_map : forall K M equal (m : list (K * M)) key, equivalence equal -> distinct equal m ->
  exists m' n, linear_keyed_erase equal m key = Some (m', n) /\ distinct equal m' /\
    m' = filter (fun e => negb (equal key (fst e))) m /\ n = length (filter (fun e => equal key (fst e)) m) /\ n <= 1.
Proof.
  intros K M equal m key He Hm. destruct (linear_keyed_erase_ok equal He m key Hm) as (m' & n & H1 & H2 & H3 & H4 & H5 & _).
  exists m', n. repeat split; auto. rewrite H5. destruct (element_of _ m key); lia.
Qed.
Print Assumptions C118_keyed_erase_linear_map.
Example C118_example :
  keyed_erase Nat.ltb [(2, 20); (5, 50); (7, 70)] 5 = Some ([(2, 20); (7, 70)], 1) /\ keyed_erase Nat.ltb [(2, 20); (5, 50)] 3 = Some ([(2, 20); (5, 50)], 0) /\
  multi_keyed_erase Nat.ltb [(2, 20); (5, 50); (5, 51); (5, 52); (7, 70)] 5 = Some ([(2, 20); (7, 70)], 3) /\
  multi_keyed_erase Nat.ltb [(2, 20); (5, 50)] 9 = Some ([(2, 20); (5, 50)], 0) /\
  linear_keyed_erase Nat.eqb [(5, 50); (2, 20); (7, 70)] 2 = Some ([(5, 50); (7, 70)], 1).
Proof. repeat split. Qed.
Theorem C118_maybe_find_if : forall V (w : world V) b before l after pr first last,
  unused_names w -> range_is w b before l after -> first <= last <= length l ->
  ends (maybe_find_if (test_at (Some b) pr) (length before + first) (length before + last) tt w)
    (fun _ found w' => unchanged w w' /\
       match found with
       | Some it => exists r, it = length before + r /\ r < last /\ first_with pr l first last r
       | None => forall i v, first <= i < last -> nth_error l i = Some v -> pr v = false
       end)
    (fun _ w' => someone_throws w /\ unchanged w w').
Proof.
  intros V w b before l after pr first last Hu Hr Hb. pose proof (C62_find_if V w b before l after pr first last Hu Hr Hb) as H.
  unfold maybe_find_if, bind, ends in *. destruct (find_if _ _ _ tt w) as [x it w'|x w'|]; auto. cbn [ret].
  destruct H as (H1 & r & -> & H2). split; [exact H1|]. destruct (Nat.eqb_spec (length before + r) (length before + last)) as [E|E].
  - assert (r = last) as -> by lia. apply H2.
  - exists r. split; [reflexivity|]. split; [|exact H2]. destruct H2 as (? & _). lia.
Qed.
Print Assumptions C118_maybe_find_if.
Theorem C118_maybe_find : forall V (w : world V) b before l after equal value first last,
  unused_names w -> range_is w b before l after -> first <= last <= length l ->
  ends (maybe_find equal (Some b) value (length before + first) (length before + last) tt w)
    (fun _ found w' => unchanged w w' /\
       match found with
       | Some it => exists r, it = length before + r /\ r < last /\ first_with (fun v => equal v value) l first last r
       | None => forall i v, first <= i < last -> nth_error l i = Some v -> equal v value = false
       end)
    (fun _ w' => someone_throws w /\ unchanged w w').
Proof. intros V w b before l after equal value. exact (C118_maybe_find_if V w b before l after (fun v => equal v value)). Qed.
Print Assumptions C118_maybe_find.
Example C118_maybe_find_example :
  result_of (maybe_find_if (test_at (Some 0) Nat.even) 0 3 tt (one_range [3; 8; 6] [])) = Some (Some 1) /\
  result_of (maybe_find Nat.eqb (Some 0) 7 0 3 tt (one_range [3; 8; 6] [])) = Some None.
Proof. repeat split. Qed.

(** ** C119. A flat map and a linear map are dictionaries

    Whatever sequence of insertions, erasures, lookups and questions for the size a program makes, starting with an empty map, the map gives the replies of the
    dictionary of SpecDict.v: a function from keys to values. So the two maps cannot be told apart, and nothing is undefined. *)
Theorem C119_flat_map : forall K M key_less (actions : list (action K M)), strict_weak_order key_less ->
  replies (flat_act key_less) [] actions = Some (dictionary_replies (equivalent key_less) no_entries actions).
Proof.
  intros K M key_less actions Hlt. apply flat_replies_ok; auto.
  - intros i j a b _ Ha. destruct i; discriminate.
  - split; reflexivity.
Qed.
Print Assumptions C119_flat_map.
Theorem C119_linear_map : forall K M equal (actions : list (action K M)), equivalence equal ->
  replies (linear_act equal) [] actions = Some (dictionary_replies equal no_entries actions).
Proof.
  intros K M equal actions He. apply linear_replies_ok; auto.
  - intros i j a b Ha. destruct i; discriminate.
  - split; reflexivity.
Qed.
Print Assumptions C119_linear_map.
(** The multimap is a function from keys to lists of values: the range of a key has all values that were inserted since the key was last erased, in the
    order of the insertions. *)
Theorem C119_multimap : forall K M key_less (actions : list (multi_action K M)), strict_weak_order key_less ->
  replies (multi_act key_less) [] actions = Some (multi_dictionary_replies (equivalent key_less) no_values actions).
Proof.
  intros K M key_less actions Hlt. apply multi_replies_ok; auto.
  - intros i j a b _ Ha. destruct i; discriminate.
  - split; reflexivity.
Qed.
Print Assumptions C119_multimap.
(** From a map with elements on. *)
Theorem C119_flat_map_from : forall K M key_less (m : list (K * M)) (actions : list (action K M)), strict_weak_order key_less -> flat key_less m ->
  replies (flat_act key_less) m actions =
  Some (dictionary_replies (equivalent key_less) {| value_of := fun k => option_map snd (element_of (equivalent key_less) m k); SpecDict.keys := length m |} actions).
Proof. intros K M key_less m actions Hlt Hm. apply flat_replies_ok; auto. split; reflexivity. Qed.
Print Assumptions C119_flat_map_from.
Example C119_example :
  replies (flat_act Nat.ltb) [] [Insert 5 50; Insert 2 20; Insert 5 51; Lookup 5; Size; Erase 5; Erase 9; Lookup 5; Insert 5 52; Lookup 5] =
    Some [Inserted true; Inserted true; Inserted false; Found (Some 50); Number 2; Erased 1; Erased 0; Found None; Inserted true; Found (Some 52)] /\
  replies (multi_act Nat.ltb) [] [MultiInsert 5 50; MultiInsert 2 20; MultiInsert 5 51; MultiLookup 5; MultiErase 5; MultiSize] =
    Some [MultiInserted; MultiInserted; MultiInserted; MultiFound [50; 51]; MultiErased 2; MultiNumber 1] /\
  strict_weak_order Nat.ltb /\ equivalence Nat.eqb.
Proof.
  split; [reflexivity|]. split; [reflexivity|]. split; [apply nat_order|]. split; [apply Nat.eqb_refl|]. split; [apply Nat.eqb_sym|].
  intros a b c. rewrite !Nat.eqb_eq. congruence.
Qed.
