(** * Properties C62 to C67: searching, partitioning, binary search, extreme elements, sort

    [range_is w b before l after] (SpecSort.v): in the world [w] the block [b] holds living objects with the values [l], between
    [before] and [after]. An iterator to element [i] of the range is the index [length before + i]. [unchanged w w']
    (SpecAlgo.v): memory is the same in both worlds. [ends r Q E] (SpecVec.v): the call [r] returns and then [Q], or leaves by an
    exception and then [E]; it never ends in a fault, such as reading outside the range. [w] ranges over all
    scripts, that is over every choice of which calls of the predicate or the comparison throw.
    [test_at (Some b) pr] calls the predicate [pr] with the object at an iterator. *)

From Coq Require Import List Arith Bool Lia Permutation.
From Verif Require Import Mem MemLemmas SpecVec Sort SpecSort PropsSort SpecAlgo Algo AlgoProofs3.
Import ListNotations.
Local Open Scope nat_scope.

(** ** C62. The find functions return the first, or the last, element that fulfils the predicate, and the end when there is none;
    all, any and none say whether all, some or no elements fulfil it. *)
Theorem C62_find_if : forall V (w : world V) b before l after pr first last,
  unused_names w -> range_is w b before l after -> first <= last <= length l ->
  ends (find_if (test_at (Some b) pr) (length before + first) (length before + last) tt w)
    (fun _ it w' => unchanged w w' /\ exists r, it = length before + r /\ first_with pr l first last r)
    (fun _ w' => someone_throws w /\ unchanged w w').
Proof. intros V w b before l after pr first last Hu Hr. exact (find_if_ok w b before l after Hu Hr pr first last). Qed.
Print Assumptions C62_find_if.
Theorem C62_find_if_not : forall V (w : world V) b before l after pr first last,
  unused_names w -> range_is w b before l after -> first <= last <= length l ->
  ends (find_if_not (test_at (Some b) pr) (length before + first) (length before + last) tt w)
    (fun _ it w' => unchanged w w' /\ exists r, it = length before + r /\ first_with (fun v => negb (pr v)) l first last r)
    (fun _ w' => someone_throws w /\ unchanged w w').
Proof. intros V w b before l after pr first last Hu Hr. exact (find_if_not_ok w b before l after Hu Hr pr first last). Qed.
Print Assumptions C62_find_if_not.
Theorem C62_find_last_if : forall V (w : world V) b before l after pr first last,
  unused_names w -> range_is w b before l after -> first <= last <= length l ->
  ends (find_last_if (test_at (Some b) pr) (length before + first) (length before + last) tt w)
    (fun _ it w' => unchanged w w' /\ exists r, it = length before + r /\ last_with pr l first last r)
    (fun _ w' => someone_throws w /\ unchanged w w').
Proof. intros V w b before l after pr first last Hu Hr. exact (find_last_if_ok w b before l after Hu Hr pr first last). Qed.
Print Assumptions C62_find_last_if.
Theorem C62_find_last_if_not : forall V (w : world V) b before l after pr first last,
  unused_names w -> range_is w b before l after -> first <= last <= length l ->
  ends (find_last_if_not (test_at (Some b) pr) (length before + first) (length before + last) tt w)
    (fun _ it w' => unchanged w w' /\ exists r, it = length before + r /\ last_with (fun v => negb (pr v)) l first last r)
    (fun _ w' => someone_throws w /\ unchanged w w').
Proof. intros V w b before l after pr first last Hu Hr. exact (find_last_if_not_ok w b before l after Hu Hr pr first last). Qed.
Print Assumptions C62_find_last_if_not.
(** find and find_last: the predicate is equality with a value. *)
Theorem C62_find : forall V (w : world V) b before l after eqb value first last,
  unused_names w -> range_is w b before l after -> first <= last <= length l ->
  ends (find eqb (Some b) value (length before + first) (length before + last) tt w)
    (fun _ it w' => unchanged w w' /\ exists r, it = length before + r /\ first_with (fun v => eqb v value) l first last r)
    (fun _ w' => someone_throws w /\ unchanged w w').
Proof. intros V w b before l after eqb value first last Hu Hr. exact (find_if_ok w b before l after Hu Hr _ first last). Qed.
Print Assumptions C62_find.
Theorem C62_find_last : forall V (w : world V) b before l after eqb value first last,
  unused_names w -> range_is w b before l after -> first <= last <= length l ->
  ends (find_last eqb (Some b) value (length before + first) (length before + last) tt w)
    (fun _ it w' => unchanged w w' /\ exists r, it = length before + r /\ last_with (fun v => eqb v value) l first last r)
    (fun _ w' => someone_throws w /\ unchanged w w').
Proof. intros V w b before l after eqb value first last Hu Hr. exact (find_last_if_ok w b before l after Hu Hr _ first last). Qed.
Print Assumptions C62_find_last.
Theorem C62_all : forall V (w : world V) b before l after pr, unused_names w -> range_is w b before l after ->
  ends (all (test_at (Some b) pr) (length before) (length before + length l) tt w)
    (fun _ r w' => unchanged w w' /\ (r = true <-> forall v, In v l -> pr v = true))
    (fun _ w' => someone_throws w /\ unchanged w w').
Proof. intros V w b before l after pr Hu Hr. exact (all_ok w b before l after Hu Hr pr). Qed.
Print Assumptions C62_all.
Theorem C62_any : forall V (w : world V) b before l after pr, unused_names w -> range_is w b before l after ->
  ends (any (test_at (Some b) pr) (length before) (length before + length l) tt w)
    (fun _ r w' => unchanged w w' /\ (r = true <-> exists v, In v l /\ pr v = true))
    (fun _ w' => someone_throws w /\ unchanged w w').
Proof. intros V w b before l after pr Hu Hr. exact (any_ok w b before l after Hu Hr pr). Qed.
Print Assumptions C62_any.
Theorem C62_none : forall V (w : world V) b before l after pr, unused_names w -> range_is w b before l after ->
  ends (none (test_at (Some b) pr) (length before) (length before + length l) tt w)
    (fun _ r w' => unchanged w w' /\ (r = true <-> ~ exists v, In v l /\ pr v = true))
    (fun _ w' => someone_throws w /\ unchanged w w').
Proof. intros V w b before l after pr Hu Hr. exact (none_ok w b before l after Hu Hr pr). Qed.
Print Assumptions C62_none.

Definition result_of {V X A} (r : out V X A) : option A := match r with Ret _ a _ => Some a | _ => None end.
Example C62_example :
  let w := one_range [3; 8; 5; 6; 7] [] in
  result_of (find_if (test_at (Some 0) Nat.even) 0 5 tt w) = Some 1 /\
  result_of (find_last_if (test_at (Some 0) Nat.even) 0 5 tt w) = Some 3 /\
  result_of (find_if_not (test_at (Some 0) Nat.odd) 2 3 tt w) = Some 3 /\
  result_of (find_last Nat.eqb (Some 0) 9 0 5 tt w) = Some 5 /\
  result_of (any (test_at (Some 0) (fun v => v =? 7)) 0 5 tt w) = Some true /\
  (exists w', find_if (test_at (Some 0) Nat.even) 0 5 tt (one_range [3; 8] [false; true]) = Exc tt w').
Proof. repeat split; try (vm_compute; reflexivity). eexists. vm_compute. reflexivity. Qed.

(** ** C63. partition moves the elements that fulfil the predicate to the front, keeps every element, and returns the first that does
    not; is_partitioned says whether a range is so. When the predicate throws no element is lost. *)
Theorem C63_partition : forall V (w : world V) b before l after pr, unused_names w -> range_is w b before l after ->
  ends (partition (Some b) (test_at (Some b) pr) (length before) (length before + length l) tt w)
    (fun _ it w' => unused_names w' /\ only_in b w w' /\ exists l' r, it = length before + r /\ range_is w' b before l' after /\
       Permutation l l' /\ splits pr l' r)
    (fun _ w' => someone_throws w /\ unused_names w' /\ only_in b w w' /\ exists l', range_is w' b before l' after /\ Permutation l l').
Proof. intros V w b before l after pr Hu Hr. exact (partition_ok w b before l after Hu Hr pr true). Qed.
Print Assumptions C63_partition.
(** The same for ranges whose end cannot be decremented. *)
Theorem C63_partition_forward : forall V (w : world V) b before l after pr, unused_names w -> range_is w b before l after ->
  ends (partition_forward (Some b) (test_at (Some b) pr) (length before) (length before + length l) tt w)
    (fun _ it w' => unused_names w' /\ only_in b w w' /\ exists l' r, it = length before + r /\ range_is w' b before l' after /\
       Permutation l l' /\ splits pr l' r)
    (fun _ w' => someone_throws w /\ unused_names w' /\ only_in b w w' /\ exists l', range_is w' b before l' after /\ Permutation l l').
Proof. intros V w b before l after pr Hu Hr. exact (partition_ok w b before l after Hu Hr pr false). Qed.
Print Assumptions C63_partition_forward.
Theorem C63_is_partitioned : forall V (w : world V) b before l after pr, unused_names w -> range_is w b before l after ->
  ends (is_partitioned (test_at (Some b) pr) (length before) (length before + length l) tt w)
    (fun _ r w' => unchanged w w' /\ (r = true <-> exists k, splits pr l k))
    (fun _ w' => someone_throws w /\ unchanged w w').
Proof. intros V w b before l after pr Hu Hr. exact (is_partitioned_ok w b before l after Hu Hr pr). Qed.
Print Assumptions C63_is_partitioned.
Example C63_example :
  let w := one_range [1; 2; 3; 4; 6] [] in
  result_of (partition (Some 0) (test_at (Some 0) Nat.even) 0 5 tt w) = Some 3 /\
  contents_of 0 (partition (Some 0) (test_at (Some 0) Nat.even) 0 5 tt w) = Some (map Some [6; 2; 4; 3; 1]) /\
  contents_of 0 (partition_forward (Some 0) (test_at (Some 0) Nat.even) 0 5 tt w) = Some (map Some [2; 4; 6; 1; 3]) /\
  result_of (is_partitioned (test_at (Some 0) Nat.even) 0 5 tt w) = Some false /\
  splits Nat.even [6; 2; 4; 3; 1] 3.
Proof.
  repeat split; try (vm_compute; reflexivity).
  - cbn. lia.
  - cbn. intros v [<-|[<-|[<-|[]]]]; reflexivity.
  - cbn. intros v [<-|[<-|[]]]; reflexivity.
Qed.

(** ** C64. On a partitioned range partition_point finds the border, with at most log2 n + 1 calls of the predicate; on a sorted range
    lower_bound, upper_bound, equal_range and binary_search find the place of a value. *)
Theorem C64_partition_point : forall V (w : world V) b before l after pr, unused_names w -> range_is w b before l after ->
  (exists k, splits pr l k) ->
  ends (partition_point (test_at (Some b) pr) (length before) (length l) tt w)
    (fun _ it w' => unchanged w w' /\ exists r, it = length before + r /\ splits pr l r)
    (fun _ w' => someone_throws w /\ unchanged w w').
Proof. intros V w b before l after pr Hu Hr. exact (partition_point_ok w b before l after Hu Hr pr). Qed.
Print Assumptions C64_partition_point.
(** The predicate is called at most [log2 n + 1] times, and not at all for an empty range: a later call would have to throw for
    an exception to leave. This holds of every range, partitioned or not. *)
Theorem C64_calls : forall V (w : world V) b before l after pr, range_is w b before l after ->
  (l <> [] -> forall i, i <= Nat.log2 (length l) -> nth i (script w) false = false) ->
  ends (partition_point (test_at (Some b) pr) (length before) (length l) tt w) (fun _ _ _ => True) (fun _ _ => False).
Proof.
  intros V w b before l after pr Hr Hs. apply (partition_point_calls w b before l after pr Hr).
  intros i Hi. destruct l as [|a l]; [cbn in Hi; lia|]. apply Hs; [discriminate|]. cbn [bits length] in *. lia.
Qed.
Print Assumptions C64_calls.
Theorem C64_lower_bound : forall V (w : world V) b before l after lt value, unused_names w -> range_is w b before l after ->
  strict_weak_order lt -> ordered lt l ->
  ends (lower_bound lt (Some b) value (length before) (length l) tt w)
    (fun _ it w' => unchanged w w' /\ exists r, it = length before + r /\ splits (fun v => lt v value) l r)
    (fun _ w' => someone_throws w /\ unchanged w w').
Proof. intros V w b before l after lt value Hu Hr. exact (lower_bound_ok w b before l after Hu Hr lt value). Qed.
Print Assumptions C64_lower_bound.
Theorem C64_upper_bound : forall V (w : world V) b before l after lt value, unused_names w -> range_is w b before l after ->
  strict_weak_order lt -> ordered lt l ->
  ends (upper_bound lt (Some b) value (length before) (length l) tt w)
    (fun _ it w' => unchanged w w' /\ exists r, it = length before + r /\ splits (fun v => negb (lt value v)) l r)
    (fun _ w' => someone_throws w /\ unchanged w w').
Proof. intros V w b before l after lt value Hu Hr. exact (upper_bound_ok w b before l after Hu Hr lt value). Qed.
Print Assumptions C64_upper_bound.
Theorem C64_equal_range : forall V (w : world V) b before l after lt value, unused_names w -> range_is w b before l after ->
  strict_weak_order lt -> ordered lt l ->
  ends (equal_range lt (Some b) value (length before) (length l) tt w)
    (fun _ its w' => unchanged w w' /\ exists r1 r2, its = (length before + r1, length before + r2) /\ r1 <= r2 /\
       splits (fun v => lt v value) l r1 /\ splits (fun v => negb (lt value v)) l r2)
    (fun _ w' => someone_throws w /\ unchanged w w').
Proof. intros V w b before l after lt value Hu Hr. exact (equal_range_ok w b before l after Hu Hr lt value). Qed.
Print Assumptions C64_equal_range.
Theorem C64_binary_search : forall V (w : world V) b before l after lt value, unused_names w -> range_is w b before l after ->
  strict_weak_order lt -> ordered lt l ->
  ends (binary_search lt (Some b) value (length before) (length l) tt w)
    (fun _ r w' => unchanged w w' /\ (r = true <-> exists v, In v l /\ equivalent lt v value = true))
    (fun _ w' => someone_throws w /\ unchanged w w').
Proof. intros V w b before l after lt value Hu Hr. exact (binary_search_ok w b before l after Hu Hr lt value). Qed.
Print Assumptions C64_binary_search.
Example C64_example :
  let w := one_range (keys [1; 3; 3; 3; 8]) [] in
  result_of (equal_range by_key (Some 0) (3, 77) 0 5 tt w) = Some (1, 4) /\
  result_of (binary_search by_key (Some 0) (4, 77) 0 5 tt w) = Some false /\
  ordered by_key (keys [1; 3; 3; 3; 8]) /\ strict_weak_order by_key.
Proof.
  split; [vm_compute; reflexivity|]. split; [vm_compute; reflexivity|]. split; [|exact by_key_weak].
  cbn. intros i j a c Hij. do 5 (destruct i as [|i]; [do 5 (destruct j as [|j]; [cbn; try lia; intros [= <-] [= <-]; reflexivity|]); destruct j; discriminate|]).
  destruct i; discriminate.
Qed.

(** ** C65. min_element returns the first of the smallest elements, max_element the last of the greatest; both return the end of an
    empty range. *)
Theorem C65_min_element : forall V (w : world V) b before l after lt, unused_names w -> range_is w b before l after -> strict_weak_order lt ->
  ends (min_element lt (Some b) (length before) (length l) tt w)
    (fun _ it w' => unchanged w w' /\ (l = [] -> it = length before) /\
       (l <> [] -> exists r m, it = length before + r /\ nth_error l r = Some m /\ (forall v, In v l -> lt v m = false) /\
          (forall i v, i < r -> nth_error l i = Some v -> lt m v = true)))
    (fun _ w' => someone_throws w /\ unchanged w w').
Proof. intros V w b before l after lt Hu Hr. exact (min_element_ok w b before l after Hu Hr lt). Qed.
Print Assumptions C65_min_element.
Theorem C65_max_element : forall V (w : world V) b before l after gt, unused_names w -> range_is w b before l after -> strict_weak_order gt ->
  ends (max_element gt (Some b) (length before) (length l) tt w)
    (fun _ it w' => unchanged w w' /\ (l = [] -> it = length before) /\
       (l <> [] -> exists r m, it = length before + r /\ nth_error l r = Some m /\ (forall v, In v l -> gt v m = false) /\
          (forall i v, r < i -> nth_error l i = Some v -> gt m v = true)))
    (fun _ w' => someone_throws w /\ unchanged w w').
Proof. intros V w b before l after gt Hu Hr. exact (max_element_ok w b before l after Hu Hr gt). Qed.
Print Assumptions C65_max_element.
Example C65_example :
  let w := one_range (keys [3; 1; 7; 1; 7; 4]) [] in
  result_of (min_element by_key (Some 0) 0 6 tt w) = Some 1 /\
  result_of (max_element (fun a c => by_key c a) (Some 0) 0 6 tt w) = Some 4.
Proof. split; vm_compute; reflexivity. Qed.

(** ** C66. iterator_partition moves the elements less than the one at [middle] to the front, and returns the first of the others. *)
Theorem C66_iterator_partition : forall V (w : world V) b before l after lt middle v, unused_names w -> range_is w b before l after ->
  strict_weak_order lt -> nth_error l middle = Some v ->
  ends (iterator_partition lt (Some b) (length before) (length before + middle) (length before + length l) tt w)
    (fun _ it w' => unused_names w' /\ only_in b w w' /\ exists l' r, it = length before + r /\ range_is w' b before l' after /\
       Permutation l l' /\ splits (fun u => lt u v) l' r)
    (fun _ w' => someone_throws w /\ unused_names w' /\ only_in b w w' /\ exists l', range_is w' b before l' after /\ Permutation l l').
Proof. intros V w b before l after lt middle v Hu Hr. exact (iterator_partition_ok w b before l after Hu Hr lt middle v). Qed.
Print Assumptions C66_iterator_partition.
Example C66_example :
  let w := one_range (keys [5; 9; 3; 4; 1; 2]) [] in
  result_of (iterator_partition by_key (Some 0) 0 3 6 tt w) = Some 3 /\
  contents_of 0 (iterator_partition by_key (Some 0) 0 3 6 tt w) = Some (map Some [(2, 5); (1, 4); (3, 2); (4, 3); (9, 1); (5, 0)]).
Proof. split; vm_compute; reflexivity. Qed.

(** ** C67. sort: the range is sorted afterwards, for every length and every comparison that is a strict weak ordering; a
    comparison that throws loses no element. std::make_heap and std::sort_heap, which the function calls when its recursion
    gets too deep, are the parameter [heap_sort], of which only what the C++ standard says is assumed. *)
Theorem C67_sort : forall V (moved : V -> V) (w : world V) b before l after lt heap_sort cheap,
  unused_names w -> range_is w b before l after -> strict_weak_order lt -> sorts_ranges lt heap_sort ->
  ends (new_sort moved heap_sort lt cheap (Some b) (length before) (length l) tt w)
    (fun _ _ w' => unused_names w' /\ only_in b w w' /\ exists l', range_is w' b before l' after /\ sorting lt l l')
    (fun _ w' => someone_throws w /\ unused_names w' /\ only_in b w w' /\ exists l', range_is w' b before l' after /\ Permutation l l').
Proof.
  intros V moved w b before l after lt hs cheap Hu Hr Hlt Hs. unfold new_sort.
  pose proof (new_sort_ok w b before l after Hu Hr moved lt hs cheap (2 * Nat.log2 (length l)) Hlt Hs) as K.
  unfold ends in *. destruct (introsort _ _ _ _ _ _ _ _ _ _); auto. tauto.
Qed.
Print Assumptions C67_sort.
(** However deep the recursion may go, including not at all. *)
Theorem C67_introsort : forall V (moved : V -> V) lt heap_sort cheap depth, strict_weak_order lt -> sorts_ranges (V := V) (X := unit) lt heap_sort ->
  sorts_ranges lt (introsort moved heap_sort lt cheap depth).
Proof.
  intros V moved lt hs cheap depth Hlt Hs [] w b before l after Hu Hr.
  pose proof (new_sort_ok w b before l after Hu Hr moved lt hs cheap depth Hlt Hs) as K.
  unfold ends in *. destruct (introsort _ _ _ _ _ _ _ _ _ _) as [[] ? ?|[] ?|?]; tauto.
Qed.
Print Assumptions C67_introsort.
(** There is such a [heap_sort]. *)
Example C67_heap_sort_exists : forall V (lt : V -> V -> bool), strict_weak_order lt -> sorts_ranges (X := unit) lt (selection_sort lt).
Proof. intros V lt Hlt. now apply selection_sorts. Qed.
Example C67_example :
  let l := keys [5; 9; 3; 4; 1; 2; 8; 3; 3; 7] in
  contents_of 0 (new_sort same_value (selection_sort by_key) by_key false (Some 0) 0 10 tt (one_range l [])) =
    Some (map Some [(1, 4); (2, 5); (3, 2); (3, 7); (3, 8); (4, 3); (5, 0); (7, 9); (8, 6); (9, 1)]).
Proof. vm_compute. reflexivity. Qed.
