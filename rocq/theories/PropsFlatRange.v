(** * Unique in memory, and flat maps from ranges: properties C145 and C146 *)

From Coq Require Import List Arith Bool Lia Permutation.
From Verif Require Import Mem SpecVec Vec SpecSort SpecUnique Unique UniqueProofs3 FlatMapProofs2 SpecMap Keyed FlatMemory FlatMemoryProofs2 UniqueMemory SpecFlatRange FlatRangeProofs.
From Verif Require PropsUnique PropsRadix FlatMap.
Import ListNotations.
Local Open Scope nat_scope.

(** [remains moved self_moved l v] (SpecFlatRange.v): [v] is one of the elements [l], or what is left of one that was moved from or moved to itself.
    [is_vector 0 maximum o l others w] (SpecVec.v): the vector [o] has the elements [l], all of them alive, and the rest of the memory is [others]. *)

(** ** C145: unique and unique_inplace_merge leave living elements in a container and give back their memory, whatever throws *)

(** unique returns the first element of each run of equal elements; when a comparison or an assignment throws, the container has as many elements as before. *)
Theorem C145_unique : forall V (moved self_moved : V -> V) equal maximum o l others w, equivalence equal -> is_vector 0 maximum o l others w ->
  ends (mem_unique moved self_moved equal (c_data (bounded_vector moved 0 maximum) o) 0 (length l) o w)
    (fun o' n w' => o' = o /\ exists rest, is_vector 0 maximum o (run_starts equal None l ++ rest) others w' /\
       n = length (run_starts equal None l) /\ length (run_starts equal None l ++ rest) = length l)
    (fun o' w' => o' = o /\ someone_throws w /\ exists all, is_vector 0 maximum o all others w' /\ length all = length l /\ Forall (remains moved self_moved l) all).
Proof.
  intros V moved self_moved equal maximum o l others w He Hv. destruct (PropsUnique.C71_unique V moved self_moved equal [l] 0 0 l He (array_self l)) as (h' & Hr & Hsh & Hat & _).
  destruct (shape_one _ _ Hsh) as (l' & -> & Hl'). pose proof (array_firstn _ _ Hat) as Hf.
  refine (FlatMemoryProofs2.ends_weaken _ _ _ _ _ (unique_vector moved self_moved maximum others equal o l w l' _ Hv Hr) _ _); cbv beta; [|auto].
  intros o' n w' (-> & -> & _ & Hv' & _). split; [reflexivity|]. exists (skipn (length (run_starts equal None l)) l').
  pose proof (firstn_skipn (length (run_starts equal None l)) l') as E. rewrite Hf in E. rewrite E. auto.
Qed.
Print Assumptions C145_unique.
(** unique_inplace_merge of two ordered parts. [uniques less l r] (SpecUnique.v): [r] has the first of the equivalent elements of [l], in order. When
    allocating, comparing or moving throws, the temporary memory has been given back and the container has as many elements as before. What is missing:
    an element that is changed by moving it to itself (C73), and elements may be lost (C145_lost_refuted). *)
Theorem C145_unique_inplace_merge_partial : forall V (moved self_moved : V -> V) less maximum o l1 l2 others w,
  strict_weak_order less -> (forall v, self_moved v = v) -> increasing less l1 -> ordered less l2 -> is_vector 0 maximum o (l1 ++ l2) others w ->
  ends (mem_unique_inplace_merge moved self_moved less (c_data (bounded_vector moved 0 maximum) o) 0 (length l1) (length (l1 ++ l2)) o w)
    (fun o' n w' => o' = o /\ exists r rest, is_vector 0 maximum o (r ++ rest) others w' /\ uniques less (l1 ++ l2) r /\ n = length r /\ length (r ++ rest) = length (l1 ++ l2))
    (fun o' w' => o' = o /\ someone_throws w /\
       exists all, is_vector 0 maximum o all others w' /\ length all = length (l1 ++ l2) /\ Forall (remains moved self_moved (l1 ++ l2)) all).
Proof.
  intros V moved self_moved less maximum o l1 l2 others w Hlt Hself H1 H2 Hv.
  destruct (inplace_merge_ok moved self_moved less Hlt l1 l2 [l1 ++ l2] 0 0) as (h' & r & Hr & HU & Hsh & Hat & _); [right; exact Hself|exact H1|exact H2|apply array_self|].
  destruct (shape_one _ _ Hsh) as (l' & -> & Hl'). pose proof (array_firstn _ _ Hat) as Hf.
  refine (FlatMemoryProofs2.ends_weaken _ _ _ _ _ (merge_vector moved self_moved maximum others less o l1 l2 w l' _ Hv Hr) _ _); cbv beta; [|auto].
  intros o' n w' (-> & -> & _ & Hv' & _). split; [reflexivity|]. exists r, (skipn (length r) l').
  pose proof (firstn_skipn (length r) l') as E. rewrite Hf in E. rewrite E. auto.
Qed.
Print Assumptions C145_unique_inplace_merge_partial.
(** A comparison throws while elements are in the temporary memory: they are lost. *)
Theorem C145_lost_refuted : exists l1 l2 o (w : world nat), is_vector 0 9 o (l1 ++ l2) (fun _ => None) w /\ In 2 l1 /\
  match mem_unique_inplace_merge (fun _ => 0) (fun v => v) Nat.ltb (c_data (bounded_vector (fun _ => 0) 0 9) o) 0 (length l1) (length (l1 ++ l2)) o w with
  | Exc o' w' => exists all, is_vector 0 9 o' all (fun _ => None) w' /\ ~ In 2 all
  | _ => False
  end.
Proof.
  exists [2], [1], (BVector (Storage (Some 0) 2) 2), (World (fun b => if b =? 0 then Some [Some 2; Some 1] else None) 1 [false; false; true]).
  assert (Hv : forall (l : list nat) s n h, (forall b, h b = if b =? 0 then Some (map Some l) else None) -> length l = 2 -> 1 <= n ->
    is_vector 0 9 (BVector (Storage (Some 0) 2) 2) l (fun _ => None) (World h n s)).
  { intros l s n h Hh Hl Hn. split; [split; [cbn; lia|]|].
    - cbn. split; [reflexivity|]. split; [exists 0; rewrite Hh, app_nil_r; cbn; repeat split; lia|]. intros b Hb. now rewrite Hh, (proj2 (Nat.eqb_neq b 0) Hb).
    - intros b Hb. cbn in *. rewrite Hh, (proj2 (Nat.eqb_neq b 0)); [reflexivity|lia]. }
  split; [|split; [now left|]].
  - apply Hv; [intros b; reflexivity|reflexivity|lia].
  - cbn. exists [0; 1]. split; [|cbn; intuition lia]. apply Hv; [intros [|[|b]]; reflexivity|reflexivity|vm_compute; lia].
Qed.
Print Assumptions C145_lost_refuted.
Example C145_example :
  let w s := World (fun b => if b =? 0 then Some [Some 2; Some 5; Some 7; Some 1; Some 5; Some 6; Some 6] else None) 1 s in
  let o := BVector (Storage (Some 0) 7) 7 in let C := bounded_vector (fun _ => 0) 0 9 in
  is_vector 0 9 o ([2; 5; 7] ++ [1; 5; 6; 6]) (fun _ => None) (w []) /\ increasing Nat.ltb [2; 5; 7] /\ ordered Nat.ltb [1; 5; 6; 6] /\ equivalence Nat.eqb /\
  match mem_unique_inplace_merge (fun _ => 0) (fun v => v) Nat.ltb (c_data C o) 0 3 7 o (w []) with
  | Ret _ n w' => n = 5 /\ option_map (firstn 5) (heap w' 0) = Some (map Some [1; 2; 5; 6; 7]) /\ heap w' 1 = None
  | _ => False
  end /\
  match mem_unique (fun _ => 0) (fun v => v) Nat.eqb (c_data C o) 0 7 o (w []) with
  | Ret _ n w' => n = 6 /\ option_map (firstn 6) (heap w' 0) = Some (map Some [2; 5; 7; 1; 5; 6])
  | _ => False
  end.
Proof.
  cbv zeta. split; [|split; [|split; [|split; [|vm_compute; repeat split]]]].
  - split; [split; [reflexivity|]|].
    + cbn. split; [reflexivity|]. split; [exists 0; repeat split; cbn; lia|]. intros b Hb. now rewrite (proj2 (Nat.eqb_neq b 0) Hb).
    + intros b Hb. cbn in *. rewrite (proj2 (Nat.eqb_neq b 0)); [reflexivity|lia].
  - intros [|[|[|[|]]]] [|[|[|[|]]]] a b Hij Ha Hb; try lia; try discriminate; cbn in *; injection Ha as <-; injection Hb as <-; reflexivity.
  - intros [|[|[|[|[|]]]]] [|[|[|[|[|]]]]] a b Hij Ha Hb; try lia; try discriminate; cbn in *; injection Ha as <-; injection Hb as <-; reflexivity.
  - split; [apply Nat.eqb_refl|]. split; [apply Nat.eqb_sym|]. intros a b c. rewrite !Nat.eqb_eq. congruence.
Qed.

(** ** C146: a flat map has a usable container after inserting a range, and a map is made from a range, whatever throws *)

(** [interrupted l] is what the sort function leaves of [l] when it throws: as many elements, each of them one of [l] or what is left of one. *)

(** Inserting a range whose size is known. When it returns, each element that was there is there, and of the others one for each key. When it throws
    before the elements were appended, nothing has happened. Afterwards, there are as many elements as in both together, all alive. What is missing: the
    map need not be in order then (C146_insert_refuted). *)
Theorem C146_insert_partial : forall K T (moved self_moved : K * T -> K * T) key_less ska_sort interrupted maximum o m elements others w,
  strict_weak_order key_less -> (forall l, length (interrupted l) = length l /\ Forall (remains moved self_moved l) (interrupted l)) ->
  (forall e, self_moved e = e) -> sorts key_less ska_sort elements -> 1 <= maximum -> is_vector 0 maximum o m others w -> flat key_less m ->
  ends (mem_flat_insert moved self_moved key_less ska_sort interrupted (bounded_vector moved 0 maximum) true elements o w)
    (fun o' _ w' => exists m', is_vector 0 maximum o' m' others w' /\ flat key_less m' /\
       forall k, match element_of (equivalent key_less) m k with
                 | Some e => element_of (equivalent key_less) m' k = Some e
                 | None => match element_of (equivalent key_less) m' k with
                           | Some e => In e elements /\ equivalent key_less k (fst e) = true
                           | None => forall e, In e elements -> equivalent key_less k (fst e) = false
                           end
                 end)
    (fun o' w' => (is_vector 0 maximum o' m others w' /\ o' = o /\
                     (someone_throws w \/ capacity_of o < length m + length elements /\ maximum < grown o (length m + length elements))) \/
                  (someone_throws w /\ exists all, is_vector 0 maximum o' all others w' /\ length all = length (m ++ elements) /\
                     Forall (remains moved self_moved (m ++ elements)) all)).
Proof.
  intros K T moved self_moved key_less ska_sort interrupted maximum o m elements others w Hlt Hi Hself Hs H1 Hv Hm.
  exact (flat_insert_vector moved self_moved key_less ska_sort interrupted Hlt Hi maximum o m elements others w H1 Hself Hm Hs Hv).
Qed.
Print Assumptions C146_insert_partial.
(** The constructor from a range whose size is known: one element for each key, or it throws and all memory is given back. *)
Theorem C146_from_range : forall K T (moved self_moved : K * T -> K * T) key_less key_equal ska_sort interrupted maximum elements w,
  strict_weak_order key_less -> (forall a b, key_equal a b = equivalent key_less a b) ->
  (forall l, length (interrupted l) = length l /\ Forall (remains moved self_moved l) (interrupted l)) -> sorts key_less ska_sort elements ->
  unused_names w -> length elements <= maximum ->
  ends (mem_flat_from moved self_moved key_equal ska_sort interrupted maximum elements tt w)
    (fun _ o w' => exists m, is_vector 0 maximum o m (heap w) w' /\ flat key_less m /\
       forall k, match element_of (equivalent key_less) m k with
                 | Some e => In e elements /\ equivalent key_less k (fst e) = true
                 | None => forall e, In e elements -> equivalent key_less k (fst e) = false
                 end)
    (fun _ w' => same (heap w') (heap w) /\ someone_throws w).
Proof.
  intros K T moved self_moved key_less key_equal ska_sort interrupted maximum elements w Hlt He Hi Hs Hu Hl.
  exact (flat_from_vector moved self_moved key_less key_equal ska_sort interrupted Hlt Hi maximum elements w He Hu Hl Hs).
Qed.
Print Assumptions C146_from_range.
Definition zeros (e : nat * nat) : nat * nat := (0, 0).
Definition sorted_by_key (l : list (nat * nat)) : option (list (nat * nat)) := Some (PropsRadix.insertion (by_key Nat.ltb) l).
(** There is no memory for the temporary elements: the new element is behind the one that was there, which cannot be found anymore. *)
Theorem C146_insert_refuted : exists (m elements : list (nat * nat)) o w,
  is_vector 0 20 o m (fun _ => None) w /\ flat Nat.ltb m /\ element_of (equivalent Nat.ltb) m 2 = Some (2, 20) /\
  match mem_flat_insert zeros (fun e => e) Nat.ltb sorted_by_key (fun l => l) (bounded_vector zeros 0 20) true elements o w with
  | Exc o' w' => match session (mem_act zeros Nat.ltb (bounded_vector zeros 0 20)) [Lookup 2; Size] o' w' with
                 | Ret _ seen _ => seen = [Some (Found None); Some (Number 2)]
                 | _ => False
                 end
  | _ => False
  end.
Proof.
  exists [(2, 20)], [(1, 10)], (BVector (Storage (Some 0) 2) 1), (World (fun b => if b =? 0 then Some [Some (2, 20); None] else None) 1 [false; false; true]).
  split; [|split; [|split; [reflexivity|vm_compute; reflexivity]]].
  - split; [split; [reflexivity|]|].
    + cbn. split; [reflexivity|]. split; [exists 1; repeat split; cbn; lia|]. intros b Hb. now rewrite (proj2 (Nat.eqb_neq b 0) Hb).
    + intros b Hb. cbn in *. rewrite (proj2 (Nat.eqb_neq b 0)); [reflexivity|lia].
  - intros [|i] [|j] a b Hij Ha Hb; try lia; [destruct j; discriminate | destruct i; discriminate].
Qed.
Print Assumptions C146_insert_refuted.
Example C146_example :
  let w := World (fun b => if b =? 0 then Some [Some (2, 20); Some (5, 50)] else None) 1 [] in
  let o := BVector (Storage (Some 0) 2) 2 in
  is_vector 0 20 o [(2, 20); (5, 50)] (fun _ => None) w /\ flat Nat.ltb [(2, 20); (5, 50)] /\ sorts Nat.ltb sorted_by_key [(3, 1); (1, 2); (5, 3)] /\
  match mem_flat_insert zeros (fun e => e) Nat.ltb sorted_by_key (fun l => l) (bounded_vector zeros 0 20) true [(3, 1); (1, 2); (5, 3)] o w with
  | Ret o' _ w' => b_size o' = 4 /\ option_map (firstn 4) (heap w' 1) = Some (map Some [(1, 2); (2, 20); (3, 1); (5, 50)]) /\ heap w' 0 = None
  | _ => False
  end /\
  match mem_flat_from zeros (fun e => e) Nat.eqb sorted_by_key (fun l => l) 20 [(3, 1); (1, 2); (3, 5)] tt (World (fun _ => None) 0 []) with
  | Ret _ o' w' => b_size o' = 2 /\ option_map (firstn 2) (heap w' 0) = Some (map Some [(1, 2); (3, 1)])
  | _ => False
  end.
Proof.
  cbv zeta. split; [|split; [|split; [|vm_compute; repeat split]]].
  - split; [split; [reflexivity|]|].
    + cbn. split; [reflexivity|]. split; [exists 0; repeat split; cbn; lia|]. intros b Hb. now rewrite (proj2 (Nat.eqb_neq b 0) Hb).
    + intros b Hb. cbn in *. rewrite (proj2 (Nat.eqb_neq b 0)); [reflexivity|lia].
  - intros [|[|[|]]] [|[|[|]]] a b Hij Ha Hb; try lia; try discriminate; cbn in *; injection Ha as <-; injection Hb as <-; reflexivity.
  - exists [(1, 2); (3, 1); (5, 3)]. split; [reflexivity|]. split.
    + apply (Permutation_trans (l' := [(1, 2); (3, 1); (5, 3)])); [apply perm_swap|reflexivity].
    + intros [|[|[|[|]]]] [|[|[|[|]]]] a b Hij Ha Hb; try lia; try discriminate; cbn in *; injection Ha as <-; injection Hb as <-; reflexivity.
Qed.
