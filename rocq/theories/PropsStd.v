(** * Properties C120 and C121: the vectors with the interface of the standard library

    [is_vector], [is_static_vector] and [ends] as in PropsVec.v. The value that is passed by reference is the object in cell [i] of the block
    [p]: [makes (heap w) (CopyOf p i) v] says that a living object with the value [v] is there. It may be an element of the vector. *)

From Coq Require Import List Arith Bool Lia.
From Verif Require Import Mem Vec SpecVec StdVec StdVecProofs PropsVec.
Import ListNotations.
Local Open Scope nat_scope.

(** ** C120. insert, resize and reserve take values by reference: the value may be an element of the vector itself. *)
Theorem C120_insert : forall V (moved : V -> V) minc maxc p i v o before rest others w,
  minc <= maxc -> is_vector minc maxc o (before ++ rest) others w -> makes (heap w) (CopyOf p i) v ->
  ends (std_insert moved (bounded_vector moved minc maxc) (length before) p i o w)
    (fun o' r w' => r = length before /\ is_vector minc maxc o' (before ++ [v] ++ rest) others w' /\
       capacity_of o' = grown o (length (before ++ [v] ++ rest)))
    (fun o' w' => untouched o o' w w' /\
       (someone_throws w \/ capacity_of o < length (before ++ [v] ++ rest) /\ maxc < grown o (length (before ++ [v] ++ rest)))).
Proof. intros V moved minc maxc p i v o l1 l2 others w Hmm. apply std_insert_vec. exact Hmm. Qed.
Print Assumptions C120_insert.
Theorem C120_insert_copies_partial : forall V (moved : V -> V) minc maxc count p i v o before rest others w,
  minc <= maxc -> is_vector minc maxc o (before ++ rest) others w -> makes (heap w) (CopyOf p i) v ->
  0 < count \/ rest = [] ->
  ends (std_insert_n moved (bounded_vector moved minc maxc) (length before) count p i o w)
    (fun o' r w' => r = length before /\ is_vector minc maxc o' (before ++ repeat v count ++ rest) others w' /\
       capacity_of o' = grown o (length (before ++ repeat v count ++ rest)))
    (fun o' w' => untouched o o' w w' /\
       (someone_throws w \/
        capacity_of o < length (before ++ repeat v count ++ rest) /\ maxc < grown o (length (before ++ repeat v count ++ rest)))).
Proof. intros V moved minc maxc count p i v o l1 l2 others w Hmm. apply std_insert_n_vec. exact Hmm. Qed.
Print Assumptions C120_insert_copies_partial.
(** The missing case is false: [v.insert(v.begin() + 1, 0, value)] must not change anything. *)
Theorem C120_insert_no_copies_refuted : exists o before rest others w p i v,
  is_vector 0 20 o (before ++ rest) others w /\ makes (heap w) (CopyOf p i) v /\ ~ someone_throws w /\
  std_insert_n forget (bounded_vector forget 0 20) (length before) 0 p i o w = Bad Overwrite.
Proof.
  exists roomy, [1], [2; 3], nothing, (alone (some123 ++ [None]) []), (Some 0), 2, 3. split; [exact (roomy_is_vector [])|].
  split; [eexists; now cbn|]. split; [intros []|reflexivity].
Qed.
Print Assumptions C120_insert_no_copies_refuted.
Theorem C120_resize : forall V (moved : V -> V) minc maxc count p i v o vs others w,
  minc < maxc -> is_vector minc maxc o vs others w -> makes (heap w) (CopyOf p i) v ->
  ends (std_resize moved (bounded_vector moved minc maxc) count p i o w)
    (fun o' _ w' => is_vector minc maxc o' (firstn count vs ++ repeat v (count - length vs)) others w')
    (fun o' w' => untouched o o' w w' /\ (someone_throws w \/ capacity_of o < count /\ maxc < grown o count)).
Proof. intros V moved minc maxc count p i v o vs others w Hmm. apply std_resize_vec; lia. Qed.
Print Assumptions C120_resize.
(** A call of reserve for more than max_size throws length_error and changes nothing. *)
Theorem C120_reserve : forall V (moved : V -> V) minc maxc n o vs others w,
  minc <= maxc -> is_vector minc maxc o vs others w ->
  ends (std_reserve moved minc maxc n o w)
    (fun o' _ w' => n <= maxc /\ is_vector minc maxc o' vs others w' /\ capacity_of o' = Nat.max n (capacity_of o))
    (fun o' w' => untouched o o' w w' /\ (someone_throws w \/ maxc < n)).
Proof. intros V moved minc maxc n o vs others w Hmm. apply std_reserve_vec. exact Hmm. Qed.
Print Assumptions C120_reserve.

(** The same for inplace_vector. *)
Theorem C120_inplace_insert : forall V (moved : V -> V) capacity p i v o before rest others w,
  is_static_vector capacity o (before ++ rest) others w -> makes (heap w) (CopyOf p i) v ->
  ends (std_insert moved (static_vector capacity) (length before) p i o w)
    (fun o' r w' => r = length before /\ is_static_vector capacity o' (before ++ [v] ++ rest) others w')
    (fun o' w' => untouched o o' w w' /\ (someone_throws w \/ capacity < length (before ++ [v] ++ rest))).
Proof. exact @std_insert_svec. Qed.
Print Assumptions C120_inplace_insert.
Theorem C120_inplace_insert_copies_partial : forall V (moved : V -> V) capacity count p i v o before rest others w,
  is_static_vector capacity o (before ++ rest) others w -> makes (heap w) (CopyOf p i) v -> 0 < count \/ rest = [] ->
  ends (std_insert_n moved (static_vector capacity) (length before) count p i o w)
    (fun o' r w' => r = length before /\ is_static_vector capacity o' (before ++ repeat v count ++ rest) others w')
    (fun o' w' => untouched o o' w w' /\ (someone_throws w \/ capacity < length (before ++ repeat v count ++ rest))).
Proof. exact @std_insert_n_svec. Qed.
Print Assumptions C120_inplace_insert_copies_partial.
Theorem C120_inplace_resize_partial : forall V (moved : V -> V) capacity count p i v o vs others w,
  is_static_vector capacity o vs others w -> makes (heap w) (CopyOf p i) v -> count <= capacity ->
  ends (std_resize moved (static_vector capacity) count p i o w)
    (fun o' _ w' => is_static_vector capacity o' (firstn count vs ++ repeat v (count - length vs)) others w')
    (fun o' w' => untouched o o' w w' /\ someone_throws w).
Proof. exact @std_resize_svec. Qed.
Print Assumptions C120_inplace_resize_partial.
(** The missing case is false: resize to more than the capacity must throw bad_alloc, but the number of new elements is compared with the
    whole capacity, not with the room that is left. With capacity 4 and three elements, resize(6, value) writes behind the array. *)
Theorem C120_inplace_resize_refuted : exists capacity count o vs others w p i v,
  is_static_vector capacity o vs others w /\ makes (heap w) (CopyOf p i) v /\ capacity < count /\ ~ someone_throws w /\
  std_resize forget (static_vector capacity) count p i o w = Bad Outside.
Proof.
  exists 4, 6, (SVector 0 3), [1; 2; 3], nothing, (alone (some123 ++ [None]) []), (Some 0), 2, 3. split; [exact (static_is_vector [])|].
  split; [eexists; now cbn|]. split; [lia|]. split; [intros []|reflexivity].
Qed.
Print Assumptions C120_inplace_resize_refuted.
(** A pointer to the new element, or null and no change when the vector is full *)
Theorem C120_try_push_back : forall V (moved : V -> V) capacity mk v o vs others w,
  is_static_vector capacity o vs others w -> makes (heap w) mk v ->
  ends (try_push_back moved capacity mk o w)
    (fun o' r w' => (length vs < capacity /\ r = Some (length vs) /\ is_static_vector capacity o' (vs ++ [v]) others w') \/
       (length vs = capacity /\ r = None /\ o' = o /\ w' = w))
    (fun o' w' => untouched o o' w w' /\ someone_throws w).
Proof. exact @try_push_back_svec. Qed.
Print Assumptions C120_try_push_back.
Theorem C120_unchecked_push_back : forall V (moved : V -> V) capacity mk v o vs others w,
  is_static_vector capacity o vs others w -> makes (heap w) mk v -> length vs < capacity ->
  ends (unchecked_push_back moved capacity mk o w)
    (fun o' _ w' => is_static_vector capacity o' (vs ++ [v]) others w')
    (fun o' w' => untouched o o' w w' /\ someone_throws w).
Proof. exact @unchecked_push_back_svec. Qed.
Print Assumptions C120_unchecked_push_back.
Theorem C120_inplace_reserve : forall V capacity n o (w : world V),
  inplace_reserve capacity n o w = if n <=? capacity then Ret o tt w else Exc o w.
Proof. intros V capacity n o w. unfold inplace_reserve. destruct (Nat.ltb_spec capacity n), (Nat.leb_spec n capacity); try lia; reflexivity. Qed.
Print Assumptions C120_inplace_reserve.

(** Compare [C32_own_element_refuted]: the same calls with containers::vector. *)
Example C120_example :
  is_vector 0 20 roomy ([] ++ [1; 2; 3]) nothing (alone (some123 ++ [None]) []) /\
  makes (heap (alone (some123 ++ [None]) [])) (CopyOf (bv_data roomy) 2) 3 /\
  match std_insert forget (bounded_vector forget 0 20) 0 (bv_data roomy) 2 roomy (alone (some123 ++ [None]) []) with
  | Ret _ r w' => r = 0 /\ heap w' 0 = Some [Some 3; Some 1; Some 2; Some 3] /\ heap w' 1 = None
  | _ => False
  end /\
  match std_insert_n forget (bounded_vector forget 0 20) 1 2 (bv_data roomy) 0 roomy (alone (some123 ++ [None]) []) with
  | Ret _ r w' => r = 1 /\ heap w' 2 = Some [Some 1; Some 1; Some 1; Some 2; Some 3; None; None; None] /\ heap w' 0 = None /\ heap w' 1 = None
  | _ => False
  end /\
  match std_resize forget (bounded_vector forget 0 20) 5 (bv_data full) 1 full (alone some123 []) with
  | Ret _ _ w' => heap w' 1 = Some [Some 1; Some 2; Some 3; Some 2; Some 2; None] /\ heap w' 0 = None
  | _ => False
  end /\
  match std_insert forget (static_vector 4) 0 (Some 0) 0 (SVector 0 3) (alone (some123 ++ [None]) []) with
  | Ret _ r w' => r = 0 /\ heap w' 0 = Some [Some 1; Some 1; Some 2; Some 3] /\ heap w' 1 = None
  | _ => False
  end /\
  match try_push_back forget 4 (CopyOf (Some 0) 1) (SVector 0 3) (alone (some123 ++ [None]) []) with
  | Ret _ r w' => r = Some 3 /\ heap w' 0 = Some [Some 1; Some 2; Some 3; Some 2]
  | _ => False
  end.
Proof. split; [exact (roomy_is_vector [])|]. split; [eexists; now cbn|]. vm_compute. repeat split. Qed.

(** ** C121. Reading from rbegin() to rend() gives the elements in the opposite order: false for every vector that is not empty. rbegin() is the
    begin, so the first step reads the element before it. *)
Theorem C121_vector_refuted : forall V (moved : V -> V) minc maxc o vs others w,
  is_vector minc maxc o vs others w ->
  read_in_reverse (bounded_vector moved minc maxc) o w = if length vs =? 0 then Ret o [] w else Bad Outside.
Proof.
  intros V moved minc maxc o vs others w [(H & _) _]. destruct (Nat.eqb_spec (length vs) 0) as [E|E].
  - unfold read_in_reverse, bind, get. cbn [bounded_vector c_size reverse_loop]. unfold rend. cbn [bounded_vector c_size]. rewrite H, E. reflexivity.
  - apply reverse_bad. cbn [bounded_vector c_size]. lia.
Qed.
Print Assumptions C121_vector_refuted.
Theorem C121_inplace_vector_refuted : forall V capacity o (vs : list V) others w,
  is_static_vector capacity o vs others w ->
  read_in_reverse (static_vector capacity) o w = if length vs =? 0 then Ret o [] w else Bad Outside.
Proof.
  intros V capacity o vs others w [(H & _) _]. destruct (Nat.eqb_spec (length vs) 0) as [E|E].
  - unfold read_in_reverse, bind, get. cbn [static_vector c_size reverse_loop]. unfold rend. cbn [static_vector c_size]. rewrite H, E. reflexivity.
  - apply reverse_bad. cbn [static_vector c_size]. lia.
Qed.
Print Assumptions C121_inplace_vector_refuted.
(** With the two exchanged it is true. *)
Theorem C121_exchanged : forall V (moved : V -> V) minc maxc o vs others w,
  is_vector minc maxc o vs others w ->
  reverse_loop (bounded_vector moved minc maxc) (S (length vs)) (rend (bounded_vector moved minc maxc) o) (rbegin o) [] o w = Ret o (rev vs) w.
Proof.
  intros V moved minc maxc o vs others w [(H & Hs) _]. unfold rend, rbegin. cbn [bounded_vector c_size]. rewrite H, (reverse_good _ o w vs), firstn_all; auto.
  intros i v Hi. cbn [bounded_vector c_data]. unfold bv_data, load, find_cell. destruct (u_pointer (b_storage o)) as [b|].
  - destruct Hs as (_ & (spare & -> & _) & _). rewrite nth_error_app1 by (rewrite map_length; apply nth_error_Some; congruence).
    now rewrite (map_nth_error Some _ _ Hi).
  - destruct Hs as (-> & _). now destruct i.
Qed.
Print Assumptions C121_exchanged.
Example C121_example :
  is_vector 0 20 full [1; 2; 3] nothing (alone some123 []) /\
  read_in_reverse (bounded_vector forget 0 20) full (alone some123 []) = Bad Outside /\
  (match reverse_loop (bounded_vector forget 0 20) 4 3 0 [] full (alone some123 []) with Ret _ l _ => l = [3; 2; 1] | _ => False end).
Proof. split; [exact (full_is_vector [])|]. split; vm_compute; reflexivity. Qed.
