(** * Properties C30 to C45: vector and static_vector

    [is_vector minc maxc o vs others w] (SpecVec.v): in the world [w] the object [o] is a vector with
    the elements [vs], and all other memory is [others]. [vector<T>] is [minc = 0]; a capacity range in
    the type gives [minc] and [maxc]. [ends r Q E]: the call [r] returns and then [Q], or leaves by an
    exception and then [E]; it never ends in a fault (undefined behaviour, leak, double destruction).
    [w] ranges over all scripts, that is over every choice of which operations throw. [moved] is what is left
    of a value that was moved from: any function. *)

From Coq Require Import List Arith Bool Lia.
From Verif Require Import Mem Vec SpecVec SpecHistory MemLemmas VecLemmas VecInst VecProofs VecProofs2 VecProofs3 VecProofs4 VecProofs5 VecHistory.
Import ListNotations.

(** ** Concrete worlds for the examples: one block with the given cells. *)
Definition alone (cells : list (option nat)) (s : list bool) : world nat :=
  World (fun b => if b =? 0 then Some cells else None) 1 s.
Definition nothing : memory (V := nat) := fun _ => None.
Definition forget (n : nat) : nat := 0.
Definition some123 : list (option nat) := [Some 1; Some 2; Some 3].
(** 1, 2, 3 with room for one more; 1, 2, 3 with no more room. *)
Definition roomy : bvector := BVector (Storage (Some 0) 4) 3.
Definition full : bvector := BVector (Storage (Some 0) 3) 3.
Definition two (cells cells' : list (option nat)) (s : list bool) : world nat :=
  World (fun b => if b =? 0 then Some cells else if b =? 1 then Some cells' else None) 2 s.

Ltac alone_tac :=
  split; [split; [reflexivity|cbn]|intros b Hb; cbn in *; destruct b; [lia|reflexivity]];
  split; [reflexivity|split; [|intros b Hb; now destruct b]].
Example roomy_is_vector s : is_vector 0 20 roomy [1; 2; 3] nothing (alone (some123 ++ [None]) s).
Proof. alone_tac. exists 1. cbn. repeat split; lia. Qed.
Example full_is_vector s : is_vector 0 20 full [1; 2; 3] nothing (alone some123 s).
Proof. alone_tac. exists 0. cbn. repeat split; lia. Qed.
Example static_is_vector s : is_static_vector 4 (SVector 0 3) [1; 2; 3] nothing (alone (some123 ++ [None]) s).
Proof.
  split; [|intros b Hb; cbn in *; destruct b; [lia|reflexivity]]. split; [reflexivity|]. split; [reflexivity|].
  split; [|intros b Hb; now destruct b]. exists 1. cbn. auto.
Qed.
Ltac two_tac :=
  exists (fun b => if b =? 0 then Some some123 else None); split;
  [split; [reflexivity|cbn; split; [reflexivity|split; [|intros b Hb; now destruct b]]]
  |split; [split; [reflexivity|cbn; split; [reflexivity|split; [|intros b Hb; now destruct b as [|[|b]]]]]
          |intros b Hb; cbn in *; destruct b as [|[|b]]; (lia || reflexivity)]].
Example two_are_vectors s : two_vectors 0 20 full [1; 2; 3] (BVector (Storage (Some 1) 2) 1) [7] nothing (two some123 [Some 7; None] s).
Proof. two_tac; [exists 0|exists 1]; cbn; repeat split; lia. Qed.
Example two_are_static_vectors s :
  two_static_vectors 3 (SVector 0 3) [1; 2; 3] (SVector 1 1) [7] nothing (two some123 [Some 7; None; None] s).
Proof.
  exists (fun b => if b =? 0 then Some some123 else None). split; [|split].
  - split; [reflexivity|]. split; [reflexivity|]. split; [exists 0; now cbn|]. intros b Hb. now destruct b.
  - split; [reflexivity|]. split; [reflexivity|]. split; [exists 2; now cbn|]. intros b Hb. now destruct b as [|[|b]].
  - intros b Hb. cbn in *. destruct b as [|[|b]]; (lia || reflexivity).
Qed.

(** ** C30. push_back and emplace_back add one element at the end or change nothing. The new element may
    be made from an element of the vector itself. *)
Theorem C30_push_back : forall V (moved : V -> V) minc maxc mk v o vs others w,
  minc <= maxc -> is_vector minc maxc o vs others w -> makes (heap w) mk v ->
  length vs < capacity_of o \/ minc = maxc \/ 1 <= maxc /\ 2 * length vs <= maxc ->
  ends (push_back moved (bounded_vector moved minc maxc) mk o w)
    (fun o' _ w' => is_vector minc maxc o' (vs ++ [v]) others w' /\ capacity_of o' = grown o (length (vs ++ [v])))
    (fun o' w' => untouched o o' w w' /\ (someone_throws w \/ minc = maxc /\ length vs = maxc)).
Proof. intros V moved minc maxc mk v o vs others w Hmm. apply push_back_vec. exact Hmm. Qed.
Print Assumptions C30_push_back.

(** A copy of its own first element into a full vector; the same when the allocation throws. *)
Example C30_example :
  let w s := alone some123 s in
  (forall s, is_vector 0 20 full [1; 2; 3] nothing (w s)) /\ makes (heap (w [])) (CopyOf (Some 0) 0) 1 /\
  match push_back forget (bounded_vector forget 0 20) (CopyOf (Some 0) 0) full (w []) with
  | Ret o' _ w' => capacity_of o' = 6 /\ heap w' 1 = Some [Some 1; Some 2; Some 3; Some 1; None; None] /\ heap w' 0 = None
  | _ => False
  end /\
  match push_back forget (bounded_vector forget 0 20) (CopyOf (Some 0) 0) full (w [true]) with
  | Exc o' w' => o' = full /\ heap w' 0 = Some some123 /\ heap w' 1 = None
  | _ => False
  end.
Proof.
  cbv zeta. split; [exact full_is_vector|]. split. { exists some123. now cbn. } vm_compute. repeat split.
Qed.

(** ** C31. Removing elements removes exactly them, keeps the order of the rest, frees nothing else and never throws. *)
Theorem C31_pop_back : forall V (moved : V -> V) minc maxc o vs v others w,
  minc <= maxc -> is_vector minc maxc o (vs ++ [v]) others w ->
  ends (pop_back (bounded_vector moved minc maxc) o w)
    (fun o' _ w' => is_vector minc maxc o' vs others w' /\ capacity_of o' = capacity_of o) (fun _ _ => False).
Proof. intros V moved minc maxc o vs v others w Hmm. apply pop_back_vec. exact Hmm. Qed.
Print Assumptions C31_pop_back.

Theorem C31_clear : forall V (moved : V -> V) minc maxc o vs others w,
  minc <= maxc -> is_vector minc maxc o vs others w ->
  ends (clear (bounded_vector moved minc maxc) o w)
    (fun o' _ w' => is_vector minc maxc o' [] others w' /\ capacity_of o' = capacity_of o) (fun _ _ => False).
Proof. intros V moved minc maxc o vs others w Hmm. apply clear_vec. exact Hmm. Qed.
Print Assumptions C31_clear.

(** The elements [ds] lie between the two positions. *)
Theorem C31_erase : forall V (moved : V -> V) minc maxc o before ds rest others w,
  minc <= maxc -> is_vector minc maxc o (before ++ ds ++ rest) others w ->
  ends (erase moved (bounded_vector moved minc maxc) (length before) (length before + length ds) o w)
    (fun o' r w' => r = length before /\ is_vector minc maxc o' (before ++ rest) others w' /\ capacity_of o' = capacity_of o)
    (fun _ _ => False).
Proof. intros V moved minc maxc o before ds rest others w Hmm. apply erase_vec. exact Hmm. Qed.
Print Assumptions C31_erase.

Theorem C31_erase_to_end : forall V (moved : V -> V) minc maxc o before rest others w,
  minc <= maxc -> is_vector minc maxc o (before ++ rest) others w ->
  ends (erase_to_end (bounded_vector moved minc maxc) (length before) o w)
    (fun o' _ w' => is_vector minc maxc o' before others w' /\ capacity_of o' = capacity_of o) (fun _ _ => False).
Proof. intros V moved minc maxc o before rest others w Hmm. apply erase_to_end_vec. exact Hmm. Qed.
Print Assumptions C31_erase_to_end.

Example C31_example :
  is_vector 0 20 roomy ([1] ++ [2] ++ [3]) nothing (alone (some123 ++ [None]) []) /\
  match erase forget (bounded_vector forget 0 20) 1 2 roomy (alone (some123 ++ [None]) []) with
  | Ret o' r w' => r = 1 /\ o' = BVector (Storage (Some 0) 4) 2 /\ heap w' 0 = Some [Some 1; Some 3; None; None]
  | _ => False
  end.
Proof. split; [exact (roomy_is_vector [])|]. vm_compute. repeat split. Qed.

(** ** C32. insert puts the new elements at the position, in order, or changes nothing. The new elements
    are not made from the vector itself ([makes others]); for an empty range the position is the end. *)
Theorem C32_insert : forall V (moved : V -> V) minc maxc mks us o before rest others w,
  minc <= maxc -> is_vector minc maxc o (before ++ rest) others w -> Forall2 (makes others) mks us ->
  mks <> [] \/ rest = [] ->
  ends (insert moved (bounded_vector moved minc maxc) (length before) mks o w)
    (fun o' r w' => r = length before /\ is_vector minc maxc o' (before ++ us ++ rest) others w' /\
       capacity_of o' = grown o (length (before ++ us ++ rest)))
    (fun o' w' => untouched o o' w w' /\
       (someone_throws w \/ capacity_of o < length (before ++ us ++ rest) /\ maxc < grown o (length (before ++ us ++ rest)))).
Proof. intros V moved minc maxc mks us o l1 l2 others w Hmm. apply insert_vec. exact Hmm. Qed.
Print Assumptions C32_insert.

Example C32_example :
  is_vector 0 20 full ([1] ++ [2; 3]) nothing (alone some123 []) /\
  match insert forget (bounded_vector forget 0 20) 1 [Supply 8; Supply 9] full (alone some123 []) with
  | Ret o' r w' => r = 1 /\ capacity_of o' = 6 /\ heap w' 1 = Some [Some 1; Some 8; Some 9; Some 2; Some 3; None] /\ heap w' 0 = None
  | _ => False
  end /\
  match insert forget (bounded_vector forget 0 20) 1 [Supply 8; Supply 9] full (alone some123 [false; true]) with
  | Exc o' w' => o' = full /\ heap w' 0 = Some some123 /\ heap w' 1 = None
  | _ => False
  end.
Proof. split; [exact (full_is_vector [])|]. vm_compute. repeat split. Qed.

(** [v.insert(v.begin() + 1, empty)] when there is room: an element is constructed over itself. *)
Theorem C32_empty_range_refuted : exists o before rest others w,
  is_vector 0 20 o (before ++ rest) others w /\ ~ someone_throws w /\
  insert forget (bounded_vector forget 0 20) (length before) [] o w = Bad Overwrite.
Proof.
  exists roomy, [1], [2; 3], nothing, (alone (some123 ++ [None]) []). split; [exact (roomy_is_vector [])|]. split; [intros []|reflexivity].
Qed.
Print Assumptions C32_empty_range_refuted.
(** [v.insert(v.begin(), v.back())] when there is room inserts another element;
    [v.insert(v.begin(), v.front())] reads an object that is no longer there. *)
Theorem C32_own_element_refuted :
  (exists o vs others w i v, is_vector 0 20 o vs others w /\ ~ someone_throws w /\
     makes (heap w) (CopyOf (bv_data o) i) v /\
     match insert forget (bounded_vector forget 0 20) 0 [CopyOf (bv_data o) i] o w with
     | Ret o' _ w' => exists u rest, u <> v /\ is_vector 0 20 o' (u :: rest) others w'
     | _ => False
     end) /\
  (exists o vs others w i v, is_vector 0 20 o vs others w /\ ~ someone_throws w /\
     makes (heap w) (CopyOf (bv_data o) i) v /\
     insert forget (bounded_vector forget 0 20) 0 [CopyOf (bv_data o) i] o w = Bad Dead).
Proof.
  split; exists roomy, [1; 2; 3], nothing, (alone (some123 ++ [None]) []).
  - exists 2, 3. split; [exact (roomy_is_vector [])|]. split; [intros []|]. split. { eexists. now cbn. }
    cbn. exists 2, [1; 2; 3]. split; [discriminate|]. split; [|intros b Hb; cbn in *; destruct b; [lia|reflexivity]].
    split; [reflexivity|]. cbn. split; [reflexivity|]. split; [|intros b Hb; now destruct b]. exists 0. cbn. repeat split; lia.
  - exists 0, 1. split; [exact (roomy_is_vector [])|]. split; [intros []|]. split. { eexists. now cbn. } reflexivity.
Qed.
Print Assumptions C32_own_element_refuted.

(** ** C33. append adds all elements in order, or changes nothing; they may come from the vector itself. *)
Theorem C33_append : forall V (moved : V -> V) minc maxc mks us o vs others w,
  minc < maxc -> is_vector minc maxc o vs others w -> Forall2 (makes (heap w)) mks us ->
  ends (append moved (bounded_vector moved minc maxc) (Source mks true) o w)
    (fun o' _ w' => is_vector minc maxc o' (vs ++ us) others w' /\ capacity_of o' = grown o (length (vs ++ us)))
    (fun o' w' => untouched o o' w w' /\
       (someone_throws w \/ capacity_of o < length (vs ++ us) /\ maxc < grown o (length (vs ++ us)))).
Proof. intros V moved minc maxc mks us o vs others w Hlt. apply append_vec; auto with arith. Qed.
Print Assumptions C33_append.

(** From a range whose size is not known in advance: one by one. *)
Theorem C33_append_unsized : forall V (moved : V -> V) minc maxc mks us o vs others w,
  minc < maxc -> is_vector minc maxc o vs others w -> Forall2 (makes others) mks us -> 2 * (length vs + length us) <= maxc ->
  ends (append moved (bounded_vector moved minc maxc) (Source mks false) o w)
    (fun o' _ w' => is_vector minc maxc o' (vs ++ us) others w')
    (fun o' w' => someone_throws w /\ exists n, n < length us /\ is_vector minc maxc o' (vs ++ firstn n us) others w').
Proof. intros V moved minc maxc mks us o vs others w Hlt. apply append_unsized_vec; auto with arith. Qed.
Print Assumptions C33_append_unsized.

(** A vector appended to itself. *)
Example C33_example :
  let w s := alone some123 s in
  let own := map (CopyOf (Some 0)) [0; 1; 2] in
  is_vector 0 20 full [1; 2; 3] nothing (w []) /\ Forall2 (makes (heap (w []))) own [1; 2; 3] /\
  match append forget (bounded_vector forget 0 20) (Source own true) full (w []) with
  | Ret o' _ w' => heap w' 1 = Some [Some 1; Some 2; Some 3; Some 1; Some 2; Some 3] /\ heap w' 0 = None
  | _ => False
  end /\
  match append forget (bounded_vector forget 0 20) (Source own true) full (w [false; false; true]) with
  | Exc o' w' => o' = full /\ heap w' 0 = Some some123 /\ heap w' 1 = None
  | _ => False
  end.
Proof.
  cbv zeta. split; [exact (full_is_vector [])|]. split. { repeat constructor; eexists; now cbn. } vm_compute. repeat split.
Qed.

(** ** C34. resize, reserve and shrink_to_fit *)
Theorem C34_resize : forall V (moved : V -> V) minc maxc mk v new_size o vs others w,
  minc < maxc -> is_vector minc maxc o vs others w -> makes others mk v ->
  ends (resize moved (bounded_vector moved minc maxc) new_size mk o w)
    (fun o' _ w' => is_vector minc maxc o' (firstn new_size vs ++ repeat v (new_size - length vs)) others w')
    (fun o' w' => untouched o o' w w' /\ (someone_throws w \/ capacity_of o < new_size /\ maxc < grown o new_size)).
Proof. intros V moved minc maxc mk v n o vs others w Hlt. apply resize_vec; auto with arith. Qed.
Print Assumptions C34_resize.

Theorem C34_reserve : forall V (moved : V -> V) minc maxc n o vs others w,
  minc <= maxc -> is_vector minc maxc o vs others w -> n <= maxc ->
  ends (bv_reserve moved minc maxc n o w)
    (fun o' _ w' => is_vector minc maxc o' vs others w' /\ capacity_of o' = Nat.max n (capacity_of o))
    (fun o' w' => untouched o o' w w' /\ someone_throws w).
Proof. intros V moved minc maxc n o vs others w Hmm. apply reserve_vec. exact Hmm. Qed.
Print Assumptions C34_reserve.

Theorem C34_shrink_to_fit : forall V (moved : V -> V) minc maxc o vs others w,
  minc < maxc -> is_vector minc maxc o vs others w ->
  ends (shrink_to_fit moved (bounded_vector moved minc maxc) minc o w)
    (fun o' _ w' => is_vector minc maxc o' vs others w' /\ capacity_of o' = Nat.max minc (length vs))
    (fun o' w' => untouched o o' w w' /\ someone_throws w).
Proof. intros V moved minc maxc o vs others w Hlt. apply shrink_vec; auto with arith. Qed.
Print Assumptions C34_shrink_to_fit.

Example C34_example :
  is_vector 0 20 roomy [1; 2; 3] nothing (alone (some123 ++ [None]) []) /\
  match resize forget (bounded_vector forget 0 20) 5 (Supply 9) roomy (alone (some123 ++ [None]) []) with
  | Ret o' _ w' => b_size o' = 5 /\ capacity_of o' = 8 /\ heap w' 1 = Some [Some 1; Some 2; Some 3; Some 9; Some 9; None; None; None]
  | _ => False
  end /\
  match shrink_to_fit forget (bounded_vector forget 0 20) 0 roomy (alone (some123 ++ [None]) []) with
  | Ret o' _ w' => b_size o' = 3 /\ capacity_of o' = 3 /\ heap w' 0 = None
  | _ => False
  end /\
  match bv_reserve forget 0 20 7 roomy (alone (some123 ++ [None]) [true]) with
  | Exc o' w' => o' = roomy /\ heap w' 0 = Some (some123 ++ [None])
  | _ => False
  end.
Proof. split; [exact (roomy_is_vector [])|]. vm_compute. repeat split. Qed.

(** ** C35. Copies are equal and independent; moves hand over the elements; swap exchanges them. *)
Theorem C35_copy : forall V (moved : V -> V) minc maxc o vs others w,
  minc <= maxc -> is_vector minc maxc o vs others w ->
  ends (bv_copy moved minc maxc o tt w)
    (fun _ c w' => is_vector minc maxc c vs (heap w) w' /\ capacity_of c = Nat.max (length vs) minc)
    (fun _ w' => same (heap w') (heap w) /\ someone_throws w).
Proof. intros V moved minc maxc o vs others w Hmm. apply copy_vec. exact Hmm. Qed.
Print Assumptions C35_copy.

Theorem C35_move : forall V minc maxc o (vs : list V) others w,
  is_vector minc maxc o vs others w ->
  is_vector minc maxc (fst (bv_move o)) vs others w /\ capacity_of (fst (bv_move o)) = capacity_of o /\ moved_from (snd (bv_move o)).
Proof. intros V. exact move_vec. Qed.
Print Assumptions C35_move.

Theorem C35_move_assign : forall V minc maxc o (vs : list V) t us others w,
  two_vectors minc maxc o vs t us others w ->
  ends (bv_move_assign (V := V) (o, t) w)
    (fun p _ w' => is_vector minc maxc (fst p) us others w' /\ capacity_of (fst p) = capacity_of t /\ moved_from (snd p))
    (fun _ _ => False).
Proof.
  intros V minc maxc o vs t us others w H. apply (move_assign_vec (fun v => v) minc maxc) with (vs := vs); auto.
  destruct H as (m & H & _). eapply vec_bounds; exact H.
Qed.
Print Assumptions C35_move_assign.

Theorem C35_swap : forall V minc maxc o (vs : list V) t us others w,
  two_vectors minc maxc o vs t us others w ->
  ends (bv_swap (V := V) (o, t) w)
    (fun p _ w' => w' = w /\ two_vectors minc maxc (fst p) us (snd p) vs others w') (fun _ _ => False).
Proof. intros V. exact swap_vec. Qed.
Print Assumptions C35_swap.

(** Elements that are not trivially copyable, capacity not fixed by the type; after an exception the target
    holds some of the new elements followed by the old ones. *)
Theorem C35_copy_assign : forall V (moved : V -> V) minc maxc o vs t us others w,
  minc < maxc -> two_vectors minc maxc o vs t us others w -> u_pointer (b_storage o) <> None ->
  ends (bv_copy_assign moved minc maxc false t o w)
    (fun o' _ w' => two_vectors minc maxc o' us t us others w')
    (fun o' w' => (someone_throws w \/ capacity_of o < length us /\ maxc < grown o (length us)) /\
       exists n, n <= length vs /\ n <= length us /\ two_vectors minc maxc o' (firstn n us ++ skipn n vs) t us others w').
Proof. intros V moved minc maxc o vs t us others w Hlt. apply copy_assign_vec; auto with arith. Qed.
Print Assumptions C35_copy_assign.

Example C35_example :
  let t := BVector (Storage (Some 1) 2) 1 in
  let w := two some123 [Some 7; None] [] in
  two_vectors 0 20 full [1; 2; 3] t [7] nothing w /\
  match bv_copy_assign forget 0 20 false full t w with
  | Ret o' _ w' => b_size o' = 3 /\ heap w' 0 = Some some123 /\ heap w' 1 = None /\
      heap w' 2 = Some [Some 1; Some 2; Some 3; None]
  | _ => False
  end /\
  match bv_move_assign (V := nat) (full, t) w with
  | Ret (o', t') _ w' => o' = t /\ moved_from t' /\ heap w' 0 = None /\ heap w' 1 = Some [Some 7; None]
  | _ => False
  end.
Proof. cbv zeta. split; [exact (two_are_vectors [])|]. vm_compute. repeat split. Qed.

(** ** C36. static_vector: the same operations never touch memory outside the object and throw when it is full. *)
Theorem C36_push_back : forall V (moved : V -> V) capacity mk v o vs others w,
  is_static_vector capacity o vs others w -> makes (heap w) mk v ->
  ends (push_back moved (static_vector capacity) mk o w)
    (fun o' _ w' => length vs < capacity /\ is_static_vector capacity o' (vs ++ [v]) others w')
    (fun o' w' => untouched o o' w w' /\ (someone_throws w \/ length vs = capacity)).
Proof. intros V moved. exact (push_back_svec moved). Qed.
Print Assumptions C36_push_back.

Theorem C36_pop_back : forall V capacity o (vs : list V) v others w,
  is_static_vector capacity o (vs ++ [v]) others w ->
  ends (pop_back (static_vector capacity) o w) (fun o' _ w' => is_static_vector capacity o' vs others w') (fun _ _ => False).
Proof. intros V. exact pop_back_svec. Qed.
Print Assumptions C36_pop_back.

Theorem C36_clear : forall V capacity o (vs : list V) others w,
  is_static_vector capacity o vs others w ->
  ends (clear (static_vector capacity) o w) (fun o' _ w' => is_static_vector capacity o' [] others w') (fun _ _ => False).
Proof. intros V. exact clear_svec. Qed.
Print Assumptions C36_clear.

Theorem C36_erase : forall V (moved : V -> V) capacity o before ds rest others w,
  is_static_vector capacity o (before ++ ds ++ rest) others w ->
  ends (erase moved (static_vector capacity) (length before) (length before + length ds) o w)
    (fun o' r w' => r = length before /\ is_static_vector capacity o' (before ++ rest) others w') (fun _ _ => False).
Proof. intros V moved. exact (erase_svec moved). Qed.
Print Assumptions C36_erase.

Theorem C36_insert : forall V (moved : V -> V) capacity mks us o before rest others w,
  is_static_vector capacity o (before ++ rest) others w -> Forall2 (makes others) mks us -> mks <> [] \/ rest = [] ->
  ends (insert moved (static_vector capacity) (length before) mks o w)
    (fun o' r w' => r = length before /\ is_static_vector capacity o' (before ++ us ++ rest) others w')
    (fun o' w' => untouched o o' w w' /\ (someone_throws w \/ capacity < length (before ++ us ++ rest))).
Proof. intros V moved. exact (insert_svec moved). Qed.
Print Assumptions C36_insert.

(** Only when the elements fit, or when there are more new elements than the whole capacity. *)
Theorem C36_append_partial : forall V (moved : V -> V) capacity mks us o vs others w,
  is_static_vector capacity o vs others w -> Forall2 (makes (heap w)) mks us ->
  length vs + length us <= capacity \/ capacity < length us ->
  ends (append moved (static_vector capacity) (Source mks true) o w)
    (fun o' _ w' => is_static_vector capacity o' (vs ++ us) others w')
    (fun o' w' => untouched o o' w w' /\ (someone_throws w \/ capacity < length us)).
Proof.
  intros V moved capacity mks us o vs others w Hv Hm [Hfit|Hlong].
  - eapply ends_weaken; [exact (append_svec moved capacity mks us o vs others w Hv Hm Hfit)| |]; cbv beta; auto.
    intros o' w' [H1 H2]. auto.
  - rewrite (append_too_long_svec moved capacity mks o vs others w Hv).
    + split; auto. split; auto. split; [intros b; reflexivity|]. exact (proj2 Hv).
    + replace (length mks) with (length us); auto. clear - Hm. induction Hm; cbn; auto.
Qed.
Print Assumptions C36_append_partial.

(** Two elements appended to two elements in a static_vector of capacity three: written past its end.
    The same for resize and for assign of a longer range. *)
Theorem C36_append_refuted :
  (exists capacity o vs mks others w, is_static_vector capacity o vs others w /\ ~ someone_throws w /\
     append forget (static_vector capacity) (Source mks true) o w = Bad Outside) /\
  (exists capacity o vs n others w, is_static_vector capacity o vs others w /\ ~ someone_throws w /\
     resize forget (static_vector capacity) n (Supply 9) o w = Bad Outside) /\
  (exists capacity o vs mks others w, is_static_vector capacity o vs others w /\ ~ someone_throws w /\
     assign forget (static_vector capacity) false false (Source mks true) o w = Bad Outside).
Proof.
  split; [|split]; exists 4, (SVector 0 3), [1; 2; 3].
  - exists [Supply 4; Supply 5], nothing, (alone (some123 ++ [None]) []).
    split; [exact (static_is_vector [])|]. split; [intros []|]. reflexivity.
  - exists 6, nothing, (alone (some123 ++ [None]) []).
    split; [exact (static_is_vector [])|]. split; [intros []|]. reflexivity.
  - exists (map Supply [4; 5; 6; 7; 8]), nothing, (alone (some123 ++ [None]) []).
    split; [exact (static_is_vector [])|]. split; [intros []|]. reflexivity.
Qed.
Print Assumptions C36_append_refuted.

Theorem C36_resize_partial : forall V (moved : V -> V) capacity mk v new_size o vs others w,
  is_static_vector capacity o vs others w -> makes others mk v -> new_size <= capacity ->
  ends (resize moved (static_vector capacity) new_size mk o w)
    (fun o' _ w' => is_static_vector capacity o' (firstn new_size vs ++ repeat v (new_size - length vs)) others w')
    (fun o' w' => untouched o o' w w' /\ someone_throws w).
Proof. intros V moved. exact (resize_svec moved). Qed.
Print Assumptions C36_resize_partial.

Theorem C36_copy : forall V (moved : V -> V) capacity o vs others w,
  is_static_vector capacity o vs others w ->
  ends (sv_copy moved capacity o tt w)
    (fun _ c w' => is_static_vector capacity c vs (heap w) w')
    (fun _ w' => same (heap w') (heap w) /\ someone_throws w).
Proof. intros V moved. exact (copy_svec moved). Qed.
Print Assumptions C36_copy.

Theorem C36_move : forall V (moved : V -> V) capacity o vs others w,
  is_static_vector capacity o vs others w ->
  ends (sv_move moved capacity o w)
    (fun o' c w' => two_static_vectors capacity o' [] c vs others w')
    (fun _ _ => False).
Proof. intros V moved. exact (move_svec moved). Qed.
Print Assumptions C36_move.

(** After an exception the first elements may have been assigned; trivially copyable elements are all gone. *)
Theorem C36_copy_assign : forall V (moved : V -> V) capacity trivial o vs t us others w,
  two_static_vectors capacity o vs t us others w ->
  ends (sv_copy_assign moved capacity trivial t o w)
    (fun o' _ w' => two_static_vectors capacity o' us t us others w')
    (fun o' w' => someone_throws w /\
       exists n, n <= length vs /\ n <= length us /\ (trivial = true -> n = 0) /\
         two_static_vectors capacity o' (firstn n us ++ (if trivial then [] else skipn n vs)) t us others w').
Proof. intros V moved. exact (copy_assign_svec moved). Qed.
Print Assumptions C36_copy_assign.

(** The source keeps as many elements as it had, each moved from. *)
Theorem C36_move_assign : forall V (moved : V -> V) capacity o vs t us others w,
  two_static_vectors capacity o vs t us others w ->
  ends (sv_move_assign moved capacity t o w)
    (fun o' _ w' => two_static_vectors capacity o' us t (map moved us) others w')
    (fun _ _ => False).
Proof. intros V moved. exact (move_assign_svec moved). Qed.
Print Assumptions C36_move_assign.

Theorem C36_swap : forall V (moved : V -> V) capacity o vs t us others w,
  two_static_vectors capacity o vs t us others w ->
  ends (sv_swap moved (o, t) w)
    (fun p _ w' => two_static_vectors capacity (fst p) us (snd p) vs others w' /\
       v_place (fst p) = v_place o /\ v_place (snd p) = v_place t)
    (fun _ _ => False).
Proof. intros V moved. exact (swap_svec moved). Qed.
Print Assumptions C36_swap.

Theorem C36_construct : forall V (moved : V -> V) capacity fits mks us w,
  unused_names w -> Forall2 (makes (heap w)) mks us -> length us <= capacity \/ fits = false ->
  ends (sv_from moved capacity fits (Source mks true) tt w)
    (fun _ o w' => is_static_vector capacity o us (heap w) w')
    (fun _ w' => same (heap w') (heap w) /\ (someone_throws w \/ capacity < length us)).
Proof. intros V moved. exact (from_svec moved). Qed.
Print Assumptions C36_construct.

Theorem C36_destroy : forall V capacity o (vs : list V) others w,
  is_static_vector capacity o vs others w ->
  ends (sv_destroy capacity o w) (fun _ _ w' => same (heap w') others) (fun _ _ => False).
Proof. intros V. exact destroy_svec. Qed.
Print Assumptions C36_destroy.

Example C36_example :
  let w s := alone (some123 ++ [None]) s in
  is_static_vector 4 (SVector 0 3) [1; 2; 3] nothing (w []) /\
  match insert forget (static_vector 4) 1 [Supply 9] (SVector 0 3) (w []) with
  | Ret o' r w' => r = 1 /\ v_size o' = 4 /\ heap w' 0 = Some [Some 1; Some 9; Some 2; Some 3]
  | _ => False
  end /\
  match insert forget (static_vector 4) 1 [Supply 8; Supply 9] (SVector 0 3) (w []) with
  | Exc o' w' => o' = SVector 0 3 /\ heap w' 0 = Some (some123 ++ [None])
  | _ => False
  end /\
  match sv_swap forget (SVector 0 3, SVector 1 1) (two some123 [Some 7; None; None] []) with
  | Ret (o', t') _ w' => o' = SVector 0 1 /\ t' = SVector 1 3 /\ heap w' 0 = Some [Some 7; None; None] /\ heap w' 1 = Some some123
  | _ => False
  end.
Proof. cbv zeta. split; [exact (static_is_vector [])|]. vm_compute. repeat split. Qed.

(** ** C37. erase_if removes exactly the elements that satisfy the predicate; when the predicate throws the
    vector still holds as many elements as before. The result counts the elements kept after the first
    removed one. *)
Theorem C37_erase_if : forall V (moved : V -> V) minc maxc p o vs others w,
  minc <= maxc -> is_vector minc maxc o vs others w ->
  ends (erase_if moved (bounded_vector moved minc maxc) p o w)
    (fun o' r w' => is_vector minc maxc o' (without p vs) others w' /\
       exists before after, vs = before ++ after /\ without p before = before /\
         match after with [] => True | v :: _ => p v = true end /\ r = length (without p after))
    (fun o' w' => someone_throws w /\ exists us, length us = length vs /\ is_vector minc maxc o' us others w').
Proof. intros V moved minc maxc p o vs others w Hmm. apply erase_if_vec. exact Hmm. Qed.
Print Assumptions C37_erase_if.

Theorem C37_erase_if_static : forall V (moved : V -> V) capacity p o vs others w,
  is_static_vector capacity o vs others w ->
  ends (erase_if moved (static_vector capacity) p o w)
    (fun o' r w' => is_static_vector capacity o' (without p vs) others w' /\
       exists before after, vs = before ++ after /\ without p before = before /\
         match after with [] => True | v :: _ => p v = true end /\ r = length (without p after))
    (fun o' w' => someone_throws w /\ exists us, length us = length vs /\ is_static_vector capacity o' us others w').
Proof. intros V moved. exact (erase_if_svec moved). Qed.
Print Assumptions C37_erase_if_static.

(** It does not return the number of removed elements: removing 2 and 3 from 1, 2, 3 returns 0. *)
Theorem C37_count_refuted : exists p o vs others w,
  is_vector 0 20 o vs others w /\ ~ someone_throws w /\
  match erase_if forget (bounded_vector forget 0 20) p o w with
  | Ret _ r _ => r <> length vs - length (without p vs)
  | _ => False
  end.
Proof.
  exists (fun n => 2 <=? n), full, [1; 2; 3], nothing, (alone some123 []).
  split; [exact (full_is_vector [])|]. split; [intros []|]. vm_compute. discriminate.
Qed.
Print Assumptions C37_count_refuted.

Example C37_example :
  is_vector 0 20 full [1; 2; 3] nothing (alone some123 []) /\
  match erase_if forget (bounded_vector forget 0 20) Nat.odd full (alone some123 []) with
  | Ret o' _ w' => b_size o' = 1 /\ heap w' 0 = Some [Some 2; None; None]
  | _ => False
  end.
Proof. split; [exact (full_is_vector [])|]. vm_compute. repeat split. Qed.

(** ** C38. Construction and destruction leak nothing. *)
Theorem C38_destroy : forall V minc maxc o (vs : list V) others w,
  is_vector minc maxc o vs others w ->
  ends (bv_destroy o w) (fun _ _ w' => same (heap w') others) (fun _ _ => False).
Proof.
  intros V minc maxc o vs others w H. apply (destroy_vec (fun v => v) minc maxc) with (vs := vs); auto.
  eapply vec_bounds. apply H.
Qed.
Print Assumptions C38_destroy.

Theorem C38_default : forall V minc maxc w,
  minc <= maxc -> unused_names w ->
  ends (bv_default (V := V) minc tt w)
    (fun _ o w' => is_vector minc maxc o [] (heap w) w' /\ capacity_of o = minc)
    (fun _ w' => same (heap w') (heap w) /\ someone_throws w).
Proof. intros V minc maxc w Hmm. apply (default_vec (fun v => v)). exact Hmm. Qed.
Print Assumptions C38_default.

Theorem C38_from_range : forall V (moved : V -> V) minc maxc fits mks us w,
  minc <= maxc -> unused_names w -> Forall2 (makes (heap w)) mks us -> length us <= maxc ->
  ends (bv_from moved minc maxc fits (Source mks true) tt w)
    (fun _ o w' => is_vector minc maxc o us (heap w) w' /\ capacity_of o = Nat.max (length us) minc)
    (fun _ w' => same (heap w') (heap w) /\ someone_throws w).
Proof. intros V moved minc maxc fits mks us w Hmm. apply from_vec. exact Hmm. Qed.
Print Assumptions C38_from_range.

(** From a range whose size is not known in advance, only when nothing throws. *)
Theorem C38_from_unsized_partial : forall V (moved : V -> V) minc maxc mks us w,
  minc < maxc -> unused_names w -> Forall2 (makes (heap w)) mks us -> 2 * length us <= maxc -> ~ someone_throws w ->
  ends (bv_from moved minc maxc false (Source mks false) tt w)
    (fun _ o w' => is_vector minc maxc o us (heap w) w') (fun _ _ => False).
Proof. intros V moved minc maxc mks us w Hlt. apply from_unsized_vec; auto with arith. Qed.
Print Assumptions C38_from_unsized_partial.

(** When making the second element throws, the first is never destroyed. *)
Theorem C38_from_unsized_refuted : exists mks (us : list nat) w,
  unused_names w /\ Forall2 (makes (heap w)) mks us /\
  bv_from forget 0 20 false (Source mks false) tt w = Bad Lost.
Proof.
  exists [Supply 1; Supply 2], [1; 2], (World (fun _ => None) 0 [false; false; true]).
  split; [intros b _; reflexivity|]. split; [repeat constructor|]. reflexivity.
Qed.
Print Assumptions C38_from_unsized_refuted.

Example C38_example :
  let w s := World (V := nat) (fun _ => None) 0 s in
  unused_names (w []) /\
  match bv_from forget 0 20 false (Source [Supply 1; Supply 2] true) tt (w []) with
  | Ret _ o w' => b_size o = 2 /\ heap w' 0 = Some [Some 1; Some 2]
  | _ => False
  end /\
  match bv_from forget 0 20 false (Source [Supply 1; Supply 2] true) tt (w [false; false; true]) with
  | Exc _ w' => heap w' 0 = None
  | _ => False
  end.
Proof. cbv zeta. split; [intros b _; reflexivity|]. vm_compute. repeat split. Qed.

(** ** C39. assign replaces the elements; after an exception the vector holds some of the new elements followed by the
    old ones. Elements that are not trivially copyable. *)
Theorem C39_assign : forall V (moved : V -> V) minc maxc mks us o vs others w,
  minc < maxc -> is_vector minc maxc o vs others w -> Forall2 (makes others) mks us ->
  ends (assign moved (bounded_vector moved minc maxc) false false (Source mks true) o w)
    (fun o' _ w' => is_vector minc maxc o' us others w')
    (fun o' w' => (someone_throws w \/ capacity_of o < length us /\ maxc < grown o (length us)) /\
       exists n, n <= length vs /\ n <= length us /\ is_vector minc maxc o' (firstn n us ++ skipn n vs) others w').
Proof. intros V moved minc maxc mks us o vs others w Hlt. apply assign_vec; auto with arith. Qed.
Print Assumptions C39_assign.

Theorem C39_assign_static_partial : forall V (moved : V -> V) capacity fits mks us o vs others w,
  is_static_vector capacity o vs others w -> Forall2 (makes others) mks us -> length us <= capacity ->
  ends (assign moved (static_vector capacity) false fits (Source mks true) o w)
    (fun o' _ w' => is_static_vector capacity o' us others w')
    (fun o' w' => someone_throws w /\
       exists n, n <= length vs /\ n <= length us /\ is_static_vector capacity o' (firstn n us ++ skipn n vs) others w').
Proof. intros V moved capacity fits mks us o vs others w Hv Hm Hl. exact (assign_svec moved capacity mks us o vs others w Hv Hm Hl fits). Qed.
Print Assumptions C39_assign_static_partial.

(** Trivially copyable elements: when the allocation of a larger block throws, the old one is already gone but the vector
    still points to it; destroying the vector frees it again. *)
Theorem C39_trivial_refuted : exists o vs mks others w,
  is_vector 0 20 o vs others w /\
  match assign forget (bounded_vector forget 0 20) true false (Source mks true) o w with
  | Exc o' w' => bv_destroy o' w' = Bad BadFree
  | _ => False
  end.
Proof.
  exists full, [1; 2; 3], (map Supply [4; 5; 6; 7]), nothing, (alone some123 [true]).
  split; [exact (full_is_vector [true])|]. reflexivity.
Qed.
Print Assumptions C39_trivial_refuted.

Example C39_example :
  is_vector 0 20 full [1; 2; 3] nothing (alone some123 []) /\
  match assign forget (bounded_vector forget 0 20) false false (Source (map Supply [4; 5; 6; 7]) true) full (alone some123 []) with
  | Ret o' _ w' => b_size o' = 4 /\ heap w' 0 = None /\ heap w' 1 = Some [Some 4; Some 5; Some 6; Some 7; None; None]
  | _ => False
  end /\
  match assign forget (bounded_vector forget 0 20) false false (Source (map Supply [4; 5]) true) full (alone some123 [false; true]) with
  | Exc o' w' => o' = full /\ heap w' 0 = Some [Some 4; Some 2; Some 3]
  | _ => False
  end.
Proof. split; [exact (full_is_vector [])|]. vm_compute. repeat split. Qed.

(** ** C40. A vector with a maximum capacity in its type cannot be filled to it: growing doubles, and twice the
    capacity must not exceed the maximum. push_back is then undefined, append and insert throw. *)
Theorem C40_push_back_refuted : exists maxc o (vs : list nat) others w,
  is_vector 0 maxc o vs others w /\ length vs < maxc /\ ~ someone_throws w /\
  push_back forget (bounded_vector forget 0 maxc) (Supply 9) o w = Bad Broken.
Proof.
  exists 5, full, [1; 2; 3], nothing, (alone some123 []). split; [alone_tac; exists 0; cbn; repeat split; lia|].
  split; [cbn; lia|]. split; [intros []|]. reflexivity.
Qed.
Print Assumptions C40_push_back_refuted.
Theorem C40_append_refuted : exists maxc o (vs us : list nat) others w,
  is_vector 0 maxc o vs others w /\ length (vs ++ us) <= maxc /\ ~ someone_throws w /\
  append forget (bounded_vector forget 0 maxc) (Source (map Supply us) true) o w = Exc o w.
Proof.
  exists 5, full, [1; 2; 3], [9], nothing, (alone some123 []). split; [alone_tac; exists 0; cbn; repeat split; lia|].
  split; [cbn; lia|]. split; [intros []|]. reflexivity.
Qed.
Print Assumptions C40_append_refuted.
Theorem C40_insert_refuted : exists maxc o (vs us : list nat) others w,
  is_vector 0 maxc o vs others w /\ length (us ++ vs) <= maxc /\ ~ someone_throws w /\
  insert forget (bounded_vector forget 0 maxc) 0 (map Supply us) o w = Exc o w.
Proof.
  exists 5, full, [1; 2; 3], [9], nothing, (alone some123 []). split; [alone_tac; exists 0; cbn; repeat split; lia|].
  split; [cbn; lia|]. split; [intros []|]. reflexivity.
Qed.
Print Assumptions C40_insert_refuted.
(** It can when reserve is called first. *)
Theorem C40_reserve_first_partial : forall V (moved : V -> V) minc maxc v o vs others w,
  minc < maxc -> is_vector minc maxc o vs others w -> length vs < maxc ->
  ends ((bind (bv_reserve moved minc maxc (length vs + 1)) (fun _ => push_back moved (bounded_vector moved minc maxc) (Supply v))) o w)
    (fun o' _ w' => is_vector minc maxc o' (vs ++ [v]) others w')
    (fun o' w' => is_vector minc maxc o' vs others w').
Proof.
  intros V moved minc maxc v o vs others w Hlt Hv Hl. unfold bind.
  pose proof (C34_reserve V moved minc maxc (length vs + 1) o vs others w ltac:(lia) Hv ltac:(lia)) as H. unfold ends in H.
  destruct (bv_reserve moved minc maxc (length vs + 1) o w) as [o1 [] w1|o1 w1|]; [| |contradiction].
  - destruct H as [Hv1 Hc1].
    pose proof (C30_push_back V moved minc maxc (Supply v) v o1 vs others w1 ltac:(lia) Hv1 eq_refl ltac:(left; lia)) as H.
    eapply ends_weaken; [exact H| |]; cbv beta. { tauto. } intros o2 w2 [Hu _]. eapply untouched_vec; eauto.
  - cbn. destruct H as [Hu _]. eapply untouched_vec; eauto.
Qed.
Print Assumptions C40_reserve_first_partial.

(** ** C41. Any sequence of calls, with any exceptions caught in between: no fault, every state is explained by
    the calls (SpecHistory.v), and when the vector is destroyed the memory is as it was before. *)
Theorem C41_history : forall V (moved : V -> V) minc maxc cs o vs others w,
  minc < maxc -> is_vector minc maxc o vs others w ->
  ends (history moved minc maxc cs o w)
    (fun o' _ w' => exists vs', explains maxc cs vs vs' /\ is_vector minc maxc o' vs' others w')
    (fun _ _ => False).
Proof. intros V moved minc maxc cs o vs others w Hlt. apply history_ok. exact Hlt. Qed.
Print Assumptions C41_history.

Theorem C41_no_exceptions : forall V (moved : V -> V) minc maxc cs o vs others w,
  minc < maxc -> is_vector minc maxc o vs others w -> ~ someone_throws w -> Forall (fun n => 2 * n <= maxc) (demands maxc cs vs) ->
  ends (history moved minc maxc cs o w)
    (fun o' _ w' => is_vector minc maxc o' (straight maxc cs vs) others w') (fun _ _ => False).
Proof. intros V moved minc maxc cs o vs others w Hlt. apply history_straight. exact Hlt. Qed.
Print Assumptions C41_no_exceptions.

Theorem C41_lifetime : forall V (moved : V -> V) minc maxc cs w,
  minc < maxc -> unused_names w ->
  ends (lifetime moved minc maxc cs tt w)
    (fun _ _ w' => same (heap w') (heap w)) (fun _ w' => same (heap w') (heap w)).
Proof. intros V moved minc maxc cs w Hlt. apply lifetime_ok. exact Hlt. Qed.
Print Assumptions C41_lifetime.

Example C41_example :
  let cs := [PushBack 1; Append [2; 3; 4]; Insert 1 [9; 8]; PushBack 5; EraseIf Nat.even; Erase 0 1; Resize 4 7; ShrinkToFit; PopBack] in
  straight 100 cs [] = [9; 3; 5] /\
  match lifetime forget 0 100 cs tt (World (fun _ => None) 0 [false; false; false; true; false; true]) with
  | Ret _ _ w' => heap w' 0 = None /\ heap w' 1 = None /\ heap w' 2 = None /\ heap w' 3 = None /\ 2 <= next w'
  | _ => False
  end.
Proof. vm_compute. repeat split; auto. Qed.

(** ** C42. n calls of push_back on an empty vector allocate at most 1 + log2 n times (rounded up): every allocation gives a new
    name, so [next] counts them. *)
Theorem C42_allocations : forall V (moved : V -> V) maxc us o others w,
  0 < maxc -> is_vector 0 maxc o [] others w -> capacity_of o = 0 -> ~ someone_throws w -> 2 * length us <= maxc ->
  ends (history moved 0 maxc (map PushBack us) o w)
    (fun o' _ w' => is_vector 0 maxc o' us others w' /\ next w' <= next w + 1 + Nat.log2_up (length us))
    (fun _ _ => False).
Proof. intros V moved maxc us o others w Hpos. apply pushes_log. exact Hpos. Qed.
Print Assumptions C42_allocations.

Example C42_example :
  let w := World (V := nat) (fun _ => None) 0 [] in
  is_vector 0 100 (BVector (Storage None 0) 0) [] (fun _ => None) w /\
  match history forget 0 100 (map PushBack (seq 0 33)) (BVector (Storage None 0) 0) w with
  | Ret o' _ w' => b_size o' = 33 /\ capacity_of o' = 64 /\ next w' = 7 /\ Nat.log2_up 33 = 6
  | _ => False
  end.
Proof.
  cbv zeta. split. { split; [split; [reflexivity|]|intros b _; reflexivity]. repeat split. } vm_compute. repeat split.
Qed.

(** ** C43. A static_vector constructed from an expiring smaller static_vector should hold its elements. It holds none,
    and they are never destroyed. *)
Theorem C43_from_expiring_refuted : exists small large o vs others w,
  small < large /\ is_static_vector small o vs others w /\ vs <> [] /\ ~ someone_throws w /\
  match sv_from_expiring forget large o w with
  | Ret o' t w' => v_size o' = 0 /\ v_size t = 0 /\ sv_destroy large t w' = Bad Lost
  | _ => False
  end.
Proof.
  exists 4, 6, (SVector 0 3), [1; 2; 3], nothing, (alone (some123 ++ [None]) []).
  split; [lia|]. split; [exact (static_is_vector [])|]. split; [discriminate|]. split; [intros []|]. vm_compute. repeat split.
Qed.
Print Assumptions C43_from_expiring_refuted.

(** ** C44. A vector that was moved from can be destroyed and copy-assigned to. *)
Theorem C44_destroy : forall V o (w : world V), moved_from o -> bv_destroy o w = Ret o tt w.
Proof. intros V. exact moved_from_destroy. Qed.
Print Assumptions C44_destroy.

Theorem C44_copy_assign : forall V (moved : V -> V) minc maxc trivial o t us others w,
  minc <= maxc -> moved_from o -> is_vector minc maxc t us others w ->
  ends (bv_copy_assign moved minc maxc trivial t o w)
    (fun o' _ w' => is_vector minc maxc o' us (heap w) w')
    (fun o' w' => someone_throws w /\ (untouched o o' w w' \/ is_vector minc maxc o' [] (heap w) w')).
Proof. intros V moved minc maxc trivial o t us others w Hmm. apply copy_assign_moved_from_vec. exact Hmm. Qed.
Print Assumptions C44_copy_assign.

(** Moving a vector to itself leaves it moved from; nothing leaks. *)
Theorem C44_self_move : forall V minc maxc o (vs : list V) others w,
  is_vector minc maxc o vs others w ->
  ends (bv_self_move_assign (V := V) o w)
    (fun o' _ w' => moved_from o' /\ same (heap w') others)
    (fun _ _ => False).
Proof.
  intros V minc maxc o vs others w H. apply (self_move_vec (fun v => v) minc maxc) with (vs := vs); auto.
  eapply vec_bounds. apply H.
Qed.
Print Assumptions C44_self_move.

(** But push_back on it is undefined behaviour: its capacity is not reset. *)
Theorem C44_use_refuted : exists o vs others w,
  is_vector 0 20 o vs others w /\ ~ someone_throws w /\
  push_back forget (bounded_vector forget 0 20) (Supply 9) (snd (bv_move o)) w = Bad Broken.
Proof.
  exists full, [1; 2; 3], nothing, (alone some123 []). split; [exact (full_is_vector [])|]. split; [intros []|]. reflexivity.
Qed.
Print Assumptions C44_use_refuted.

Example C44_example :
  moved_from (snd (bv_move full)) /\
  match bv_copy_assign forget 0 20 false full (snd (bv_move full)) (alone some123 []) with
  | Ret o' _ w' => b_size o' = 3 /\ heap w' 0 = Some some123 /\ heap w' 1 = Some some123
  | _ => False
  end.
Proof. split; [split; reflexivity|]. vm_compute. repeat split. Qed.

(** ** C45. Pointers to elements stay valid while there is capacity: the elements before the place of the change do not
    move and keep their values. *)
Theorem C45_push_back : forall V (moved : V -> V) minc maxc mk v0 o vs others w i v,
  minc <= maxc -> is_vector minc maxc o vs others w -> makes (heap w) mk v0 -> length vs < capacity_of o ->
  points_to w (bv_data o) i v ->
  ends (push_back moved (bounded_vector moved minc maxc) mk o w)
    (fun o' _ w' => bv_data o' = bv_data o /\ points_to w' (bv_data o) i v)
    (fun o' w' => bv_data o' = bv_data o /\ points_to w' (bv_data o) i v).
Proof. intros V moved minc maxc mk v0 o vs others w i v Hmm. apply push_back_points. exact Hmm. Qed.
Print Assumptions C45_push_back.

Theorem C45_append : forall V (moved : V -> V) minc maxc mks us o vs others w i v,
  minc < maxc -> is_vector minc maxc o vs others w -> Forall2 (makes (heap w)) mks us -> length (vs ++ us) <= capacity_of o ->
  points_to w (bv_data o) i v ->
  ends (append moved (bounded_vector moved minc maxc) (Source mks true) o w)
    (fun o' _ w' => bv_data o' = bv_data o /\ points_to w' (bv_data o) i v)
    (fun o' w' => bv_data o' = bv_data o /\ points_to w' (bv_data o) i v).
Proof. intros V moved minc maxc mks us o vs others w i v Hlt. apply append_points; auto with arith. Qed.
Print Assumptions C45_append.

Theorem C45_insert : forall V (moved : V -> V) minc maxc mks us o before rest others w i v,
  minc <= maxc -> is_vector minc maxc o (before ++ rest) others w -> Forall2 (makes others) mks us -> mks <> [] \/ rest = [] ->
  length (before ++ us ++ rest) <= capacity_of o -> i < length before ->
  points_to w (bv_data o) i v ->
  ends (insert moved (bounded_vector moved minc maxc) (length before) mks o w)
    (fun o' _ w' => bv_data o' = bv_data o /\ points_to w' (bv_data o) i v)
    (fun o' w' => bv_data o' = bv_data o /\ points_to w' (bv_data o) i v).
Proof. intros V moved minc maxc mks us o before rest others w i v Hmm. apply insert_points. exact Hmm. Qed.
Print Assumptions C45_insert.

Theorem C45_pop_back : forall V (moved : V -> V) minc maxc o vs u others w i v,
  minc <= maxc -> is_vector minc maxc o (vs ++ [u]) others w -> i < length vs -> points_to w (bv_data o) i v ->
  ends (pop_back (bounded_vector moved minc maxc) o w)
    (fun o' _ w' => bv_data o' = bv_data o /\ points_to w' (bv_data o) i v) (fun _ _ => False).
Proof. intros V moved minc maxc o vs u others w i v Hmm. apply pop_back_points. exact Hmm. Qed.
Print Assumptions C45_pop_back.

Theorem C45_erase : forall V (moved : V -> V) minc maxc o before ds rest others w i v,
  minc <= maxc -> is_vector minc maxc o (before ++ ds ++ rest) others w -> i < length before -> points_to w (bv_data o) i v ->
  ends (erase moved (bounded_vector moved minc maxc) (length before) (length before + length ds) o w)
    (fun o' _ w' => bv_data o' = bv_data o /\ points_to w' (bv_data o) i v) (fun _ _ => False).
Proof. intros V moved minc maxc o before ds rest others w i v Hmm. apply erase_points. exact Hmm. Qed.
Print Assumptions C45_erase.

Theorem C45_erase_if : forall V (moved : V -> V) minc maxc p o before rest others w i v,
  minc <= maxc -> is_vector minc maxc o (before ++ rest) others w -> without p before = before -> i < length before ->
  points_to w (bv_data o) i v ->
  ends (erase_if moved (bounded_vector moved minc maxc) p o w)
    (fun o' _ w' => bv_data o' = bv_data o /\ points_to w' (bv_data o) i v) (fun o' _ => bv_data o' = bv_data o).
Proof. intros V moved minc maxc p o before rest others w i v Hmm. apply erase_if_points. exact Hmm. Qed.
Print Assumptions C45_erase_if.

Theorem C45_clear : forall V (moved : V -> V) minc maxc o vs others w,
  minc <= maxc -> is_vector minc maxc o vs others w ->
  ends (clear (bounded_vector moved minc maxc) o w)
    (fun o' _ w' => bv_data o' = bv_data o /\ capacity_of o' = capacity_of o) (fun _ _ => False).
Proof. intros V moved minc maxc o vs others w Hmm. apply clear_capacity. exact Hmm. Qed.
Print Assumptions C45_clear.

Theorem C45_reserve : forall V (moved : V -> V) minc maxc n o vs others w,
  is_vector minc maxc o vs others w -> n <= capacity_of o -> bv_reserve moved minc maxc n o w = Ret o tt w.
Proof. intros V moved. exact (reserve_stays moved). Qed.
Print Assumptions C45_reserve.

Example C45_example :
  is_vector 0 20 roomy [1; 2; 3] nothing (alone (some123 ++ [None]) []) /\ 3 < capacity_of roomy /\
  points_to (alone (some123 ++ [None]) []) (bv_data roomy) 2 3.
Proof. split; [exact (roomy_is_vector [])|]. split; [cbn; lia|]. exists 0, (some123 ++ [None]). now cbn. Qed.
