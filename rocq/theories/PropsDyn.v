(** * Properties C94 to C96: dynamic_array

    [is_array min max o vs others w] (SpecDyn.v): in the world [w] the object [o] is a dynamic_array whose size type
    reaches from [min] to [max]; its elements are [vs], in a block of exactly their number, and all other memory is [others].
    [ends r Q E]: the call [r] returns and then [Q], or leaves by an exception and then [E]; it never ends in a fault. *)

From Coq Require Import List Arith Bool Lia.
From Verif Require Import Mem Vec SpecVec DynArray SpecDyn DynProofs.
Import ListNotations.

(** ** Concrete objects for the examples *)
Definition empty_memory : memory (V := nat) := fun _ => None.
Definition three : storage := Storage (Some 1) 3.
Definition three_world (s : list bool) : world nat := World (fun b => match b with 1 => Some [Some 5; Some 6; Some 7] | _ => None end) 2 s.
Example three_is_array s : is_array 0 9 three [5; 6; 7] empty_memory (three_world s).
Proof.
  split; [|intros b Hb; cbn in *; destruct b as [|[|b]]; (lia || reflexivity)]. split; [reflexivity|]. split; [cbn; lia|]. cbn.
  split; [reflexivity|]. split; [reflexivity|]. intros b Hb. destruct b as [|[|b]]; (reflexivity || now elim Hb).
Qed.
Definition one : storage := Storage (Some 2) 1.
Definition both_world (s : list bool) : world nat :=
  World (fun b => match b with 1 => Some [Some 5; Some 6; Some 7] | 2 => Some [Some 8] | _ => None end) 3 s.
Example both_are_arrays s : two_arrays 0 9 three [5; 6; 7] one [8] empty_memory (both_world s).
Proof.
  exists (heap (three_world s)). split; [apply three_is_array|]. split; [|intros b Hb; cbn in *; destruct b as [|[|[|b]]]; (lia || reflexivity)].
  split; [reflexivity|]. split; [cbn; lia|]. cbn. split; [reflexivity|]. split; [reflexivity|].
  intros b Hb. destruct b as [|[|[|b]]]; (reflexivity || now elim Hb).
Qed.

(** ** C94. Construction, copying and destruction lose nothing, and a size outside the range of the size type is refused with
    an exception before anything is allocated. *)
Theorem C94_default : forall V max (w : world V), unused_names w -> is_array 0 max da_default [] (heap w) w.
Proof. intros V max w H. split; auto. split; [reflexivity|]. split; [cbn; lia|]. cbn. split; auto. now intros b. Qed.
Print Assumptions C94_default.

Theorem C94_from_range : forall V (moved : V -> V) min max mks us w,
  unused_names w -> Forall2 (makes (heap w)) mks us ->
  ends (da_from moved min max mks tt w)
    (fun _ o w' => is_array min max o us (heap w) w')
    (fun _ w' => same (heap w') (heap w) /\ unused_names w' /\ (someone_throws w \/ ~ (min <= length us <= max))).
Proof. intros V moved min max mks us w. apply from_array. Qed.
Print Assumptions C94_from_range.

Theorem C94_out_of_range : forall V (moved : V -> V) min max mks (w : world V),
  ~ (min <= length mks <= max) -> da_from moved min max mks tt w = Exc tt w.
Proof. intros V moved min max mks w. apply from_refuses. Qed.
Print Assumptions C94_out_of_range.

Theorem C94_copy : forall V (moved : V -> V) min max o vs others w,
  is_array min max o vs others w ->
  ends (da_copy moved min max o tt w)
    (fun _ t w' => two_arrays min max o vs t vs others w')
    (fun _ w' => same (heap w') (heap w) /\ unused_names w' /\ someone_throws w).
Proof. intros V moved min max o vs others w. apply copy_array. Qed.
Print Assumptions C94_copy.

(** Every element is destroyed and the memory given back: an element alive or a block left would not be in [others]. *)
Theorem C94_destroy : forall V min max o (vs : list V) others w,
  is_array min max o vs others w ->
  ends (da_destroy o w) (fun _ _ w' => same (heap w') others /\ unused_names w') (fun _ _ => False).
Proof. intros V min max o vs others w. apply destroy_array. Qed.
Print Assumptions C94_destroy.

Theorem C94_size : forall V X min max o (vs : list V) others w (x : X),
  is_array min max o vs others w -> da_size o x w = Ret x (length vs) w.
Proof. intros V X min max o vs others w x. apply size_array. Qed.
Print Assumptions C94_size.

Example C94_example :
  is_array 0 9 three [5; 6; 7] empty_memory (three_world [false; false; true]) /\
  (* the third element cannot be copied: nothing is left *)
  da_copy (fun _ => 0) 0 9 three tt (three_world [false; false; false; true]) <> Bad Lost /\
  (exists w', da_copy (fun _ => 0) 0 9 three tt (three_world [false; false; false; true]) = Exc tt w' /\ heap w' 2 = None) /\
  (exists w', da_copy (fun _ => 0) 0 9 three tt (three_world []) = Ret tt (Storage (Some 2) 3) w' /\
     heap w' 2 = Some [Some 5; Some 6; Some 7]) /\
  da_from (fun _ => 0) 1 2 [Supply 1; Supply 2; Supply 3] tt (three_world []) = Exc tt (three_world []).
Proof.
  split; [apply three_is_array|]. split; [vm_compute; discriminate|]. split; [|split; [|reflexivity]].
  - eexists. split; [vm_compute; reflexivity|reflexivity].
  - eexists. split; [vm_compute; reflexivity|reflexivity].
Qed.

(** ** C95. Assignment. Without an exception the array has the new elements. With one, there are three cases: it is unchanged; or
    the number of elements changes and zero is a possible size, then it is empty; or the number stays the same, then
    some of the first elements have been replaced. *)
Theorem C95_assign : forall V (moved : V -> V) min max mks us o vs others w,
  is_array min max o vs others w -> Forall2 (makes others) mks us ->
  ends (da_assign moved min max mks o w)
    (fun o' _ w' => is_array min max o' us others w')
    (fun o' w' => (someone_throws w \/ ~ (min <= length us <= max)) /\
       (untouched o o' w w' \/
        min = 0 /\ length us <> length vs /\ is_array min max o' [] others w' \/
        someone_throws w /\ length us = length vs /\
        exists n, n < length us /\ is_array min max o' (firstn n us ++ skipn n vs) others w')).
Proof. intros V moved min max mks us o vs others w. apply assign_array. Qed.
Print Assumptions C95_assign.

(** The strong guarantee, when zero is not a possible size and the number of elements changes. *)
Theorem C95_assign_strong : forall V (moved : V -> V) min max mks us o vs others w,
  is_array min max o vs others w -> Forall2 (makes others) mks us -> 0 < min -> length us <> length vs ->
  ends (da_assign moved min max mks o w)
    (fun o' _ w' => is_array min max o' us others w')
    (fun o' w' => untouched o o' w w').
Proof. intros V moved min max mks us o vs others w. apply assign_strong. Qed.
Print Assumptions C95_assign_strong.

(** Assigning as many elements as there are keeps the block, so pointers to elements stay valid. *)
Theorem C95_assign_in_place : forall V (moved : V -> V) min max mks us o vs others w,
  is_array min max o vs others w -> u_pointer o <> None -> Forall2 (makes others) mks us -> length us = length vs ->
  ends (da_assign moved min max mks o w)
    (fun o' _ w' => o' = o /\ is_array min max o us others w')
    (fun o' w' => someone_throws w /\ o' = o /\ exists n, n < length us /\ is_array min max o (firstn n us ++ skipn n vs) others w').
Proof. intros V moved min max mks us o vs others w. apply assign_in_place. Qed.
Print Assumptions C95_assign_in_place.

Theorem C95_copy_assign : forall V (moved : V -> V) min max o vs t us others w,
  two_arrays min max t us o vs others w ->
  ends (da_copy_assign moved min max t o w)
    (fun o' _ w' => two_arrays min max t us o' us others w')
    (fun o' w' => someone_throws w /\
       (untouched o o' w w' \/
        min = 0 /\ length us <> length vs /\ two_arrays min max t us o' [] others w' \/
        length us = length vs /\ exists n, n < length us /\ two_arrays min max t us o' (firstn n us ++ skipn n vs) others w')).
Proof. intros V moved min max o vs t us others w. apply copy_assign_arrays. Qed.
Print Assumptions C95_copy_assign.

(** The strong guarantee does not hold in general: assigning four elements to three loses the three when an allocation fails, and
    so does an assignment that is refused because there are too many. *)
Theorem C95_assign_strong_refuted :
  (exists o' w', is_array 0 9 three [5; 6; 7] empty_memory (three_world [true]) /\
     da_assign (fun _ => 0) 0 9 [Supply 1; Supply 2; Supply 3; Supply 4] three (three_world [true]) = Exc o' w' /\
     is_array 0 9 o' [] empty_memory w') /\
  (exists o' w', is_array 0 9 three [5; 6; 7] empty_memory (three_world []) /\
     da_assign (fun _ => 0) 0 9 (map (@Supply nat) [0; 1; 2; 3; 4; 5; 6; 7; 8; 9]) three (three_world []) = Exc o' w' /\
     is_array 0 9 o' [] empty_memory w').
Proof.
  split; do 2 eexists; (split; [apply three_is_array|]); (split; [cbn; reflexivity|]);
  (split; [|intros b Hb; cbn in *; destruct b as [|[|b]]; (lia || reflexivity)]); (split; [reflexivity|]); (split; [cbn; lia|]); cbn;
  (split; [reflexivity|]); intros b; cbn; destruct b as [|[|b]]; reflexivity.
Qed.
Print Assumptions C95_assign_strong_refuted.

Example C95_example :
  two_arrays 0 9 three [5; 6; 7] one [8] empty_memory (both_world [false; false]) /\
  (exists o' w', da_copy_assign (fun _ => 0) 0 9 three one (both_world []) = Ret o' tt w' /\
     o' = Storage (Some 3) 3 /\ heap w' 3 = Some [Some 5; Some 6; Some 7] /\ heap w' 2 = None) /\
  (exists w', da_assign (fun _ => 0) 0 9 [Supply 1; Supply 2; Supply 3] three (three_world [false; true]) = Exc three w' /\
     heap w' 1 = Some [Some 1; Some 6; Some 7]).
Proof.
  split; [apply both_are_arrays|]. split.
  - do 2 eexists. split; [vm_compute; reflexivity|]. now split.
  - eexists. split; [vm_compute; reflexivity|reflexivity].
Qed.

(** ** C96. Moving. The elements change hands without being touched and nothing can throw. What is left of the source can be
    destroyed, cleared and assigned to. *)
Theorem C96_move : forall V min max o (vs : list V) others w t o',
  is_array min max o vs others w -> da_move o = (t, o') -> is_array min max t vs others w /\ t = o /\ gone o'.
Proof. intros V min max o vs others w t o'. apply move_array. Qed.
Print Assumptions C96_move.

Theorem C96_move_assign : forall V min max o (vs : list V) t us others w,
  two_arrays min max o vs t us others w ->
  ends (da_move_assign (o, t) w)
    (fun p _ w' => is_array min max (fst p) us others w' /\ fst p = t /\ gone (snd p)) (fun _ _ => False).
Proof. intros V min max o vs t us others w. apply move_assign_arrays. Qed.
Print Assumptions C96_move_assign.

Theorem C96_move_assign_to_moved_from : forall V min max o t (us : list V) others w,
  gone o -> is_array min max t us others w ->
  ends (da_move_assign (o, t) w)
    (fun p _ w' => is_array min max (fst p) us others w' /\ fst p = t /\ gone (snd p)) (fun _ _ => False).
Proof. intros V min max o t us others w. apply move_assign_to_gone. Qed.
Print Assumptions C96_move_assign_to_moved_from.

(** An array moved to itself loses its elements, but none is leaked or destroyed twice. *)
Theorem C96_self_move : forall V min max o (vs : list V) others w,
  is_array min max o vs others w ->
  ends (da_self_move_assign o w) (fun o' _ w' => gone o' /\ same (heap w') others /\ unused_names w') (fun _ _ => False).
Proof. intros V min max o vs others w. apply self_move_array. Qed.
Print Assumptions C96_self_move.

Theorem C96_destroy_moved_from : forall V o (w : world V), gone o -> da_destroy o w = Ret o tt w.
Proof. intros V o w. apply destroy_gone. Qed.
Print Assumptions C96_destroy_moved_from.

Theorem C96_clear : forall V max o (vs : list V) others w,
  is_array 0 max o vs others w \/ gone o /\ vs = [] /\ same (heap w) others /\ unused_names w ->
  ends (da_clear o w) (fun o' _ w' => is_array 0 max o' [] others w' /\ same (heap w') others) (fun _ _ => False).
Proof. intros V max o vs others w. now apply clear_any. Qed.
Print Assumptions C96_clear.

Theorem C96_assign_to_moved_from : forall V (moved : V -> V) min max mks us o w,
  gone o -> unused_names w -> Forall2 (makes (heap w)) mks us ->
  ends (da_assign moved min max mks o w)
    (fun o' _ w' => is_array min max o' us (heap w) w')
    (fun o' w' => untouched o o' w w' /\ (someone_throws w \/ ~ (min <= length us <= max))).
Proof. intros V moved min max mks us o w. apply assign_gone. Qed.
Print Assumptions C96_assign_to_moved_from.

Theorem C96_swap : forall V min max o (vs : list V) t us others w,
  two_arrays min max o vs t us others w ->
  ends (da_swap (o, t) w)
    (fun p _ w' => two_arrays min max (fst p) us (snd p) vs others w' /\ same (heap w') (heap w)) (fun _ _ => False).
Proof. intros V min max o vs t us others w. apply swap_arrays. Qed.
Print Assumptions C96_swap.

(** A moved-from array is not an array: its size cannot be asked for and it cannot be copied. *)
Theorem C96_moved_from_size_refuted :
  exists t o', is_array 0 9 three [5; 6; 7] empty_memory (three_world []) /\ da_move three = (t, o') /\
    da_size o' tt (three_world []) = Bad Broken /\ da_copy (fun _ => 0) 0 9 o' tt (three_world []) = Bad Broken.
Proof. do 2 eexists. split; [apply three_is_array|]. split; [reflexivity|]. split; reflexivity. Qed.
Print Assumptions C96_moved_from_size_refuted.

Example C96_example :
  two_arrays 0 9 three [5; 6; 7] one [8] empty_memory (both_world []) /\
  (exists w', da_move_assign (one, three) (both_world [true]) = Ret (three, Storage None 3) tt w' /\ heap w' 2 = None) /\
  (exists w', da_swap (one, three) (both_world [true]) = Ret (three, one) tt w') /\
  (exists w', da_clear three (three_world [true]) = Ret da_default tt w' /\ heap w' 1 = None).
Proof.
  split; [apply both_are_arrays|]. split; [|split].
  - eexists. split; [vm_compute; reflexivity|reflexivity].
  - eexists. vm_compute. reflexivity.
  - eexists. split; [vm_compute; reflexivity|reflexivity].
Qed.
