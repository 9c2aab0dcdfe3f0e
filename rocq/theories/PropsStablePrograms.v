(** * C131: programs with any number of stable_vectors *)

From Coq Require Import List Arith Bool Lia.
From Verif Require Import Mem Vec SpecVec SpecHistory SpecSeveral SpecVecPrograms SpecStablePrograms StablePrograms.
Import ListNotations.

(** ** C131. A program creates, copies, moves, swaps, uses and destroys any number of stable_vectors, in any order, and catches every
    exception; it keeps a record of the vectors it moved from and only destroys, assigns to, moves, swaps or reads those. Nothing is
    ever undefined; after every step the objects are different vectors whose elements the steps account for, and no other memory has
    changed. *)
Theorem C131_program : forall V (moved : V -> V) capacity ss os ls others w,
  vectors capacity os ls others w ->
  ends (program moved capacity ss (gone_of ls) os w)
    (fun os' _ w' => exists ls', accounts capacity ss ls ls' /\ vectors capacity os' ls' others w')
    (fun _ _ => False).
Proof. intros V moved capacity ss os ls others w. apply program_ok. Qed.
Print Assumptions C131_program.

(** When no element throws, every step that is possible does what it says or, when there is no room for what it says, changes
    nothing. *)
Theorem C131_no_exceptions : forall V (moved : V -> V) capacity ss os ls others w,
  vectors capacity os ls others w -> ~ someone_throws w ->
  ends (program moved capacity ss (gone_of ls) os w)
    (fun os' _ w' => vectors capacity os' (plainly capacity ss ls) others w') (fun _ _ => False).
Proof. intros V moved capacity ss os ls others w. apply program_plain. Qed.
Print Assumptions C131_no_exceptions.

(** From its first step to the destruction of the last vector it leaves the memory as it was. *)
Theorem C131_whole : forall V (moved : V -> V) capacity ss w,
  unused_names w ->
  ends (whole moved capacity ss tt w) (fun _ _ w' => same (heap w') (heap w)) (fun _ _ => False).
Proof. intros V moved capacity ss w. apply whole_ok. Qed.
Print Assumptions C131_whole.

(** The elements of a vector stay where they are, or they are handed over with their storage by a move or a swap. *)
Theorem C131_places : forall V (moved : V -> V) capacity s os ls others w,
  vectors capacity os ls others w -> possible capacity s (sizes_of ls) (gone_of ls) = true ->
  ends (do_step moved capacity s os w)
    (fun os' _ _ => places s (map bv_data os) (map bv_data os'))
    (fun os' _ => places_else s (map bv_data os) (map bv_data os')).
Proof. intros V moved capacity s os ls others w. apply step_places. Qed.
Print Assumptions C131_places.

(** Pointers to elements, iterators and references stay valid however many elements are added: a pointer to the place [k] of a
    vector points to what the vector has there after the call, also when the call is left by an exception. *)
Theorem C131_pointers : forall V (moved : V -> V) capacity s os ls others w i o,
  vectors capacity os ls others w -> possible capacity s (sizes_of ls) (gone_of ls) = true -> in_place s ->
  nth_error os i = Some o ->
  ends (do_step moved capacity s os w)
    (fun _ _ w' => forall k v, nth_error (elements i (then_ s ls)) k = Some v -> points_to w' (bv_data o) k v)
    (fun _ w' => exists ls', or_else s ls ls' /\ forall k v, nth_error (elements i ls') k = Some v -> points_to w' (bv_data o) k v).
Proof. intros V moved capacity s os ls others w i o. apply step_points. Qed.
Print Assumptions C131_pointers.

(** Over programs of any length. *)
Theorem C131_program_stays : forall V (moved : V -> V) capacity ss os ls others w,
  vectors capacity os ls others w -> Forall in_place ss ->
  ends (program moved capacity ss (gone_of ls) os w) (fun os' _ _ => map bv_data os' = map bv_data os) (fun _ _ => False).
Proof. intros V moved capacity ss os ls others w. apply program_stays. Qed.
Print Assumptions C131_program_stays.

(** The record is needed: a vector that was moved from says that it is empty and has its full capacity, and push_back to it is
    undefined. *)
Theorem C131_record_needed : forall V (moved : V -> V) capacity o v w,
  0 < capacity -> moved_from o ->
  b_size o = 0 /\ bv_capacity capacity capacity o w = Ret o capacity w /\
  exists f, do_step moved capacity (Use 0 (PushBack v)) [o] w = Bad f.
Proof. intros V moved capacity o v w. apply moved_from_push. Qed.
Print Assumptions C131_record_needed.

(** Elements pushed into their own vector, a vector appended to itself, vectors used after a move, and steps without room; without
    exceptions and with some of them. *)
Example C131_example :
  let ss := [New; NewFrom [1; 2; 3]; PushElement 1 1 0; AppendAll 1 1; NewMove 1; Use 1 (PushBack 5); CopyAssign 0 2;
             Use 2 (PushBack 7); Use 2 (PushBack 8); CopyAssign 1 2; Use 1 (Insert 2 [9]); Use 1 PopBack; InsertAll 1 1 0; Swap 0 1; MoveAssign 1 0; NewCopy 2;
             NewFrom [1; 2; 3; 4; 5; 6; 7; 8; 9; 10]; MoveAssign 1 1; End 2] in
  let w0 s := World (V := nat) (fun _ => None) 0 s in
  vectors 9 [] [] (fun _ => None) (w0 []) /\
  plainly 9 ss [] = [None; None; Some [1; 2; 3; 1; 1; 2; 3; 1; 7]] /\
  match program (fun _ => 0) 9 ss [] [] (w0 []) with
  | Ret os _ _ => map b_size os = [0; 0; 9] /\ map bv_data os = [None; None; Some 3]
  | _ => False
  end /\
  match program (fun _ => 0) 9 ss [] [] (w0 [false; false; false; true; false; true; true]) with
  | Ret os _ _ => map b_size os <> [0; 0; 9]
  | _ => False
  end /\
  match whole (fun _ => 0) 9 ss tt (w0 [false; false; false; true; false; true; true]) with
  | Ret _ _ w' => 1 < next w' /\ heap w' 0 = None /\ heap w' 1 = None /\ heap w' 2 = None /\ heap w' 3 = None
  | _ => False
  end.
Proof.
  cbv zeta. split. { split; intros b; reflexivity. }
  split; [vm_compute; reflexivity|]. split; [vm_compute; split; reflexivity|]. split; [vm_compute; discriminate|].
  vm_compute. repeat split; try reflexivity; repeat constructor.
Qed.
