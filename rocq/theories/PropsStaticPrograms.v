(** * C130: programs with any number of static_vectors *)

From Coq Require Import List Arith Bool Lia.
From Verif Require Import Mem Vec SpecVec SpecHistory SpecSeveral SpecStaticPrograms StaticPrograms.
Import ListNotations.

(** ** C130. A program creates, copies, moves, swaps, uses and destroys any number of static_vectors, in any order, and catches every
    exception; it looks at nothing but their sizes. Nothing is ever undefined; after every step the objects are different
    vectors whose elements the steps account for, and no other memory has changed. *)
Theorem C130_program : forall V (moved : V -> V) capacity ss os ls others w,
  vectors capacity os ls others w ->
  ends (program moved capacity ss os w)
    (fun os' _ w' => exists ls', accounts moved capacity ss ls ls' /\ vectors capacity os' ls' others w')
    (fun _ _ => False).
Proof. intros V moved capacity ss os ls others w. apply program_ok. Qed.
Print Assumptions C130_program.

(** When no element throws, every step that is possible does what it says or, when there is no room for what it says, changes
    nothing. *)
Theorem C130_no_exceptions : forall V (moved : V -> V) capacity ss os ls others w,
  vectors capacity os ls others w -> ~ someone_throws w ->
  ends (program moved capacity ss os w)
    (fun os' _ w' => vectors capacity os' (plainly moved capacity ss ls) others w') (fun _ _ => False).
Proof. intros V moved capacity ss os ls others w. apply program_plain. Qed.
Print Assumptions C130_no_exceptions.

(** From its first step to the destruction of the last vector it leaves the memory as it was. *)
Theorem C130_whole : forall V (moved : V -> V) capacity ss w,
  unused_names w ->
  ends (whole moved capacity ss tt w) (fun _ _ w' => same (heap w') (heap w)) (fun _ _ => False).
Proof. intros V moved capacity ss w. apply whole_ok. Qed.
Print Assumptions C130_whole.

(** Elements pushed into their own vector, a vector appended to itself, vectors used after a move, and steps without room; without
    exceptions and with some of them. *)
Example C130_example :
  let ss := [New; NewFrom [1; 2; 3]; PushElement 1 1 0; AppendAll 1 1; NewMove 1; Use 1 (PushBack 5); CopyAssign 0 2;
             Use 2 (PushBack 7); Use 2 (PushBack 8); InsertAll 1 1 0; Swap 0 1; MoveAssign 1 0; NewCopy 2; NewFrom [1; 2; 3; 4; 5; 6; 7; 8; 9; 10]; CopyAssign 1 1; End 2] in
  let w0 s := World (V := nat) (fun _ => None) 0 s in
  vectors 9 [] [] (fun _ => None) (w0 []) /\
  plainly (fun _ => 0) 9 ss [] = [[0; 0; 0; 0; 0; 0; 0; 0; 0]; [5; 1; 2; 3; 1; 1; 2; 3; 1]; [1; 2; 3; 1; 1; 2; 3; 1; 7]] /\
  match program (fun _ => 0) 9 ss [] (w0 []) with
  | Ret os _ _ => map v_size os = [9; 9; 9]
  | _ => False
  end /\
  match program (fun _ => 0) 9 ss [] (w0 [false; false; false; true; false; true; true]) with
  | Ret os _ _ => map v_size os <> [9; 9; 9]
  | _ => False
  end /\
  match whole (fun _ => 0) 9 ss tt (w0 [false; false; false; true; false; true; true]) with
  | Ret _ _ w' => 3 < next w' /\ heap w' 0 = None /\ heap w' 1 = None /\ heap w' 2 = None /\ heap w' 3 = None
  | _ => False
  end.
Proof.
  cbv zeta. split. { split; intros b; reflexivity. }
  split; [vm_compute; reflexivity|]. split; [vm_compute; reflexivity|]. split; [vm_compute; discriminate|].
  vm_compute. repeat split; lia.
Qed.
