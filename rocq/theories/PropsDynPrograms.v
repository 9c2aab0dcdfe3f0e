(** * C135: programs with any number of dynamic_arrays *)

From Coq Require Import List Arith Bool Lia.
From Verif Require Import Mem Vec SpecVec SpecSeveral DynArray SpecDyn SpecDynPrograms DynPrograms.
Import ListNotations.

(** ** C135. A program creates, copies, moves, assigns, writes, clears, swaps and destroys any number of dynamic_arrays, in any
    order, and catches every exception; it keeps a record of the arrays it moved from and does not read, write or copy those.
    Nothing is ever undefined; after every step the objects are different arrays whose elements the steps account for, and no
    other memory has changed. [then_] and [or_else] (SpecDynPrograms.v) say what a step does when it returns and when it leaves
    by an exception. *)
Theorem C135_program : forall V (moved : V -> V) min max ss os ls others w,
  arrays min max os ls others w ->
  ends (program moved min max ss (gone_of ls) os w)
    (fun os' _ w' => exists ls', accounts min max ss ls ls' /\ arrays min max os' ls' others w')
    (fun _ _ => False).
Proof. intros V moved min max ss os ls others w. apply program_arrays. Qed.
Print Assumptions C135_program.

(** When neither an element nor the allocator throws, the result is determined: every step that is possible does what it says, except
    those with a range whose size the type does not have: they are refused, and an array that can be empty has lost its elements. *)
Theorem C135_no_exceptions : forall V (moved : V -> V) min max ss os ls others w,
  arrays min max os ls others w -> ~ someone_throws w ->
  ends (program moved min max ss (gone_of ls) os w)
    (fun os' _ w' => arrays min max os' (plainly min max ss ls) others w') (fun _ _ => False).
Proof. intros V moved min max ss os ls others w. apply program_arrays_plain. Qed.
Print Assumptions C135_no_exceptions.

(** From its first step to the destruction of the last array it leaves the memory as it was. *)
Theorem C135_whole : forall V (moved : V -> V) min max ss w,
  unused_names w -> ends (whole moved min max ss tt w) (fun _ _ w' => same (heap w') (heap w)) (fun _ _ => False).
Proof. intros V moved min max ss w. apply whole_ok. Qed.
Print Assumptions C135_whole.

(** The record is needed: copying an array that was moved from is undefined. *)
Theorem C135_record_needed : exists (ss : list (step (V := nat))) os ls others w,
  arrays 0 100 os ls others w /\ ~ someone_throws w /\ program (fun v => v) 0 100 ss (map (fun _ => false) os) os w = Bad Broken.
Proof.
  exists [NewCopy 0], [Storage None 3], [None], (fun _ => None), (World (fun _ => None) 0 []).
  split. { split; [|intros b _; reflexivity]. exists (fun _ => None). split; [|intros b; reflexivity]. split; [reflexivity|intros b; reflexivity]. }
  split. { intros []. } reflexivity.
Qed.
Print Assumptions C135_record_needed.

(** Arrays of other and of the same size assigned, a range that is too long, elements written within and between arrays, arrays that
    were moved from assigned to and swapped; without exceptions and with some of them. *)
Example C135_example :
  let ss := [New; NewFrom [1; 2; 3]; NewCopy 1; Write 2 0 9; WriteElement 2 1 2 0; WriteElement 1 2 2 0; NewMove 2; Swap 2 1; CopyAssign 1 3;
             Assign 0 [4; 5]; Assign 0 [6; 7; 8; 9; 10; 11]; NewFrom [1; 2; 3; 4; 5; 6]; CopyAssign 0 1; MoveAssign 3 3; Assign 2 [7; 7; 7]; Clear 1; End 3] in
  let w0 s := World (V := nat) (fun _ => None) 0 s in
  let read (w : world nat) (o : storage) := match u_pointer o with Some b => heap w b | None => None end in
  arrays 0 5 [] [] (fun _ => None) (w0 []) /\
  plainly 0 5 ss [] = [Some [9; 9; 3]; Some []; Some [7; 7; 7]] /\
  match program (fun _ => 0) 0 5 ss [] [] (w0 []) with
  | Ret os _ w' => map (read w') os = [Some [Some 9; Some 9; Some 3]; None; Some [Some 7; Some 7; Some 7]]
  | _ => False
  end /\
  match program (fun _ => 0) 0 5 ss [] [] (w0 [false; false; true; false; false; false; true; true; false; false; true]) with
  | Ret os _ w' => map (read w') os <> [Some [Some 9; Some 9; Some 3]; None; Some [Some 7; Some 7; Some 7]]
  | _ => False
  end /\
  match whole (fun _ => 0) 0 5 ss tt (w0 [false; false; false; false; false; false; false; false; false; true]) with
  | Ret _ _ w' => 3 < next w' /\ heap w' 0 = None /\ heap w' 1 = None /\ heap w' 2 = None /\ heap w' 3 = None
  | _ => False
  end.
Proof.
  cbv zeta. split. { split; intros b; reflexivity. }
  split; [reflexivity|]. split; [vm_compute; reflexivity|]. split; [vm_compute; discriminate|].
  vm_compute. repeat split; lia.
Qed.
