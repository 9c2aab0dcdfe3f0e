(** * C124: programs with any number of sbo_vectors *)

From Coq Require Import List Arith Bool NArith Lia.
From Verif Require Import Mem Vec SpecVec SpecHistory Sbo SpecSbo SpecPrograms Programs.
Import ListNotations.

(** ** C124. A program creates, copies, moves, swaps, uses and destroys any number of sbo_vectors, in any order, and catches every
    exception. Nothing is ever undefined; after every step the objects are different vectors whose elements the steps account
    for, and no other memory has changed. *)
Theorem C124_program : forall V (moved : V -> V) small max ss os ls others w,
  small < max -> (N.of_nat max < 2 ^ 63)%N -> are_sbos small max os ls others w ->
  ends (program moved small max ss os w)
    (fun os' _ w' => exists ls', accounts max ss ls ls' /\ are_sbos small max os' ls' others w')
    (fun _ _ => False).
Proof. intros V moved small max ss os ls others w Hs Hm. now apply program_ok. Qed.
Print Assumptions C124_program.

(** When neither an element nor the allocator throws and no vector gets larger than half of the largest size, every step that
    is possible does what it says. *)
Theorem C124_no_exceptions : forall V (moved : V -> V) small max ss os ls others w,
  small < max -> (N.of_nat max < 2 ^ 63)%N -> are_sbos small max os ls others w ->
  ~ someone_throws w -> Forall (fun l => 2 * length l <= max) (passing max ss ls) ->
  ends (program moved small max ss os w)
    (fun os' _ w' => are_sbos small max os' (plainly max ss ls) others w') (fun _ _ => False).
Proof. intros V moved small max ss os ls others w Hs Hm. now apply program_plain. Qed.
Print Assumptions C124_no_exceptions.

(** From its first step to the destruction of the last vector it leaves the memory as it was. *)
Theorem C124_whole : forall V (moved : V -> V) small max ss w,
  small < max -> (N.of_nat max < 2 ^ 63)%N -> unused_names w ->
  ends (whole moved small max ss tt w) (fun _ _ w' => same (heap w') (heap w)) (fun _ _ => False).
Proof. intros V moved small max ss w Hs Hm. now apply whole_ok. Qed.
Print Assumptions C124_whole.

(** Elements pushed into their own vector, a vector appended to itself, swaps of a small and a large vector; without exceptions
    and with three of them. *)
Example C124_example :
  let ss := [New; NewFrom [1; 2; 3]; PushElement 1 1 0; AppendAll 1 1; NewMove 1; Use 0 (PushBack 7); Swap 0 2; InsertAll 2 1 0;
             CopyAssign 1 2; NewCopy 0; MoveAssign 0 2; End 1] in
  let w0 s := World (V := nat) (fun _ => None) 0 s in
  are_sbos 2 1000 [] [] (fun _ => None) (w0 []) /\
  plainly 1000 ss [] = [[7; 1; 2; 3; 1; 1; 2; 3; 1]; []; [1; 2; 3; 1; 1; 2; 3; 1]] /\
  match program (fun _ => 0) 2 1000 ss [] (w0 []) with
  | Ret os _ _ => map sb_size os = [9; 0; 8] /\ map s_is_large os = [true; false; true]
  | _ => False
  end /\
  match program (fun _ => 0) 2 1000 ss [] (w0 [false; false; false; false; false; true; false; true; true]) with
  | Ret os _ _ => map sb_size os <> [9; 0; 8]
  | _ => False
  end /\
  match whole (fun _ => 0) 2 1000 ss tt (w0 [false; false; false; false; false; true; false; true; true]) with
  | Ret _ _ w' => 5 < next w' /\ heap w' 0 = None /\ heap w' 1 = None /\ heap w' 2 = None /\ heap w' 3 = None /\ heap w' 4 = None
  | _ => False
  end.
Proof.
  cbv zeta. split. { split; intros b; reflexivity. }
  split; [reflexivity|]. split; [vm_compute; split; reflexivity|]. split; [vm_compute; discriminate|].
  vm_compute. repeat split; lia.
Qed.
