(** * C129: programs with any number of vectors *)

From Coq Require Import List Arith Bool Lia.
From Verif Require Import Mem Vec SpecVec SpecHistory SpecSeveral SpecVecPrograms VecPrograms.
Import ListNotations.

(** ** C129. A program creates, copies, moves, swaps, uses and destroys any number of vectors, in any order, and catches every
    exception; it keeps a record of the vectors it moved from and only destroys, assigns to, moves, swaps or reads those. Nothing is
    ever undefined; after every step the objects are different vectors whose elements the steps account for, and no other memory
    has changed. *)
Theorem C129_program : forall V (moved : V -> V) minc maxc ss os ls others w,
  minc < maxc -> vectors minc maxc os ls others w ->
  ends (program moved minc maxc ss (gone_of ls) os w)
    (fun os' _ w' => exists ls', accounts maxc ss ls ls' /\ vectors minc maxc os' ls' others w')
    (fun _ _ => False).
Proof. intros V moved minc maxc ss os ls others w Hlt. apply program_ok; auto with arith. Qed.
Print Assumptions C129_program.

(** When neither an element nor the allocator throws and no vector gets larger than half of the largest size, every step that
    is possible does what it says. *)
Theorem C129_no_exceptions : forall V (moved : V -> V) minc maxc ss os ls others w,
  minc < maxc -> vectors minc maxc os ls others w ->
  ~ someone_throws w -> (forall l, In (Some l) (passing maxc ss ls) -> 2 * length l <= maxc) ->
  ends (program moved minc maxc ss (gone_of ls) os w)
    (fun os' _ w' => vectors minc maxc os' (plainly maxc ss ls) others w') (fun _ _ => False).
Proof. intros V moved minc maxc ss os ls others w Hlt. apply program_plain; auto with arith. Qed.
Print Assumptions C129_no_exceptions.

(** From its first step to the destruction of the last vector it leaves the memory as it was. *)
Theorem C129_whole : forall V (moved : V -> V) minc maxc ss w,
  minc < maxc -> unused_names w ->
  ends (whole moved minc maxc ss tt w) (fun _ _ w' => same (heap w') (heap w)) (fun _ _ => False).
Proof. intros V moved minc maxc ss w Hlt. apply whole_ok; auto with arith. Qed.
Print Assumptions C129_whole.

(** Without the record of what was moved from it fails: a program that asks a vector for its size alone before it calls push_back
    has undefined behaviour after a move. *)
Theorem C129_record_needed : exists (ss : list (step (V := nat))) os ls others w,
  vectors 0 100 os ls others w /\ ~ someone_throws w /\ program (fun v => v) 0 100 ss (map (fun _ => false) os) os w = Bad Broken.
Proof.
  exists [Use 0 (PushBack 1)], [BVector (Storage None 3) 0], [None], (fun _ => None), (World (fun _ => None) 0 []).
  split. { split; [|intros b _; reflexivity]. exists (fun _ => None). split; [|intros b; reflexivity]. left. split; [split; reflexivity|intros b; reflexivity]. }
  split. { intros []. } reflexivity.
Qed.
Print Assumptions C129_record_needed.

(** Elements pushed into their own vector, a vector appended to itself, assignments to and from vectors that were moved from, a vector
    moved to itself; without exceptions and with some of them. *)
Example C129_example :
  let ss := [New; NewFrom [1; 2; 3]; PushElement 1 1 0; AppendAll 1 1; NewMove 1; Use 1 (PushBack 5); CopyAssign 1 2; Use 1 (PushBack 7);
             Swap 0 2; InsertAll 1 1 0; MoveAssign 2 1; MoveAssign 0 0; NewCopy 0; CopyAssign 0 2; End 1] in
  let w0 s := World (V := nat) (fun _ => None) 0 s in
  let result := [1; 1; 2; 3; 1; 1; 2; 3; 1; 2; 3; 1; 1; 2; 3; 1; 7] in
  vectors 0 1000 [] [] (fun _ => None) (w0 []) /\
  plainly 1000 ss [] = [Some result; Some result; Some []] /\
  match program (fun _ => 0) 0 1000 ss [] [] (w0 []) with
  | Ret os _ _ => map b_size os = [17; 17; 0]
  | _ => False
  end /\
  match program (fun _ => 0) 0 1000 ss [] [] (w0 [false; false; false; false; false; true; false; true; true]) with
  | Ret os _ _ => map b_size os <> [17; 17; 0]
  | _ => False
  end /\
  match whole (fun _ => 0) 0 1000 ss tt (w0 [false; false; false; false; false; true; false; true; true]) with
  | Ret _ _ w' => 3 < next w' /\ heap w' 0 = None /\ heap w' 1 = None /\ heap w' 2 = None /\ heap w' 3 = None
  | _ => False
  end.
Proof.
  cbv zeta. split. { split; intros b; reflexivity. }
  split; [reflexivity|]. split; [vm_compute; reflexivity|]. split; [vm_compute; discriminate|].
  vm_compute. repeat split; lia.
Qed.
