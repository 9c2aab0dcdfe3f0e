(** * C147: programs with any number of optionals *)

From Coq Require Import List Arith Bool Lia.
From Verif Require Import Mem Optional SpecVec SpecSeveral SpecOptional SpecOptionalPrograms OptionalPrograms.
Import ListNotations.

(** ** C147. A program constructs, copies, moves, emplaces, assigns, empties, swaps and destroys any number of optionals of a type with
    spare representations, in any order, with values, with the values of its optionals and with values moved from them, and catches
    every exception. Nothing is ever undefined; after every step each optional is empty or has the value that the steps account for,
    and no other memory has changed. [then_] and [or_else] (SpecOptionalPrograms.v) say what a step does when it returns and when it
    leaves by an exception. The program does not put a value whose construction can throw into an empty optional (C54). *)
Theorem C147_program : forall B (moved : B -> B) copy move copy_assign move_assign ss os ls others w,
  optionals os ls others w ->
  ends (program moved copy move copy_assign move_assign ss os w)
    (fun os' _ w' => exists ls', accounts moved copy move copy_assign move_assign ss ls ls' /\ optionals os' ls' others w')
    (fun _ _ => False).
Proof. intros B moved copy move copy_assign move_assign ss os ls others w. apply program_optionals. Qed.
Print Assumptions C147_program.

(** When nothing throws, every step that is possible does what it says. *)
Theorem C147_no_exceptions : forall B (moved : B -> B) copy move copy_assign move_assign ss os ls others w,
  optionals os ls others w -> ~ someone_throws w ->
  ends (program moved copy move copy_assign move_assign ss os w)
    (fun os' _ w' => optionals os' (plainly moved copy move ss ls) others w') (fun _ _ => False).
Proof. intros B moved copy move copy_assign move_assign ss os ls others w. apply program_optionals_plain. Qed.
Print Assumptions C147_no_exceptions.

(** From its first step to the destruction of the last optional it leaves the memory as it was. *)
Theorem C147_whole : forall B (moved : B -> B) copy move copy_assign move_assign ss w,
  unused_names w -> ends (whole moved copy move copy_assign move_assign ss tt w) (fun _ _ w' => same (heap w') (heap w)) (fun _ _ => False).
Proof. intros B moved copy move copy_assign move_assign ss w. apply whole_ok. Qed.
Print Assumptions C147_whole.

Definition start (s : list bool) : world (rep nat) := World (fun _ => None) 0 s.
Definition pair_of (a b : nat) (s : list bool) : world (rep nat) :=
  World (fun p => if p =? 0 then Some [Some (Living a)] else if p =? 1 then Some [Some (Living b)] else None) 2 s.
Lemma pair_ok a b s : optionals [0; 1] [Some a; Some b] (fun _ => None) (pair_of a b s).
Proof.
  split.
  - exists (fun p => if p =? 1 then Some [Some (Living b)] else None). split.
    + split; [reflexivity|]. split; [reflexivity|]. intros [|p] Hp; [congruence|reflexivity].
    + exists (fun _ => None). split; [|intros p; reflexivity]. split; [reflexivity|]. split; [reflexivity|].
      intros p Hp. cbn. now destruct (Nat.eqb_spec p 1).
  - intros p Hp. cbn in *. destruct p as [|[|p]]; try lia. reflexivity.
Qed.

(** A swap that is left by an exception can lose a value: it is in neither optional. *)
Theorem C147_swap_keeps_values_refuted : exists os others w,
  optionals os [Some 7; Some 8] others w /\
  match program (fun _ => 0) true true true false [Swap 0 1] os w with
  | Ret os' _ w' => optionals os' [Some 0; Some 8] others w'
  | _ => False
  end.
Proof.
  exists [0; 1], (fun _ => None), (pair_of 7 8 [true]). split; [apply pair_ok|].
  pose proof (pair_ok 0 8 []) as [Hs _]. vm_compute program. split.
  - eapply several_in_same_world; [|exact Hs]. intros p. cbn. destruct p as [|[|[|p]]]; reflexivity.
  - intros p Hp. cbn in *. destruct p as [|[|[|p]]]; try lia. reflexivity.
Qed.
Print Assumptions C147_swap_keeps_values_refuted.
(** Without the condition on construction: after an assignment to an empty optional that throws, its destructor is undefined. *)
Theorem C147_any_construction_refuted : exists os others w,
  optionals os [Some 7; None] others w /\
  match attempt (do_step (fun _ => 0) false true true true (CopyAssign 1 0)) os w with
  | Ret os' _ w' => do_step (fun _ => 0) false true true true (End 1) os' w' = Bad Dead
  | _ => False
  end.
Proof.
  exists [0; 1], (fun _ => None), (World (fun p => if p =? 0 then Some [Some (Living 7)] else if p =? 1 then Some [Some (Spare 0)] else None) 2 [true]).
  split; [|vm_compute; reflexivity]. split.
  - exists (fun p => if p =? 1 then Some [Some (Spare 0)] else None). split.
    + split; [reflexivity|]. split; [reflexivity|]. intros [|p] Hp; [congruence|reflexivity].
    + exists (fun _ => None). split; [|intros p; reflexivity]. split; [reflexivity|]. split; [reflexivity|].
      intros p Hp. cbn. now destruct (Nat.eqb_spec p 1).
  - intros p Hp. cbn in *. destruct p as [|[|p]]; try lia. reflexivity.
Qed.
Print Assumptions C147_any_construction_refuted.

Example C147_example :
  let ss := [NewNone; NewValue (Value true true 5); NewCopy 1; NewMove 1; Emplace 0 (Value false true 6); AssignNone 2; AssignValue 2 (Element 0);
             AssignValue 2 (Element 2); AssignValue 1 (ElementMoved 2); NewValue (Element 0); CopyAssign 3 1; CopyAssign 3 3; MoveAssign 0 3;
             Emplace 4 (ElementMoved 0); Swap 4 1; NewNone; Swap 5 4; MoveAssign 2 4; Emplace 0 (Element 0); AssignValue 0 (ElementMoved 0); End 3] in
  optionals [] [] (fun _ => None) (start []) /\
  plainly (fun _ => 0) true true ss [] = [Some 0; Some 6; None; None; Some 6] /\
  match program (fun _ => 0) true true false false ss [] (start []) with
  | Ret os _ w' => map (fun p => heap w' p) os = map (fun x => Some [Some (representation x)]) [Some 0; Some 6; None; None; Some 6]
  | _ => False
  end /\
  match program (fun _ => 0) true true false false ss [] (start [true; false; true; false; false; true; false; true]) with
  | Ret os _ w' => map (fun p => heap w' p) os <> map (fun x => Some [Some (representation x)]) [Some 0; Some 6; None; None; Some 6]
  | _ => False
  end /\
  match whole (fun _ => 0) true true false false ss tt (start [true; false; true; false; false; true; false; true]) with
  | Ret _ _ w' => 4 < next w' /\ heap w' 0 = None /\ heap w' 1 = None /\ heap w' 2 = None /\ heap w' 3 = None /\ heap w' 4 = None
  | _ => False
  end.
Proof.
  cbv zeta. split. { split; intros b; reflexivity. }
  split; [vm_compute; reflexivity|]. split; [vm_compute; reflexivity|]. split; [vm_compute; discriminate|].
  vm_compute. repeat split; lia.
Qed.
