(** * C147: programs with any number of optionals, stored in variants *)

From Coq Require Import List Arith Bool Lia.
From Verif Require Import Mem Variant Optional SpecVec SpecSeveral SpecVariant SpecOptional SpecOptionalVariantPrograms OptionalVariantPrograms.
Import ListNotations.

(** ** C147 for a value type without spare representations. [then_] and [or_else] (SpecOptionalVariantPrograms.v) say what a step does
    when it returns and when it leaves by an exception. The program does not emplace without a possible exception from the value of the
    optional itself (C47) and does not move assign where that is noexcept although a copy can throw (C49). *)
Theorem C147_variant_program : forall B (moved : B -> B) copy move copy_assign move_assign eqb ss os ls others w,
  optionals os ls others w ->
  ends (program moved copy move copy_assign move_assign eqb ss os w)
    (fun os' _ w' => exists ls', accounts moved copy move copy_assign move_assign ss ls ls' /\ optionals os' ls' others w')
    (fun _ _ => False).
Proof. intros B moved copy move copy_assign move_assign eqb ss os ls others w. apply program_optionals. Qed.
Print Assumptions C147_variant_program.

Theorem C147_variant_no_exceptions : forall B (moved : B -> B) copy move copy_assign move_assign eqb ss os ls others w,
  optionals os ls others w -> ~ someone_throws w ->
  ends (program moved copy move copy_assign move_assign eqb ss os w)
    (fun os' _ w' => optionals os' (plainly moved copy move copy_assign move_assign ss ls) others w') (fun _ _ => False).
Proof. intros B moved copy move copy_assign move_assign eqb ss os ls others w. apply program_optionals_plain. Qed.
Print Assumptions C147_variant_no_exceptions.

Theorem C147_variant_whole : forall B (moved : B -> B) copy move copy_assign move_assign eqb ss w,
  unused_names w ->
  ends (whole moved copy move copy_assign move_assign eqb ss tt w) (fun _ _ w' => same (heap w') (heap w)) (fun _ _ => False).
Proof. intros B moved copy move copy_assign move_assign eqb ss w. apply whole_ok. Qed.
Print Assumptions C147_variant_whole.

Definition start (s : list bool) : world (nat * option nat) := World (fun _ => None) 0 s.
Definition read (w : world (nat * option nat)) (o : variant) := (v_index o, heap w (v_at o)).
Definition shown (x : option nat) := match x with None => (0, Some [Some (0, None)]) | Some b => (1, Some [Some (1, Some b)]) end.

(** A swap of an optional that has a value with an empty one can lose the value. *)
Theorem C147_variant_swap_keeps_values_refuted : exists os others w,
  optionals os [Some 7; None] others w /\
  match program (fun _ => 0) false false true true Nat.eqb [Swap 0 1] os w with
  | Ret os' _ w' => map (read w') os' = map shown [None; None]
  | _ => False
  end.
Proof.
  exists [Variant 1 0; Variant 0 1], (fun _ => None),
    (World (fun b => if b =? 0 then Some [Some (1, Some 7)] else if b =? 1 then Some [Some (0, None)] else None) 2 [false; true]).
  split; [|vm_compute; reflexivity]. split.
  - exists (fun b => if b =? 1 then Some [Some (0, None)] else None). split.
    + split; [reflexivity|]. split; [cbn; lia|]. split; [reflexivity|]. split; [reflexivity|]. intros [|b] Hb; [cbn in Hb; congruence|reflexivity].
    + exists (fun _ => None). split; [|intros b; reflexivity].
      split; [reflexivity|]. split; [cbn; lia|]. split; [reflexivity|]. split; [reflexivity|]. intros b Hb. cbn in *. now destruct (Nat.eqb_spec b 1).
  - intros b Hb. cbn in *. destruct b as [|[|b]]; try lia. reflexivity.
Qed.
Print Assumptions C147_variant_swap_keeps_values_refuted.

Example C147_variant_example :
  let ss := [NewNone; NewValue true (Value 5); NewCopy 1; NewMove 1; Emplace 0 false (Value 6); AssignNone 2; AssignValue 2 false (Element 0);
             AssignValue 2 false (Element 2); AssignValue 1 false (ElementMoved 2); NewValue false (Element 0); CopyAssign 3 1; CopyAssign 3 3; MoveAssign 0 3;
             Emplace 4 false (ElementMoved 0); Swap 4 1; NewNone; Swap 5 4; MoveAssign 2 4; Emplace 5 false (Element 5); AssignValue 0 false (ElementMoved 0); End 3] in
  optionals [] [] (fun _ => None) (start []) /\
  plainly (fun _ => 0) false false false false ss [] = [Some 0; Some 6; None; None; Some 6] /\
  match program (fun _ => 0) false false false false Nat.eqb ss [] (start []) with
  | Ret os _ w' => map (read w') os = map shown [Some 0; Some 6; None; None; Some 6]
  | _ => False
  end /\
  match program (fun _ => 0) false false false false Nat.eqb ss [] (start [false; true; false; true; false; false; true; false; true]) with
  | Ret os _ w' => map (read w') os <> map shown [Some 0; Some 6; None; None; Some 6]
  | _ => False
  end /\
  match whole (fun _ => 0) false false false false Nat.eqb ss tt (start [false; true; false; true; false; false; true; false; true]) with
  | Ret _ _ w' => 4 < next w' /\ heap w' 0 = None /\ heap w' 1 = None /\ heap w' 2 = None /\ heap w' 3 = None /\ heap w' 4 = None
  | _ => False
  end.
Proof.
  cbv zeta. split. { split; intros b; reflexivity. }
  split; [vm_compute; reflexivity|]. split; [vm_compute; reflexivity|]. split; [vm_compute; discriminate|].
  vm_compute. repeat split; lia.
Qed.
