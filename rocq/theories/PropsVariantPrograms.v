(** * C136: programs with any number of variants *)

From Coq Require Import List Arith Bool Lia.
From Verif Require Import Mem Variant SpecVec SpecSeveral SpecVariant SpecVariantPrograms VariantPrograms.
Import ListNotations.

(** ** C136. A program constructs, copies, moves, emplaces, assigns, swaps and destroys any number of variants of one type, in any
    order, with values, with elements of its variants and with elements moved from them (also within one variant), and catches every
    exception. Nothing is ever undefined; after every step each variant has exactly one living alternative, the one and with the value
    that the steps account for, and no other memory has changed. [then_] and [or_else] (SpecVariantPrograms.v) say what a step does when
    it returns and when it leaves by an exception. The program looks at index() for its preconditions, and does not move assign
    when that is noexcept although a copy can throw (C49). *)
Theorem C136_program : forall A (moved : A -> A) (T : types A) ss os ls others w,
  variants T os ls others w ->
  ends (program moved T ss os w)
    (fun os' _ w' => exists ls', accounts moved T ss ls ls' /\ variants T os' ls' others w')
    (fun _ _ => False).
Proof. intros A moved T ss os ls others w. apply program_variants. Qed.
Print Assumptions C136_program.

(** When nothing throws, every step that is possible does what it says. *)
Theorem C136_no_exceptions : forall A (moved : A -> A) (T : types A) ss os ls others w,
  variants T os ls others w -> ~ someone_throws w ->
  ends (program moved T ss os w) (fun os' _ w' => variants T os' (plainly moved T ss ls) others w') (fun _ _ => False).
Proof. intros A moved T ss os ls others w. apply program_variants_plain. Qed.
Print Assumptions C136_no_exceptions.

(** From its first step to the destruction of the last variant it leaves the memory as it was. *)
Theorem C136_whole : forall A (moved : A -> A) (T : types A) ss w,
  unused_names w -> ends (whole moved T ss tt w) (fun _ _ w' => same (heap w') (heap w)) (fun _ _ => False).
Proof. intros A moved T ss w. apply whole_ok. Qed.
Print Assumptions C136_whole.

(** Three alternatives of different types; everything of alternative 1 may throw, nothing of the others. *)
Definition mixed : types nat := {|
  count := 3; type_of := fun k => k;
  nothrow_copy := fun k => negb (k =? 1); nothrow_move := fun k => negb (k =? 1);
  nothrow_copy_assign := fun k => negb (k =? 1); nothrow_move_assign := fun k => negb (k =? 1);
  equal := fun _ => Nat.eqb
|}.
Definition start (s : list bool) : world (nat * nat) := World (fun _ => None) 0 s.
Definition read (w : world (nat * nat)) (o : variant) := (v_index o, heap w (v_at o)).

(** A swap that is left by an exception can lose a value: it is in neither variant. *)
Theorem C136_swap_keeps_values_refuted : exists os ls others w,
  variants mixed os ls others w /\ ls = [(0, 7); (1, 8)] /\
  match program (fun _ => 0) mixed [Swap 0 1] os w with
  | Ret os' _ w' => map (read w') os' = [(0, Some [Some (0, 0)]); (1, Some [Some (1, 8)])]
  | _ => False
  end.
Proof.
  exists [Variant 0 0; Variant 1 1], [(0, 7); (1, 8)], (fun _ => None),
    (World (fun b => if b =? 0 then Some [Some (0, 7)] else if b =? 1 then Some [Some (1, 8)] else None) 2 [true]).
  split; [|split; [reflexivity|vm_compute; reflexivity]]. split.
  - exists (fun b => if b =? 1 then Some [Some (1, 8)] else None). split.
    + split; [reflexivity|]. split; [cbn; lia|]. split; [reflexivity|]. split; [reflexivity|]. intros [|b] Hb; [cbn in Hb; congruence|reflexivity].
    + exists (fun _ => None). split; [|intros b; reflexivity].
      split; [reflexivity|]. split; [cbn; lia|]. split; [reflexivity|]. split; [reflexivity|]. intros b Hb. cbn in *. now destruct (Nat.eqb_spec b 1).
  - intros b Hb. cbn in *. destruct b as [|[|b]]; try lia. reflexivity.
Qed.
Print Assumptions C136_swap_keeps_values_refuted.

Example C136_example :
  let ss := [New 0 true (Value 5); New 1 false (Value 6); NewCopy 1; NewMove 0; Emplace 0 2 false (Element 0 0); Emplace 0 1 false (ElementMoved 1 1);
             AssignValue 2 0 true true (Value 9); AssignValue 2 0 true true (Element 3 0); AssignValue 3 1 false false (ElementMoved 0 1);
             CopyAssign 1 3; MoveAssign 2 3; CopyAssign 2 2; New 2 true (Value 4); Swap 4 3; Emplace 4 1 true (Element 4 1); Emplace 3 2 true (Element 4 1); End 1] in
  variants mixed [] [] (fun _ => None) (start []) /\
  plainly (fun _ => 0) mixed ss [] = [(1, 0); (1, 6); (2, 6); (1, 6)] /\
  match program (fun _ => 0) mixed ss [] (start []) with
  | Ret os _ w' => map (read w') os = [(1, Some [Some (1, 0)]); (1, Some [Some (1, 6)]); (2, Some [Some (2, 6)]); (1, Some [Some (1, 6)])]
  | _ => False
  end /\
  match program (fun _ => 0) mixed ss [] (start [false; true; false; true; false; false; true; true; false; false; false; true]) with
  | Ret os _ w' => map (read w') os <> [(1, Some [Some (1, 0)]); (1, Some [Some (1, 6)]); (2, Some [Some (2, 6)]); (1, Some [Some (1, 6)])]
  | _ => False
  end /\
  match whole (fun _ => 0) mixed ss tt (start [false; true; false; true; false; false; true; true; false; false; false; true]) with
  | Ret _ _ w' => 3 < next w' /\ heap w' 0 = None /\ heap w' 1 = None /\ heap w' 2 = None /\ heap w' 3 = None
  | _ => False
  end.
Proof.
  cbv zeta. split. { split; intros b; reflexivity. }
  split; [vm_compute; reflexivity|]. split; [vm_compute; reflexivity|]. split; [vm_compute; discriminate|].
  vm_compute. repeat split; lia.
Qed.
