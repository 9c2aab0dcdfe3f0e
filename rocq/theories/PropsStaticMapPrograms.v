(** * C151: programs with any number of static maps *)

From Coq Require Import List Arith Bool Lia.
From Verif Require Import Mem Vec SpecVec SpecSeveral SpecSort SpecUnique SpecMap Keyed SpecDict FlatMemory SpecFlatMemory LinearMemory SpecMapPrograms
  SpecStaticMapPrograms StaticMapPrograms.
From Verif Require PropsMap FlatMemoryProofs2.
Import ListNotations.
Local Open Scope nat_scope.

(** ** C151. A program creates, copies, moves, assigns, swaps, uses and destroys any number of static_flat_maps, in any order, and catches every exception;
    it keeps a record of the maps from which it has assigned by moving and of those to which a copying assignment threw, and only destroys, assigns to, moves and
    swaps those. Nothing is ever undefined; everything it sees is what it would see of dictionaries that are copied and moved in the same way: no two maps
    share entries, an exception changes no map but the target of a copying assignment; and no other memory has changed. *)
Theorem C151_flat_program : forall K T (moved : K * T -> K * T) key_less capacity ss os ds others w,
  strict_weak_order key_less -> static_maps_in (equivalent key_less) capacity (flat key_less) os ds others w ->
  ends (static_map_program moved (mem_act moved key_less (static_vector capacity)) capacity ss (lost_of ds) os w)
    (fun os' seen w' => exists ds', static_tells (equivalent key_less) capacity (someone_throws w) ds ss seen ds' /\
       static_maps_in (equivalent key_less) capacity (flat key_less) os' ds' others w')
    (fun _ _ => False).
Proof.
  intros K T moved key_less capacity ss os ds others w Hlt. apply static_map_program_ok; [apply FlatMemoryProofs2.flat_nothing|].
  intros. now apply (static_flat_act_ok moved key_less capacity Hlt others0 o m).
Qed.
Print Assumptions C151_flat_program.
(** The same for static_linear_maps, *)
Theorem C151_linear_program : forall K T (moved : K * T -> K * T) equal capacity ss os ds others w,
  equivalence equal -> static_maps_in equal capacity (distinct equal) os ds others w ->
  ends (static_map_program moved (mem_linear_act moved equal (static_vector capacity)) capacity ss (lost_of ds) os w)
    (fun os' seen w' => exists ds', static_tells equal capacity (someone_throws w) ds ss seen ds' /\ static_maps_in equal capacity (distinct equal) os' ds' others w')
    (fun _ _ => False).
Proof.
  intros K T moved equal capacity ss os ds others w Heq. apply static_map_program_ok; [intros i j a b Hi; destruct i; discriminate|].
  intros. now apply (static_linear_act_ok moved equal capacity Heq others0 o m).
Qed.
Print Assumptions C151_linear_program.

(** From its first step to the destruction of the last map it leaves the memory as it was. *)
Theorem C151_flat_whole : forall K T (moved : K * T -> K * T) key_less capacity ss w,
  strict_weak_order key_less -> unused_names w ->
  ends (whole_static_map_program moved (mem_act moved key_less (static_vector capacity)) capacity ss tt w)
    (fun _ seen w' => same (heap w') (heap w) /\ exists ds, static_tells (equivalent key_less) capacity (someone_throws w) [] ss seen ds)
    (fun _ _ => False).
Proof.
  intros K T moved key_less capacity ss w Hlt. apply (whole_static_maps_ok moved _ _ capacity (flat key_less)); [apply FlatMemoryProofs2.flat_nothing|].
  intros. now apply (static_flat_act_ok moved key_less capacity Hlt others o m).
Qed.
Print Assumptions C151_flat_whole.
Theorem C151_linear_whole : forall K T (moved : K * T -> K * T) equal capacity ss w,
  equivalence equal -> unused_names w ->
  ends (whole_static_map_program moved (mem_linear_act moved equal (static_vector capacity)) capacity ss tt w)
    (fun _ seen w' => same (heap w') (heap w) /\ exists ds, static_tells equal capacity (someone_throws w) [] ss seen ds)
    (fun _ _ => False).
Proof.
  intros K T moved equal capacity ss w Heq. apply (whole_static_maps_ok moved _ _ capacity (distinct equal)); [intros i j a b Hi; destruct i; discriminate|].
  intros. now apply (static_linear_act_ok moved equal capacity Heq others o m).
Qed.
Print Assumptions C151_linear_whole.

(** When no element and no comparison throws and a map has room for all different keys, nothing throws. *)
Theorem C151_flat_no_exceptions : forall K T (moved : K * T -> K * T) key_less capacity n ss os ds others w,
  strict_weak_order key_less -> static_maps_in (equivalent key_less) capacity (flat key_less) os ds others w ->
  ~ someone_throws w -> different_keys (equivalent key_less) n -> n <= capacity ->
  ends (static_map_program moved (mem_act moved key_less (static_vector capacity)) capacity ss (lost_of ds) os w) (fun _ seen _ => ~ In Threw seen) (fun _ _ => False).
Proof.
  intros K T moved key_less capacity n ss os ds others w Hlt Hm Hq Hn Hc.
  refine (static_map_program_calm moved _ _ capacity (flat key_less) (FlatMemoryProofs2.flat_nothing _) _ ss (static_flat_room key_less Hlt n capacity Hn Hc) os ds others w Hq Hm).
  intros. now apply (static_flat_act_ok moved key_less capacity Hlt others0 o m).
Qed.
Print Assumptions C151_flat_no_exceptions.
Theorem C151_linear_no_exceptions : forall K T (moved : K * T -> K * T) equal capacity n ss os ds others w,
  equivalence equal -> static_maps_in equal capacity (distinct equal) os ds others w ->
  ~ someone_throws w -> different_keys equal n -> n <= capacity ->
  ends (static_map_program moved (mem_linear_act moved equal (static_vector capacity)) capacity ss (lost_of ds) os w) (fun _ seen _ => ~ In Threw seen) (fun _ _ => False).
Proof.
  intros K T moved equal capacity n ss os ds others w Heq Hm Hq Hn Hc.
  refine (static_map_program_calm moved _ _ capacity (distinct equal) _ _ ss (static_linear_room equal Heq n capacity Hn Hc) os ds others w Hq Hm).
  - intros i j a b Hi; destruct i; discriminate.
  - intros. now apply (static_linear_act_ok moved equal capacity Heq others0 o m).
Qed.
Print Assumptions C151_linear_no_exceptions.

(** The record is needed. After an assignment by moving, the map that was assigned from still has as many elements as before, moved from: here two elements with
    the same key. It finds the key 0 after it was erased, as no dictionary does. *)
Theorem C151_moved_from_refuted : exists (moved : nat * nat -> nat * nat) ss (w : world (nat * nat)) os seen w1 actions os2 replies w2,
  unused_names w /\
  static_map_program moved (mem_linear_act moved Nat.eqb (static_vector 4)) 4 (ss ++ [MapMoveAssign 0 1]) [] [] w = Ret os seen w1 /\ ~ In Threw seen /\ ~ In Skipped seen /\
  one_of 1 (session (mem_linear_act moved Nat.eqb (static_vector 4)) actions) os w1 = Ret os2 (map Some replies) w2 /\
  forall d d', ~ explained (dictionary_act Nat.eqb) (fun _ _ => False) d actions (map Some replies) d'.
Proof.
  pose (ins := fun i k v => MapAct (K := nat) (T := nat) i (Insert k v)).
  exists (fun _ => (0, 0)), [MapNew; MapNew; ins 1 1 10; ins 1 2 20], (World (fun _ => None) 0 []).
  eexists. exists [Returned None; Returned None; Returned (Some (Inserted true)); Returned (Some (Inserted true)); Returned None]. eexists.
  exists [Erase 0; Lookup 0]. eexists. exists [Erased 1; Found (Some 0)]. eexists.
  split; [intros b _; reflexivity|]. split; [vm_compute; reflexivity|].
  split; [cbn; intuition discriminate|]. split; [cbn; intuition discriminate|]. split; [vm_compute; reflexivity|].
  intros d d' H. inversion H as [|d0 a actions seen d1 Hrest Ed Ea Er|]; subst. inversion Hrest as [|d0 a actions seen d1 Hrest' Ed Ea Er'|]; subst.
  cbn [dictionary_act] in *. destruct (value_of d 0); cbn in *; discriminate.
Qed.
Print Assumptions C151_moved_from_refuted.

(** Copies are independent of what they were made from, maps survive a swap and a move; a map from which another one was constructed is used at once, one that was
    assigned from only after it was assigned to; a full map throws. With an exception while a map is assigned to, it is not used, and the rest is as before. *)
Example C151_example :
  let ins i k v := MapAct (K := nat) (T := nat) i (Insert k v) in
  let find i k := MapAct (K := nat) (T := nat) i (Lookup k) in
  let ss := [MapNew; ins 0 5 50; ins 0 3 30; MapCopy 0; ins 1 4 40; MapAct 0 (Erase 3); find 1 3; find 0 3; MapSwap 0 1; find 0 4; MapMove 0; find 0 4; find 2 4; ins 0 7 70; find 0 7;
             ins 2 8 80; MapCopyAssign 0 2; find 0 4; MapMoveAssign 1 2; find 2 3; find 1 3; MapEnd 0] in
  let w0 s := World (V := nat * nat) (fun _ => None) 0 s in
  let returned := Returned (T := nat) None in
  let found v := Returned (Some (Found v)) in
  let inserted := Returned (T := nat) (Some (Inserted true)) in
  let first := [returned; inserted; inserted; returned; inserted; Returned (Some (Erased 1)); found (Some 30); found None; returned; found (Some 40); returned; found None;
                found (Some 40); inserted; found (Some 70); Threw] in
  strict_weak_order Nat.ltb /\ equivalence Nat.eqb /\ static_maps_in (T := nat) (equivalent Nat.ltb) 3 (flat Nat.ltb) [] [] (fun _ => None) (w0 []) /\
  match whole_static_map_program (fun _ => (0, 0)) (mem_act (fun _ => (0, 0)) Nat.ltb (static_vector 3)) 3 ss tt (w0 []) with
  | Ret _ seen w => seen = first ++ [returned; found (Some 40); returned; Skipped; found (Some 30); returned] /\ heap w 0 = None /\ heap w 1 = None /\ 2 < next w
  | _ => False
  end /\
  match whole_static_map_program (fun _ => (0, 0)) (mem_linear_act (fun _ => (0, 0)) Nat.eqb (static_vector 3)) 3 ss tt (w0 []) with
  | Ret _ seen w => seen = first ++ [returned; found (Some 40); returned; Skipped; found (Some 30); returned] /\ heap w 0 = None /\ heap w 1 = None /\ 2 < next w
  | _ => False
  end /\
  match whole_static_map_program (fun _ => (0, 0)) (mem_linear_act (fun _ => (0, 0)) Nat.eqb (static_vector 3)) 3 ss tt (w0 (repeat false 25 ++ [true])) with
  | Ret _ seen w => seen = first ++ [Threw; Skipped; returned; Skipped; found (Some 30); returned] /\ heap w 0 = None /\ heap w 1 = None /\ 2 < next w
  | _ => False
  end.
Proof.
  cbv zeta. split; [exact PropsMap.nat_order|].
  split. { split; [exact Nat.eqb_refl|split; [exact Nat.eqb_sym|]]. intros a b c. rewrite !Nat.eqb_eq. congruence. }
  split. { exists []. split; [constructor|]. split; intros b; reflexivity. }
  split; [|split]; vm_compute; repeat split; lia.
Qed.
