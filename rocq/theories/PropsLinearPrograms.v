(** * C150: programs with any number of linear maps *)

From Coq Require Import List Arith Bool Lia.
From Verif Require Import Mem Vec SpecVec SpecSeveral SpecUnique SpecMap Keyed SpecDict FlatMemory SpecFlatMemory LinearMemory SpecMapPrograms SpecLinearPrograms LinearPrograms.
Import ListNotations.
Local Open Scope nat_scope.

(** ** C150. A program creates, copies, moves, assigns, swaps, uses and destroys any number of linear maps, in any order, and catches every exception;
    it keeps a record of the maps it has moved from and of those to which an assignment threw, and only destroys, assigns to, moves and swaps
    those; and it only inserts into maps that have at most half of the most entries. Nothing is ever undefined; everything it sees is what it would see of dictionaries that are copied and
    moved in the same way: no two maps share entries, an exception changes no map but the target of a copying assignment; and no other memory has changed. *)
Theorem C150_program : forall K T (moved : K * T -> K * T) equal maximum ss os ds others w,
  equivalence equal -> 0 < maximum -> linear_maps_in equal maximum os ds others w ->
  ends (linear_program moved equal maximum ss (lost_of ds) os w)
    (fun os' seen w' => exists ds', linear_tells equal maximum (someone_throws w) ds ss seen ds' /\ linear_maps_in equal maximum os' ds' others w')
    (fun _ _ => False).
Proof. intros K T moved equal maximum ss os ds others w Heq Hm. now apply linear_program_ok. Qed.
Print Assumptions C150_program.

(** From its first step to the destruction of the last map it leaves the memory as it was. *)
Theorem C150_whole : forall K T (moved : K * T -> K * T) equal maximum ss w,
  equivalence equal -> 0 < maximum -> unused_names w ->
  ends (whole_linear_program moved equal maximum ss tt w)
    (fun _ seen w' => same (heap w') (heap w) /\ exists ds, linear_tells equal maximum (someone_throws w) [] ss seen ds)
    (fun _ _ => False).
Proof. intros K T moved equal maximum ss w Heq Hm. now apply whole_linear_ok. Qed.
Print Assumptions C150_whole.

(** When neither an element nor the allocator throws and there are at most half as many different keys as a map may have entries, nothing throws. *)
Theorem C150_no_exceptions : forall K T (moved : K * T -> K * T) equal maximum n ss os ds others w,
  equivalence equal -> 0 < maximum -> linear_maps_in equal maximum os ds others w ->
  ~ someone_throws w -> different_keys equal n -> 2 * n <= maximum ->
  ends (linear_program moved equal maximum ss (lost_of ds) os w) (fun _ seen _ => ~ In Threw seen) (fun _ _ => False).
Proof. intros. now apply (linear_program_calm moved equal H maximum H0 n ss H3 H4 os ds others w). Qed.
Print Assumptions C150_no_exceptions.

(** The record of the assignments that threw is needed: after such an assignment a map may have two entries for a key. It finds the key 2 after it was erased, as no dictionary does. *)
Theorem C150_assignment_refuted : exists ss (w : world (nat * nat)) os seen w1 actions os2 replies w2,
  unused_names w /\
  linear_program (fun e => e) Nat.eqb 100 (ss ++ [MapCopyAssign 0 1]) [] [] w = Ret os (seen ++ [Threw]) w1 /\ ~ In Threw seen /\ ~ In Skipped seen /\
  one_of 0 (session (mem_linear_act (fun e => e) Nat.eqb (bounded_vector (fun e => e) 0 100)) actions) os w1 = Ret os2 (map Some replies) w2 /\
  forall d d', ~ explained (dictionary_act Nat.eqb) (fun _ _ => False) d actions (map Some replies) d'.
Proof.
  pose (ins := fun i k v => MapAct (K := nat) (T := nat) i (Insert k v)).
  exists [MapNew; MapNew; ins 0 1 10; ins 0 2 20; ins 1 2 21; ins 1 3 30], (World (fun _ => None) 0 (repeat false 11 ++ [true])).
  eexists. exists (Returned None :: Returned None :: repeat (Returned (Some (Inserted true))) 4). eexists.
  exists [Erase 2; Lookup 2]. eexists. exists [Erased 1; Found (Some 20)]. eexists.
  split; [intros b _; reflexivity|]. split; [vm_compute; reflexivity|].
  split; [cbn; intuition discriminate|]. split; [cbn; intuition discriminate|]. split; [vm_compute; reflexivity|].
  intros d d' H. inversion H as [|d0 a actions seen d1 Hrest Ed Ea Er|]; subst. inversion Hrest as [|d0 a actions seen d1 Hrest' Ed Ea Er'|]; subst.
  cbn [dictionary_act] in *. destruct (value_of d 2); cbn in *; discriminate.
Qed.
Print Assumptions C150_assignment_refuted.

(** Copies are independent of what they were made from, maps survive a swap and a move, a map that was moved from is used after it was assigned to; without exceptions,
    and with one while the map is assigned to: then it is not used, and the rest is as before. A third entry would not fit a map with room for three. *)
Example C150_example :
  let ins i k v := MapAct (K := nat) (T := nat) i (Insert k v) in
  let find i k := MapAct (K := nat) (T := nat) i (Lookup k) in
  let ss := [MapNew; ins 0 5 50; ins 0 3 30; MapCopy 0; ins 1 4 40; MapAct 0 (Erase 3); find 1 3; find 0 3; MapSwap 0 1; find 0 4; MapMove 0; find 0 4; find 2 4;
             MapCopyAssign 0 2; find 0 4; MapCopyAssign 1 0; find 1 3; find 0 3; MapEnd 0] in
  let w0 s := World (V := nat * nat) (fun _ => None) 0 s in
  let returned := Returned (T := nat) None in
  let found v := Returned (Some (Found v)) in
  let inserted := Returned (T := nat) (Some (Inserted true)) in
  let first := [returned; inserted; inserted; returned; inserted; Returned (Some (Erased 1)); found (Some 30); found None; returned; found (Some 40); returned; Skipped;
                found (Some 40); returned; found (Some 40)] in
  equivalence Nat.eqb /\ linear_maps_in (T := nat) Nat.eqb 100 [] [] (fun _ => None) (w0 []) /\
  match whole_linear_program (fun e => e) Nat.eqb 100 ss tt (w0 []) with
  | Ret _ seen w => seen = first ++ [returned; found (Some 30); found (Some 30); returned] /\ heap w 0 = None /\ heap w 1 = None /\ 2 < next w
  | _ => False
  end /\
  match whole_linear_program (fun e => e) Nat.eqb 100 ss tt (w0 (repeat false 33 ++ [true])) with
  | Ret _ seen w => seen = first ++ [Threw; Skipped; found (Some 30); returned] /\ heap w 0 = None /\ heap w 1 = None /\ 2 < next w
  | _ => False
  end /\
  match whole_linear_program (fun e => e) Nat.eqb 3 [MapNew; ins 0 1 1; ins 0 2 2; ins 0 3 3] tt (w0 []) with
  | Ret _ seen w => seen = [returned; inserted; inserted; Skipped]
  | _ => False
  end.
Proof.
  cbv zeta. split. { split; [exact Nat.eqb_refl|split; [exact Nat.eqb_sym|]]. intros a b c. rewrite !Nat.eqb_eq. congruence. }
  split. { exists []. split; [constructor|]. split; intros b; reflexivity. }
  split; [|split]; vm_compute; repeat split; lia.
Qed.
