(** * C149: programs with any number of flat maps *)

From Coq Require Import List Arith Bool Lia.
From Verif Require Import Mem Vec SpecVec SpecSeveral SpecSort SpecUnique SpecMap Keyed SpecDict FlatMemory SpecFlatMemory SpecMapPrograms MapPrograms.
From Verif Require PropsMap.
Import ListNotations.
Local Open Scope nat_scope.

(** ** C149. A program creates, copies, moves, assigns, swaps, uses and destroys any number of flat maps, in any order, and catches every exception;
    it keeps a record of the maps it has moved from and of those to which an assignment threw, and only destroys, assigns to, moves and swaps
    those. Nothing is ever undefined; everything it sees is what it would see of dictionaries that are copied and moved in the same way: no two maps
    share entries, an exception changes no map but the target of a copying assignment; and no other memory has changed. *)
Theorem C149_program : forall K T (moved : K * T -> K * T) key_less maximum ss os ds others w,
  strict_weak_order key_less -> 0 < maximum -> maps_in key_less maximum os ds others w ->
  ends (map_program moved key_less maximum ss (lost_of ds) os w)
    (fun os' seen w' => exists ds', tells key_less maximum (someone_throws w) ds ss seen ds' /\ maps_in key_less maximum os' ds' others w')
    (fun _ _ => False).
Proof. intros K T moved key_less maximum ss os ds others w Hlt Hm. now apply map_program_ok. Qed.
Print Assumptions C149_program.

(** From its first step to the destruction of the last map it leaves the memory as it was. *)
Theorem C149_whole : forall K T (moved : K * T -> K * T) key_less maximum ss w,
  strict_weak_order key_less -> 0 < maximum -> unused_names w ->
  ends (whole_map_program moved key_less maximum ss tt w)
    (fun _ seen w' => same (heap w') (heap w) /\ exists ds, tells key_less maximum (someone_throws w) [] ss seen ds)
    (fun _ _ => False).
Proof. intros K T moved key_less maximum ss w Hlt Hm. now apply whole_maps_ok. Qed.
Print Assumptions C149_whole.

(** When neither an element nor the allocator throws and there are at most half as many different keys as a map may have entries, nothing throws. *)
Theorem C149_no_exceptions : forall K T (moved : K * T -> K * T) key_less maximum n ss os ds others w,
  strict_weak_order key_less -> 0 < maximum -> maps_in key_less maximum os ds others w ->
  ~ someone_throws w -> different_keys (equivalent key_less) n -> 2 * n <= maximum ->
  ends (map_program moved key_less maximum ss (lost_of ds) os w) (fun _ seen _ => ~ In Threw seen) (fun _ _ => False).
Proof. intros. now apply (map_program_calm moved key_less H maximum H0 n ss H3 H4 os ds others w). Qed.
Print Assumptions C149_no_exceptions.

Lemma no_help ks : forall (d : @dictionary nat nat) seen d', value_of d 50 = None -> ~ In 50 ks ->
  explained (dictionary_act (equivalent Nat.ltb)) (fun _ _ => False) d (map (fun k => Insert k k) ks ++ [Lookup 50]) seen d' -> last seen None = Some (Found None).
Proof.
  induction ks as [|k ks IH]; intros d seen d' Hd Hk He.
  - inversion He as [|d0 a actions seen0 d1 Hrest|]; subst; [|contradiction]. inversion Hrest; subst. cbn. now rewrite Hd.
  - cbn [map app] in He. inversion He as [|d0 a actions seen0 d1 Hrest|]; subst; [|contradiction].
    assert (Hl : last seen0 None = Some (Found (M := nat) None)).
    { apply (IH _ _ _ ) in Hrest; [exact Hrest| |intros Hi; apply Hk; now right].
      cbn [dictionary_act]. destruct (value_of d k); cbn [fst]; [exact Hd|]. cbn [value_of].
      assert (equivalent Nat.ltb k 50 = false) as ->; [|exact Hd].
      unfold equivalent. destruct (Nat.ltb_spec k 50), (Nat.ltb_spec 50 k); cbn; auto. exfalso. apply Hk. left. lia. }
    destruct seen0; [discriminate|exact Hl].
Qed.
(** The record of the assignments that threw is needed: after such an assignment a map may not be a map any more. It finds the key 50 or not,
    depending on which other keys were inserted, as no dictionary does. *)
Theorem C149_assignment_refuted : exists ss (w : world (nat * nat)) os seen w1 actions os2 replies w2,
  unused_names w /\
  map_program (fun e => e) Nat.ltb 100 (ss ++ [MapCopyAssign 0 1]) [] [] w = Ret os (seen ++ [Threw]) w1 /\ ~ In Threw seen /\ ~ In Skipped seen /\
  one_of 0 (session (mem_act (fun e => e) Nat.ltb (bounded_vector (fun e => e) 0 100)) actions) os w1 = Ret os2 (map Some replies) w2 /\
  forall d d', ~ explained (dictionary_act (equivalent Nat.ltb)) (fun _ _ => False) d actions (map Some replies) d'.
Proof.
  pose (ins := fun i k => MapAct (K := nat) (T := nat) i (Insert k k)).
  exists [MapNew; MapNew; ins 0 12; ins 0 13; ins 0 14; ins 1 50; ins 1 60; ins 1 70], (World (fun _ => None) 0 (repeat false 21 ++ [true])).
  eexists. exists (Returned None :: Returned None :: repeat (Returned (Some (Inserted true))) 6). eexists.
  exists (Lookup 50 :: map (fun k => Insert k k) [3; 2; 1; 101; 102; 103; 104; 105; 106] ++ [Lookup 50]). eexists.
  exists (Found None :: repeat (Inserted true) 9 ++ [Found (Some 50)]). eexists.
  split; [intros b _; reflexivity|]. split; [vm_compute; reflexivity|].
  split; [cbn; intuition discriminate|]. split; [cbn; intuition discriminate|]. split; [vm_compute; reflexivity|].
  intros d d' H. change (map Some (Found None :: repeat (Inserted true) 9 ++ [Found (Some 50)])) with (Some (Found (M := nat) None) :: map Some (repeat (Inserted true) 9 ++ [Found (Some 50)])) in H.
  inversion H as [|d0 a actions seen d1 Hrest Ed Ea Er|]; subst. cbn [dictionary_act fst] in Hrest. assert (Hnone : value_of d 50 = None) by (cbn in Er; congruence).
  pose proof (no_help [3; 2; 1; 101; 102; 103; 104; 105; 106] d _ d' Hnone ltac:(cbn; lia) Hrest) as Hl. discriminate.
Qed.
Print Assumptions C149_assignment_refuted.

(** Copies are independent of what they were made from, maps survive a swap and a move, a map that was moved from is used after it was assigned to; without exceptions,
    and with one while the map is assigned to: then it is not used, and the rest is as before. *)
Example C149_example :
  let ins i k v := MapAct (K := nat) (T := nat) i (Insert k v) in
  let find i k := MapAct (K := nat) (T := nat) i (Lookup k) in
  let ss := [MapNew; ins 0 5 50; ins 0 3 30; MapCopy 0; ins 1 4 40; MapAct 0 (Erase 3); find 1 3; find 0 3; MapSwap 0 1; find 0 4; MapMove 0; find 0 4; find 2 4;
             MapCopyAssign 0 2; find 0 4; MapCopyAssign 1 0; find 1 3; find 0 3; MapEnd 0] in
  let w0 s := World (V := nat * nat) (fun _ => None) 0 s in
  let returned := Returned (T := nat) None in
  let found v := Returned (Some (Found v)) in
  let inserted := Returned (T := nat) (Some (Inserted true)) in
  let first := [returned; inserted; inserted; returned; inserted; Returned (Some (Erased 1)); found (Some 30); found None; returned; found (Some 40); returned; Skipped;
                found (Some 40); returned; found (Some 40)] in
  strict_weak_order Nat.ltb /\ maps_in (T := nat) Nat.ltb 100 [] [] (fun _ => None) (w0 []) /\
  match whole_map_program (fun e => e) Nat.ltb 100 ss tt (w0 []) with
  | Ret _ seen w => seen = first ++ [returned; found (Some 30); found (Some 30); returned] /\ heap w 0 = None /\ heap w 1 = None /\ 2 < next w
  | _ => False
  end /\
  match whole_map_program (fun e => e) Nat.ltb 100 ss tt (w0 (repeat false 36 ++ [true])) with
  | Ret _ seen w => seen = first ++ [Threw; Skipped; found (Some 30); returned] /\ heap w 0 = None /\ heap w 1 = None /\ 2 < next w
  | _ => False
  end.
Proof.
  cbv zeta. split; [exact PropsMap.nat_order|]. split. { exists []. split; [constructor|]. split; intros b; reflexivity. }
  split; vm_compute; repeat split; lia.
Qed.
