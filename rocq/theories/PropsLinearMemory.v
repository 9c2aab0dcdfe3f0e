(** * Linear maps in memory: properties C143 and C144 *)

From Coq Require Import List Arith Bool Lia Permutation.
From Verif Require Import Mem SpecVec Vec SpecUnique SpecMap Keyed SpecDict FlatMemory SpecFlatMemory FlatMemoryProofs2 LinearMemory LinearMemoryProofs.
Import ListNotations.
Local Open Scope nat_scope.

(** ** C143: what a program sees of a linear map is what it would see of a dictionary, whatever throws *)

(** The program calls the map in any way and catches what it throws. Allocating, constructing and comparing may throw at any time (the script of the
    world). Then an action that threw has changed nothing, the replies of the others are those of a dictionary, and at the end all memory has been given
    back. The behaviour is undefined only when a new key is inserted into a map that is more than half as large as it may be. *)
Theorem C143_linear_map : forall K T (moved : K * T -> K * T) equal maximum actions w,
  equivalence equal -> unused_names w -> 1 <= maximum ->
  match linear_map_life moved equal maximum actions tt w with
  | Ret _ seen w' => same (heap w') (heap w) /\ length seen = length actions /\
      exists d, explained (dictionary_act equal) (fun _ _ => someone_throws w) no_entries actions seen d
  | Exc _ _ => False
  | Bad f => f = Broken /\ exists done a rest seen d, actions = done ++ a :: rest /\
      explained (dictionary_act equal) (fun _ _ => someone_throws w) no_entries done seen d /\ inserts_new d a /\ maximum < 2 * keys d
  end.
Proof.
  intros K T moved equal maximum actions w Heq Hu Hm. pose proof (linear_life moved equal Heq maximum actions w Hu Hm) as H. unfold ends_or in H.
  destruct (linear_map_life moved equal maximum actions tt w) as [x seen w'|x w'|]; auto.
  destruct H as (H1 & d & H2). split; [exact H1|]. split; [exact (explained_length _ _ _ _ _ _ H2)|now exists d].
Qed.
Print Assumptions C143_linear_map.
(** So nothing is undefined when the program cannot insert more than half as many keys as the map may have. *)
Theorem C143_half : forall K T (moved : K * T -> K * T) equal maximum actions w,
  equivalence equal -> unused_names w -> 1 <= maximum -> 2 * length (filter (fun a => match a with Insert _ _ => true | _ => false end) actions) <= maximum ->
  ends (linear_map_life moved equal maximum actions tt w)
    (fun _ seen w' => same (heap w') (heap w) /\ (~ someone_throws w -> seen = map Some (dictionary_replies equal no_entries actions))) (fun _ _ => False).
Proof.
  intros K T moved equal maximum actions w Heq Hu Hm Hl. pose proof (linear_life moved equal Heq maximum actions w Hu Hm) as H. unfold ends_or in H.
  destruct (linear_map_life moved equal maximum actions tt w) as [x seen w'|x w'|]; cbn [ends]; auto.
  - destruct H as (H1 & d & H2). split; [exact H1|]. intros Hw. eapply explained_replies; [exact H2|]. clear -H2 Hw.
    induction H2; cbn; [auto| |contradiction]. intros [E|E]; [discriminate|auto].
  - destruct H as (_ & done & a & rest & seen & d & -> & He & (k & v & -> & _) & Hk). rewrite filter_app, app_length in Hl. cbn [filter length] in Hl.
    assert (keys d <= keys (@no_entries K T) + length (filter (fun a => match a with Insert _ _ => true | _ => false end) done)) as Hd.
    { clear -He. induction He as [d|d a actions seen d' He IH|d a actions seen d' _ He IH]; cbn [filter length] in *; [lia| |].
      - eapply Nat.le_trans; [exact IH|]. destruct a as [k v|k|k|]; cbn [dictionary_act length]; try destruct (value_of d k); cbn [fst keys]; lia.
      - eapply Nat.le_trans; [exact IH|]. destruct a; cbn [length]; lia. }
    cbn [keys no_entries] in Hd. lia.
Qed.
Print Assumptions C143_half.
(** A static_linear_map throws when it is full; nothing is undefined. *)
Theorem C143_static_linear_map : forall K T (moved : K * T -> K * T) equal capacity actions w,
  equivalence equal -> unused_names w ->
  ends (static_linear_map_life moved equal capacity actions tt w)
    (fun _ seen w' => same (heap w') (heap w) /\ length seen = length actions /\
       exists d, explained (dictionary_act equal) (fun d a => someone_throws w \/ inserts_new d a /\ keys d = capacity) no_entries actions seen d)
    (fun _ _ => False).
Proof.
  intros K T moved equal capacity actions w Heq Hu.
  refine (FlatMemoryProofs2.ends_weaken _ _ _ _ _ (static_linear_life moved equal Heq capacity actions w Hu) _ _); cbv beta; auto.
  intros _ seen w' (H1 & d & H2). split; [exact H1|]. split; [exact (explained_length _ _ _ _ _ _ H2)|now exists d].
Qed.
Print Assumptions C143_static_linear_map.

(** The elements themselves: a new one comes after the others and the iterator refers to it; otherwise nothing changes and the iterator refers to the
    one that is there. *)
Theorem C143_insert : forall K T (moved : K * T -> K * T) equal maximum o m others w key mapped,
  1 <= maximum -> is_vector 0 maximum o m others w ->
  match mem_linear_lazy_insert moved equal (bounded_vector moved 0 maximum) key mapped o w with
  | Ret o' r w' =>
      match element_of equal m key with
      | Some e => snd r = false /\ o' = o /\ is_vector 0 maximum o m others w' /\ nth_error m (fst r) = Some e
      | None => r = (length m, true) /\ is_vector 0 maximum o' (m ++ [(key, mapped)]) others w'
      end
  | Exc o' w' => o' = o /\ is_vector 0 maximum o m others w' /\ someone_throws w
  | Bad f => f = Broken /\ element_of equal m key = None /\ length m = capacity_of o /\ maximum < 2 * length m
  end.
Proof. intros K T moved equal maximum o m others w key mapped. exact (linear_insert_vector moved equal maximum others o m w key mapped). Qed.
Print Assumptions C143_insert.
(** Erasing a key keeps the other elements in their order. *)
Theorem C143_erase : forall K T (moved : K * T -> K * T) equal maximum o m others w key,
  equivalence equal -> is_vector 0 maximum o m others w -> distinct equal m ->
  ends (mem_linear_keyed_erase moved equal (bounded_vector moved 0 maximum) key o w)
    (fun o' r w' => is_vector 0 maximum o' (filter (fun e => negb (equal key (fst e))) m) others w' /\
                    r = match element_of equal m key with Some _ => 1 | None => 0 end)
    (fun o' w' => o' = o /\ is_vector 0 maximum o m others w' /\ someone_throws w).
Proof. intros K T moved equal maximum o m others w key Heq. exact (linear_erase_vector moved equal Heq maximum others o m w key). Qed.
Print Assumptions C143_erase.

Definition same_half (a b : nat) : bool := a / 2 =? b / 2.
Example same_half_equivalence : equivalence same_half.
Proof.
  unfold same_half. split; [|split]; intros; rewrite ?Nat.eqb_eq in *; try congruence. now rewrite Nat.eqb_sym.
Qed.
Definition blank {V} (s : list bool) : world V := World (fun _ => None) 0 s.
Definition zeros (e : nat * nat) : nat * nat := (0, 0).
(** The third insertion finds the key; the one of 2 throws when its key is compared. *)
Example C143_example :
  match linear_map_life zeros same_half 20 [Insert 8 80; Insert 4 40; Insert 5 50; Insert 2 20; Lookup 5; Lookup 2; Erase 8; Size] tt
          (blank [false; false; false; false; false; false; false; false; true]) with
  | Ret _ seen w' => seen = [Some (Inserted true); Some (Inserted true); Some (Inserted false); None; Some (Found (Some 40)); Some (Found None); Some (Erased 1); Some (Number 1)] /\
                     heap w' 0 = None
  | _ => False
  end /\
  match linear_map_life zeros same_half 3 [Insert 8 80; Insert 4 40; Insert 2 20] tt (blank []) with Bad f => f = Broken | _ => False end /\
  match static_linear_map_life zeros same_half 2 [Insert 8 80; Insert 4 40; Insert 2 20; Size] tt (blank []) with
  | Ret _ seen w' => seen = [Some (Inserted true); Some (Inserted true); None; Some (Number 2)]
  | _ => False
  end.
Proof. vm_compute. repeat split. Qed.
Example C143_elements :
  let w := World (fun b => if b =? 0 then Some [Some (3, 1); Some (1, 2); None] else None) 1 [] in
  let o := BVector (Storage (Some 0) 3) 2 in
  is_vector 0 20 o [(3, 1); (1, 2)] (fun _ => None) w /\ distinct Nat.eqb [(3, 1); (1, 2)] /\
  mem_linear_lazy_insert zeros Nat.eqb (bounded_vector zeros 0 20) 1 5 o w = Ret o (1, false) w /\
  match mem_linear_lazy_insert zeros Nat.eqb (bounded_vector zeros 0 20) 2 5 o w with
  | Ret o' r w' => r = (2, true) /\ heap w' 0 = Some [Some (3, 1); Some (1, 2); Some (2, 5)]
  | _ => False
  end /\
  match mem_linear_keyed_erase zeros Nat.eqb (bounded_vector zeros 0 20) 3 o w with
  | Ret o' n w' => n = 1 /\ b_size o' = 1 /\ heap w' 0 = Some [Some (1, 2); None; None]
  | _ => False
  end.
Proof.
  cbv zeta. split; [|split; [|split; [reflexivity|vm_compute; repeat split]]].
  - split; [split; [reflexivity|]|].
    + cbn. split; [reflexivity|]. split; [exists 1; repeat split; cbn; lia|]. intros b Hb. now rewrite (proj2 (Nat.eqb_neq b 0) Hb).
    + intros b Hb. cbn in *. rewrite (proj2 (Nat.eqb_neq b 0)); [reflexivity|lia].
  - intros [|[|[|]]] [|[|[|]]] a b Ha Hb; try discriminate; cbn in *; injection Ha as <-; injection Hb as <-; cbn; try discriminate; reflexivity.
Qed.

(** ** C144: a linear map stays a map when a range is inserted, and a map is made from a range, whatever throws *)

(** Inserting a range whose size is known. When it returns, there is one element for each key: those that were there, in their places, and the new
    ones. When it throws, all elements that were there still are. But then there may be several elements for a key. *)
Theorem C144_insert_range_partial : forall K T (moved : K * T -> K * T) equal maximum o m elements others w,
  equivalence equal -> 1 <= maximum -> is_vector 0 maximum o m others w -> distinct equal m ->
  ends (mem_linear_insert moved equal (bounded_vector moved 0 maximum) true elements o w)
    (fun o' _ w' => exists new, is_vector 0 maximum o' (m ++ new) others w' /\ distinct equal (m ++ new) /\ incl new elements /\
       forall e, In e elements -> exists e', In e' (m ++ new) /\ equal (fst e) (fst e') = true)
    (fun o' w' => (is_vector 0 maximum o' m others w' /\ o' = o /\
                     (someone_throws w \/ capacity_of o < length m + length elements /\ maximum < grown o (length m + length elements))) \/
                  (someone_throws w /\ exists all, is_vector 0 maximum o' (m ++ all) others w' /\ Permutation all elements)).
Proof. intros K T moved equal maximum o m elements others w Heq. exact (insert_range_vector moved equal Heq maximum o m elements others w). Qed.
Print Assumptions C144_insert_range_partial.
(** The constructor from a range whose size is known: when it throws, all memory is given back. *)
Theorem C144_from_range : forall K T (moved : K * T -> K * T) equal maximum elements w,
  equivalence equal -> unused_names w -> length elements <= maximum ->
  ends (mem_linear_from moved equal maximum elements tt w)
    (fun _ o w' => exists m, is_vector 0 maximum o m (heap w) w' /\ distinct equal m /\ incl m elements /\
       forall e, In e elements -> exists e', In e' m /\ equal (fst e) (fst e') = true)
    (fun _ w' => same (heap w') (heap w) /\ someone_throws w).
Proof. intros K T moved equal maximum elements w Heq. exact (from_range_vector moved equal Heq maximum elements w). Qed.
Print Assumptions C144_from_range.
(** Comparing the keys throws: there are two elements with the key 1 in the map. When the program erases that key, it is still there. *)
Theorem C144_insert_range_refuted : exists (m elements : list (nat * nat)) o w,
  is_vector 0 20 o m (fun _ => None) w /\ distinct Nat.eqb m /\
  match mem_linear_insert zeros Nat.eqb (bounded_vector zeros 0 20) true elements o w with
  | Exc o' w' => (forall all, is_vector 0 20 o' all (fun _ => None) w' -> ~ distinct Nat.eqb all) /\
      match session (mem_linear_act zeros Nat.eqb (bounded_vector zeros 0 20)) [Erase 1; Lookup 1] o' w' with
      | Ret _ seen _ => seen = [Some (Erased 1); Some (Found (Some 11))]
      | _ => False
      end
  | _ => False
  end.
Proof.
  exists [(1, 10)], [(1, 11)], (BVector (Storage (Some 0) 2) 1), (World (fun b => if b =? 0 then Some [Some (1, 10); None] else None) 1 [false; true]).
  split; [|split; [|vm_compute; split; [|reflexivity]]].
  - split; [split; [reflexivity|]|].
    + cbn. split; [reflexivity|]. split; [exists 1; repeat split; cbn; lia|]. intros b Hb. now rewrite (proj2 (Nat.eqb_neq b 0) Hb).
    + intros b Hb. cbn in *. rewrite (proj2 (Nat.eqb_neq b 0)); [reflexivity|lia].
  - intros [|[|]] [|[|]] a b Ha Hb _; try discriminate; reflexivity.
  - intros all [[Hz Ha] _] Hd. cbn in Ha. destruct Ha as (_ & (spare & Ha & _) & _).
    destruct all as [|[a1 a2] [|[b1 b2] [|c all]]]; cbn in Hz; try discriminate. cbn in Ha. injection Ha as <- <- <- <-.
    specialize (Hd 0 1 (1, 10) (1, 11) eq_refl eq_refl eq_refl). discriminate.
Qed.
Print Assumptions C144_insert_range_refuted.
Example C144_example :
  let w := World (fun b => if b =? 0 then Some [Some (3, 1); Some (1, 2)] else None) 1 [] in
  let o := BVector (Storage (Some 0) 2) 2 in
  is_vector 0 20 o [(3, 1); (1, 2)] (fun _ => None) w /\ distinct Nat.eqb [(3, 1); (1, 2)] /\
  match mem_linear_insert zeros Nat.eqb (bounded_vector zeros 0 20) true [(1, 5); (7, 6); (3, 7); (8, 8)] o w with
  | Ret o' _ w' => b_size o' = 4 /\ heap w' 1 = Some [Some (3, 1); Some (1, 2); Some (8, 8); Some (7, 6); None; None]
  | _ => False
  end /\
  match mem_linear_from zeros Nat.eqb 20 [(1, 5); (1, 6); (3, 7)] tt (blank [false; false; false; false; false; true]) with Exc _ w' => heap w' 0 = None | _ => False end.
Proof.
  cbv zeta. split; [|split; [|vm_compute; repeat split]].
  - split; [split; [reflexivity|]|].
    + cbn. split; [reflexivity|]. split; [exists 0; repeat split; cbn; lia|]. intros b Hb. now rewrite (proj2 (Nat.eqb_neq b 0) Hb).
    + intros b Hb. cbn in *. rewrite (proj2 (Nat.eqb_neq b 0)); [reflexivity|lia].
  - intros [|[|[|]]] [|[|[|]]] a b Ha Hb; try discriminate; cbn in *; injection Ha as <-; injection Hb as <-; cbn; try discriminate; reflexivity.
Qed.
