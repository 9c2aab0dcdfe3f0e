(** * Flat maps in memory: properties C141 and C142 *)

From Coq Require Import List Arith Bool Lia.
From Verif Require Import Mem SpecVec Vec SpecSort SpecUnique SpecMap Keyed SpecDict FlatMemory SpecFlatMemory FlatMemoryProofs FlatMemoryProofs2.
Import ListNotations.
Local Open Scope nat_scope.

(** ** C141: what a program sees of a flat map is what it would see of a dictionary, whatever throws *)

(** The program calls the map in any way and catches what it throws. Allocating, constructing, comparing and moving may throw at any time (the script
    of the world). Then nothing is undefined, an action that threw has changed nothing, the replies of the others are those of a dictionary, and at the
    end all memory has been given back. Unless something else throws, only inserting a new entry does, when the vector cannot double its capacity. *)
Theorem C141_flat_map : forall K T (moved : K * T -> K * T) key_less maximum reserved actions w,
  strict_weak_order key_less -> unused_names w -> match reserved with Some n => n <= maximum | None => True end ->
  ends (flat_map_life moved key_less maximum reserved actions tt w)
    (fun _ seen w' => same (heap w') (heap w) /\ length seen = length actions /\
       exists d, explained (dictionary_act (equivalent key_less)) (fun d a => someone_throws w \/ inserts_new d a /\ cannot_double maximum (keys d))
                   no_entries actions seen d)
    (fun _ w' => same (heap w') (heap w) /\ someone_throws w /\ reserved <> None).
Proof.
  intros K T moved key_less maximum reserved actions w Hlt Hu Hr.
  refine (ends_weaken _ _ _ _ _ (flat_life moved key_less Hlt False (fun _ => True) (fun _ => False) 0 maximum reserved actions w Hr Hu _ _ _ _) _ _); cbv beta; auto; try tauto.
  intros _ seen w' (H1 & o & w1 & d & _ & H2 & _). split; [exact H1|]. split; [exact (explained_length _ _ _ _ _ _ H2)|]. now exists d.
Qed.
Print Assumptions C141_flat_map.
Theorem C141_flat_multimap : forall K T (moved : K * T -> K * T) key_less maximum actions w,
  strict_weak_order key_less -> unused_names w ->
  ends (flat_multimap_life moved key_less maximum actions tt w)
    (fun _ seen w' => same (heap w') (heap w) /\ length seen = length actions /\
       exists d, explained (multi_dictionary_act (equivalent key_less)) (fun d a => someone_throws w \/ multi_inserts a /\ cannot_double maximum (entries d))
                   no_values actions seen d)
    (fun _ _ => False).
Proof.
  intros K T moved key_less maximum actions w Hlt Hu. refine (ends_weaken _ _ _ _ _ (multi_life moved key_less Hlt maximum actions w Hu) _ _); cbv beta; auto.
  intros _ seen w' (H1 & d & H2). split; [exact H1|]. split; [exact (explained_length _ _ _ _ _ _ H2)|]. now exists d.
Qed.
Print Assumptions C141_flat_multimap.
(** The static ones throw when they are full. *)
Theorem C141_static_flat_map : forall K T (moved : K * T -> K * T) key_less capacity actions w,
  strict_weak_order key_less -> unused_names w ->
  ends (static_flat_map_life moved key_less capacity actions tt w)
    (fun _ seen w' => same (heap w') (heap w) /\ length seen = length actions /\
       exists d, explained (dictionary_act (equivalent key_less)) (fun d a => someone_throws w \/ inserts_new d a /\ keys d = capacity) no_entries actions seen d)
    (fun _ _ => False).
Proof.
  intros K T moved key_less capacity actions w Hlt Hu. refine (ends_weaken _ _ _ _ _ (static_flat_life moved key_less Hlt None capacity actions w Logic.I Hu) _ _); cbv beta; auto.
  intros _ seen w' (H1 & d & H2 & _). split; [exact H1|]. split; [exact (explained_length _ _ _ _ _ _ H2)|]. now exists d.
Qed.
Print Assumptions C141_static_flat_map.
Theorem C141_static_flat_multimap : forall K T (moved : K * T -> K * T) key_less capacity actions w,
  strict_weak_order key_less -> unused_names w ->
  ends (static_flat_multimap_life moved key_less capacity actions tt w)
    (fun _ seen w' => same (heap w') (heap w) /\ length seen = length actions /\
       exists d, explained (multi_dictionary_act (equivalent key_less)) (fun d a => someone_throws w \/ multi_inserts a /\ entries d = capacity) no_values actions seen d)
    (fun _ _ => False).
Proof.
  intros K T moved key_less capacity actions w Hlt Hu. refine (ends_weaken _ _ _ _ _ (static_multi_life moved key_less Hlt capacity actions w Hu) _ _); cbv beta; auto.
  intros _ seen w' (H1 & d & H2). split; [exact H1|]. split; [exact (explained_length _ _ _ _ _ _ H2)|]. now exists d.
Qed.
Print Assumptions C141_static_flat_multimap.

(** One insertion: the iterator refers to the element with the key, and an insertion that throws leaves the map, its elements and the rest of the memory
    as they were. *)
Theorem C141_insert : forall K T (moved : K * T -> K * T) key_less maximum o m others w key mapped,
  strict_weak_order key_less -> is_vector 0 maximum o m others w -> flat key_less m ->
  ends (mem_lazy_insert moved key_less (bounded_vector moved 0 maximum) key mapped o w)
    (fun o' r w' => exists m', is_vector 0 maximum o' m' others w' /\ flat key_less m' /\
       match element_of (equivalent key_less) m key with
       | Some e => snd r = false /\ m' = m /\ nth_error m (fst r) = Some e /\ capacity_of o' = capacity_of o
       | None => snd r = true /\ nth_error m' (fst r) = Some (key, mapped) /\ m' = firstn (fst r) m ++ (key, mapped) :: skipn (fst r) m /\
                 capacity_of o' = grown o (length m + 1)
       end)
    (fun o' w' => o' = o /\ is_vector 0 maximum o m others w' /\
       (someone_throws w \/ element_of (equivalent key_less) m key = None /\ length m = capacity_of o /\ cannot_double maximum (length m))).
Proof.
  intros K T moved key_less maximum o m others w key mapped Hlt Hv Hm.
  exact (insert_vector moved key_less Hlt maximum others o m w key mapped Hv Hm).
Qed.
Print Assumptions C141_insert.

(** Two keys, equal when their halves are: after 4, 5 is there already. The second allocation throws. *)
Definition halves (a b : nat) : bool := a / 2 <? b / 2.
Definition empty_world {V} (s : list bool) : world V := World (fun _ => None) 0 s.
Definition forget_pair (e : nat * nat) : nat * nat := (0, 0).
Example halves_order : strict_weak_order halves.
Proof.
  unfold halves. repeat split; unfold equivalent in *; repeat intros ?; repeat match goal with H : context [ _ <? _ ] |- _ => revert H end;
    repeat match goal with |- context [ ?x <? ?y ] => destruct (Nat.ltb_spec x y) end; cbn; try discriminate; try lia; auto.
Qed.
Example C141_example :
  match flat_map_life forget_pair halves 20 None [Insert 4 40; Insert 8 80; Insert 2 20; Insert 5 50; Lookup 5; Erase 8; Erase 9; Size] tt (empty_world []) with
  | Ret _ seen w' => seen = map Some [Inserted true; Inserted true; Inserted true; Inserted false; Found (Some 40); Erased 1; Erased 0; Number 2] /\ heap w' 0 = None
  | _ => False
  end /\
  match flat_map_life forget_pair halves 20 None [Insert 4 40; Insert 8 80; Insert 2 20; Lookup 4; Size] tt (empty_world [false; false; true]) with
  | Ret _ seen w' => seen = [Some (Inserted true); None; Some (Inserted true); Some (Found (Some 40)); Some (Number 2)]
  | _ => False
  end /\
  match static_flat_map_life forget_pair halves 2 [Insert 4 40; Insert 8 80; Insert 2 20; Insert 5 50; Erase 4; Insert 2 21; Lookup 3] tt (empty_world []) with
  | Ret _ seen w' => seen = [Some (Inserted true); Some (Inserted true); None; Some (Inserted false); Some (Erased 1); Some (Inserted true); Some (Found (Some 21))]
  | _ => False
  end /\
  match flat_multimap_life forget_pair halves 20 [MultiInsert 4 40; MultiInsert 5 50; MultiInsert 2 20; MultiLookup 5; MultiErase 4; MultiSize] tt (empty_world []) with
  | Ret _ seen w' => seen = map Some [MultiInserted; MultiInserted; MultiInserted; MultiFound [40; 50]; MultiErased 2; MultiNumber 1]
  | _ => False
  end.
Proof. vm_compute. repeat split. Qed.

(** ** C142: a flat map whose key type has [n] values can have an entry for each of them *)

(** Unless something throws, a program sees what it would see of a dictionary: *)
Definition never_fails {K T} (key_less : K -> K -> bool) (life : list (action K T) -> M (K * T) unit (list (option (reply T)))) : Prop :=
  forall actions w, unused_names w -> ~ someone_throws w ->
  ends (life actions tt w) (fun _ seen _ => seen = map Some (dictionary_replies (equivalent key_less) no_entries actions)) (fun _ _ => False).

(** when room for all keys was reserved before; *)
Theorem C142_reserve_first_partial : forall K T (moved : K * T -> K * T) key_less n maximum,
  strict_weak_order key_less -> different_keys (equivalent key_less) n -> n <= maximum ->
  never_fails key_less (flat_map_life moved key_less maximum (Some n)).
Proof.
  intros K T moved key_less n maximum Hlt Hn Hm actions w Hu Hw.
  refine (ends_weaken _ _ _ _ _ (flat_life moved key_less Hlt True (fun _ => True) (fun c => n <= c) n maximum (Some n) actions w Hm Hu (fun _ => Hn) _ _ _) _ _); cbv beta; auto; try lia.
  - intros _ seen w' (_ & o & w1 & d & _ & H & Hs). exact (explained_replies _ _ _ _ _ _ H (Hs (conj Logic.I (le_n _)) Hw)).
  - intros _ w' (_ & H & _). contradiction.
Qed.
Print Assumptions C142_reserve_first_partial.
(** when the map may be twice as large; *)
Theorem C142_twice_partial : forall K T (moved : K * T -> K * T) key_less n maximum,
  strict_weak_order key_less -> different_keys (equivalent key_less) n -> 2 * n <= maximum ->
  never_fails key_less (flat_map_life moved key_less maximum None).
Proof.
  intros K T moved key_less n maximum Hlt Hn Hm actions w Hu Hw.
  refine (ends_weaken _ _ _ _ _ (flat_life moved key_less Hlt True (fun _ => True) (fun c => True) n maximum None actions w Logic.I Hu (fun _ => Hn) _ _ _) _ _); cbv beta; auto; try lia.
  - intros _ seen w' (_ & o & w1 & d & _ & H & Hs). exact (explained_replies _ _ _ _ _ _ H (Hs (conj Logic.I Logic.I) Hw)).
  - intros _ w' (_ & H & _). contradiction.
Qed.
Print Assumptions C142_twice_partial.
(** in a static_flat_map that is large enough; *)
Theorem C142_static : forall K T (moved : K * T -> K * T) key_less n capacity,
  strict_weak_order key_less -> different_keys (equivalent key_less) n -> n <= capacity ->
  never_fails key_less (static_flat_map_life moved key_less capacity).
Proof.
  intros K T moved key_less n capacity Hlt Hn Hm actions w Hu Hw.
  refine (ends_weaken _ _ _ _ _ (static_flat_life moved key_less Hlt (Some n) capacity actions w (conj Hn Hm) Hu) _ _); cbv beta; auto.
  intros _ seen w' (_ & d & H & Hs). refine (explained_replies _ _ _ _ _ _ H (Hs _ Hw)). discriminate.
Qed.
Print Assumptions C142_static.
(** but a flat_map, whose maximum is the number of keys, only when this number is a power of two. *)
Theorem C142_exactly : forall K T (moved : K * T -> K * T) key_less (v : T) n,
  strict_weak_order key_less -> different_keys (equivalent key_less) n -> 1 <= n ->
  never_fails key_less (flat_map_life moved key_less n None) <-> exists k, n = 2 ^ k.
Proof.
  intros K T moved key_less v n Hlt Hn Hpos. split.
  - intros H. destruct Hn as (ks & El & Hall & Hks). specialize (H (map (fun k => Insert k v) ks) (empty_world []) (fun _ _ => eq_refl) (fun Hx => Hx)).
    pose proof (flat_life moved key_less Hlt False zero_or_power (fun _ => False) 0 n None (map (fun k => Insert k v) ks) (empty_world []) Logic.I (fun _ _ => eq_refl)) as Hf.
    unfold ends in *. destruct (flat_map_life moved key_less n None _ tt (empty_world [])) as [x seen w'|x w'|]; [|contradiction..].
    destruct Hf as (_ & o & w1 & d & ((m & Hv & Hm & (Hr1 & Hr2)) & Hz) & He & _); try tauto; [apply power_grows|now left|].
    assert (keys d = n) as Hd. { erewrite (filled _ _ v ks); [|exact He| | |exact Hks]; [exact El| |reflexivity]. rewrite H. intros Hi. apply in_map_iff in Hi as (? & ? & _). discriminate. }
    pose proof (holds_fit _ _ _ _ _ Hv). pose proof (holds_capacity _ _ _ _ _ Hv). assert (capacity_of o = n) as E by lia. rewrite E in Hz.
    destruct Hz as [Hz|Hz]; [lia|exact Hz].
  - intros (k & ->) actions w Hu Hw.
    refine (ends_weaken _ _ _ _ _ (flat_life moved key_less Hlt True (fun _ => True) zero_or_power (2 ^ k) (2 ^ k) None actions w Logic.I Hu (fun _ => Hn) _ _ _) _ _); cbv beta; auto.
    + intros c Hc Hk. split; [now apply power_fits|now apply power_grows].
    + intros _ seen w' (_ & o & w1 & d & _ & H & Hs). exact (explained_replies _ _ _ _ _ _ H (Hs (conj Logic.I (or_introl eq_refl)) Hw)).
    + intros _ w' (_ & H & _). contradiction.
Qed.
Print Assumptions C142_exactly.

(** Three keys: there is no room for the third entry, although the map may have three. *)
Definition third_less (a b : option bool) : bool :=
  match a, b with None, Some _ => true | Some false, Some true => true | _, _ => false end.
Example third_order : strict_weak_order third_less.
Proof. repeat split; unfold equivalent; repeat intros [[]|]; cbn; try discriminate; auto. Qed.
Example three_keys : different_keys (equivalent third_less) 3.
Proof.
  exists [None; Some false; Some true]. split; [reflexivity|]. split.
  - intros k. exists k. split; [|now destruct k as [[]|]]. destruct k as [[]|]; cbn; auto.
  - intros [|[|[|i]]] [|[|[|j]]] a b Ha Hb; cbn in *; try (destruct i; discriminate); try (destruct j; discriminate); injection Ha as <-; injection Hb as <-; cbn; congruence.
Qed.
Theorem C142_refuted : exists K (key_less : K -> K -> bool) n, strict_weak_order key_less /\ different_keys (equivalent key_less) n /\
  forall (moved : K * nat -> K * nat), ~ never_fails key_less (flat_map_life moved key_less n None).
Proof.
  exists (option bool), third_less, 3. split; [exact third_order|]. split; [exact three_keys|]. intros moved H.
  apply (C142_exactly _ nat moved third_less 0 3 third_order three_keys) in H as (k & Hk); [|lia].
  destruct k as [|[|k]]; cbn in Hk; try lia.
Qed.
Print Assumptions C142_refuted.
Example C142_example :
  match flat_map_life (fun e => e) third_less 3 None [Insert None 1; Insert (Some true) 2; Insert (Some false) 3; Size] tt (empty_world []) with
  | Ret _ seen _ => seen = [Some (Inserted true); Some (Inserted true); None; Some (Number 2)]
  | _ => False
  end /\
  match flat_map_life (fun e => e) third_less 3 (Some 3) [Insert None 1; Insert (Some true) 2; Insert (Some false) 3; Size] tt (empty_world []) with
  | Ret _ seen _ => seen = map Some [Inserted true; Inserted true; Inserted true; Number 3]
  | _ => False
  end.
Proof. vm_compute. repeat split. Qed.

(** Constructing a map from a range, or inserting one, needs room for the whole range, even if most of it has keys that are there already. A map with two
    keys from three entries is undefined behaviour: *)
Example two_keys : different_keys (equivalent (fun a b : bool => negb a && b)) 2.
Proof.
  exists [false; true]. split; [reflexivity|]. split.
  - intros k. exists k. split; [|now destruct k]. destruct k; cbn; auto.
  - intros [|[|i]] [|[|j]] a b Ha Hb; cbn in *; try (destruct i; discriminate); try (destruct j; discriminate); injection Ha as <-; injection Hb as <-; cbn; congruence.
Qed.
Theorem C142_construct_refuted : exists n (elements : list (bool * nat)),
  different_keys (equivalent (fun a b : bool => negb a && b)) n /\
  forall moved (w : world (bool * nat)), flat_map_container_from moved n elements tt w = Bad Broken.
Proof. exists 2, [(false, 1); (false, 2); (true, 3)]. split; [exact two_keys|]. reflexivity. Qed.
Print Assumptions C142_construct_refuted.
(** and inserting three entries, or one into a full map, throws, whatever the keys are. *)
Theorem C142_insert_range_refuted : forall K T (moved : K * T -> K * T) maximum o m elements others w,
  1 <= maximum -> is_vector 0 maximum o m others w -> maximum < length m + length elements ->
  exists w', flat_map_append moved maximum elements o w = Exc o w' /\ is_vector 0 maximum o m others w'.
Proof.
  intros K T moved maximum o m elements others w H1 Hv Hl. exact (append_too_many moved maximum o m elements others w H1 Hv Hl).
Qed.
Print Assumptions C142_insert_range_refuted.
Example C142_insert_range_example :
  let o := BVector (Storage None 0) 0 in let m := [(false, 1); (false, 2); (true, 3)] in
  is_vector 0 2 o [] (fun _ => None) (empty_world (V := bool * nat) []) /\ 2 < length (A := bool * nat) [] + length m /\
  match flat_map_append (fun e => e) 2 m o (empty_world []) with Exc o' _ => o' = o | _ => False end.
Proof.
  cbn zeta. split; [|split; [cbn; lia|reflexivity]]. split; [|intros b _; reflexivity].
  repeat split; cbn; auto; lia.
Qed.
