(** * Properties C88 to C93: sbo_vector

    [is_sbo small max o vs others w] (SpecSbo.v): in the world [w] the object [o] is an sbo_vector whose buffer
    has room for [small] elements and whose largest size is [max]; its elements are [vs] and all other memory is
    [others]. [ends r Q E]: the call [r] returns and then [Q], or leaves by an exception and then [E]; it never ends
    in a fault. The size has to fit in a 64-bit integer with one bit to spare ([N.of_nat max < 2 ^ 63]). *)

From Coq Require Import List Arith Bool NArith Lia.
From Verif Require Import Mem Vec SpecVec Sbo SpecSbo SboLemmas SboProofs SboProofs2.
Import ListNotations.

(** ** Concrete objects for the examples: a buffer of two cells, at most 1000 elements. *)
Definition nowhere : memory (V := nat) := fun _ => None.
Definition zero (n : nat) : nat := 0.
(** [1] in the buffer; [1; 2] in the buffer; [1; 2; 3] in an allocated block of four. *)
Definition little : sbo := Sbo 0 (Small []) 1 false.
Definition brimming : sbo := Sbo 0 (Small []) 2 false.
Definition big : sbo := Sbo 0 (Large (Some 1) 4 [3%N]) 0 true.
Definition world_of (buffer : list (option nat)) (block : option (list (option nat))) (s : list bool) : world nat :=
  World (fun b => match b with 0 => Some buffer | 1 => block | _ => None end) 2 s.
Definition little_world := world_of [Some 1; None] None.
Definition brimming_world := world_of [Some 1; Some 2] None.
Definition big_world := world_of [None; None] (Some [Some 1; Some 2; Some 3; None]).

Ltac fresh_names := intros b Hb; cbn in *; destruct b as [|[|b]]; (lia || reflexivity).
Example little_is_sbo s : is_sbo 2 1000 little [1] nowhere (little_world s).
Proof.
  split; [|fresh_names]. split; [reflexivity|]. left. split; [reflexivity|]. split; [now exists []|]. split; [reflexivity|].
  split; [now exists 1|]. intros b Hb. cbn. destruct b as [|[|b]]; [now elim Hb|reflexivity..].
Qed.
Example brimming_is_sbo s : is_sbo 2 1000 brimming [1; 2] nowhere (brimming_world s).
Proof.
  split; [|fresh_names]. split; [reflexivity|]. left. split; [reflexivity|]. split; [now exists []|]. split; [reflexivity|].
  split; [now exists 0|]. intros b Hb. cbn. destruct b as [|[|b]]; [now elim Hb|reflexivity..].
Qed.
Example big_is_sbo s : is_sbo 2 1000 big [1; 2; 3] nowhere (big_world s).
Proof.
  split; [|fresh_names]. split; [reflexivity|]. right. exists 4. split; [reflexivity|]. exists 1, [3%N]. split; [reflexivity|].
  split; [lia|]. split; [discriminate|]. split; [reflexivity|]. split; [reflexivity|]. split; [reflexivity|].
  split; [now exists 1|]. intros b Hb Hb'. cbn. destruct b as [|[|b]]; [now elim Hb|now elim Hb'|reflexivity].
Qed.
Example size_in_range : 2 < 1000 /\ (N.of_nat 1000 < 2 ^ 63)%N.
Proof. split; [lia|reflexivity]. Qed.

(** ** C88. The operations on the elements are those of a sequence, and those that may throw change nothing when they do,
    whether the elements are in the buffer or not. *)
Theorem C88_push_back : forall V (moved : V -> V) small max mk v o vs others w,
  small < max -> (N.of_nat max < 2 ^ 63)%N -> is_sbo small max o vs others w -> makes (heap w) mk v ->
  length vs < sbo_capacity small o \/ 1 <= max /\ 2 * length vs <= max ->
  ends (push_back moved (sbo_vector moved small max) mk o w)
    (fun o' _ w' => is_sbo small max o' (vs ++ [v]) others w' /\
       sbo_capacity small o' = sbo_grown small o (length (vs ++ [v])))
    (fun o' w' => untouched o o' w w' /\ someone_throws w).
Proof. intros V moved small max mk v o vs others w Hs Hm. now apply push_back_sbo. Qed.
Print Assumptions C88_push_back.

Theorem C88_pop_back : forall V (moved : V -> V) small max o vs v others w,
  small < max -> (N.of_nat max < 2 ^ 63)%N -> is_sbo small max o (vs ++ [v]) others w ->
  ends (pop_back (sbo_vector moved small max) o w)
    (fun o' _ w' => is_sbo small max o' vs others w' /\ sbo_capacity small o' = sbo_capacity small o) (fun _ _ => False).
Proof. intros V moved small max o vs v others w Hs Hm. now apply pop_back_sbo. Qed.
Print Assumptions C88_pop_back.

Theorem C88_clear : forall V (moved : V -> V) small max o vs others w,
  small < max -> (N.of_nat max < 2 ^ 63)%N -> is_sbo small max o vs others w ->
  ends (clear (sbo_vector moved small max) o w)
    (fun o' _ w' => is_sbo small max o' [] others w' /\ sbo_capacity small o' = sbo_capacity small o) (fun _ _ => False).
Proof. intros V moved small max o vs others w Hs Hm. now apply clear_sbo. Qed.
Print Assumptions C88_clear.

Theorem C88_erase : forall V (moved : V -> V) small max o before ds rest others w,
  small < max -> (N.of_nat max < 2 ^ 63)%N -> is_sbo small max o (before ++ ds ++ rest) others w ->
  ends (erase moved (sbo_vector moved small max) (length before) (length before + length ds) o w)
    (fun o' r w' => r = length before /\ is_sbo small max o' (before ++ rest) others w' /\
       sbo_capacity small o' = sbo_capacity small o)
    (fun _ _ => False).
Proof. intros V moved small max o before ds rest others w Hs Hm. now apply erase_sbo. Qed.
Print Assumptions C88_erase.

Theorem C88_erase_to_end : forall V (moved : V -> V) small max o before rest others w,
  small < max -> (N.of_nat max < 2 ^ 63)%N -> is_sbo small max o (before ++ rest) others w ->
  ends (erase_to_end (sbo_vector moved small max) (length before) o w)
    (fun o' _ w' => is_sbo small max o' before others w' /\ sbo_capacity small o' = sbo_capacity small o) (fun _ _ => False).
Proof. intros V moved small max o before rest others w Hs Hm. now apply erase_to_end_sbo. Qed.
Print Assumptions C88_erase_to_end.

(** When an assignment of an element throws, the elements are some values of the same number. *)
Theorem C88_erase_if : forall V (moved : V -> V) small max p o vs others w,
  small < max -> (N.of_nat max < 2 ^ 63)%N -> is_sbo small max o vs others w ->
  ends (erase_if moved (sbo_vector moved small max) p o w)
    (fun o' _ w' => is_sbo small max o' (without p vs) others w')
    (fun o' w' => someone_throws w /\ exists us, length us = length vs /\ is_sbo small max o' us others w').
Proof. intros V moved small max p o vs others w Hs Hm. now apply erase_if_sbo. Qed.
Print Assumptions C88_erase_if.

Theorem C88_insert : forall V (moved : V -> V) small max mks us o before rest others w,
  small < max -> (N.of_nat max < 2 ^ 63)%N -> is_sbo small max o (before ++ rest) others w -> Forall2 (makes others) mks us ->
  mks <> [] \/ rest = [] ->
  ends (insert moved (sbo_vector moved small max) (length before) mks o w)
    (fun o' r w' => r = length before /\ is_sbo small max o' (before ++ us ++ rest) others w' /\
       sbo_capacity small o' = sbo_grown small o (length (before ++ us ++ rest)))
    (fun o' w' => untouched o o' w w' /\
       (someone_throws w \/ sbo_capacity small o < length (before ++ us ++ rest) /\
                            max < sbo_grown small o (length (before ++ us ++ rest)))).
Proof. intros V moved small max mks us o before rest others w Hs Hm. now apply insert_sbo. Qed.
Print Assumptions C88_insert.

Theorem C88_append : forall V (moved : V -> V) small max mks us o vs others w,
  small < max -> (N.of_nat max < 2 ^ 63)%N -> is_sbo small max o vs others w -> Forall2 (makes (heap w)) mks us ->
  ends (append moved (sbo_vector moved small max) (Source mks true) o w)
    (fun o' _ w' => is_sbo small max o' (vs ++ us) others w' /\
       sbo_capacity small o' = sbo_grown small o (length (vs ++ us)))
    (fun o' w' => untouched o o' w w' /\
       (someone_throws w \/ sbo_capacity small o < length (vs ++ us) /\ max < sbo_grown small o (length (vs ++ us)))).
Proof. intros V moved small max mks us o vs others w Hs Hm. now apply append_sbo. Qed.
Print Assumptions C88_append.

(** A source without a size: elements added before the exception stay. *)
Theorem C88_append_unsized : forall V (moved : V -> V) small max mks us o vs others w,
  small < max -> (N.of_nat max < 2 ^ 63)%N -> is_sbo small max o vs others w -> Forall2 (makes others) mks us ->
  2 * (length vs + length us) <= max ->
  ends (append moved (sbo_vector moved small max) (Source mks false) o w)
    (fun o' _ w' => is_sbo small max o' (vs ++ us) others w')
    (fun o' w' => someone_throws w /\ exists n, n < length us /\ is_sbo small max o' (vs ++ firstn n us) others w').
Proof. intros V moved small max mks us o vs others w Hs Hm. now apply append_unsized_sbo. Qed.
Print Assumptions C88_append_unsized.

Theorem C88_resize : forall V (moved : V -> V) small max mk v new_size o vs others w,
  small < max -> (N.of_nat max < 2 ^ 63)%N -> is_sbo small max o vs others w -> makes others mk v ->
  ends (resize moved (sbo_vector moved small max) new_size mk o w)
    (fun o' _ w' => is_sbo small max o' (firstn new_size vs ++ repeat v (new_size - length vs)) others w')
    (fun o' w' => untouched o o' w w' /\
       (someone_throws w \/ sbo_capacity small o < new_size /\ max < sbo_grown small o new_size)).
Proof. intros V moved small max mk v new_size o vs others w Hs Hm. now apply resize_sbo. Qed.
Print Assumptions C88_resize.

Theorem C88_reserve : forall V (moved : V -> V) small max n o vs others w,
  small < max -> (N.of_nat max < 2 ^ 63)%N -> is_sbo small max o vs others w -> n <= max ->
  ends (sb_reserve moved small max n o w)
    (fun o' _ w' => is_sbo small max o' vs others w' /\ sbo_capacity small o' = Nat.max n (sbo_capacity small o))
    (fun o' w' => untouched o o' w w' /\ someone_throws w).
Proof. intros V moved small max n o vs others w Hs Hm. now apply reserve_sbo. Qed.
Print Assumptions C88_reserve.

(** The elements go back to the buffer when they fit in it. *)
Theorem C88_shrink_to_fit : forall V (moved : V -> V) small max o vs others w,
  small < max -> (N.of_nat max < 2 ^ 63)%N -> is_sbo small max o vs others w ->
  ends (shrink_to_fit moved (sbo_vector moved small max) small o w)
    (fun o' _ w' => is_sbo small max o' vs others w' /\ sbo_capacity small o' = Nat.max small (length vs))
    (fun o' w' => untouched o o' w w' /\ someone_throws w).
Proof. intros V moved small max o vs others w Hs Hm. now apply shrink_sbo. Qed.
Print Assumptions C88_shrink_to_fit.

(** From the buffer to a block; the same when the allocation throws; and a block of four whose elements go back into the
    buffer after two erasures. *)
Example C88_example :
  is_sbo 2 1000 brimming [1; 2] nowhere (brimming_world []) /\ is_sbo 2 1000 big [1; 2; 3] nowhere (big_world []) /\
  match push_back zero (sbo_vector zero 2 1000) (CopyOf (Some 0) 1) brimming (brimming_world []) with
  | Ret o' _ w' => sb_size o' = 3 /\ sbo_capacity 2 o' = 4 /\ sb_data o' = Some 3 /\
                   heap w' 3 = Some [Some 1; Some 2; Some 2; None] /\ heap w' 0 = Some [None; None]
  | _ => False
  end /\
  match push_back zero (sbo_vector zero 2 1000) (CopyOf (Some 0) 1) brimming (brimming_world [true]) with
  | Exc o' w' => o' = brimming /\ heap w' 0 = Some [Some 1; Some 2]
  | _ => False
  end /\
  match (erase zero (sbo_vector zero 2 1000) 0 2 ;;; shrink_to_fit zero (sbo_vector zero 2 1000) 2) big (big_world []) with
  | Ret o' _ w' => sb_size o' = 1 /\ s_is_large o' = false /\ heap w' 0 = Some [Some 3; None] /\ heap w' 1 = None
  | _ => False
  end.
Proof. split; [apply brimming_is_sbo|]. split; [apply big_is_sbo|]. vm_compute. repeat split. Qed.

(** ** C89. Whatever size is stored, size() returns it, although the size is kept in pieces and its last byte shares a byte
    with the flag; storing it changes neither the flag nor where the elements are. *)
Theorem C89_set_size : forall V small max n o (vs : list V) others w,
  small < max -> (N.of_nat max < 2 ^ 63)%N -> is_sbo small max o vs others w -> n <= sbo_capacity small o ->
  exists o', sb_set_size small max n o w = Ret o' tt w /\ sb_size o' = n /\
    s_is_large o' = s_is_large o /\ sb_data o' = sb_data o /\ sbo_capacity small o' = sbo_capacity small o.
Proof. intros V small max n o vs others w Hs Hm. exact (set_size_sbo (fun v => v) small max Hs Hm n o vs others w). Qed.
Print Assumptions C89_set_size.

(** 300 takes two bytes, and the second has to leave a bit free. *)
Example C89_example :
  is_sbo 2 1000 big [1; 2; 3] nowhere (big_world []) /\
  match sb_set_size (V := nat) 2 1000 300 big (big_world []) with
  | Ret o' _ _ => sb_size o' = 300 /\ s_state o' = Large (Some 1) 4 [44%N] /\ s_last_size o' = 1%N
  | _ => False
  end /\
  size_and_bit_bytes 127 = 1 /\ size_and_bit_bytes 128 = 2.
Proof. split; [apply big_is_sbo|]. vm_compute. repeat split. Qed.

(** ** C90. While the elements fit in the capacity nothing is allocated; in particular an object whose elements never
    exceed the buffer never allocates and stays in the buffer. *)
Theorem C90_push_back : forall V (moved : V -> V) small max mk v o vs others w,
  small < max -> (N.of_nat max < 2 ^ 63)%N -> is_sbo small max o vs others w -> makes (heap w) mk v ->
  length vs < sbo_capacity small o -> allocates_nothing w (push_back moved (sbo_vector moved small max) mk o w).
Proof. intros. eapply push_back_free; eauto. Qed.
Print Assumptions C90_push_back.

Theorem C90_append : forall V (moved : V -> V) small max mks us o vs others w,
  small < max -> (N.of_nat max < 2 ^ 63)%N -> is_sbo small max o vs others w -> Forall2 (makes (heap w)) mks us ->
  length (vs ++ us) <= sbo_capacity small o ->
  allocates_nothing w (append moved (sbo_vector moved small max) (Source mks true) o w).
Proof. intros. eapply append_free; eauto. Qed.
Print Assumptions C90_append.

Theorem C90_insert : forall V (moved : V -> V) small max mks us o before rest others w,
  small < max -> (N.of_nat max < 2 ^ 63)%N -> is_sbo small max o (before ++ rest) others w -> Forall2 (makes others) mks us ->
  mks <> [] \/ rest = [] -> length (before ++ us ++ rest) <= sbo_capacity small o ->
  allocates_nothing w (insert moved (sbo_vector moved small max) (length before) mks o w).
Proof. intros. eapply insert_free; eauto. Qed.
Print Assumptions C90_insert.

Theorem C90_resize : forall V (moved : V -> V) small max mk v n o vs others w,
  small < max -> (N.of_nat max < 2 ^ 63)%N -> is_sbo small max o vs others w -> makes others mk v ->
  n <= sbo_capacity small o -> allocates_nothing w (resize moved (sbo_vector moved small max) n mk o w).
Proof. intros. eapply resize_free; eauto. Qed.
Print Assumptions C90_resize.

Theorem C90_reserve : forall V (moved : V -> V) small max n o vs others w,
  small < max -> (N.of_nat max < 2 ^ 63)%N -> is_sbo small max o vs others w -> n <= sbo_capacity small o ->
  sb_reserve moved small max n o w = Ret o tt w.
Proof. intros. eapply reserve_free; eauto. Qed.
Print Assumptions C90_reserve.

Theorem C90_removal : forall V (moved : V -> V) small max o before v ds rest others w,
  small < max -> (N.of_nat max < 2 ^ 63)%N ->
  (is_sbo small max o (before ++ [v]) others w -> allocates_nothing w (pop_back (sbo_vector moved small max) o w)) /\
  (is_sbo small max o before others w -> allocates_nothing w (clear (sbo_vector moved small max) o w)) /\
  (is_sbo small max o (before ++ ds ++ rest) others w ->
   allocates_nothing w (erase moved (sbo_vector moved small max) (length before) (length before + length ds) o w)).
Proof.
  intros V moved small max o before v ds rest others w Hs Hm. split; [|split]; intros H; eapply remove_free;
  first [apply free_pop_back|apply free_clear|apply free_erase|
    (eapply pop_back_sbo; eauto)|(eapply clear_sbo; eauto)|(eapply erase_sbo; eauto)].
Qed.
Print Assumptions C90_removal.

(** The capacity tells where the elements are: in the buffer exactly when it is that of the buffer. With the capacities in
    C88 it follows that elements that fit in the buffer stay there. *)
Theorem C90_small_capacity : forall V small max o (vs : list V) others w,
  is_sbo small max o vs others w ->
  (sb_data o = Some (s_place o) <-> sbo_capacity small o = small) /\ small <= sbo_capacity small o.
Proof. exact @small_capacity_sbo. Qed.
Print Assumptions C90_small_capacity.

Example C90_example :
  is_sbo 2 1000 little [1] nowhere (little_world []) /\
  match push_back zero (sbo_vector zero 2 1000) (Supply 5) little (little_world []) with
  | Ret o' _ w' => next w' = next (little_world []) /\ heap w' 0 = Some [Some 1; Some 5] /\ s_is_large o' = false
  | _ => False
  end /\
  match push_back zero (sbo_vector zero 2 1000) (Supply 5) brimming (brimming_world []) with
  | Ret o' _ w' => next w' <> next (brimming_world [])
  | _ => False
  end.
Proof. split; [apply little_is_sbo|]. vm_compute. repeat split; discriminate. Qed.

(** ** C91. Moving takes the elements and leaves an empty object that uses its own buffer, a valid one; swapping exchanges
    the elements; neither ever throws. Copies have the same elements and leave the original alone. *)
Theorem C91_move : forall V (moved : V -> V) small max o vs others w,
  small < max -> (N.of_nat max < 2 ^ 63)%N -> is_sbo small max o vs others w ->
  ends (sb_move moved small o w)
    (fun o' n w' => two_sbos small max n vs o' [] others w' /\ s_is_large o' = false /\
       sbo_capacity small n = sbo_capacity small o)
    (fun _ _ => False).
Proof. intros V moved small max o vs others w Hs Hm. now apply move_sbo. Qed.
Print Assumptions C91_move.

Theorem C91_move_assign : forall V (moved : V -> V) small max o vs t us others w,
  small < max -> (N.of_nat max < 2 ^ 63)%N -> two_sbos small max o vs t us others w ->
  ends (sb_move_assign moved small (o, t) w)
    (fun p _ w' => two_sbos small max (fst p) us (snd p) [] others w' /\ s_is_large (snd p) = false /\
       sbo_capacity small (fst p) = sbo_capacity small t)
    (fun _ _ => False).
Proof. intros V moved small max o vs t us others w Hs Hm. now apply move_assign_sbo. Qed.
Print Assumptions C91_move_assign.

Theorem C91_swap : forall V (moved : V -> V) small max o vs t us others w,
  small < max -> (N.of_nat max < 2 ^ 63)%N -> two_sbos small max o vs t us others w ->
  ends (sb_swap moved small (o, t) w)
    (fun p _ w' => two_sbos small max (fst p) us (snd p) vs others w' /\
       sbo_capacity small (fst p) = sbo_capacity small t /\ sbo_capacity small (snd p) = sbo_capacity small o)
    (fun _ _ => False).
Proof. intros V moved small max o vs t us others w Hs Hm. now apply swap_sbo. Qed.
Print Assumptions C91_swap.

(** Elements that are not trivially copyable; when an exception ends it, a prefix has been replaced. *)
Theorem C91_copy_assign : forall V (moved : V -> V) small max o vs t us others w,
  small < max -> (N.of_nat max < 2 ^ 63)%N -> two_sbos small max o vs t us others w ->
  ends (sb_copy_assign moved small max false t o w)
    (fun o' _ w' => two_sbos small max o' us t us others w')
    (fun o' w' => (someone_throws w \/ sbo_capacity small o < length us /\ max < sbo_grown small o (length us)) /\
       exists n, n <= length vs /\ n <= length us /\ two_sbos small max o' (firstn n us ++ skipn n vs) t us others w').
Proof. intros V moved small max o vs t us others w Hs Hm. now apply copy_assign_sbo. Qed.
Print Assumptions C91_copy_assign.

(** Two objects, one in its buffer and one large. *)
Definition pair_world (s : list bool) : world nat :=
  World (fun b => match b with 0 => Some [None; None] | 1 => Some [Some 1; Some 2; Some 3; None] | 2 => Some [Some 7; None] | _ => None end) 3 s.
Example C91_example :
  two_sbos 2 1000 big [1; 2; 3] (Sbo 2 (Small []) 1 false) [7] nowhere (pair_world []) /\
  match sb_swap zero 2 (big, Sbo 2 (Small []) 1 false) (pair_world []) with
  | Ret p _ w' => sb_size (fst p) = 1 /\ sb_data (fst p) = Some 0 /\ heap w' 0 = Some [Some 7; None] /\
                  sb_size (snd p) = 3 /\ sb_data (snd p) = Some 1 /\ heap w' 2 = Some [None; None]
  | _ => False
  end.
Proof.
  split; [|vm_compute; repeat split].
  exists (heap (big_world [])). split; [apply (big_is_sbo [])|]. split.
  - split; [reflexivity|]. left. split; [reflexivity|]. split; [now exists []|]. split; [reflexivity|].
    split; [now exists 1|]. intros b Hb. cbn. destruct b as [|[|[|b]]]; [reflexivity|reflexivity|now elim Hb|reflexivity].
  - intros b Hb. cbn in *. destruct b as [|[|[|b]]]; (lia || reflexivity).
Qed.

(** ** C92. An object begins and ends its life without leaking: destruction leaves exactly the other memory, and a constructor
    that throws leaves the memory as it was. *)
Theorem C92_default : forall V small max (w : world V),
  small < max -> (N.of_nat max < 2 ^ 63)%N -> unused_names w ->
  ends (sb_default small tt w)
    (fun _ o w' => is_sbo small max o [] (heap w) w' /\ s_is_large o = false) (fun _ _ => False).
Proof. intros V small max w Hs Hm. now apply (default_sbo (fun v => v)). Qed.
Print Assumptions C92_default.

Theorem C92_from_range : forall V (moved : V -> V) small max mks us w,
  small < max -> (N.of_nat max < 2 ^ 63)%N -> unused_names w -> Forall2 (makes (heap w)) mks us -> length us <= max ->
  ends (sb_from moved small max (Source mks true) tt w)
    (fun _ o w' => is_sbo small max o us (heap w) w' /\ sbo_capacity small o = Nat.max small (length us))
    (fun _ w' => same (heap w') (heap w) /\ someone_throws w).
Proof. intros V moved small max mks us w Hs Hm. now apply from_sbo. Qed.
Print Assumptions C92_from_range.

Theorem C92_from_unsized : forall V (moved : V -> V) small max mks us w,
  small < max -> (N.of_nat max < 2 ^ 63)%N -> unused_names w -> Forall2 (makes (heap w)) mks us -> 2 * length us <= max ->
  ends (sb_from moved small max (Source mks false) tt w)
    (fun _ o w' => is_sbo small max o us (heap w) w')
    (fun _ w' => same (heap w') (heap w) /\ someone_throws w).
Proof. intros V moved small max mks us w Hs Hm. now apply from_unsized_sbo. Qed.
Print Assumptions C92_from_unsized.

Theorem C92_copy : forall V (moved : V -> V) small max o vs others w,
  small < max -> (N.of_nat max < 2 ^ 63)%N -> is_sbo small max o vs others w ->
  ends (sb_copy moved small max o tt w)
    (fun _ c w' => is_sbo small max c vs (heap w) w' /\ sbo_capacity small c = Nat.max small (length vs))
    (fun _ w' => same (heap w') (heap w) /\ someone_throws w).
Proof. intros V moved small max o vs others w Hs Hm. now apply copy_sbo. Qed.
Print Assumptions C92_copy.

Theorem C92_destroy : forall V small max o (vs : list V) others w,
  small < max -> (N.of_nat max < 2 ^ 63)%N -> is_sbo small max o vs others w ->
  ends (sb_destroy small o w) (fun _ _ w' => same (heap w') others) (fun _ _ => False).
Proof. intros V small max o vs others w Hs Hm. now apply (destroy_sbo (fun v => v)). Qed.
Print Assumptions C92_destroy.

(** The third copy throws: the block and the two elements before it are gone. *)
Example C92_example :
  is_sbo 2 1000 big [1; 2; 3] nowhere (big_world []) /\
  match sb_copy zero 2 1000 big tt (big_world [false; false; false; true]) with
  | Exc _ w' => heap w' 2 = None /\ heap w' 3 = None /\ heap w' 1 = Some [Some 1; Some 2; Some 3; None]
  | _ => False
  end /\
  match sb_copy zero 2 1000 big tt (big_world []) with
  | Ret _ c w' => sb_size c = 3 /\ heap w' 3 = Some [Some 1; Some 2; Some 3]
  | _ => False
  end /\
  match sb_destroy (V := nat) 2 big (big_world []) with
  | Ret _ _ w' => heap w' 0 = None /\ heap w' 1 = None
  | _ => False
  end.
Proof. split; [apply big_is_sbo|]. vm_compute. repeat split. Qed.

(** ** C93. Assigning a range replaces the elements. An exception leaves a valid object, except when the elements are trivially
    copyable, the object is large and a larger block cannot be allocated. *)
Theorem C93_assign : forall V (moved : V -> V) small max mks us o vs others w,
  small < max -> (N.of_nat max < 2 ^ 63)%N -> is_sbo small max o vs others w -> Forall2 (makes others) mks us ->
  ends (assign moved (sbo_vector moved small max) false false (Source mks true) o w)
    (fun o' _ w' => is_sbo small max o' us others w')
    (fun o' w' => (someone_throws w \/ sbo_capacity small o < length us /\ max < sbo_grown small o (length us)) /\
       exists n, n <= length vs /\ n <= length us /\ is_sbo small max o' (firstn n us ++ skipn n vs) others w').
Proof. intros V moved small max mks us o vs others w Hs Hm. now apply assign_sbo. Qed.
Print Assumptions C93_assign.

Theorem C93_assign_trivial_partial : forall V (moved : V -> V) small max mks us o vs others w,
  small < max -> (N.of_nat max < 2 ^ 63)%N -> is_sbo small max o vs others w -> Forall2 (makes others) mks us ->
  length us <= max ->
  ends (assign moved (sbo_vector moved small max) true false (Source mks true) o w)
    (fun o' _ w' => is_sbo small max o' us others w')
    (fun o' w' => someone_throws w /\
       (s_is_large o = false \/ length us <= sbo_capacity small o -> is_sbo small max o' [] others w')).
Proof. intros V moved small max mks us o vs others w Hs Hm. now apply assign_trivial_sbo. Qed.
Print Assumptions C93_assign_trivial_partial.

(** The old block has been given back when the allocation of the new one throws, and the object still points to it: its
    destructor gives it back again. *)
Theorem C93_assign_trivial_refuted : exists o vs mks others w,
  is_sbo 2 1000 o vs others w /\
  match assign zero (sbo_vector zero 2 1000) true false (Source mks true) o w with
  | Exc o' w' => sb_destroy 2 o' w' = Bad BadFree
  | _ => False
  end.
Proof.
  exists big, [1; 2; 3], (map Supply [4; 5; 6; 7; 8]), nowhere, (big_world [true]).
  split; [apply big_is_sbo|]. vm_compute. reflexivity.
Qed.
Print Assumptions C93_assign_trivial_refuted.

Example C93_example :
  is_sbo 2 1000 brimming [1; 2] nowhere (brimming_world []) /\
  match assign zero (sbo_vector zero 2 1000) true false (Source (map Supply [4; 5; 6]) true) brimming (brimming_world []) with
  | Ret o' _ w' => sb_size o' = 3 /\ sb_data o' = Some 2 /\ heap w' 2 = Some [Some 4; Some 5; Some 6] /\ heap w' 0 = Some [None; None]
  | _ => False
  end /\
  match assign zero (sbo_vector zero 2 1000) false false (Source (map Supply [4; 5]) true) brimming (brimming_world [false; true]) with
  | Exc o' w' => sb_size o' = 2 /\ heap w' 0 = Some [Some 4; Some 2]
  | _ => False
  end.
Proof. split; [apply brimming_is_sbo|]. vm_compute. repeat split. Qed.
