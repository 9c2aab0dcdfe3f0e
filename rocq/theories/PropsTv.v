(** * Properties C46 to C57: variant, optional and tuple

    [holds n o k a others w] (SpecVariant.v): in the world [w] the object [o] is a variant of [n] alternatives, exactly
    one object is alive in it, alternative [k] with the value [a], and all other memory is [others]. [ends r Q E]
    (SpecVec.v): the call [r] returns and then [Q], or leaves by an exception and then [E]; it never ends in a fault (undefined
    behaviour, leak, double destruction, std::terminate). [w] ranges over all scripts, that is over
    every choice of which operations throw. *)

From Coq Require Import List Arith Bool ZArith Lia.
From Verif Require Import Cxx Core Arith Spec SpecNum CoreProofs.
From Verif Require Import Mem SpecVec MemLemmas Variant SpecVariant VariantLemmas VariantProofs.
From Verif Require Import Optional SpecOptional OptionalLemmas OptionalProofs Nested SpecNested NestedLemmas Tuple TupleLemmas.
Import ListNotations.
Local Open Scope nat_scope.

(** ** Concrete worlds for the examples: an int or a string or an int again, as numbers. Only copies of alternative 1 may throw. *)
Definition three : types nat := {|
  count := 3; type_of := fun i => i; nothrow_copy := fun i => negb (i =? 1); nothrow_move := fun _ => true;
  nothrow_copy_assign := fun i => negb (i =? 1); nothrow_move_assign := fun _ => true; equal := fun _ => Nat.eqb |}.
Definition emptied (n : nat) : nat := 0.
Definition none_else {V} : memory (V := V) := fun _ => None.
Definition one_object {V} (v : V) (s : list bool) : world V := World (fun b => if b =? 0 then Some [Some v] else None) 1 s.
Definition two_objects {V} (v v' : V) (s : list bool) : world V :=
  World (fun b => if b =? 0 then Some [Some v] else if b =? 1 then Some [Some v'] else None) 2 s.

Example one_holds s : holds 3 (Variant 2 0) 2 7 none_else (one_object (2, 7) s).
Proof.
  split; [|intros b Hb; cbn in *; destruct b; [lia|reflexivity]].
  repeat split; auto. intros b Hb. cbn in *. destruct b; [congruence|reflexivity].
Qed.
Example first_of_two (k a : nat) (v : nat * nat) s : k < 3 ->
  holds 3 (Variant k 0) k a (fun b => if b =? 1 then Some [Some v] else None) (two_objects (k, a) v s).
Proof.
  intros Hk. split; [|intros b Hb; cbn in *; destruct b as [|[|b]]; (lia || reflexivity)].
  repeat split; auto. intros b Hb. cbn in *. destruct b as [|[|b]]; try reflexivity; congruence.
Qed.

(** ** C46. visit calls its function with the active alternatives, in order, however many alternatives there are. *)
Theorem C46_visit : forall variants,
  Forall (fun v => snd v < fst v) variants -> visit variants = Some (map snd variants).
Proof. intros variants H. exact (visit_implementation_finds variants [] H). Qed.
Print Assumptions C46_visit.

(** 40 alternatives, the last one; 16 alternatives, the last one; 17 alternatives, the last one. *)
Example C46_example : visit [(40, 39); (16, 15); (17, 16); (1, 0)] = Some [39; 15; 16; 0].
Proof. reflexivity. Qed.

(** Lookup by type gives the first alternative of the type. *)
Theorem C46_get_index : forall t ts k,
  nth_error ts k = Some t -> (forall i, i < k -> nth_error ts i <> Some t) -> get_index t ts = k.
Proof. exact get_index_finds. Qed.
Print Assumptions C46_get_index.
Example C46_get_index_example : get_index 5 [3; 4; 5; 6; 5] = 2.
Proof. reflexivity. Qed.

(** ** C47. emplace replaces the value or, when construction throws, changes nothing. A construct function that can throw may read the
    variant itself. *)
Theorem C47_construct : forall A (moved : A -> A) (T : types A) k c a w,
  unused_names w -> gives (heap w) c a -> k < count T ->
  ends (construct moved k c tt w)
    (fun _ o w' => holds (count T) o k a (heap w) w')
    (fun _ w' => same (heap w') (heap w) /\ unused_names w' /\ someone_throws w /\ ~ cannot_throw c).
Proof. intros A moved. exact (construct_ends moved). Qed.
Print Assumptions C47_construct.

Theorem C47_emplace : forall A (moved : A -> A) (T : types A) o k0 a0 others k c a w,
  holds (count T) o k0 a0 others w -> k < count T ->
  gives others c a \/ (~ cannot_throw c /\ gives (heap w) c a) ->
  ends (emplace moved T k c o w)
    (fun o' r w' => r = (v_at o, k) /\ v_at o' = v_at o /\ holds (count T) o' k a others w')
    (fun o' w' => untouched o o' w w' /\ someone_throws w /\ ~ cannot_throw c).
Proof. intros A moved. exact (emplace_ends moved). Qed.
Print Assumptions C47_emplace.

Example C47_example :
  (forall s, holds (count three) (Variant 2 0) 2 7 none_else (one_object (2, 7) s)) /\
  (forall s, gives (heap (one_object (2, 7) s)) (CopyFrom false 0 2) 7) /\
  match emplace emptied three 0 (CopyFrom false 0 2) (Variant 2 0) (one_object (2, 7) []) with
  | Ret o' _ w' => o' = Variant 0 0 /\ heap w' 0 = Some [Some (0, 7)] /\ heap w' 1 = None
  | _ => False
  end /\
  match emplace emptied three 0 (Make false 9) (Variant 2 0) (one_object (2, 7) [true]) with
  | Exc o' w' => o' = Variant 2 0 /\ heap w' 0 = Some [Some (2, 7)] /\ heap w' 1 = None
  | _ => False
  end.
Proof. split; [exact one_holds|]. split; [reflexivity|]. vm_compute. repeat split. Qed.

(** A construct function that cannot throw must not read the variant: the old value is destroyed first. *)
Theorem C47_emplace_from_itself_refuted :
  exists (T : types nat) o k a others w c, holds (count T) o k a others w /\ cannot_throw c /\ gives (heap w) c a /\
    emplace emptied T 0 c o w = Bad Dead.
Proof.
  exists three, (Variant 2 0), 2, 7, none_else, (one_object (2, 7) []), (CopyFrom true 0 2).
  split; [apply one_holds|]. repeat split.
Qed.
Print Assumptions C47_emplace_from_itself_refuted.

(** ** C48. Copy construction makes an equal variant and leaves the source; move construction takes the value. *)
Theorem C48_copy_construct : forall A (moved : A -> A) (T : types A) t k a others w,
  holds (count T) t k a others w ->
  ends (copy_construct moved T t tt w)
    (fun _ o w' => two_variants (count T) t k a o k a others w')
    (fun _ w' => same (heap w') (heap w) /\ unused_names w' /\ someone_throws w /\ nothrow_copy T k = false).
Proof. intros A moved. exact (copy_construct_ends moved). Qed.
Print Assumptions C48_copy_construct.

Theorem C48_move_construct : forall A (moved : A -> A) (T : types A) t k a others w,
  holds (count T) t k a others w ->
  ends (move_construct moved T t tt w)
    (fun _ o w' => two_variants (count T) t k (moved a) o k a others w')
    (fun _ w' => same (heap w') (heap w) /\ unused_names w' /\ someone_throws w /\ nothrow_move T k = false).
Proof. intros A moved. exact (move_construct_ends moved). Qed.
Print Assumptions C48_move_construct.

Example C48_example :
  match copy_construct emptied three (Variant 1 0) tt (one_object (1, 7) []) with
  | Ret _ o w' => o = Variant 1 1 /\ heap w' 1 = Some [Some (1, 7)] /\ heap w' 0 = Some [Some (1, 7)]
  | _ => False
  end /\
  match copy_construct emptied three (Variant 1 0) tt (one_object (1, 7) [true]) with
  | Exc _ w' => heap w' 1 = None /\ heap w' 0 = Some [Some (1, 7)]
  | _ => False
  end /\
  match move_construct emptied three (Variant 1 0) tt (one_object (1, 7) [true]) with
  | Ret _ o w' => heap w' 1 = Some [Some (1, 7)] /\ heap w' 0 = Some [Some (1, 0)]
  | _ => False
  end.
Proof. vm_compute. repeat split. Qed.

(** ** C49. Copy assignment gives the target the alternative and value of the source; if it throws nothing changed. *)
Theorem C49_copy_assign : forall A (moved : A -> A) (T : types A) o k0 a0 others other j b w,
  holds (count T) o k0 a0 others w -> v_index other = j -> j < count T -> others (v_at other) = Some [Some (j, b)] ->
  ends (copy_assign moved T other o w)
    (fun o' _ w' => v_at o' = v_at o /\ holds (count T) o' j b others w')
    (fun o' w' => untouched o o' w w' /\ someone_throws w /\ (if k0 =? j then nothrow_copy_assign T j else nothrow_copy T j) = false).
Proof. intros A moved. exact (copy_assign_ends moved). Qed.
Print Assumptions C49_copy_assign.

Theorem C49_self_assign : forall A (moved : A -> A) (T : types A) o k a others w,
  holds (count T) o k a others w ->
  ends (copy_assign moved T o o w)
    (fun o' _ w' => o' = o /\ holds (count T) o k a others w')
    (fun o' w' => untouched o o' w w' /\ someone_throws w).
Proof. intros A moved. exact (self_assign_ends moved). Qed.
Print Assumptions C49_self_assign.

(** Move assignment does the same as copy assignment: it leaves the source as it was. This is safe only when copies
    cannot throw, or when the operator is not noexcept. *)
Theorem C49_move_assign_copies : forall A (moved : A -> A) (T : types A) o k0 a0 others other j b w,
  holds (count T) o k0 a0 others w -> v_index other = j -> j < count T -> others (v_at other) = Some [Some (j, b)] ->
  ((forall i, i < count T -> nothrow_move_assign T i = true /\ nothrow_move T i = true) ->
   (if k0 =? j then nothrow_copy_assign T j else nothrow_copy T j) = true) ->
  ends (move_assign moved T other o w)
    (fun o' _ w' => v_at o' = v_at o /\ holds (count T) o' j b others w')
    (fun o' w' => untouched o o' w w' /\ someone_throws w /\ (if k0 =? j then nothrow_copy_assign T j else nothrow_copy T j) = false).
Proof. intros A moved. exact (move_assign_ends moved). Qed.
Print Assumptions C49_move_assign_copies.

(** Move assignment does not move: the source still has its value. *)
Theorem C49_move_assign_moves_refuted :
  exists (T : types nat) o k0 a0 other j b others w,
    holds (count T) o k0 a0 others w /\ v_index other = j /\ j < count T /\ others (v_at other) = Some [Some (j, b)] /\
    emptied b <> b /\
    match move_assign emptied T other o w with
    | Ret _ _ w' => heap w' (v_at other) = Some [Some (j, b)]
    | _ => False
    end.
Proof.
  exists three, (Variant 2 0), 2, 7, (Variant 0 1), 0, 5, (fun b => if b =? 1 then Some [Some (0, 5)] else None), (two_objects (2, 7) (0, 5) []).
  split; [apply (first_of_two 2 7 (0, 5) []); lia|]. vm_compute. repeat split; auto. discriminate.
Qed.
Print Assumptions C49_move_assign_moves_refuted.

(** All moves are noexcept, so move assignment is; a copy that throws inside it terminates the program. *)
Theorem C49_move_assign_survives_refuted :
  exists (T : types nat) o k0 a0 other j b others w,
    holds (count T) o k0 a0 others w /\ v_index other = j /\ j < count T /\ others (v_at other) = Some [Some (j, b)] /\
    (forall i, i < count T -> nothrow_move_assign T i = true /\ nothrow_move T i = true) /\
    move_assign emptied T other o w = Bad Terminated.
Proof.
  exists three, (Variant 2 0), 2, 7, (Variant 1 1), 1, 5, (fun b => if b =? 1 then Some [Some (1, 5)] else None), (two_objects (2, 7) (1, 5) [true]).
  split; [apply (first_of_two 2 7 (1, 5) [true]); lia|]. vm_compute. repeat split; auto.
Qed.
Print Assumptions C49_move_assign_survives_refuted.

Example C49_example :
  match copy_assign emptied three (Variant 1 1) (Variant 2 0) (two_objects (2, 7) (1, 5) []) with
  | Ret o' _ w' => o' = Variant 1 0 /\ heap w' 0 = Some [Some (1, 5)] /\ heap w' 1 = Some [Some (1, 5)]
  | _ => False
  end /\
  match copy_assign emptied three (Variant 1 1) (Variant 2 0) (two_objects (2, 7) (1, 5) [true]) with
  | Exc o' w' => o' = Variant 2 0 /\ heap w' 0 = Some [Some (2, 7)]
  | _ => False
  end /\
  match copy_assign emptied three (Variant 1 1) (Variant 1 0) (two_objects (1, 7) (1, 5) [true]) with
  | Exc o' w' => o' = Variant 1 0 /\ heap w' 0 = Some [Some (1, 7)]
  | _ => False
  end.
Proof. vm_compute. repeat split. Qed.

(** ** C50. Assignment of a value makes the alternative of its type active with that value, or changes nothing. *)
Theorem C50_assign_value : forall A (moved : A -> A) (T : types A) o k0 a0 others t k c a nothrow_assign w,
  holds (count T) o k0 a0 others w -> the_alternative_of_type T t k -> gives others c a ->
  ends (assign_value moved T t c nothrow_assign o w)
    (fun o' _ w' => v_at o' = v_at o /\ holds (count T) o' k a others w')
    (fun o' w' => untouched o o' w w' /\ someone_throws w /\ (if k0 =? k then nothrow_assign = false else ~ cannot_throw c)).
Proof. intros A moved. exact (assign_value_ends moved). Qed.
Print Assumptions C50_assign_value.

Example C50_example :
  the_alternative_of_type three 1 1 /\
  match assign_value emptied three 1 (Make false 9) true (Variant 2 0) (one_object (2, 7) []) with
  | Ret o' _ w' => o' = Variant 1 0 /\ heap w' 0 = Some [Some (1, 9)]
  | _ => False
  end /\
  match assign_value emptied three 1 (Make false 9) true (Variant 2 0) (one_object (2, 7) [true]) with
  | Exc o' w' => o' = Variant 2 0 /\ heap w' 0 = Some [Some (2, 7)] /\ heap w' 1 = None
  | _ => False
  end.
Proof. split; [repeat split; [cbn; lia|intros i _ E; exact E]|]. vm_compute. repeat split. Qed.

(** ** C51. After any sequence of calls, each of which may have thrown, the variant holds exactly one value, which some
    call of the sequence (or the start) put there, and destroying it gives back all memory. *)
Theorem C51_history : forall A (moved : A -> A) (T : types A) cs o k a others w,
  holds (count T) o k a others w -> Forall (allowed T others) cs ->
  ends (program moved T cs o w)
    (fun o' _ w' => v_at o' = v_at o /\ exists s, led_to cs (k, a) s /\ holds (count T) o' (fst s) (snd s) others w')
    (fun _ _ => False).
Proof. intros A moved. exact (program_ends moved). Qed.
Print Assumptions C51_history.

Theorem C51_destroy : forall A (T : types A) o k a others w,
  holds (count T) o k a others w ->
  ends (destruct T o w) (fun _ _ w' => same (heap w') others /\ unused_names w') (fun _ _ => False).
Proof. intros A T. exact (destruct_ends (fun a => a) T). Qed.
Print Assumptions C51_destroy.

Example C51_example :
  let cs := [CallEmplace 0 (Make false 1) 1; CallAssignValue 1 1 (Make false 5) 5 true; CallEmplace 2 (Make true 6) 6; CallEmplace 0 (Make false 8) 8] in
  Forall (allowed three none_else) cs /\
  match program emptied three cs (Variant 2 0) (one_object (2, 7) [false; true; true]) with
  | Ret o' _ w' => o' = Variant 2 0 /\ heap w' 0 = Some [Some (2, 6)] /\
      match destruct three o' w' with Ret _ _ w'' => heap w'' 0 = None | _ => False end
  | _ => False
  end.
Proof.
  cbv zeta. split; [|vm_compute; auto].
  repeat constructor; cbn; auto; try lia; intros; lia.
Qed.

(** ** C52. Reading the active alternative gives the value, reading another one is undefined; variants are equal when they hold
    the same alternative with equal values. *)
Theorem C52_subscript : forall A (T : types A) o k (a : A) others j w,
  holds (count T) o k a others w -> subscript j o w = if k =? j then Ret o a w else Bad Dead.
Proof. intros A. exact subscript_ends. Qed.
Print Assumptions C52_subscript.

Theorem C52_equals : forall A (T : types A) t k a o j b others w,
  two_variants (count T) t k a o j b others w ->
  equals T t o tt w = Ret tt (if k =? j then equal T k a b else false) w.
Proof. intros A. exact equals_ends. Qed.
Print Assumptions C52_equals.

Theorem C52_equals_value : forall A (T : types A) o k a t b others w,
  holds (count T) o k a others w ->
  equals_value T o t b tt w = Ret tt (if type_of T k =? t then equal T k a b else false) w.
Proof. intros A. exact equals_value_ends. Qed.
Print Assumptions C52_equals_value.

Example C52_example :
  two_variants 3 (Variant 2 0) 2 7 (Variant 1 1) 1 7 none_else (two_objects (2, 7) (1, 7) []) /\
  equals three (Variant 2 0) (Variant 1 1) tt (two_objects (2, 7) (1, 7) []) = Ret tt false (two_objects (2, 7) (1, 7) []).
Proof.
  split; [|reflexivity].
  exists (fun b => if b =? 0 then Some [Some (2, 7)] else None). split; [|split].
  - repeat split; auto. intros b Hb. destruct b; [cbn in *; congruence|reflexivity].
  - repeat split; auto; try lia. intros b Hb. cbn in *. destruct b as [|[|b]]; try reflexivity; congruence.
  - intros b Hb. cbn in *. destruct b as [|[|b]]; (lia || reflexivity).
Qed.

(** ** C53. An optional whose value type has no spare representation: every operation has its effect or, when it throws, none. *)
Section C53.
Context {B : Type} (moved : B -> B) (eqb : B -> B -> bool) (nc nm nca nma : bool).
Local Notation st := (in_variant moved nc nm nca nma eqb).

Theorem C53_none : forall w, unused_names w ->
  ends (opt_none st tt w) (fun _ o w' => is_optional_v o None (heap w) w') (fun _ _ => False).
Proof. exact (none_ends_v moved eqb nc nm nca nma). Qed.
Theorem C53_some : forall c b w, unused_names w -> gives (heap w) c (Some b) ->
  ends (opt_some st c tt w) (fun _ o w' => is_optional_v o (Some b) (heap w) w')
    (fun _ w' => same (heap w') (heap w) /\ unused_names w' /\ someone_throws w /\ ~ cannot_throw c).
Proof. exact (some_ends_v moved eqb nc nm nca nma). Qed.
Theorem C53_bool : forall o x others w, is_optional_v o x others w ->
  opt_bool st o w = Ret o (match x with None => false | Some _ => true end) w.
Proof. exact (bool_ends_v moved eqb nc nm nca nma). Qed.
Theorem C53_deref : forall o x others w, is_optional_v o x others w ->
  opt_deref st o w = match x with None => Bad Broken | Some b => Ret o b w end.
Proof. exact (deref_ends_v moved eqb nc nm nca nma). Qed.
Theorem C53_assign_none : forall o x others w, is_optional_v o x others w ->
  ends (opt_assign_none st o w) (fun o' _ w' => v_at o' = v_at o /\ is_optional_v o' None others w') (fun _ _ => False).
Proof. exact (assign_none_ends_v moved eqb nc nm nca nma). Qed.
Theorem C53_emplace : forall o x c b others w,
  is_optional_v o x others w -> gives others c (Some b) \/ (~ cannot_throw c /\ gives (heap w) c (Some b)) ->
  ends (opt_emplace st c o w)
    (fun o' _ w' => v_at o' = v_at o /\ is_optional_v o' (Some b) others w')
    (fun o' w' => untouched o o' w w' /\ someone_throws w /\ ~ cannot_throw c).
Proof. exact (emplace_ends_v moved eqb nc nm nca nma). Qed.
Theorem C53_assign : forall o x c b others w, is_optional_v o x others w -> gives others c (Some b) ->
  ends (opt_assign st c o w)
    (fun o' _ w' => v_at o' = v_at o /\ is_optional_v o' (Some b) others w')
    (fun o' w' => untouched o o' w w' /\ someone_throws w).
Proof. exact (assign_ends_v moved eqb nc nm nca nma). Qed.
Theorem C53_destroy : forall o x others w, is_optional_v o x others w ->
  ends (opt_destruct st o w) (fun _ _ w' => same (heap w') others /\ unused_names w') (fun _ _ => False).
Proof. exact (destruct_ends_v moved eqb nc nm nca nma). Qed.
Theorem C53_copy : forall t y others w, is_optional_v t y others w ->
  ends (opt_copy st t tt w)
    (fun _ o w' => two_optionals_v t y o y others w')
    (fun _ w' => same (heap w') (heap w) /\ unused_names w' /\ someone_throws w /\ nc = false /\ y <> None).
Proof. exact (copy_ends_v moved eqb nc nm nca nma). Qed.
Theorem C53_move : forall t y others w, is_optional_v t y others w ->
  ends (opt_move st t tt w)
    (fun _ o w' => two_optionals_v t (option_map moved y) o y others w')
    (fun _ w' => same (heap w') (heap w) /\ unused_names w' /\ someone_throws w /\ nm = false /\ y <> None).
Proof. exact (move_ends_v moved eqb nc nm nca nma). Qed.
Theorem C53_copy_assign : forall o x t y others w, two_optionals_v o x t y others w ->
  ends (opt_copy_assign st t o w)
    (fun o' _ w' => v_at o' = v_at o /\ two_optionals_v o' y t y others w')
    (fun o' w' => untouched o o' w w' /\ someone_throws w).
Proof. exact (two_copy_assign_ends_v moved eqb nc nm nca nma). Qed.
(** Like that of variant, move assignment copies. *)
Theorem C53_move_assign_copies : forall o x t y others w, two_optionals_v o x t y others w ->
  (nm && nma = true -> nc && nca = true) ->
  ends (opt_move_assign st t o w)
    (fun o' _ w' => v_at o' = v_at o /\ two_optionals_v o' y t y others w')
    (fun o' w' => untouched o o' w w' /\ someone_throws w).
Proof. exact (two_move_assign_ends_v moved eqb nc nm nca nma). Qed.
Theorem C53_equal : forall o x t y others w, two_optionals_v o x t y others w ->
  opt_equal st eqb o t tt w = Ret tt (match x, y with Some a, Some b => eqb a b | None, None => true | _, _ => false end) w.
Proof. exact (equal_ends_v moved eqb nc nm nca nma). Qed.
End C53.
Print Assumptions C53_none.
Print Assumptions C53_some.
Print Assumptions C53_bool.
Print Assumptions C53_deref.
Print Assumptions C53_assign_none.
Print Assumptions C53_emplace.
Print Assumptions C53_assign.
Print Assumptions C53_destroy.
Print Assumptions C53_copy.
Print Assumptions C53_move.
Print Assumptions C53_copy_assign.
Print Assumptions C53_move_assign_copies.
Print Assumptions C53_equal.

Definition any_optional : storage (nat * option nat) variant creator nat := in_variant emptied false true false true Nat.eqb.
Example C53_example :
  is_optional_v (Variant 1 0) (Some 7) none_else (one_object (1, Some 7) []) /\
  is_optional_v (Variant 0 0) None none_else (one_object (0, @None nat) []) /\
  match opt_emplace any_optional (Make false (Some 9)) (Variant 1 0) (one_object (1, Some 7) [true]) with
  | Exc o' w' => o' = Variant 1 0 /\ heap w' 0 = Some [Some (1, Some 7)]
  | _ => False
  end /\
  match opt_assign any_optional (Make false (Some 9)) (Variant 0 0) (one_object (0, None) []) with
  | Ret o' _ w' => o' = Variant 1 0 /\ heap w' 0 = Some [Some (1, Some 9)]
  | _ => False
  end.
Proof.
  split; [|split; [|vm_compute; repeat split]];
    (split; [|intros b Hb; cbn in *; destruct b; [lia|reflexivity]]); repeat split; auto;
    intros b Hb; cbn in *; destruct b; try reflexivity; congruence.
Qed.

(** ** C54. An optional whose value type has a spare representation. An exception leaves it as it was or empty, provided construction
    of a value cannot throw once it has begun. *)
Section C54.
Context {B : Type} (moved : B -> B) (eqb : B -> B -> bool) (nc nm nca nma : bool).
Local Notation st := (in_place moved nc nm nca nma).

Theorem C54_none : forall w, unused_names w ->
  ends (opt_none st tt w) (fun _ p w' => is_optional_p p None (heap w) w') (fun _ _ => False).
Proof. exact (none_ends_p moved nc nm nca nma). Qed.
Theorem C54_some : forall c b w, unused_names w -> makes_value (heap w) c b ->
  ends (opt_some st c tt w) (fun _ p w' => is_optional_p p (Some b) (heap w) w')
    (fun _ w' => same (heap w') (heap w) /\ unused_names w' /\ someone_throws w).
Proof. exact (some_ends_p moved nc nm nca nma). Qed.
Theorem C54_bool : forall p x others w, is_optional_p p x others w ->
  opt_bool st p w = Ret p (match x with None => false | Some _ => true end) w.
Proof. exact (bool_ends_p moved nc nm nca nma). Qed.
Theorem C54_deref : forall p x others w, is_optional_p p x others w ->
  opt_deref st p w = match x with None => Bad Broken | Some b => Ret p b w end.
Proof. exact (deref_ends_p moved nc nm nca nma). Qed.
Theorem C54_assign_none : forall p x others w, is_optional_p p x others w ->
  ends (opt_assign_none st p w) (fun p' _ w' => p' = p /\ is_optional_p p None others w') (fun _ _ => False).
Proof. exact (assign_none_ends_p moved nc nm nca nma). Qed.
(** [wrecked]: neither a value nor empty. *)
Theorem C54_emplace : forall p x c b others w, is_optional_p p x others w -> makes_value others c b ->
  ends (opt_emplace st c p w)
    (fun p' _ w' => p' = p /\ is_optional_p p (Some b) others w')
    (fun p' w' => p' = p /\ someone_throws w /\ ~ cannot_throw_at_all c /\
       (is_optional_p p None others w' \/ (wrecked p others w' /\ ~ cannot_throw_during c))).
Proof. exact (emplace_ends_p moved (fun _ _ => true) nc nm nca nma). Qed.
Theorem C54_assign : forall p x c b others w, is_optional_p p x others w -> makes_value others c b ->
  ends (opt_assign st c p w)
    (fun p' _ w' => p' = p /\ is_optional_p p (Some b) others w')
    (fun p' w' => p' = p /\ someone_throws w /\
       (is_optional_p p x others w' \/ (x = None /\ wrecked p others w' /\ ~ cannot_throw_during c))).
Proof. exact (assign_ends_p moved (fun _ _ => true) nc nm nca nma). Qed.
Theorem C54_destroy : forall p x others w, is_optional_p p x others w ->
  ends (opt_destruct st p w) (fun _ _ w' => same (heap w') others /\ unused_names w') (fun _ _ => False).
Proof. exact (destruct_ends_p moved nc nm nca nma). Qed.
Theorem C54_copy : forall q y others w, is_optional_p q y others w ->
  ends (opt_copy st q tt w)
    (fun _ p w' => two_optionals_p q y p y others w')
    (fun _ w' => same (heap w') (heap w) /\ unused_names w' /\ someone_throws w /\ nc = false /\ y <> None).
Proof. exact (copy_ends_p moved nc nm nca nma). Qed.
Theorem C54_move : forall q y others w, is_optional_p q y others w ->
  ends (opt_move st q tt w)
    (fun _ p w' => two_optionals_p q (option_map moved y) p y others w')
    (fun _ w' => same (heap w') (heap w) /\ unused_names w' /\ someone_throws w /\ nm = false /\ y <> None).
Proof. exact (move_ends_p moved nc nm nca nma). Qed.
Theorem C54_copy_assign : forall p x q y others w, is_optional_p p x others w -> others q = Some [Some (representation y)] ->
  ends (opt_copy_assign st q p w)
    (fun p' _ w' => p' = p /\ is_optional_p p y others w')
    (fun p' w' => p' = p /\ someone_throws w /\
       ((is_optional_p p x others w' /\ nca = false) \/ (x = None /\ wrecked p others w' /\ nc = false))).
Proof. exact (copy_assign_ends_p moved nc nm nca nma). Qed.
Theorem C54_move_assign : forall p x q y others w, is_optional_p p x others w -> others q = Some [Some (representation y)] ->
  ends (opt_move_assign st q p w)
    (fun p' _ w' => p' = p /\ is_optional_p p y (upd others q (Some [Some (representation (option_map moved y))])) w')
    (fun p' w' => p' = p /\ someone_throws w /\
       ((is_optional_p p x others w' /\ nma = false) \/ (x = None /\ wrecked p others w' /\ nm = false))).
Proof. exact (move_assign_ends_p moved nc nm nca nma). Qed.
Theorem C54_equal : forall p x q y others w, two_optionals_p p x q y others w ->
  opt_equal st eqb p q tt w = Ret tt (match x, y with Some a, Some b => eqb a b | None, None => true | _, _ => false end) w.
Proof. exact (equal_ends_p moved eqb nc nm nca nma). Qed.
End C54.
Print Assumptions C54_none.
Print Assumptions C54_some.
Print Assumptions C54_bool.
Print Assumptions C54_deref.
Print Assumptions C54_assign_none.
Print Assumptions C54_emplace.
Print Assumptions C54_assign.
Print Assumptions C54_destroy.
Print Assumptions C54_copy.
Print Assumptions C54_move.
Print Assumptions C54_copy_assign.
Print Assumptions C54_move_assign.
Print Assumptions C54_equal.

Example one_optional (x : option nat) s : is_optional_p 0 x none_else (one_object (representation x) s).
Proof.
  split; [|intros b Hb; cbn in *; destruct b; [lia|reflexivity]].
  repeat split; auto. intros b Hb. cbn in *. destruct b; [congruence|reflexivity].
Qed.
Definition small_optional : storage (rep nat) nat (source nat) nat := in_place emptied false false false false.
Example C54_example :
  match opt_emplace small_optional (New false true 9) 0 (one_object (Living 7) []) with
  | Ret _ _ w' => heap w' 0 = Some [Some (Living 9)] | _ => False end /\
  match opt_emplace small_optional (New false true 9) 0 (one_object (Living 7) [true]) with
  | Exc _ w' => heap w' 0 = Some [Some (Spare 0)] | _ => False end /\
  match opt_assign small_optional (New true true 9) 0 (one_object (Living 7) [true]) with
  | Exc _ w' => heap w' 0 = Some [Some (Living 7)] | _ => False end.
Proof. vm_compute. repeat split. Qed.

(** emplace does not keep the old value when construction throws, even when nothing was constructed. *)
Theorem C54_emplace_strong_refuted :
  exists (p : nat) (x : option nat) c b others w, is_optional_p p x others w /\ makes_value others c b /\ cannot_throw_during c /\
    match opt_emplace small_optional c p w with Exc _ w' => ~ same (heap w') (heap w) | _ => False end.
Proof.
  exists 0, (Some 7), (New false true 9), 9, none_else, (one_object (Living 7) [true]).
  split; [exact (one_optional (Some 7) [true])|]. repeat split.
  intros H. specialize (H 0). vm_compute in H. discriminate.
Qed.
Print Assumptions C54_emplace_strong_refuted.

(** When a constructor throws the optional is neither empty nor has a value: the next use, if only its destructor, is undefined. *)
Theorem C54_emplace_then_destroy_refuted :
  exists (p : nat) (x : option nat) c b others w, is_optional_p p x others w /\ makes_value others c b /\
    match opt_emplace small_optional c p w with Exc _ w' => opt_destruct small_optional p w' = Bad Dead | _ => False end.
Proof.
  exists 0, (Some 7), (New true false 9), 9, none_else, (one_object (Living 7) [true]).
  split; [exact (one_optional (Some 7) [true])|]. vm_compute. repeat split.
Qed.
Print Assumptions C54_emplace_then_destroy_refuted.

(** The same after a copy assignment to an empty optional. *)
Theorem C54_copy_assign_then_destroy_refuted :
  exists (p q : nat) (y : option nat) others w, is_optional_p p None others w /\ others q = Some [Some (representation y)] /\
    match opt_copy_assign small_optional q p w with Exc _ w' => opt_destruct small_optional p w' = Bad Dead | _ => False end.
Proof.
  exists 0, 1, (Some 7), (fun b => if b =? 1 then Some [Some (Living 7)] else None), (two_objects (Spare 0) (Living 7) [true]).
  split; [|vm_compute; repeat split].
  split; [|intros b Hb; cbn in *; destruct b as [|[|b]]; (lia || reflexivity)].
  repeat split; auto. intros b Hb. cbn in *. destruct b as [|[|b]]; try reflexivity; congruence.
Qed.
Print Assumptions C54_copy_assign_then_destroy_refuted.

(** ** C55. Nested optionals keep every level apart, to any depth, and use no storage besides that of the value as long as it has spare
    representations. *)
Section C55.
Local Open Scope Z_scope.
Theorem C55_integer : forall T d x, valid T -> ty_bits (und T) <= 64 -> ok_levels d (holds_value T) x ->
  read (nested d (bounded_integer T)) (store_value (nested d (bounded_integer T)) x) = Some x.
Proof.
  intros T d x V H Hx. exact (proj1 (nested_faithful (bounded_integer T) (holds_value T) d (bounded_integer_faithful T V H)) x Hx).
Qed.
(** A variant or static_vector: data [P] and an integer member. *)
Theorem C55_member : forall T P d x, valid T -> ty_bits (und T) <= 64 -> ok_levels d (fun v => holds_value T (fst v)) x ->
  read (nested d (with_member T P)) (store_value (nested d (with_member T P)) x) = Some x.
Proof.
  intros T P d x V H Hx. exact (proj1 (nested_faithful (with_member T P) _ d (with_member_faithful T V H P)) x Hx).
Qed.
(** A type without spare representations. *)
Theorem C55_plain : forall A (any : A) d x,
  read (nested d (plain A any)) (store_value (nested d (plain A any)) x) = Some x.
Proof.
  intros A any d x. apply (proj1 (nested_faithful (plain A any) (fun _ => True) d (plain_faithful A any))).
  induction d as [|d IH]; cbn; auto. destruct x; auto.
Qed.
Theorem C55_storage : forall A (r : repr A) d, (d <= spare r)%nat ->
  stored (nested d r) = stored r /\ spare (nested d r) = (spare r - d)%nat.
Proof. intros A r d H. split; [now apply nested_same_storage|now apply nested_spare]. Qed.
End C55.
Print Assumptions C55_integer.
Print Assumptions C55_member.
Print Assumptions C55_plain.
Print Assumptions C55_storage.

(** optional<optional<optional<integer<1, 100>>>>: one byte; the four kinds of contents. 1 is stored as 1; the empty levels are -126, -127 and -128. *)
Example C55_example :
  let T := Bty (lit 1) (lit 100) in
  valid T /\ ok_levels 3 (holds_value T) (Some (Some None)) /\ spare (nested 3 (bounded_integer T)) = 153 /\
  map (store_value (nested 3 (bounded_integer T))) [None; Some None; Some (Some None); Some (Some (Some 1%Z))] = [-126; -127; -128; 1]%Z.
Proof. cbv zeta. split; [vm_compute; intuition congruence|]. split; [exact I|]. vm_compute. split; [reflexivity|]. reflexivity. Qed.

(** ** C56. Tuples compare lexicographically: by the first position at which they differ. *)
Theorem C56_equal : forall A (compare : nat -> A -> A -> comparison) lhs rhs, length lhs = length rhs ->
  (spaceship compare lhs rhs = Some Eq <->
   forall i a b, nth_error lhs i = Some a -> nth_error rhs i = Some b -> compare i a b = Eq).
Proof.
  intros A compare lhs rhs H. rewrite spaceship_lex by assumption. rewrite <- (lex_eq compare lhs rhs 0 H). split; congruence.
Qed.
Print Assumptions C56_equal.

Theorem C56_differ : forall A (compare : nat -> A -> A -> comparison) lhs rhs c, length lhs = length rhs -> c <> Eq ->
  (spaceship compare lhs rhs = Some c <->
   exists i a b, nth_error lhs i = Some a /\ nth_error rhs i = Some b /\ compare i a b = c /\
     forall j a' b', j < i -> nth_error lhs j = Some a' -> nth_error rhs j = Some b' -> compare j a' b' = Eq).
Proof.
  intros A compare lhs rhs c H Hc. rewrite spaceship_lex by assumption. rewrite <- (lex_first compare lhs rhs 0 c H Hc). split; congruence.
Qed.
Print Assumptions C56_differ.

(** When every element type is totally ordered, so are the tuples. *)
Theorem C56_opposite : forall A (compare : nat -> A -> A -> comparison) lhs rhs c, length lhs = length rhs ->
  (forall i a b, compare i b a = CompOpp (compare i a b)) ->
  spaceship compare lhs rhs = Some c -> spaceship compare rhs lhs = Some (CompOpp c).
Proof.
  intros A compare lhs rhs c H Ho. rewrite !spaceship_lex by auto. intros E. injection E as <-. f_equal. now apply lex_opp.
Qed.
Print Assumptions C56_opposite.

Theorem C56_transitive : forall A (compare : nat -> A -> A -> comparison) t u v c, length t = length u -> length u = length v ->
  (forall i a b d x, compare i a b = x -> compare i b d = x -> compare i a d = x) ->
  (forall i a b d, compare i a b = Eq -> compare i a d = compare i b d) ->
  (forall i a b d, compare i b d = Eq -> compare i a d = compare i a b) ->
  spaceship compare t u = Some c -> spaceship compare u v = Some c -> spaceship compare t v = Some c.
Proof.
  intros A compare t u v c H1 H2 T E1 E2. rewrite !spaceship_lex by congruence. intros X Y. injection X as X. injection Y as Y.
  f_equal. eapply lex_trans; eauto.
Qed.
Print Assumptions C56_transitive.

(** [==] holds when all elements are equal. *)
Theorem C56_equality : forall A (eqb : nat -> A -> A -> bool) lhs rhs, length lhs = length rhs ->
  exists x, tuple_equal eqb lhs rhs = Some x /\
  (x = true <-> forall i a b, nth_error lhs i = Some a -> nth_error rhs i = Some b -> eqb i a b = true).
Proof.
  intros A eqb lhs rhs H. unfold tuple_equal. rewrite <- H, Nat.eqb_refl. exact (equal_from_app eqb [] [] lhs rhs eq_refl H).
Qed.
Print Assumptions C56_equality.

Example C56_example :
  spaceship (fun _ => Nat.compare) [1; 5; 9] [1; 6; 2] = Some Lt /\ spaceship (fun _ => Nat.compare) [1; 5] [1; 5] = Some Eq /\
  tuple_equal (fun _ => Nat.eqb) [1; 5; 9] [1; 5; 8] = Some false /\
  (forall a b, Nat.compare b a = CompOpp (Nat.compare a b)).
Proof. repeat split. intros a b. apply Nat.compare_antisym. Qed.

(** ** C57. tuple_cat concatenates; transform applies the function position by position. *)
Theorem C57_tuple_cat : forall A (tuples : list (list A)), tuple_cat tuples = Some (concat tuples).
Proof. intros A. exact tuple_cat_concat. Qed.
Print Assumptions C57_tuple_cat.

Theorem C57_transform : forall A B (f : list A -> B) tuples n d,
  (forall t, In t tuples -> length t = n) -> tuples <> [] ->
  transform f tuples = Some (map (fun i => f (map (fun t => nth i t d) tuples)) (seq 0 n)).
Proof. intros A B. exact transform_elements. Qed.
Print Assumptions C57_transform.

Example C57_example :
  tuple_cat [[1; 2]; []; [3]] = Some [1; 2; 3] /\
  transform (fun l => fold_left Nat.add l 0) [[1; 2; 3]; [10; 20; 30]] = Some [11; 22; 33].
Proof. split; reflexivity. Qed.
