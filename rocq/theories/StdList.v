(** * The list with the interface of the standard library

    Models containers/std/list.cpp: [sized_list] (lines 50-128; lines without a file are of list.cpp) is a bidirectional_linked_list (LinkedList.v) with a count of its elements,
    and [list] passes its arguments on to the generic functions with a [sized_list]. A list is known by the name of its sentinel; the counts are kept beside
    the memory. *)

From Coq Require Import List Arith Bool ZArith.
From Verif Require Import LinkedList.
Import ListNotations.
Local Open Scope nat_scope.

Section StdList.
Context {V : Type}.
Local Notation memory := (memory (nat * nat) V).

(** m_size (line 127) of each list, a std::size_t *)
Definition sizes : Type := nat -> Z.
Definition wrap (z : Z) : Z := (z mod 2 ^ 64)%Z.
Inductive sresult (A : Type) : Type := SReturned (a : A) (z : sizes) (m : memory) | SThrew (z : sizes) (m : memory) | SUndefined.
Arguments SReturned {A}. Arguments SThrew {A}. Arguments SUndefined {A}.
Definition S' (A : Type) : Type := sizes -> memory -> sresult A.
Definition sret {A} (a : A) : S' A := fun z m => SReturned a z m.
Definition sbind {A C} (x : S' A) (f : A -> S' C) : S' C :=
  fun z m => match x z m with SReturned a z m => f a z m | SThrew z m => SThrew z m | SUndefined => SUndefined end.
Definition sundefined {A} : S' A := fun _ _ => SUndefined.
(** An operation of the bidirectional_linked_list that is a member *)
Definition lift {A} (x : M (nat * nat) V A) : S' A :=
  fun z m => match x m with Returned a m => SReturned a z m | Threw m => SThrew z m | Undefined => SUndefined end.
(** size() (lines 86-88) *)
Definition size_of (s : nat) : S' Z := fun z m => SReturned (z s) z m.
Definition set_size (s : nat) (n : Z) : S' unit := fun z m => SReturned tt (fun q => if q =? s then wrap n else z q) m.
Definition add_size (s : nat) (n : Z) : S' unit := sbind (size_of s) (fun old => set_size s (old + n)%Z).
(** x, and then the destructor [final] of a local variable, also when x throws. *)
Definition sfinally {A} (x : S' A) (final : S' unit) : S' A :=
  fun z m => match x z m with
             | SReturned a z m => match final z m with SReturned _ z m => SReturned a z m | _ => SUndefined end
             | SThrew z m => match final z m with SReturned _ z m => SThrew z m | _ => SUndefined end
             | SUndefined => SUndefined
             end.
(** The same, but only when x throws *)
Definition srethrow_after {A} (x : S' A) (handler : S' unit) : S' A :=
  fun z m => match x z m with
             | SThrew z m => match handler z m with SReturned _ z m => SThrew z m | _ => SUndefined end
             | r => r
             end.
Definition swith_fuel {A} (f : nat -> S' A) : S' A := fun z m => f (S (names m)) z m.

(** The default constructor (line 56) and the destructor, which is that of the member *)
Definition sized_default : S' nat := sbind (lift list_default) (fun s => sbind (set_size s 0) (fun _ => sret s)).
Definition sized_destroy (s : nat) : S' unit := lift (list_destroy s).
(** lazy_push_back (lines 94-98) *)
Definition sized_push_back (s : nat) (v : V) : S' nat :=
  sbind (lift (list_push_back s v)) (fun p => sbind (add_size s 1) (fun _ => sret p)).
(** pop_back (lines 100-103) *)
Definition sized_pop_back (s : nat) : S' unit := sbind (lift (list_pop_back s)) (fun _ => add_size s (-1)).

(** distance (algorithms/distance.cpp 21-31) *)
Fixpoint list_distance (fuel first last : nat) (difference : Z) : M (nat * nat) V Z :=
  match fuel with
  | 0 => undefined
  | S fuel => if first =? last then ret difference else bind (get_next first) (fun first => list_distance fuel first last (difference + 1))
  end.
(** splice of a range (lines 105-112), of an element (lines 113-117) and of a list (lines 118-121) *)
Definition sized_splice (s position t first last : nat) : S' unit :=
  if t =? s then lift (list_splice position first last)
  else
    sbind (lift (with_fuel (fun fuel => list_distance fuel first last 0))) (fun count =>
    sbind (add_size t (- count)) (fun _ =>
    sbind (add_size s count) (fun _ =>
    lift (list_splice position first last)))).
Definition sized_splice_one (s position t it : nat) : S' unit :=
  sbind (lift (get_next it)) (fun n =>
  sbind (lift (list_splice position it n)) (fun _ =>
  sbind (add_size t (-1)) (fun _ =>
  add_size s 1))).
Definition sized_splice_all (s position t : nat) : S' unit :=
  sbind (lift (list_begin t)) (fun b =>
  sbind (lift (list_splice position b (list_end t))) (fun _ =>
  sbind (size_of t) (fun n =>
  sbind (set_size t 0) (fun _ =>
  add_size s n)))).

(** clear (clear.cpp 27-44; lines 281-283) *)
Fixpoint sized_clear_loop (fuel s : nat) : S' unit :=
  match fuel with
  | 0 => sundefined
  | S fuel => sbind (lift (list_is_empty s)) (fun e => if e then sret tt else sbind (sized_pop_back s) (fun _ => sized_clear_loop fuel s))
  end.
Definition sized_clear (s : nat) : S' unit := swith_fuel (fun fuel => sized_clear_loop fuel s).

(** append (append.cpp 74-82), assign_to_empty (assign_to_empty.cpp 83-86) *)
Fixpoint sized_append (s : nat) (vs : list V) : S' unit :=
  match vs with
  | [] => sret tt
  | v :: vs => sbind (sized_push_back s v) (fun _ => sized_append s vs)
  end.
(** The constructors from a range (lines 60-62, 164-178). When the body throws, the members are destroyed: the member of [sized_list] is complete then. *)
Definition sized_from (vs : list V) : S' nat :=
  sbind sized_default (fun s => sbind (srethrow_after (sized_append s vs) (sized_destroy s)) (fun _ => sret s)).

(** The defaulted copy and move operations (lines 57-58, 64-65) and swap (lines 67-70): member by member *)
Definition sized_copy (t : nat) : S' nat := sbind (lift (list_copy t)) (fun s => sbind (size_of t) (fun n => sbind (set_size s n) (fun _ => sret s))).
Definition sized_move (t : nat) : S' nat := sbind (lift (list_move t)) (fun s => sbind (size_of t) (fun n => sbind (set_size s n) (fun _ => sret s))).
Definition sized_copy_assign (s t : nat) : S' unit := sbind (lift (list_copy_assign s t)) (fun _ => sbind (size_of t) (fun n => set_size s n)).
Definition sized_move_assign (s t : nat) : S' unit := sbind (lift (list_move_assign s t)) (fun _ => sbind (size_of t) (fun n => set_size s n)).
Definition sized_swap (s t : nat) : S' unit :=
  sbind (lift (list_swap s t)) (fun _ =>
  sbind (size_of s) (fun a => sbind (size_of t) (fun b => sbind (set_size s b) (fun _ => set_size t a)))).

(** erase of a range, of an element, pop_front, erase_to_end (as in LinkedList.v; lines 326-331, 358-360) *)
Definition sized_erase (s first last : nat) : S' nat :=
  sbind sized_default (fun temp =>
  sbind (sfinally (sbind (lift (list_begin temp)) (fun b => sized_splice temp b s first last)) (sized_destroy temp)) (fun _ =>
  sret last)).
Definition sized_erase_one (s it : nat) : S' nat :=
  if it =? list_end s then sundefined else sbind (lift (get_next it)) (fun n => sized_erase s it n).
Definition sized_pop_front (s : nat) : S' unit := sbind (lift (list_begin s)) (fun b => sbind (sized_erase_one s b) (fun _ => sret tt)).
Definition sized_erase_to_end (s it : nat) : S' unit := sbind (sized_erase s it (list_end s)) (fun _ => sret tt).
(** remove_if (lines 401-403; erase_if, algorithms/erase.cpp 90-101, 119) *)
Fixpoint sized_erase_if_loop (fuel : nat) (predicate : V -> bool) (s it count : nat) : S' nat :=
  match fuel with
  | 0 => sundefined
  | S fuel =>
      if it =? list_end s then sret count
      else
        sbind (lift (value it)) (fun v =>
        if predicate v then sbind (sized_erase_one s it) (fun it => sized_erase_if_loop fuel predicate s it (S count))
        else sbind (lift (get_next it)) (fun it => sized_erase_if_loop fuel predicate s it count))
  end.
Definition sized_remove_if (s : nat) (predicate : V -> bool) : S' nat :=
  sbind (lift (list_begin s)) (fun b => swith_fuel (fun fuel => sized_erase_if_loop fuel predicate s b 0)).

(** insert of a range, and with one value insert and emplace (lines 285-324; insert.cpp 106-113, 140-177) *)
Definition sized_insert (s position : nat) (vs : list V) : S' nat :=
  sbind (sized_from vs) (fun temp =>
  sbind (sfinally (sized_splice_all s position temp) (sized_destroy temp)) (fun _ =>
  sret position)).
(** push_front (lines 348-353; lazy_push_front.cpp 30-43) *)
Definition sized_push_front (s : nat) (v : V) : S' nat :=
  sbind sized_default (fun temp =>
  sbind (sfinally (sbind (sized_push_back temp v) (fun _ =>
                   sbind (lift (list_begin s)) (fun position => sized_splice_all s position temp)))
                  (sized_destroy temp)) (fun _ =>
  lift (list_begin s))).
(** resize (lines 362-367; resize.cpp 25-39): a list has no random access. [v]: the value of the new elements *)
Fixpoint sized_shrink (fuel s : nat) (n : Z) : S' unit :=
  match fuel with
  | 0 => sundefined
  | S fuel => sbind (size_of s) (fun size => if (size =? n)%Z then sret tt else sbind (sized_pop_back s) (fun _ => sized_shrink fuel s n))
  end.
Definition sized_resize (s : nat) (n : Z) (v : V) : S' unit :=
  sbind (size_of s) (fun size =>
  if (n <=? size)%Z then swith_fuel (fun fuel => sized_shrink fuel s n)
  else sized_append s (repeat v (Z.to_nat (n - size)))).
(** merge (lines 369-380), reverse (lines 408-410), unique (lines 412-418) and sort (lines 420-426) are not implemented: they do nothing. *)
Definition sized_merge (s t : nat) (less : V -> V -> bool) : S' unit := sret tt.
Definition sized_reverse (s : nat) : S' unit := sret tt.
Definition sized_unique (s : nat) (equal : V -> V -> bool) : S' Z := sret 0%Z.
Definition sized_sort (s : nat) (less : V -> V -> bool) : S' unit := sret tt.
(** *rbegin() (lines 249-254): rbegin() is the reverse iterator of begin(), and a reverse iterator refers to the element before its base. *)
Definition sized_read_rbegin (s : nat) : S' V := lift (bind (list_begin s) (fun b => bind (get_previous b) value)).
End StdList.
Arguments sresult : clear implicits.
Arguments S' : clear implicits.
Arguments SReturned {V A}. Arguments SThrew {V A}. Arguments SUndefined {V A}.
