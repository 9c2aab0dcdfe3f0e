(** * Linked lists

    Models containers/linked_list_helper.cpp, containers/bidirectional_linked_list.cpp, containers/forward_linked_list.cpp and the generic functions that
    are used with them. Memory here is a set of objects with names, which stand for their addresses: the sentinel links of a list, raw storage for a node, and nodes. *)

From Coq Require Import List Arith Bool.
Import ListNotations.
Local Open Scope nat_scope.

Section Memory.
Context {L V : Type}.

(** [L]: what a links object holds. A node (linked_list_helper.cpp 33-40) is links and a value. *)
Inductive object : Type :=
| Sentinel (l : L)
| Raw
| Node (l : L) (v : V).
(** [names]: objects have names less than this. [script]: what the outside world decides: one entry for every operation that may throw, in the order
    they happen, [true] when it throws; past its end nothing throws. *)
Record memory : Type := Memory { object_at : nat -> option object; names : nat; script : list bool }.

(** [Undefined]: undefined behaviour: links or a value used where there are none, a false BOUNDED_ASSERT. *)
Inductive result (A : Type) : Type := Returned (a : A) (m : memory) | Threw (m : memory) | Undefined.
Arguments Returned {A}. Arguments Threw {A}. Arguments Undefined {A}.
Definition M (A : Type) : Type := memory -> result A.
Definition ret {A} (a : A) : M A := fun m => Returned a m.
Definition bind {A B} (x : M A) (f : A -> M B) : M B :=
  fun m => match x m with Returned a m => f a m | Threw m => Threw m | Undefined => Undefined end.
Definition undefined {A} : M A := fun _ => Undefined.
Definition require (b : bool) : M unit := if b then ret tt else undefined.
(** try { x } catch (...) { handler; throw; } *)
Definition rethrow_after {A} (x : M A) (handler : M unit) : M A :=
  fun m => match x m with
           | Threw m => match handler m with Returned _ m => Threw m | _ => Undefined end
           | r => r
           end.
(** x, and then the destructor [final] of a local variable, also when x throws. *)
Definition finally {A} (x : M A) (final : M unit) : M A :=
  fun m => match x m with
           | Returned a m => match final m with Returned _ m => Returned a m | _ => Undefined end
           | Threw m => match final m with Returned _ m => Threw m | _ => Undefined end
           | Undefined => Undefined
           end.
Definition may_throw : M unit :=
  fun m => match script m with
           | [] => Returned tt m
           | false :: s => Returned tt (Memory (object_at m) (names m) s)
           | true :: s => Threw (Memory (object_at m) (names m) s)
           end.
Definition set_object (m : memory) (p : nat) (o : option object) : memory :=
  Memory (fun q => if q =? p then o else object_at m q) (names m) (script m).

(** [*p] where [p] points to links, and an assignment to them. *)
Definition links (p : nat) : M L :=
  fun m => match object_at m p with
           | Some (Sentinel l) | Some (Node l _) => Returned l m
           | _ => Undefined
           end.
Definition set_links (p : nat) (l : L) : M unit :=
  fun m => match object_at m p with
           | Some (Sentinel _) => Returned tt (set_object m p (Some (Sentinel l)))
           | Some (Node _ v) => Returned tt (set_object m p (Some (Node l v)))
           | _ => Undefined
           end.
(** operator* of an iterator (linked_list_helper.cpp 84-88), and an assignment to what it refers to. *)
Definition value (p : nat) : M V :=
  fun m => match object_at m p with Some (Node _ v) => Returned v m | _ => Undefined end.
Definition set_value (p : nat) (v : V) : M unit :=
  fun m => match object_at m p with Some (Node l _) => Returned tt (set_object m p (Some (Node l v))) | _ => Undefined end.

Definition new_object (f : nat -> object) : M nat :=
  fun m => Returned (names m) (Memory (fun q => if q =? names m then Some (f (names m)) else object_at m q) (S (names m)) (script m)).
(** The end of life of the sentinel of a list, which is a member of the list. *)
Definition end_sentinel (p : nat) : M unit :=
  fun m => match object_at m p with Some (Sentinel _) => Returned tt (set_object m p None) | _ => Undefined end.

(** make_node (linked_list_helper.cpp 42-53). The value is [v] unless its constructor throws; [initial] gives the links that a new node has. *)
Definition make_node (initial : nat -> L) (v : V) : M nat :=
  bind may_throw (fun _ =>
  bind (new_object (fun _ => Raw)) (fun node =>
  bind (rethrow_after may_throw (fun m => Returned tt (set_object m node None))) (fun _ =>
  fun m => Returned node (set_object m node (Some (Node (initial node) v)))))).
(** destroy_node (linked_list_helper.cpp 55-59) *)
Definition destroy_node (node : nat) : M unit :=
  fun m => match object_at m node with Some (Node _ _) => Returned tt (set_object m node None) | _ => Undefined end.

(** No list has more nodes than there are names; a loop over one runs at most so often. *)
Definition with_fuel {A} (f : nat -> M A) : M A := fun m => f (S (names m)) m.
End Memory.
Arguments object : clear implicits.
Arguments memory : clear implicits.
Arguments result : clear implicits.
Arguments M : clear implicits.
Arguments Returned {L V A}. Arguments Threw {L V A}. Arguments Undefined {L V A}.

(** ** bidirectional_linked_list *)
Section Bidirectional.
Context {V : Type}.
(** bidirectional_links (bidirectional_linked_list.cpp 30-43; lines without a file are of this file): [previous] and [next] *)
Notation B := (M (nat * nat) V).
Definition own_links (p : nat) : nat * nat := (p, p).

Definition get_previous (p : nat) : B nat := bind (links p) (fun l => ret (fst l)).
Definition get_next (p : nat) : B nat := bind (links p) (fun l => ret (snd l)).
Definition set_previous (p q : nat) : B unit := bind (links p) (fun l => set_links p (q, snd l)).
Definition set_next (p q : nat) : B unit := bind (links p) (fun l => set_links p (fst l, q)).

(** unlink_range (lines 45-49) *)
Definition unlink_range (first last : nat) : B unit :=
  bind (get_previous first) (fun before_first =>
  bind (set_next before_first last) (fun _ =>
  set_previous last before_first)).
(** link_range (lines 51-58) *)
Definition link_range (original_first additional_first additional_before_last original_last : nat) : B unit :=
  bind (get_next original_first) (fun n =>
  bind (require (n =? original_last)) (fun _ =>
  bind (get_previous original_last) (fun p =>
  bind (require (p =? original_first)) (fun _ =>
  bind (set_next original_first additional_first) (fun _ =>
  bind (set_previous additional_first original_first) (fun _ =>
  bind (set_next additional_before_last original_last) (fun _ =>
  set_previous original_last additional_before_last))))))).

(** A list is known by the name of its sentinel; an iterator is the name of the links it points to (linked_list_helper.cpp 64-104). begin and end: lines 120-131.
    is_empty (is_empty.cpp 27-31) *)
Definition list_begin (s : nat) : B nat := get_next s.
Definition list_end (s : nat) : nat := s.
Definition list_is_empty (s : nat) : B bool := bind (list_begin s) (fun b => ret (b =? list_end s)).

(** The default constructor (line 65) *)
Definition list_default : B nat := new_object (fun p => Sentinel (own_links p)).
(** lazy_push_back (lines 137-141) *)
Definition list_push_back (s : nat) (v : V) : B nat :=
  bind (make_node own_links v) (fun ptr =>
  bind (get_previous (list_end s)) (fun before_end =>
  bind (link_range before_end ptr ptr (list_end s)) (fun _ =>
  ret ptr))).
(** pop_back (lines 142-147) *)
Definition list_pop_back (s : nat) : B unit :=
  bind (get_previous (list_end s)) (fun it =>
  bind (unlink_range it (list_end s)) (fun _ =>
  destroy_node it)).
(** splice (lines 149-160) *)
Definition list_splice (position first last : nat) : B unit :=
  if first =? last then ret tt
  else
    bind (get_previous last) (fun before_last =>
    bind (get_previous position) (fun before_position =>
    bind (unlink_range first last) (fun _ =>
    link_range before_position first before_last position))).
(** clear (clear.cpp 27-44) *)
Fixpoint list_clear_loop (fuel s : nat) : B unit :=
  match fuel with
  | 0 => undefined
  | S fuel => bind (list_is_empty s) (fun e => if e then ret tt else bind (list_pop_back s) (fun _ => list_clear_loop fuel s))
  end.
Definition list_clear (s : nat) : B unit := with_fuel (fun fuel => list_clear_loop fuel s).
(** The destructor (lines 87-89) *)
Definition list_destroy (s : nat) : B unit := bind (list_clear s) (fun _ => end_sentinel s).

(** link_in, in swap (lines 105-115) *)
Definition link_in (node other : nat) : B unit :=
  bind (get_previous node) (fun p =>
  if p =? other then
    bind (get_next node) (fun n =>
    bind (require (n =? other)) (fun _ =>
    bind (set_previous node node) (fun _ =>
    set_next node node)))
  else
    bind (get_next node) (fun n =>
    bind (require (negb (n =? other))) (fun _ =>
    bind (set_next p node) (fun _ =>
    bind (get_next node) (fun n => set_previous n node))))).
(** swap (lines 102-118) *)
Definition list_swap (lhs rhs : nat) : B unit :=
  bind (get_previous lhs) (fun a =>
  bind (get_previous rhs) (fun b =>
  bind (set_previous lhs b) (fun _ =>
  bind (set_previous rhs a) (fun _ =>
  bind (get_next lhs) (fun a =>
  bind (get_next rhs) (fun b =>
  bind (set_next lhs b) (fun _ =>
  bind (set_next rhs a) (fun _ =>
  bind (link_in lhs rhs) (fun _ =>
  link_in rhs lhs))))))))).
(** The move constructor (lines 79-81) and move assignment (lines 91-94) *)
Definition list_move (other : nat) : B nat := bind list_default (fun s => bind (list_swap s other) (fun _ => ret s)).
Definition list_move_assign (s other : nat) : B unit := list_swap s other.

(** append of a range (append.cpp 74-82) that makes the given values; its elements may throw. assign_to_empty (assign_to_empty.cpp 83-86) is the same for a list. *)
Fixpoint list_append (s : nat) (vs : list V) : B unit :=
  match vs with
  | [] => ret tt
  | v :: vs => bind (list_push_back s v) (fun _ => list_append s vs)
  end.
(** The same where the range is [it, last) of a list *)
Fixpoint list_append_list (fuel s it last : nat) : B unit :=
  match fuel with
  | 0 => undefined
  | S fuel =>
      if it =? last then ret tt
      else
        bind (value it) (fun v =>
        bind (list_push_back s v) (fun _ =>
        bind (get_next it) (fun it => list_append_list fuel s it last)))
  end.
(** The constructor from a range (lines 67-74) and the copy constructor (lines 83-85). When one throws, no destructor runs: only the member, the sentinel, goes away. *)
Definition list_from (vs : list V) : B nat :=
  bind list_default (fun s => bind (rethrow_after (list_append s vs) (end_sentinel s)) (fun _ => ret s)).
Definition list_copy (other : nat) : B nat :=
  bind list_default (fun s =>
  bind (rethrow_after (bind (list_begin other) (fun b => with_fuel (fun fuel => list_append_list fuel s b (list_end other)))) (end_sentinel s)) (fun _ =>
  ret s)).

(** erase of a range (algorithms/erase.cpp 36-43; splice.cpp 20-29): the elements are spliced to a local list. *)
Definition list_erase (first last : nat) : B nat :=
  bind list_default (fun temp =>
  bind (finally (bind (list_begin temp) (fun b => list_splice b first last)) (list_destroy temp)) (fun _ =>
  ret last)).
(** erase of an element (algorithms/erase.cpp 71-75), pop_front (pop_front.cpp 18-19), erase_to_end (algorithms/erase.cpp 77-88) *)
Definition list_erase_one (s it : nat) : B nat :=
  bind (require (negb (it =? list_end s))) (fun _ => bind (get_next it) (fun n => list_erase it n)).
Definition list_pop_front (s : nat) : B unit := bind (list_begin s) (fun b => bind (list_erase_one s b) (fun _ => ret tt)).
Definition list_erase_to_end (s it : nat) : B unit := bind (list_erase it (list_end s)) (fun _ => ret tt).
(** erase_if (algorithms/erase.cpp 90-101, 119) *)
Fixpoint list_erase_if_loop (fuel : nat) (predicate : V -> bool) (s it count : nat) : B nat :=
  match fuel with
  | 0 => undefined
  | S fuel =>
      if it =? list_end s then ret count
      else
        bind (value it) (fun v =>
        if predicate v then bind (list_erase_one s it) (fun it => list_erase_if_loop fuel predicate s it (S count))
        else bind (get_next it) (fun it => list_erase_if_loop fuel predicate s it count))
  end.
Definition list_erase_if (s : nat) (predicate : V -> bool) : B nat :=
  bind (list_begin s) (fun b => with_fuel (fun fuel => list_erase_if_loop fuel predicate s b 0)).

(** insert of a range (insert.cpp 109-113; algorithms/splice.cpp 31-51) and, with one value, lazy_insert, emplace and insert (insert.cpp 140-177) *)
Definition list_insert (s position : nat) (vs : list V) : B nat :=
  bind (list_from vs) (fun temp =>
  bind (finally (bind (list_begin temp) (fun b => list_splice position b (list_end temp))) (list_destroy temp)) (fun _ =>
  ret position)).
(** lazy_push_front (lazy_push_front.cpp 30-43) *)
Definition list_push_front (s : nat) (v : V) : B nat :=
  bind list_default (fun temp =>
  bind (finally (bind (list_push_back temp v) (fun _ =>
                 bind (list_begin s) (fun position =>
                 bind (list_begin temp) (fun b => list_splice position b (list_end temp)))))
                (list_destroy temp)) (fun _ =>
  bind (list_is_empty s) (fun e => bind (require (negb e)) (fun _ => list_begin s)))).

(** copy_truncate (algorithms/copy.cpp 44-73) from one list to another. Copy assignment of a value may throw. *)
Fixpoint list_copy_truncate (fuel in_first in_last out_first out_last : nat) : B (nat * nat) :=
  match fuel with
  | 0 => undefined
  | S fuel =>
      if (in_first =? in_last) || (out_first =? out_last) then ret (in_first, out_first)
      else
        bind (value in_first) (fun v =>
        bind may_throw (fun _ =>
        bind (set_value out_first v) (fun _ =>
        bind (get_next in_first) (fun in_first =>
        bind (get_next out_first) (fun out_first => list_copy_truncate fuel in_first in_last out_first out_last)))))
  end.
(** Copy assignment (lines 95-100) with assign (assign.cpp 81-91) *)
Definition list_copy_assign (s other : nat) : B unit :=
  if s =? other then ret tt
  else
    bind (list_begin other) (fun in_first =>
    bind (list_begin s) (fun out_first =>
    bind (with_fuel (fun fuel => list_copy_truncate fuel in_first (list_end other) out_first (list_end s))) (fun r =>
    bind (list_erase_to_end s (snd r)) (fun _ =>
    with_fuel (fun fuel => list_append_list fuel s (fst r) (list_end other)))))).
End Bidirectional.

(** ** forward_linked_list *)
Section Forward.
Context {V : Type}.
(** forward_link (forward_linked_list.cpp 32-34; lines without a file are of this file): [next]; [None] is a null pointer. An iterator may be null. *)
Notation F := (M (option nat) V).
Definition no_link (p : nat) : option nat := None.
Definition follow (it : option nat) : F nat := match it with Some p => ret p | None => undefined end.

(** The default constructor (line 41), before_begin (lines 82-87), begin (begin_end.cpp 39-40) *)
Definition forward_default : F nat := new_object (fun _ => Sentinel None).
Definition before_begin (s : nat) : nat := s.
Definition forward_begin (s : nat) : F (option nat) := links (before_begin s).
(** lazy_insert_after (lines 96-103) *)
Definition insert_after (before : nat) (v : V) : F nat :=
  bind (make_node no_link v) (fun ptr =>
  bind (links before) (fun n =>
  bind (set_links ptr n) (fun _ =>
  bind (set_links before (Some ptr)) (fun _ =>
  ret ptr)))).
(** erase_after (lines 104-113) *)
Definition erase_after (before : nat) : F (option nat) :=
  bind (links before) (fun n =>
  bind (follow n) (fun it =>
  bind (links it) (fun after =>
  bind (set_links before after) (fun _ =>
  bind (destroy_node it) (fun _ =>
  ret after))))).
(** splice_after (lines 117-128) *)
Definition splice_after (this before other before_first before_last : nat) : F unit :=
  bind (require (negb (this =? other))) (fun _ =>
  if before_first =? before_last then ret tt
  else
    bind (links before) (fun original_next =>
    bind (links before_first) (fun n =>
    bind (set_links before n) (fun _ =>
    bind (links before_last) (fun after =>
    bind (set_links before_last original_next) (fun _ =>
    set_links before_first after)))))).
(** swap (lines 78-80), the move constructor (lines 55-57) and move assignment (lines 67-70) *)
Definition forward_swap (lhs rhs : nat) : F unit :=
  bind (links lhs) (fun a => bind (links rhs) (fun b => bind (set_links lhs b) (fun _ => set_links rhs a))).
Definition forward_move (other : nat) : F nat := bind forward_default (fun s => bind (forward_swap s other) (fun _ => ret s)).
Definition forward_move_assign (s other : nat) : F unit := forward_swap s other.
(** clear (clear.cpp 27-44) with pop_front (pop_front.cpp 20-22) and the destructor (lines 63-65) *)
Fixpoint forward_clear_loop (fuel s : nat) : F unit :=
  match fuel with
  | 0 => undefined
  | S fuel =>
      bind (forward_begin s) (fun b =>
      match b with None => ret tt | Some _ => bind (erase_after (before_begin s)) (fun _ => forward_clear_loop fuel s) end)
  end.
Definition forward_clear (s : nat) : F unit := with_fuel (fun fuel => forward_clear_loop fuel s).
Definition forward_destroy (s : nat) : F unit := bind (forward_clear s) (fun _ => end_sentinel s).

(** assign_to_empty (assign_to_empty.cpp 87-90) and append_after (append_after.cpp 23-28) *)
Fixpoint append_after (before : nat) (vs : list V) : F unit :=
  match vs with
  | [] => ret tt
  | v :: vs => bind (insert_after before v) (fun p => append_after p vs)
  end.
Fixpoint append_list_after (fuel before : nat) (it : option nat) : F unit :=
  match fuel with
  | 0 => undefined
  | S fuel =>
      match it with
      | None => ret tt
      | Some it => bind (value it) (fun v => bind (insert_after before v) (fun p => bind (links it) (fun it => append_list_after fuel p it)))
      end
  end.
(** The constructor from a range (lines 43-50) and the copy constructor (lines 59-61) *)
Definition forward_from (vs : list V) : F nat :=
  bind forward_default (fun s => bind (rethrow_after (append_after (before_begin s) vs) (end_sentinel s)) (fun _ => ret s)).
Definition forward_copy (other : nat) : F nat :=
  bind forward_default (fun s =>
  bind (rethrow_after (bind (forward_begin other) (fun b => with_fuel (fun fuel => append_list_after fuel (before_begin s) b))) (end_sentinel s)) (fun _ =>
  ret s)).
(** lazy_push_front (lazy_push_front.cpp 35-36) *)
Definition forward_push_front (s : nat) (v : V) : F nat := insert_after (before_begin s) v.
(** erase_after of a range to the end (algorithms/erase.cpp 122-128) *)
Fixpoint erase_after_loop (fuel before_first : nat) (it : option nat) : F unit :=
  match fuel with
  | 0 => undefined
  | S fuel => match it with None => ret tt | Some _ => bind (erase_after before_first) (fun it => erase_after_loop fuel before_first it) end
  end.
Definition erase_all_after (before_first : nat) : F unit :=
  bind (links before_first) (fun it => with_fuel (fun fuel => erase_after_loop fuel before_first it)).
(** copy_truncate_after (algorithms/copy.cpp 44-56, 75-98) from one list to another: the rest of the input, and the last place of the output that was assigned to *)
Fixpoint copy_truncate_after (fuel : nat) (in_first out_first : option nat) (before : nat) : F (option nat * nat) :=
  match fuel with
  | 0 => undefined
  | S fuel =>
      match in_first, out_first with
      | Some i, Some o =>
          bind (value i) (fun v =>
          bind may_throw (fun _ =>
          bind (set_value o v) (fun _ =>
          bind (links i) (fun in_first =>
          bind (links o) (fun out_first => copy_truncate_after fuel in_first out_first o)))))
      | _, _ => ret (in_first, before)
      end
  end.
(** Copy assignment (lines 71-76) with assign (assign.cpp 74-77) *)
Definition forward_copy_assign (s other : nat) : F unit :=
  if s =? other then ret tt
  else
    bind (forward_begin other) (fun in_first =>
    bind (forward_begin s) (fun out_first =>
    bind (with_fuel (fun fuel => copy_truncate_after fuel in_first out_first (before_begin s))) (fun r =>
    bind (erase_all_after (snd r)) (fun _ =>
    with_fuel (fun fuel => append_list_after fuel (snd r) (fst r)))))).
End Forward.
