(** * append for containers without set_size: source/containers/append.cpp, legacy_append.cpp, append_into_capacity.cpp,
      algorithms/copy_or_relocate_from.cpp

    The target is a container of the standard library or the linked list of this library. Of the standard containers the model has
    what the standard promises: which calls may throw, which iterators stay usable, that push_back which throws changes nothing.
    Simplified: std::vector::reserve gives exactly the capacity asked for; the capacity stays below max_size. *)

From Coq Require Import List Arith Bool.
Import ListNotations.

Inductive kind := StdVector | StdDeque | StdList | OwnList.
Definition is_vector (k : kind) : bool := match k with StdVector => true | _ => false end.

Section Append.
Context {V : Type}.

(** [epoch]: how often the iterators became invalid; [allocations]: how often a std::vector took a new block. *)
Record target := Target { items : list V; room : nat; epoch : nat; allocations : nat }.

(** An element of the source: an object, one that was moved from, or a place where the object was destroyed. *)
Inductive cell := Alive (v : V) | MovedFrom (v : V) | Gone.

(** What append gets: a range whose elements are copied; a container that expires, with or without the member set_size; or the target
    itself. The number of cells is the size of the container. *)
Inductive source :=
| Lasting (vs : list V)
| Expiring (can_set_size : bool) (cells : list cell)
| Itself.

(** [script]: which of the operations that may throw do. *)
Record state := State { the_target : target; the_source : source; script : list bool }.
Inductive outcome := Finished (s : state) | Threw (s : state) | Undefined | Unfinished.

Definition and_then (o : outcome) (f : state -> outcome) : outcome := match o with Finished s => f s | _ => o end.

(** An operation that may throw. *)
Definition attempt (s : state) (f : state -> outcome) : outcome :=
  match script s with
  | [] => f s
  | true :: rest => Threw (State (the_target s) (the_source s) rest)
  | false :: rest => f (State (the_target s) (the_source s) rest)
  end.

Variable (k : kind) (grow : nat -> nat).

(** The standard's push_back, and bidirectional_linked_list.cpp 137-141. Moving an element does not throw. *)
Definition push_back (copying : bool) (v : V) (s : state) : outcome :=
  let full := is_vector k && (room (the_target s) <=? length (items (the_target s))) in
  let add s :=
    let t := the_target s in
    Finished (State
      (Target (items t ++ [v]) (if full then grow (room t) else room t)
        (match k with StdVector => if full then S (epoch t) else epoch t | StdDeque => S (epoch t) | _ => epoch t end)
        (if full then S (allocations t) else allocations t))
      (the_source s) (script s)) in
  if negb (is_vector k) || full || copying then attempt s add else add s.

Definition set_cell (cells : list cell) (i : nat) (c : cell) : list cell := firstn i cells ++ c :: skipn (S i) cells.
Definition set_source (s : state) (src : source) : state := State (the_target s) src (script s).

(** copy_or_relocate_from.cpp 33-36: is_container, can_set_size, not trivially copyable *)
Definition use_relocate (trivial can_set_size : bool) : bool := can_set_size && negb trivial.

(** legacy_append.cpp 86-88: [target.push_back(make())]; append.cpp 80-82: [lazy_push_back(target, make)], where the list makes the
    node first and then calls make. [make] is copy_or_relocate_from.cpp 41 or 46. *)
Definition push_cell (trivial can_set_size : bool) (cells : list cell) (i : nat) (s : state) : outcome :=
  match nth_error cells i with
  | Some (Alive v) =>
      if use_relocate trivial can_set_size then
        let relocated s := set_source s (Expiring can_set_size (set_cell cells i Gone)) in
        match k with
        | OwnList => and_then (push_back false v s) (fun s => Finished (relocated s))
        | _ => push_back false v (relocated s)
        end
      else
        and_then (push_back false v s) (fun s => Finished (set_source s (Expiring can_set_size (set_cell cells i (MovedFrom v)))))
  | Some (MovedFrom _) | Some Gone | None => Undefined
  end.

(** copy_or_relocate_from.cpp 38-49. [last]: the end that was asked for before the loop: a position for a vector or a deque, a
    sentinel that stays behind the last element for a list. [start]: the epoch of the iterators. *)
Fixpoint loop (fuel : nat) (trivial : bool) (start last i : nat) (s : state) : outcome :=
  match fuel with
  | 0 => Unfinished
  | S fuel =>
      match the_source s with
      | Lasting vs =>
          if i =? last then Finished s
          else match nth_error vs i with
               | Some v => and_then (push_back true v s) (loop fuel trivial start last (S i))
               | None => Undefined
               end
      | Expiring can_set_size cells =>
          if i =? last
          then Finished (if use_relocate trivial can_set_size then set_source s (Expiring can_set_size []) else s)
          else and_then (push_cell trivial can_set_size cells i s) (loop fuel trivial start last (S i))
      | Itself =>
          let t := the_target s in
          let stop := match k with StdVector | StdDeque => last | _ => length (items t) end in
          if negb (epoch t =? start) then Undefined
          else if i =? stop then Finished s
          else match nth_error (items t) i with
               | Some v => and_then (push_back true v s) (loop fuel trivial start last (S i))
               | None => Undefined
               end
      end
  end.

Definition source_size (s : state) : nat :=
  match the_source s with Lasting vs => length vs | Expiring _ cells => length cells | Itself => length (items (the_target s)) end.
Definition copy_or_relocate_from (fuel : nat) (trivial : bool) (s : state) : outcome :=
  loop fuel trivial (epoch (the_target s)) (source_size s) 0 s.

(** legacy_append.cpp 30-41 with exponential_force_reserve.cpp and reallocation_size.cpp. [sized]: size_then_use_range. *)
Definition maybe_reserve (sized : bool) (s : state) : outcome :=
  if sized && is_vector k then
    let combined := length (items (the_target s)) + source_size s in
    if room (the_target s) <? combined then
      attempt s (fun s =>
        let t := the_target s in
        Finished (State (Target (items t) (Nat.max combined (2 * room t)) (S (epoch t)) (S (allocations t))) (the_source s) (script s)))
    else Finished s
  else Finished s.

(** The standard's append_range (legacy_append.cpp 69-70) and insert of two iterators (71-77): the elements must not be those of the
    target. [unspecified]: what is in the container after an exception. Elements of an expiring container are moved from. *)
Definition insert_range (unspecified : list V) (s : state) : outcome :=
  let finish vs s' :=
    let t := the_target s in
    let left items := Target items (Nat.max (room t) (length items)) (S (epoch t)) (S (allocations t)) in
    match script s with
    | true :: rest => Threw (State (left unspecified) s' rest)
    | false :: rest => Finished (State (left (items t ++ vs)) s' rest)
    | [] => Finished (State (left (items t ++ vs)) s' [])
    end in
  match the_source s with
  | Lasting vs => finish vs (Lasting vs)
  | Expiring can_set_size cells =>
      match
        fold_right (fun c r => match c, r with Alive v, Some vs => Some (v :: vs) | _, _ => None end) (Some []) cells
      with
      | Some vs => finish vs (Expiring can_set_size (map MovedFrom vs))
      | None => Undefined
      end
  | Itself => Undefined
  end.

(** append.cpp 74-85 and legacy_append.cpp 49-90. [ranges]: the container has append_range and takes this source; [trivial]: the elements
    are trivially copyable, [trivial_move] trivially_move_assignable. The list of this library goes through append.cpp 74-82. *)
Definition append (fuel : nat) (ranges sized trivial trivial_move : bool) (unspecified : list V) (s : state) : outcome :=
  match k with
  | OwnList => copy_or_relocate_from fuel trivial s
  | _ =>
      if ranges || trivial_move then insert_range unspecified s
      else and_then (maybe_reserve sized s) (copy_or_relocate_from fuel trivial)
  end.

(** Destroying the source afterwards: every cell that is counted must hold an object. *)
Definition can_be_destroyed (src : source) : bool :=
  match src with
  | Expiring _ cells => forallb (fun c => match c with Gone => false | _ => true end) cells
  | _ => true
  end.

End Append.

Arguments target : clear implicits. Arguments cell : clear implicits. Arguments source : clear implicits.
Arguments state : clear implicits. Arguments outcome : clear implicits.
