(** * Storage, object lifetimes and exceptions

    The containers half of the library manages storage by hand: it allocates raw
    memory, constructs objects in it, relocates and destroys them, and must do so
    correctly whichever constructor or allocation throws. This file is the memory
    that the container models (Vec.v and later) run on. It models no library code by
    itself except the one-line wrappers named below. *)

From Coq Require Import List Arith Bool.
Import ListNotations.

(** What went wrong when the behaviour is not defined or an object is lost. *)
Inductive fault : Set :=
| Dead        (* an access to storage in which no object is alive *)
| Overwrite   (* an object constructed over one that is still alive *)
| Outside     (* an access outside the block or through a null or dangling pointer *)
| BadFree     (* storage released that is not allocated, or with another size *)
| Lost        (* storage released while an object in it is still alive: it is never destroyed *)
| Broken      (* a BOUNDED_ASSERT, assume_in_range or similar precondition is false *)
| Terminated. (* an exception leaves a noexcept function or a destructor *)

(** A pointer to the start of a block; [None] is the null pointer. *)
Definition ptr : Set := option nat.

Section Memory.
Context {V : Type}.

(** One place in storage: [None] is raw memory, [Some v] a living object of value [v]. *)
Definition cell : Type := option V.
Definition block : Type := list cell.
(** [heap]: the blocks that exist. [next]: no block with this or a larger name was ever
    allocated. [script]: what the outside world decides: one entry for every
    operation that may throw, in the order they happen, [true] when it throws; past its end
    nothing throws. Quantifying over all scripts is quantifying over every crash point. *)
Record world : Type := World { heap : nat -> option block; next : nat; script : list bool }.

(** [X] is the state of the C++ objects the function works on: it survives an exception. *)
Inductive out (X A : Type) : Type :=
| Ret (x : X) (a : A) (w : world)   (* returns *)
| Exc (x : X) (w : world)           (* leaves by an exception *)
| Bad (f : fault).
Arguments Ret {X A}. Arguments Exc {X A}. Arguments Bad {X A}.

Definition M (X A : Type) : Type := X -> world -> out X A.

Definition ret {X A} (a : A) : M X A := fun x w => Ret x a w.
Definition bind {X A B} (m : M X A) (k : A -> M X B) : M X B :=
  fun x w => match m x w with
             | Ret x a w => k a x w
             | Exc x w => Exc x w
             | Bad f => Bad f
             end.
Definition bad {X A} (f : fault) : M X A := fun _ _ => Bad f.
Definition throw {X A} : M X A := fun x w => Exc x w.
Definition get {X} : M X X := fun x w => Ret x x w.
Definition put {X} (x : X) : M X unit := fun _ w => Ret x tt w.
(** BOUNDED_ASSERT (bounded/include/bounded/assert.hpp 24-30) and assume_in_range: a false
    condition is undefined behaviour in the release configuration. *)
Definition require {X} (b : bool) : M X unit := if b then ret tt else bad Broken.
(** try { m } catch (...) { handler; throw; } *)
Definition rethrow_after {X A} (m : M X A) (handler : M X unit) : M X A :=
  fun x w => match m x w with
             | Exc x w => match handler x w with
                          | Ret x _ w => Exc x w
                          | Exc x w => Exc x w
                          | Bad f => Bad f
                          end
             | r => r
             end.
(** A local variable: constructed, used, and destroyed however the scope is left. An
    exception thrown by its destructor terminates the program. *)
Definition with_local {X Y A} (ctor : M X Y) (dtor : M Y unit) (body : M (X * Y) A) : M X A :=
  fun x w =>
    match ctor x w with
    | Ret x y w =>
        match body (x, y) w with
        | Ret (x, y) a w => match dtor y w with
                            | Ret _ _ w => Ret x a w
                            | Exc _ _ => Bad Terminated
                            | Bad f => Bad f
                            end
        | Exc (x, y) w => match dtor y w with
                          | Ret _ _ w => Exc x w
                          | Exc _ _ => Bad Terminated
                          | Bad f => Bad f
                          end
        | Bad f => Bad f
        end
    | Exc x w => Exc x w
    | Bad f => Bad f
    end.
(** A member function called on one of two objects. *)
Definition on_fst {X Y A} (m : M X A) : M (X * Y) A :=
  fun p w => match m (fst p) w with
             | Ret x a w => Ret (x, snd p) a w
             | Exc x w => Exc (x, snd p) w
             | Bad f => Bad f
             end.
Definition on_snd {X Y A} (m : M Y A) : M (X * Y) A :=
  fun p w => match m (snd p) w with
             | Ret y a w => Ret (fst p, y) a w
             | Exc y w => Exc (fst p, y) w
             | Bad f => Bad f
             end.
(** An operation that works on no object but the storage. *)
Definition on_unit {X A} (m : M unit A) : M X A :=
  fun x w => match m tt w with
             | Ret _ a w => Ret x a w
             | Exc _ w => Exc x w
             | Bad f => Bad f
             end.
(** A noexcept function. *)
Definition noexcept {X A} (m : M X A) : M X A :=
  fun x w => match m x w with
             | Exc _ _ => Bad Terminated
             | r => r
             end.

(** The outside world decides whether this throws. *)
Definition may_throw {X} : M X unit :=
  fun x w => match script w with
             | [] => Ret x tt w
             | false :: s => Ret x tt (World (heap w) (next w) s)
             | true :: s => Exc x (World (heap w) (next w) s)
             end.

Definition set_block (w : world) (b : nat) (cs : option block) : world :=
  World (fun b' => if b' =? b then cs else heap w b') (next w) (script w).

(** Replaces element [i] of a list. *)
Fixpoint set_nth {A} (l : list A) (i : nat) (a : A) : list A :=
  match l, i with
  | [], _ => []
  | _ :: l, 0 => a :: l
  | x :: l, S i => x :: set_nth l i a
  end.

Definition find_cell (w : world) (p : ptr) (i : nat) : option (nat * block * cell) :=
  match p with
  | None => None
  | Some b => match heap w b with
              | None => None
              | Some cs => match nth_error cs i with
                           | None => None
                           | Some c => Some (b, cs, c)
                           end
              end
  end.

(** Reading the object at index [i] of the block. *)
Definition load {X} (p : ptr) (i : nat) : M X V :=
  fun x w => match find_cell w p i with
             | None => Bad Outside
             | Some (_, _, None) => Bad Dead
             | Some (_, _, Some v) => Ret x v w
             end.
(** Changing the value of the living object at index [i]. *)
Definition store {X} (p : ptr) (i : nat) (v : V) : M X unit :=
  fun x w => match find_cell w p i with
             | None => Bad Outside
             | Some (_, _, None) => Bad Dead
             | Some (b, cs, Some _) => Ret x tt (set_block w b (Some (set_nth cs i (Some v))))
             end.
(** bounded/destroy.cpp 14-16 *)
Definition destroy {X} (p : ptr) (i : nat) : M X unit :=
  fun x w => match find_cell w p i with
             | None => Bad Outside
             | Some (_, _, None) => Bad Dead
             | Some (b, cs, Some _) => Ret x tt (set_block w b (Some (set_nth cs i None)))
             end.
Definition require_raw {X} (p : ptr) (i : nat) : M X unit :=
  fun x w => match find_cell w p i with
             | None => Bad Outside
             | Some (_, _, None) => Ret x tt w
             | Some (_, _, Some _) => Bad Overwrite
             end.
Definition begin_life {X} (p : ptr) (i : nat) (v : V) : M X unit :=
  fun x w => match find_cell w p i with
             | None => Bad Outside
             | Some (_, _, Some _) => Bad Overwrite
             | Some (b, cs, None) => Ret x tt (set_block w b (Some (set_nth cs i (Some v))))
             end.

(** std::allocator<T>().allocate(n): a new block of raw memory, or std::bad_alloc. *)
Definition new_block {X} (n : nat) : M X nat :=
  fun x w => Ret x (next w)
               (World (fun b => if b =? next w then Some (repeat None n) else heap w b)
                      (S (next w)) (script w)).
Definition allocate {X} (n : nat) : M X nat := bind may_throw (fun _ => new_block n).
(** std::allocator<T>().deallocate(p, n): undefined unless [p] came from allocate(n) and was
    not released. Objects still alive in the block are never destroyed. *)
Definition deallocate {X} (p : ptr) (n : nat) : M X unit :=
  fun x w =>
    match p with
    | None => Bad BadFree
    | Some b =>
        match heap w b with
        | None => Bad BadFree
        | Some cs =>
            if negb (length cs =? n) then Bad BadFree
            else if forallb (fun c => match c with None => true | Some _ => false end) cs
                 then Ret x tt (set_block w b None)
                 else Bad Lost
        end
    end.

(** The value a moved-from object is left with. *)
Context (moved : V -> V).

(** How the next element is made, when a range is copied into a container:
    from a value the caller supplies (a literal, a generator, an element that lives outside
    the modelled storage), by copying or moving from the object at some address, or by relocating
    it. Copying and generating may throw; moving and relocating may not, because
    relocate.cpp 18 demands a nothrow move constructor. *)
Inductive maker : Type :=
| Supply (v : V)
| CopyOf (p : ptr) (i : nat)
| MoveOf (p : ptr) (i : nat)
| Relocate (p : ptr) (i : nat).

(** bounded/relocate.cpp 17-23: move from the object, then destroy it. *)
Definition relocate {X} (p : ptr) (i : nat) : M X V :=
  bind (load p i) (fun v => bind (destroy p i) (fun _ => ret v)).

Definition make {X} (mk : maker) : M X V :=
  match mk with
  | Supply v => bind may_throw (fun _ => ret v)
  | CopyOf p i => bind (load p i) (fun v => bind may_throw (fun _ => ret v))
  | MoveOf p i => bind (load p i) (fun v => bind (store p i (moved v)) (fun _ => ret v))
  | Relocate p i => relocate p i
  end.

(** bounded/construct_at.cpp: [::new (address) T(f())]. With copy elision the result of
    [f] is constructed directly in place, so the place must be raw before [f] runs: it is checked both
    before and after. *)
Definition construct_at {X} (p : ptr) (i : nat) (mk : maker) : M X unit :=
  bind (require_raw p i) (fun _ =>
  bind (make mk) (fun v => begin_life p i v)).

(** [*target = make()]: assignment to a living object. Copy assignment may throw. *)
Definition assign_at {X} (p : ptr) (i : nat) (mk : maker) : M X unit :=
  bind (make mk) (fun v => store p i v).

(** for (i = from; i != from + n; ++i) body(i) *)
Fixpoint for_each {X} (from n : nat) (body : nat -> M X unit) : M X unit :=
  match n with
  | 0 => ret tt
  | S n => bind (body from) (fun _ => for_each (S from) n body)
  end.

(** containers/algorithms/destroy_range.cpp 19-23 *)
Definition destroy_range {X} (p : ptr) (from n : nat) : M X unit :=
  for_each from n (fun i => destroy p i).

(** containers/algorithms/copy_or_relocate_from.cpp 27-51 with
    containers/algorithms/uninitialized.cpp 41-50 (construct_at_output): the elements already
    constructed when an exception leaves are counted by the caller's [output] iterator, so
    the handler of uninitialized_copy is part of the loop: [done] elements were constructed
    at [p + from ..]. uninitialized.cpp 54-63. *)
Fixpoint copy_loop {X} (p : ptr) (from done : nat) (mks : list maker) : M X unit :=
  match mks with
  | [] => ret tt
  | mk :: mks =>
      bind (rethrow_after (construct_at p (from + done) mk) (destroy_range p from done))
           (fun _ => copy_loop p from (S done) mks)
  end.
(** uninitialized.cpp 54-63. uninitialized_copy_no_overlap (77-93) is the same for types that
    are not trivially copyable; for those that are, it is a memcpy, which has the effect of
    constructing every element without throwing. *)
Definition uninitialized_copy {X} (p : ptr) (from : nat) (mks : list maker) : M X unit :=
  copy_loop p from 0 mks.

(** uninitialized.cpp 105-112: from [src + i ..] to [dst + j ..], first element first. *)
Fixpoint uninitialized_relocate {X} (src : ptr) (i n : nat) (dst : ptr) (j : nat) : M X unit :=
  match n with
  | 0 => ret tt
  | S n => bind (construct_at dst j (Relocate src i))
                (fun _ => uninitialized_relocate src (S i) n dst (S j))
  end.
(** uninitialized.cpp 105-112 on reversed ranges: last element first. [i + n] and [j + n] are
    the ends. *)
Fixpoint uninitialized_relocate_reversed {X} (src : ptr) (i n : nat) (dst : ptr) (j : nat) : M X unit :=
  match n with
  | 0 => ret tt
  | S n => bind (construct_at dst (j + n) (Relocate src (i + n)))
                (fun _ => uninitialized_relocate_reversed src i n dst j)
  end.

End Memory.

Arguments world : clear implicits.
Arguments block : clear implicits.
Arguments cell : clear implicits.
Arguments maker : clear implicits.
Arguments M : clear implicits.
Arguments out : clear implicits.
Arguments Ret {V X A}.
Arguments Exc {V X A}.
Arguments Bad {V X A}.
Arguments World {V}.
