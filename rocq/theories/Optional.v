(** * tv::optional

    An optional has one of two storages: a variant of none_t and the value type, or, when the value type has spare
    representations (bounded/tombstone.cpp), a single object whose representation says whether the optional is empty. *)

From Coq Require Import List Arith ZArith Bool.
From Verif Require Import Mem Variant.
Import ListNotations.

Local Notation "x <- m ;; k" := (bind m (fun x => k)) (at level 60, m at next level, right associativity).
Local Notation "m ;;; k" := (bind m (fun _ => k)) (at level 60, right associativity).

(** ** What tv::optional uses of a storage

    [S]: the storage object; [C]: construct functions and values to assign; [B]: the value type. *)
Record storage (V S C B : Type) : Type := Storage {
  s_default : M V unit S;
  s_lazy : C -> M V unit S;
  s_initialized : M V S bool;
  s_uninitialize : M V S unit;
  s_initialize : C -> M V S unit;
  s_get : M V S B;
  s_set : C -> M V S unit;              (* get() = value *)
  s_copy_construct : S -> M V unit S;
  s_move_construct : S -> M V unit S;
  s_copy_assign : S -> M V S unit;
  s_move_assign : S -> M V S unit;
  s_destruct : M V S unit
}.
Arguments s_default {V S C B}. Arguments s_lazy {V S C B}. Arguments s_initialized {V S C B}.
Arguments s_uninitialize {V S C B}. Arguments s_initialize {V S C B}. Arguments s_get {V S C B}.
Arguments s_set {V S C B}. Arguments s_copy_construct {V S C B}. Arguments s_move_construct {V S C B}.
Arguments s_copy_assign {V S C B}. Arguments s_move_assign {V S C B}. Arguments s_destruct {V S C B}.

Section Optional.
Context {V S C B : Type} (st : storage V S C B) (eqb : B -> B -> bool).
Local Notation M := (M V).

(** tv/optional.cpp 304-305 *)
Definition opt_none : M unit S := s_default st.
(** tv/optional.cpp 307-315 *)
Definition opt_some (c : C) : M unit S := s_lazy st c.
(** tv/optional.cpp 317-318 *)
Definition opt_copy (other : S) : M unit S := s_copy_construct st other.
Definition opt_move (other : S) : M unit S := s_move_construct st other.
(** tv/optional.cpp 319-320 *)
Definition opt_copy_assign (other : S) : M S unit := s_copy_assign st other.
Definition opt_move_assign (other : S) : M S unit := s_move_assign st other.
Definition opt_destruct : M S unit := s_destruct st.
(** tv/optional.cpp 337-339 *)
Definition opt_bool : M S bool := s_initialized st.
(** tv/optional.cpp 322-333 *)
Definition opt_deref : M S B := i <- opt_bool ;; require i ;;; s_get st.
(** tv/optional.cpp 341-343 *)
Definition opt_emplace (c : C) : M S unit := s_initialize st c.
(** tv/optional.cpp 345-348 *)
Definition opt_assign_none : M S unit := s_uninitialize st.
(** tv/optional.cpp 276-283, 349-351 *)
Definition opt_assign (c : C) : M S unit :=
  i <- opt_bool ;;
  if i : bool then s_set st c else opt_emplace c.
(** tv/optional.cpp 353-357: operator== of two optionals *)
Definition opt_equal (lhs rhs : S) : M unit bool :=
  let ask {A} (m : M S A) (s : S) : M unit A :=
    fun _ w => match m s w with Ret _ a w => Ret tt a w | Exc _ w => Exc tt w | Bad f => Bad f end in
  l <- ask opt_bool lhs ;;
  r <- (if l : bool then ask opt_bool rhs else ret false) ;;   (* lhs and rhs *)
  if l && r then
    a <- ask opt_deref lhs ;; b <- ask opt_deref rhs ;; ret (eqb a b)
  else
    l <- ask opt_bool lhs ;; r <- ask opt_bool rhs ;; ret (Bool.eqb l r).
(** tv/optional.cpp 358-360 *)
Definition opt_equal_value (b : B) : M S bool :=
  l <- opt_bool ;; if l : bool then a <- opt_deref ;; ret (eqb a b) else ret false.
(** tv/optional.cpp 361-363 *)
Definition opt_equal_none : M S bool := l <- opt_bool ;; ret (negb l).
End Optional.

(** ** Storage in a variant: tv/optional.cpp 27-79

    The alternatives are none_t (number 0, whose operations never throw) and the value type (number 1). *)
Section InVariant.
Context {B : Type} (moved : B -> B).
Context (nothrow_copy nothrow_move nothrow_copy_assign nothrow_move_assign : bool) (eqb : B -> B -> bool).
Local Notation A := (option B).

Definition none_or_value : types A := {|
  count := 2;
  type_of := fun i => i;
  Variant.nothrow_copy := fun i => if i =? 0 then true else nothrow_copy;
  Variant.nothrow_move := fun i => if i =? 0 then true else nothrow_move;
  Variant.nothrow_copy_assign := fun i => if i =? 0 then true else nothrow_copy_assign;
  Variant.nothrow_move_assign := fun i => if i =? 0 then true else nothrow_move_assign;
  equal := fun _ a b => match a, b with Some a, Some b => eqb a b | None, None => true | _, _ => false end
|}.
Definition moved_alternative : A -> A := option_map moved.

(** A member of alternative 1 is a value. *)
Definition value_of {X} (m : M (nat * A) X A) : M (nat * A) X B :=
  a <- m ;; match a with Some b => ret b | None => bad Dead end.

Definition in_variant : storage (nat * A) variant (@creator A) B := {|
  s_default := construct moved_alternative 0 (Make true None);                           (* 29-32 *)
  s_lazy := construct moved_alternative 1;                                               (* 34-42 *)
  s_initialized := (i <- index ;; ret (i =? 1));                                         (* 44-46 *)
  s_uninitialize := (emplace moved_alternative none_or_value 0 (Make true None) ;;; ret tt); (* 48-50 *)
  s_initialize := fun c => (emplace moved_alternative none_or_value 1 c ;;; ret tt);         (* 52-54 *)
  s_get := value_of (subscript 1);                                                       (* 56-64 *)
  s_set := fun c => (o <- get ;; value_of (subscript 1) ;;;
                     a <- create moved_alternative (match c with
                       | Make _ a => Make nothrow_copy_assign a
                       | CopyFrom _ p k => CopyFrom nothrow_copy_assign p k
                       | MoveFrom _ p k => MoveFrom nothrow_move_assign p k
                       end) ;;
                     set_member (v_at o) 1 a);
  s_copy_construct := copy_construct moved_alternative none_or_value;
  s_move_construct := move_construct moved_alternative none_or_value;
  s_copy_assign := copy_assign moved_alternative none_or_value;
  s_move_assign := move_assign moved_alternative none_or_value;
  s_destruct := destruct none_or_value
|}.
End InVariant.

(** ** Storage with spare representations: tv/optional.cpp 84-217 *)

(** The representation of an object of the value type: that of a value, or a spare one made by
    [tombstone_traits<T>::make(i)]. A spare representation is not an object that must be destroyed. *)
Inductive rep (B : Type) : Type := Living (b : B) | Spare (i : nat).
Arguments Living {B}. Arguments Spare {B}.

(** How a value is made in a given place: by a construct function, which may throw [before] it starts to construct in the place or
    [during] construction there, or by copying or moving the value at another place. The flags say what can NOT throw. *)
Inductive source (B : Type) : Type :=
| New (calm_before calm_during : bool) (b : B)
| CopyAt (calm : bool) (p : nat)
| MoveAt (calm : bool) (p : nat).
Arguments New {B}. Arguments CopyAt {B}. Arguments MoveAt {B}.

Section InPlace.
Context {B : Type} (moved : B -> B).
Context (nothrow_copy nothrow_move nothrow_copy_assign nothrow_move_assign : bool).
Local Notation M := (M (rep B)).

(** tombstone_traits<T>::index: -1 for a value. What the code relies on is exactly this, for every
    value and every [i] below spare_representations (property C21 for bounded integers). *)
Definition tombstone_index (r : rep B) : Z := match r with Living _ => -1 | Spare i => Z.of_nat i end.

(** Reading the representation: storage in which construction failed has none. *)
Definition the_value {X} (p : nat) : M X B :=
  r <- load (Some p) 0 ;; match r with Living b => ret b | Spare _ => bad Dead end.
(** Storage reuse: a value still alive there is lost, a spare representation just ends. *)
Definition reuse {X} (p : nat) : M X unit :=
  fun x w => match find_cell w (Some p) 0 with
             | None => Bad Outside
             | Some (_, _, None) => Ret x tt w
             | Some (_, _, Some (Living _)) => Bad Overwrite
             | Some (b, cs, Some (Spare _)) => Ret x tt (set_block w b (Some (set_nth cs 0 None)))
             end.
(** The storage ends: a value still alive in it is lost. *)
Definition release {X} (p : nat) : M X unit :=
  reuse p ;;; deallocate (Some p) 1.

(** bounded/construct_at.cpp on m_storage.value *)
Definition construct_over {X} (p : nat) (c : source B) : M X unit :=
  match c with
  | New calm_before calm_during b =>
      throws_unless calm_before ;;; reuse p ;;; throws_unless calm_during ;;; begin_life (Some p) 0 (Living b)
  | CopyAt calm q =>
      b <- the_value q ;; reuse p ;;; throws_unless calm ;;; begin_life (Some p) 0 (Living b)
  | MoveAt calm q =>
      b <- the_value q ;; reuse p ;;; throws_unless calm ;;; store (Some q) 0 (Living (moved b)) ;;;
      begin_life (Some p) 0 (Living b)
  end.
(** tv/optional.cpp 212-215 and construct_at(m_storage.value, make_uninitialized) *)
Definition construct_uninitialized {X} (p : nat) : M X unit :=
  reuse p ;;; begin_life (Some p) 0 (Spare 0).
(** tv/optional.cpp 167-169 *)
Definition initialized_at {X} (p : nat) : M X bool :=
  r <- load (Some p) 0 ;; ret (negb (Z.eqb (tombstone_index r) 0)).
Definition destroy_value {X} (p : nat) : M X unit := the_value p ;;; destroy (Some p) 0.
(** tv/optional.cpp 171-176 *)
Definition uninitialize : M nat unit :=
  p <- get ;; i <- initialized_at p ;;
  (if i : bool then destroy_value p else ret tt) ;;;
  construct_uninitialized p.
(** tv/optional.cpp 178-181 *)
Definition initialize (c : source B) : M nat unit :=
  uninitialize ;;; p <- get ;; construct_over p c.
(** [m_storage.value = c]. The value assigned to is alive; the assignment may throw before it changes anything. *)
Definition set_value (c : source B) : M nat unit :=
  p <- get ;; the_value p ;;;
  match c with
  | New _ _ b => throws_unless nothrow_copy_assign ;;; store (Some p) 0 (Living b)
  | CopyAt _ q => b <- the_value q ;; throws_unless nothrow_copy_assign ;;; store (Some p) 0 (Living b)
  | MoveAt _ q => b <- the_value q ;; throws_unless nothrow_move_assign ;;; store (Some q) 0 (Living (moved b)) ;;;
                  store (Some p) 0 (Living b)
  end.
(** tv/optional.cpp 101-122: the copy and move constructors *)
Definition construct_from (c : source B) (other : nat) : M unit nat :=
  p <- new_block 1 ;;
  rethrow_after (i <- initialized_at other ;;
                 if i : bool then construct_over p c else construct_uninitialized p)
                (release p) ;;;
  ret p.
(** tv/optional.cpp 124-158: the assignment operators *)
Definition assign_from (c : source B) (other : nat) : M nat unit :=
  p <- get ;;
  i <- initialized_at other ;;
  if negb i then uninitialize
  else
    j <- initialized_at p ;;
    if negb j then construct_over p c else set_value c.

Definition in_place : storage (rep B) nat (source B) B := {|
  s_default := (p <- new_block 1 ;; construct_uninitialized p ;;; ret p);                      (* 86-89 *)
  s_lazy := fun c => (p <- new_block 1 ;; rethrow_after (construct_over p c) (release p) ;;; ret p);   (* 91-99 *)
  s_initialized := (p <- get ;; initialized_at p);
  s_uninitialize := uninitialize;
  s_initialize := initialize;
  s_get := (p <- get ;; the_value p);                                                          (* 183-191 *)
  s_set := set_value;
  s_copy_construct := fun other => noexcept_if nothrow_copy (construct_from (CopyAt nothrow_copy other) other);
  s_move_construct := fun other => noexcept_if nothrow_move (construct_from (MoveAt nothrow_move other) other);
  s_copy_assign := fun other => noexcept_if (nothrow_copy && nothrow_copy_assign) (assign_from (CopyAt nothrow_copy other) other);
  s_move_assign := fun other => noexcept_if (nothrow_move && nothrow_move_assign) (assign_from (MoveAt nothrow_move other) other);
  s_destruct := (p <- get ;; i <- initialized_at p ;;
                 (if i : bool then destroy_value p else ret tt) ;;; release p)                  (* 160-165 *)
|}.
End InPlace.
