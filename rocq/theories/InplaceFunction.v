(** * trivial_inplace_function

    Models source/containers/trivial_inplace_function.cpp. Types are values here: a type of functions is a
    record with what the code asks of it. The world outside of the function object, which a call may read
    and change, is a parameter. *)

From Coq Require Import List Arith Bool NArith.
Import ListNotations.

Section Functions.
Context {A R G : Type}.

(** The end of a call of an object: it returned or threw, with the object and the world afterwards, or its
    behavior is undefined. *)
Inductive called (F : Type) : Type :=
| Returned (r : R) (f : F) (g : G)
| Threw (f : F) (g : G)
| Undefined.
Arguments Returned {F}. Arguments Threw {F}. Arguments Undefined {F}.
Definition with_object {F F'} (k : F -> F') (c : called F) : called F' :=
  match c with Returned r f g => Returned r (k f) g | Threw f g => Threw (k f) g | Undefined => Undefined end.

(** A function pointer: null or a function without an object of its own *)
Definition fn_ptr : Type := option (A -> G -> called unit).

(** A type Function:
    [ft_result_same] std::same_as<std::invoke_result_t<Function, Args...>, R>;
    [ft_fn_pointer] function_pointer<Function>; [ft_size], [ft_align] sizeof and alignof;
    [ft_is_empty] std::is_empty_v; [ft_trivial] std::is_trivially_copyable_v;
    [ft_default] the value Function(), when bounded::trivially_default_constructible;
    [ft_to_pointer] the conversion to R( * )(Args...), when there is one;
    [ft_call] a call of an object that is not const (lvalues and rvalues are taken to be called alike);
    [ft_const_call] a call of a const object, when there is a const operator();
    [ft_bytes], [ft_of_bytes] the representation of an object. *)
Record function_type : Type := FunctionType {
  ft_value : Type;
  ft_result_same : bool;
  ft_fn_pointer : bool;
  ft_size : nat;
  ft_align : nat;
  ft_is_empty : bool;
  ft_trivial : bool;
  ft_default : option ft_value;
  ft_to_pointer : option (ft_value -> fn_ptr);
  ft_call : ft_value -> A -> G -> called ft_value;
  ft_const_call : option (ft_value -> A -> G -> called unit);
  ft_bytes : ft_value -> list N;
  ft_of_bytes : list N -> ft_value
}.

(** 24-44: the alignment of the union of the types that fit: short, int, long, long long, void *, void( * )(),
    a struct of a double, array<double, 4>, long double. The sizes and alignments are those of x86-64 Linux. *)
Definition helper_types : list (nat * nat) := [(2, 2); (4, 4); (8, 8); (8, 8); (8, 8); (8, 8); (8, 8); (32, 8); (16, 16)].
Definition alignment_for_capacity (capacity : nat) : nat :=
  fold_right Nat.max 1 (map snd (filter (fun t => fst t <=? capacity) helper_types)).

(** The template arguments *)
Context (is_const : bool) (capacity alignment : nat).

(** 49-53 *)
Definition trivially_storable_class (ft : function_type) : bool :=
  (if capacity =? 0 then ft_is_empty ft else ft_size ft <=? capacity) && (ft_align ft <=? alignment) && ft_trivial ft.
(** 55-58 *)
Definition trivially_storable (ft : function_type) : bool :=
  ft_result_same ft && (ft_fn_pointer ft || trivially_storable_class ft).
(** 86 *)
Definition use_single_indirection : bool := (capacity =? 0) && (alignment =? alignment_for_capacity 0).

(** 88-95: the members. [Single]: R( * )(Args...). [Double]: R( * )(storage_type &, Args...) or with a const
    reference. *)
Inductive indirection : Type :=
| Single (p : fn_ptr)
| Double (p : option (list N -> A -> G -> called (list N))).
Record wrapper : Type := Wrapper { m_storage : list N; m_function_indirection : indirection }.

(** What the compiler says to a construction: there is no such constructor, or there is one and its
    body is an error, or it compiles. *)
Inductive compiled (T : Type) : Type := NoConstructor | Error | Compiles (t : T).
Arguments NoConstructor {T}. Arguments Error {T}. Arguments Compiles {T}.

Definition round_up (n a : nat) : nat := (n + a - 1) / a * a.
Definition used_size (ft : function_type) : nat := if ft_is_empty ft then 0 else ft_size ft.
(** 64-78 and 130-132: padded puts [capacity - used_size] bytes behind the function; the size of the array
    must not be negative. bit_cast needs sizeof(padded) = sizeof(storage_type): sizeof(padded) is the sum
    of both, at least 1, rounded up to the alignment of Function. (Where the padding starts in the tail
    padding of Function the sum rounded up is the same.) *)
Definition bit_cast_padded (ft : function_type) (f : ft_value ft) : compiled (list N) :=
  if capacity <? used_size ft then Error
  else if negb (round_up (Nat.max 1 capacity) (ft_align ft) =? Nat.max 1 capacity) then Error
  else Compiles ((if ft_is_empty ft then [] else ft_bytes ft f) ++ repeat 0%N (capacity - used_size ft)).
Definition is_some {T} (o : option T) : bool := match o with Some _ => true | None => false end.
(** 120-133 *)
Definition make_storage (ft : function_type) (f : ft_value ft) : compiled (list N) :=
  if use_single_indirection then
    if is_some (ft_to_pointer ft) || is_some (ft_default ft) then Compiles [] else Error
  else bit_cast_padded ft f.

(** reinterpret_cast<Function &>(storage): reading and writing the object in the storage. The storage is
    the first member of a class with a pointer member, so it is aligned like a pointer at least. *)
Definition readable (ft : function_type) (storage : list N) : bool :=
  (used_size ft <=? length storage) && (ft_align ft <=? Nat.max alignment 8).
Definition read (ft : function_type) (storage : list N) : ft_value ft := ft_of_bytes ft (firstn (used_size ft) storage).
Definition write (ft : function_type) (storage : list N) (f : ft_value ft) : list N :=
  (if ft_is_empty ft then [] else ft_bytes ft f) ++ skipn (used_size ft) storage.

(** 97-118 *)
Definition create_function_indirection (ft : function_type) (f : ft_value ft) : compiled indirection :=
  if use_single_indirection then
    match ft_to_pointer ft with
    | Some convert => Compiles (Single (convert f))
    | None =>
        match ft_default ft with
        | Some d => Compiles (Single (Some (fun a g => with_object (fun _ => tt) (ft_call ft d a g))))
        | None => Error
        end
    end
  else if is_const then
    match ft_const_call ft with
    | Some call =>
        Compiles (Double (Some (fun storage a g =>
          if readable ft storage then with_object (fun _ => storage) (call (read ft storage) a g) else Undefined)))
    | None => Error
    end
  else
    Compiles (Double (Some (fun storage a g =>
      if readable ft storage then with_object (write ft storage) (ft_call ft (read ft storage) a g) else Undefined))).

(** 143-147 *)
Definition construct (ft : function_type) (f : ft_value ft) : compiled wrapper :=
  if trivially_storable ft then
    match make_storage ft f, create_function_indirection ft f with
    | Compiles storage, Compiles indirection => Compiles (Wrapper storage indirection)
    | _, _ => Error
    end
  else NoConstructor.

(** 149-162: both operators do the same *)
Definition invoke (f : wrapper) (a : A) (g : G) : called wrapper :=
  match m_function_indirection f with
  | Single (Some p) => with_object (fun _ => f) (p a g)
  | Double (Some p) => with_object (fun storage => Wrapper storage (m_function_indirection f)) (p (m_storage f) a g)
  | _ => Undefined
  end.

(** 135-138, 172-174, 232-234: make. The bytes of the storage are not initialized; they are taken to be
    zeros. *)
Definition make_tombstone : wrapper :=
  Wrapper (repeat 0%N capacity) (if use_single_indirection then Single None else Double None).
(** 175-177, 235-237: index, with None for -1 *)
Definition tombstone_index (f : wrapper) : option nat :=
  match m_function_indirection f with
  | Single None | Double None => Some 0
  | _ => None
  end.
End Functions.

Arguments Returned {R G F}. Arguments Threw {R G F}. Arguments Undefined {R G F}.
Arguments NoConstructor {T}. Arguments Error {T}. Arguments Compiles {T}.
Arguments wrapper : clear implicits. Arguments indirection : clear implicits. Arguments function_type : clear implicits. Arguments fn_ptr : clear implicits.
