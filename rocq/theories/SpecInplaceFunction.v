(** * What a wrapper of functions is for

    A program with function objects of any types, and the same program with wrappers of them. Nothing
    here is used by the model. *)

From Coq Require Import List Arith Bool NArith.
From Verif Require Import InplaceFunction.
Import ListNotations.

Section Spec.
Context {A R G : Type}.
Local Notation function_type := (function_type A R G).

(** The rules of the language that every type keeps: bytes have a number of their own in the object, the
    value is in the bytes of an object that is not empty, there is one value of an empty class, the size is
    a multiple of the alignment, which is a power of two. *)
Definition is_type (ft : function_type) : Prop :=
  1 <= ft_size ft /\ (exists k, ft_align ft = 2 ^ k) /\ (exists k, ft_size ft = k * ft_align ft) /\
  (ft_is_empty ft = false -> forall f, length (ft_bytes ft f) = ft_size ft /\ ft_of_bytes ft (ft_bytes ft f) = f) /\
  (ft_is_empty ft = true -> forall f f' : ft_value ft, f = f').
(** The only function pointers there are have 8 bytes, and a class that is not a pointer keeps the constraint on its alignment. *)
Definition is_fn_pointer (ft : function_type) : Prop :=
  ft_size ft = 8 /\ ft_align ft = 8 /\ ft_is_empty ft = false /\ ft_trivial ft = true /\ ft_default ft <> None /\ is_some (ft_to_pointer ft) = true.
(** The documentation asks: calling through the function pointer is the same as calling the function. *)
Definition pointer_is_the_same (ft : function_type) : Prop :=
  forall convert, ft_to_pointer ft = Some convert ->
  forall f a g, ft_call ft f a g = match convert f with
                                   | Some p => with_object (fun _ => f) (p a g)
                                   | None => Undefined
                                   end.
(** A const object and one that is not are called alike. *)
Definition const_is_the_same (ft : function_type) : Prop :=
  forall call, ft_const_call ft = Some call -> forall f a g, ft_call ft f a g = with_object (fun _ => f) (call f a g).

(** Programs with function objects. They are numbered in the order in which they were made. *)
Inductive action : Type :=
| Make (ft : function_type) (f : ft_value ft)   (* auto x = f; *)
| Copy (i : nat)                                (* auto x = x_i; *)
| Assign (i j : nat)                            (* x_i = x_j; *)
| Call (i : nat) (a : A).                       (* x_i(a), exceptions are caught *)
(** What the program sees of a call: the result or an exception. *)
Definition reply : Type := option R.
Definition replace {T} (i : nat) (x : T) (l : list T) : list T := firstn i l ++ x :: skipn (S i) l.

(** The program, for a way to make objects and a way to call them; None when it is undefined or does
    not compile. *)
Fixpoint run {T} (make : forall ft : function_type, ft_value ft -> option T) (call : T -> A -> G -> called (R := R) (G := G) T)
    (actions : list action) (objects : list T) (g : G) : option (list reply * G) :=
  match actions with
  | [] => Some ([], g)
  | Make ft f :: actions =>
      match make ft f with Some x => run make call actions (objects ++ [x]) g | None => None end
  | Copy i :: actions =>
      match nth_error objects i with Some x => run make call actions (objects ++ [x]) g | None => None end
  | Assign i j :: actions =>
      match nth_error objects i, nth_error objects j with
      | Some _, Some x => run make call actions (replace i x objects) g
      | _, _ => None
      end
  | Call i a :: actions =>
      match nth_error objects i with
      | None => None
      | Some x =>
          match call x a g with
          | Returned r x g =>
              match run make call actions (replace i x objects) g with Some (rs, g) => Some (Some r :: rs, g) | None => None end
          | Threw x g =>
              match run make call actions (replace i x objects) g with Some (rs, g) => Some (None :: rs, g) | None => None end
          | Undefined => None
          end
      end
  end.

(** The function objects themselves *)
Definition object : Type := { ft : function_type & ft_value ft }.
Definition call_object (x : object) (a : A) (g : G) : called object :=
  with_object (existT _ (projT1 x)) (ft_call (projT1 x) (projT2 x) a g).
Definition run_objects : list action -> list object -> G -> option (list reply * G) :=
  run (T := object) (fun ft f => Some (existT _ ft f)) call_object.
(** Wrappers of them *)
Definition run_wrappers (is_const : bool) (capacity alignment : nat) :
    list action -> list (wrapper A R G) -> G -> option (list reply * G) :=
  run (fun ft f => match construct is_const capacity alignment ft f with Compiles x => Some x | _ => None end) invoke.

(** Every function the program makes can be wrapped. *)
Definition all_wrapped (is_const : bool) (capacity alignment : nat) : list action -> Prop :=
  Forall (fun s => match s with
                   | Make ft f => is_type ft /\ (ft_fn_pointer ft = true -> is_fn_pointer ft) /\ pointer_is_the_same ft /\
                                  (is_const = true -> const_is_the_same ft) /\
                                  exists x, construct is_const capacity alignment ft f = Compiles x
                   | _ => True
                   end).
End Spec.
Arguments action : clear implicits. Arguments object : clear implicits.
