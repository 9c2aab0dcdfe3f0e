(** * When a reference is safe

    Nothing here is used by the model. *)

From Coq Require Import List ZArith Bool.
From Verif Require Import Cxx Core References.
Import ListNotations.

(** A reference of type [target] can be bound to an expression of type [source] without a conversion: the same type, the same value
    category, and no const or volatile is lost. *)
Definition binds {B} (source target : ctype B) : Prop :=
  base target = base source /\ ref target = ref source /\ ref source <> NoReference /\
  (is_const source = true -> is_const target = true) /\ (is_volatile source = true -> is_volatile target = true).
(** The arguments of a call are numbered. *)
Definition numbered {B V} (args : list (operand B V)) : Prop :=
  forall i a, nth_error args i = Some a -> o_object a = Argument i.
(** The result can be kept: it is a new object, or a reference to an argument that is an lvalue, with the value of that argument and
    without losing its const. *)
Definition can_be_kept {B V} (args : list (operand B V)) (a : answer B V) : Prop :=
  match a_object a with
  | None => True
  | Some (Temporary _) => False
  | Some (Argument i) => exists o, nth_error args i = Some o /\ o_lvalue o = true /\ a_type a = o_type o /\ a_value a = o_value o /\
                           (o_const o = true -> a_const a = true)
  end.
