(** * What a variant is, for the properties of tv::variant

    Nothing here is used by the model. *)

From Coq Require Import List Arith Bool.
From Verif Require Import Mem Variant SpecVec.
Import ListNotations.

Section Spec.
Context {A : Type}.
Local Notation memory := (@memory (nat * A)).
Local Notation world := (world (nat * A)).

(** [o] is a variant of [n] alternatives whose alternative [k] is alive with the value [a]; no other object is alive in
    it; the rest of the memory is [others]. *)
Definition holds_in (n : nat) (o : variant) (k : nat) (a : A) (others m : memory) : Prop :=
  v_index o = k /\ k < n /\
  others (v_at o) = None /\
  m (v_at o) = Some [Some (k, a)] /\
  (forall b, b <> v_at o -> m b = others b).
Definition holds (n : nat) (o : variant) (k : nat) (a : A) (others : memory) (w : world) : Prop :=
  holds_in n o k a others (heap w) /\ unused_names w.
(** Two variants at different places. *)
Definition two_variants (n : nat) (o : variant) (k : nat) (a : A) (t : variant) (j : nat) (b : A) (others : memory) (w : world) : Prop :=
  exists middle, holds_in n o k a others middle /\ holds_in n t j b middle (heap w) /\ unused_names w.

(** In memory [m] the construct function [c] makes the value [a], without a side effect. *)
Definition gives (m : memory) (c : creator) (a : A) : Prop :=
  match c with
  | Make _ a' => a' = a
  | CopyFrom _ b k => m b = Some [Some (k, a)]
  | MoveFrom _ _ _ => False
  end.
(** The construct function cannot throw. *)
Definition cannot_throw (c : @creator A) : Prop :=
  match c with
  | Make b _ => b = true
  | CopyFrom b _ _ => b = true
  | MoveFrom b _ _ => b = true
  end.

(** The alternative of type [t] exists and is the only one of that type. *)
Definition the_alternative_of_type (T : types A) (t k : nat) : Prop :=
  k < count T /\ type_of T k = t /\ forall i, i < count T -> type_of T i = t -> i = k.

End Spec.

(** ** Histories of one variant *)
Section History.
Context {A : Type} (moved : A -> A) (T : types A).

(** What a program does with a variant. The value is the one its construct function makes. *)
Inductive call : Type :=
| CallEmplace (k : nat) (c : @creator A) (a : A)
| CallAssignValue (t : nat) (k : nat) (c : @creator A) (a : A) (nothrow_assign : bool)  (* [k]: the alternative of type [t] *)
| CallAssign (other : variant) (k : nat) (a : A).                                       (* [other] holds alternative [k] with value [a] *)

(** The call is allowed when the rest of the memory is [others]. *)
Definition allowed (others : @memory (nat * A)) (c : call) : Prop :=
  match c with
  | CallEmplace k c a => k < count T /\ gives others c a
  | CallAssignValue t k c a _ => the_alternative_of_type T t k /\ gives others c a
  | CallAssign other k a => v_index other = k /\ k < count T /\ others (v_at other) = Some [Some (k, a)]
  end.
(** The alternative and the value after the call, if it does not throw. *)
Definition after (c : call) : nat * A :=
  match c with
  | CallEmplace k _ a => (k, a)
  | CallAssignValue _ k _ a _ => (k, a)
  | CallAssign _ k a => (k, a)
  end.
(** What the calls may have led to when each either took effect or, by an exception, changed nothing. *)
Inductive led_to : list call -> nat * A -> nat * A -> Prop :=
| led_nil s : led_to [] s s
| led_effect c cs s s' : led_to cs (after c) s' -> led_to (c :: cs) s s'
| led_nothing c cs s s' : led_to cs s s' -> led_to (c :: cs) s s'.

(** The call, as the program makes it. *)
Definition perform (c : call) : M (nat * A) variant unit :=
  match c with
  | CallEmplace k c _ => bind (emplace moved T k c) (fun _ => ret tt)
  | CallAssignValue t _ c _ nt => assign_value moved T t c nt
  | CallAssign other _ _ => copy_assign moved T other
  end.
(** The caller catches every exception and goes on. *)
Fixpoint program (cs : list call) : M (nat * A) variant unit :=
  match cs with
  | [] => ret tt
  | c :: cs => fun o w => match perform c o w with
                          | Ret o _ w => program cs o w
                          | Exc o w => program cs o w
                          | Bad f => Bad f
                          end
  end.
End History.
