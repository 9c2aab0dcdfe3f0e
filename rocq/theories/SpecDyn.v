(** * What a dynamic_array is, for its properties

    Nothing here is used by the model. *)

From Coq Require Import List Arith Bool.
From Verif Require Import Mem Vec SpecVec.
Import ListNotations.

Section Spec.
Context {V : Type}.
Local Notation memory := (@memory V).

(** [o] is a dynamic_array with the elements [vs]: an allocated block holds exactly the elements, or there is no block and no
    element. The rest of the memory is [others]. *)
Definition is_array_in (min max : nat) (o : storage) (vs : list V) (others m : memory) : Prop :=
  u_size o = length vs /\ min <= length vs <= max /\
  match u_pointer o with
  | Some b => others b = None /\ m b = Some (map Some vs) /\ forall b', b' <> b -> m b' = others b'
  | None => vs = [] /\ same m others
  end.
Definition is_array (min max : nat) (o : storage) (vs : list V) (others : memory) (w : world V) : Prop :=
  is_array_in min max o vs others (heap w) /\ unused_names w.
(** Two different objects. *)
Definition two_arrays (min max : nat) (o : storage) (vs : list V) (t : storage) (us : list V) (others : memory) (w : world V) : Prop :=
  exists middle, is_array_in min max o vs others middle /\ is_array_in min max t us middle (heap w) /\ unused_names w.
(** What a move leaves. *)
Definition gone (o : storage) : Prop := u_pointer o = None.
End Spec.
