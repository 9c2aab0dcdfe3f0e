(** * What a representation must satisfy

    Nothing here is used by the model. *)

From Coq Require Import List ZArith Bool.
From Verif Require Import Cxx Core Arith Funcs Spec SpecNum Nested.
Import ListNotations.
Open Scope Z_scope.

(** For the values that are [ok]: what is stored is read back; a value is not taken for a spare representation; a
    spare representation is not taken for a value or for another one. *)
Definition faithful {A} (r : repr A) (ok : A -> Prop) : Prop :=
  (forall a, ok a -> read r (store_value r a) = Some a) /\
  (forall a, ok a -> spare_index r (store_value r a) = -1) /\
  (forall i, (i < spare r)%nat -> spare_index r (make_spare r i) = Z.of_nat i).

(** Every level is empty or has an [ok] value. *)
Fixpoint ok_levels (d : nat) {A} (ok : A -> Prop) : levels d A -> Prop :=
  match d with
  | O => ok
  | S d => fun x => match x with None => True | Some y => ok_levels d ok y end
  end.
