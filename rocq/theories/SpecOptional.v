(** * What an optional is, for the properties of tv::optional

    Nothing here is used by the model. An optional is empty ([None]) or has a value ([Some b]). *)

From Coq Require Import List Arith Bool.
From Verif Require Import Mem Variant Optional SpecVec SpecVariant.
Import ListNotations.

Section Spec.
Context {B : Type}.

(** In a variant: exactly one object is alive, the none_t or the value. *)
Definition is_optional_v (o : variant) (x : option B) (others : memory) (w : world (nat * option B)) : Prop :=
  match x with
  | None => holds 2 o 0 None others w
  | Some b => holds 2 o 1 (Some b) others w
  end.
Definition two_optionals_v (o : variant) (x : option B) (t : variant) (y : option B) (others : memory) (w : world (nat * option B)) : Prop :=
  let number (x : option B) := match x with None => 0 | Some _ => 1 end in
  two_variants 2 o (number x) x t (number y) y others w.

(** In place: the object is a value, or has the spare representation 0 and is no value. *)
Definition representation (x : option B) : rep B := match x with None => Spare 0 | Some b => Living b end.
Definition is_optional_p_in (p : nat) (x : option B) (others m : memory) : Prop :=
  others p = None /\ m p = Some [Some (representation x)] /\ (forall q, q <> p -> m q = others q).
Definition is_optional_p (p : nat) (x : option B) (others : memory) (w : world (rep B)) : Prop :=
  is_optional_p_in p x others (heap w) /\ unused_names w.
Definition two_optionals_p (p : nat) (x : option B) (q : nat) (y : option B) (others : memory) (w : world (rep B)) : Prop :=
  exists middle, is_optional_p_in p x others middle /\ is_optional_p_in q y middle (heap w) /\ unused_names w.
(** A construction in the place failed half way: there is neither a value nor a spare representation. *)
Definition wrecked (p : nat) (others : memory) (w : world (rep B)) : Prop :=
  others p = None /\ heap w p = Some [None] /\ (forall q, q <> p -> heap w q = others q) /\ unused_names w.

(** In memory [m] the source [c] makes the value [b], without a side effect. *)
Definition makes_value (m : memory) (c : source B) (b : B) : Prop :=
  match c with
  | New _ _ b' => b' = b
  | CopyAt _ p => m p = Some [Some (Living b)]
  | MoveAt _ _ => False
  end.
(** Construction of the value itself cannot throw once it has begun. *)
Definition cannot_throw_during (c : source B) : Prop :=
  match c with
  | New _ calm _ => calm = true
  | CopyAt calm _ => calm = true
  | MoveAt calm _ => calm = true
  end.
(** Nothing can throw. *)
Definition cannot_throw_at_all (c : source B) : Prop :=
  cannot_throw_during c /\ match c with New calm _ _ => calm = true | _ => True end.
End Spec.
