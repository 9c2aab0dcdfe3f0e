(** * What an sbo_vector is, for its properties

    Nothing here is used by the model. *)

From Coq Require Import List Arith Bool NArith.
From Verif Require Import Mem Vec SpecVec Sbo.
Import ListNotations.

Section Spec.
Context {V : Type}.
Local Notation memory := (@memory V).

(** [o] is an sbo_vector with the elements [vs]. Either it is small: the first cells of the buffer in the
    object are living objects with these values and the rest of the buffer is raw. Or it is large: the
    buffer in the object is raw and an allocated block of more than [small] cells holds the elements.
    The rest of the memory is [others]. What size() reads is the number of elements. *)
Definition is_small_in (small : nat) (o : sbo) (vs : list V) (others m : memory) : Prop :=
  s_is_large o = false /\ (exists first, s_state o = Small first) /\
  others (s_place o) = None /\
  (exists spare, m (s_place o) = Some (map Some vs ++ repeat None spare) /\ length vs + spare = small) /\
  (forall b, b <> s_place o -> m b = others b).
Definition is_large_in (small max capacity : nat) (o : sbo) (vs : list V) (others m : memory) : Prop :=
  s_is_large o = true /\
  exists b first, s_state o = Large (Some b) capacity first /\
  small < capacity <= max /\
  b <> s_place o /\ others (s_place o) = None /\ others b = None /\
  m (s_place o) = Some (repeat None small) /\
  (exists spare, m b = Some (map Some vs ++ repeat None spare) /\ length vs + spare = capacity) /\
  (forall b', b' <> s_place o -> b' <> b -> m b' = others b').
Definition is_sbo_in (small max : nat) (o : sbo) (vs : list V) (others m : memory) : Prop :=
  sb_size o = length vs /\
  (is_small_in small o vs others m \/ exists capacity, is_large_in small max capacity o vs others m).
Definition is_sbo (small max : nat) (o : sbo) (vs : list V) (others : memory) (w : world V) : Prop :=
  is_sbo_in small max o vs others (heap w) /\ unused_names w.
(** Two different objects. *)
Definition two_sbos (small max : nat) (o : sbo) (vs : list V) (t : sbo) (us : list V) (others : memory) (w : world V) : Prop :=
  exists middle, is_sbo_in small max o vs others middle /\ is_sbo_in small max t us middle (heap w) /\ unused_names w.
(** What capacity() returns. *)
Definition sbo_capacity (small : nat) (o : sbo) : nat :=
  match s_state o with Small _ => small | Large _ c _ => c end.
(** The capacity after making room for [n] elements. *)
Definition sbo_grown (small : nat) (o : sbo) (n : nat) : nat :=
  if n <=? sbo_capacity small o then sbo_capacity small o else Nat.max n (2 * sbo_capacity small o).

End Spec.

(** The call ends without a fault and no block was allocated while it ran. *)
Definition allocates_nothing {V X A} (w : world V) (r : out V X A) : Prop :=
  match r with
  | Ret _ _ w' | Exc _ w' => next w' = next w
  | Bad _ => False
  end.
