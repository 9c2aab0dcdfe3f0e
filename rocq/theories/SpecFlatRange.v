(** * What may be left of elements when an algorithm that moves them throws

    Nothing here is used by the model. *)

From Coq Require Import List.
Import ListNotations.

(** An element that was there, or what is left of one after moving from it or moving it to itself. *)
Inductive remains {V} (moved self_moved : V -> V) (l : list V) : V -> Prop :=
| was_there v : In v l -> remains moved self_moved l v
| was_moved v : remains moved self_moved l v -> remains moved self_moved l (moved v)
| was_moved_to_itself v : remains moved self_moved l v -> remains moved self_moved l (self_moved v).
