(** * What append is supposed to do: elements and source *)

From Coq Require Import List.
From Verif Require Import Append.
Import ListNotations.

(** The source is a range of these elements that stays as it is, or a container of them that expires. *)
Definition offers {V} (src : source V) (us : list V) : Prop := src = Lasting us \/ exists c, src = Expiring c (map Alive us).

(** Afterwards: a range is as it was; a container that expired is empty, or its elements were moved from. *)
Definition used_up {V} (src src' : source V) (us : list V) : Prop :=
  match src with
  | Lasting _ => src' = src
  | Expiring c _ => src' = Expiring c [] \/ src' = Expiring c (map MovedFrom us)
  | Itself => False
  end.

(** The first [n] elements were moved from, the others are still there. *)
Definition moved_up_to {V} (n : nat) (us : list V) : list (cell V) := map MovedFrom (firstn n us) ++ map Alive (skipn n us).

(** A std::vector has no more elements than room for them. *)
Definition usable {V} (k : kind) (t : target V) : Prop := k = StdVector -> length (items t) <= room t.

(** append calls push_back for each element (and not append_range or insert of the standard container). *)
Definition one_by_one (k : kind) (ranges trivial_move : bool) : Prop := k = OwnList \/ ranges = false /\ trivial_move = false.
