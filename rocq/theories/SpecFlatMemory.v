(** * What a program may see of a flat map whose operations throw

    Nothing here is used by the model. *)

From Coq Require Import List Arith.
From Verif Require Import Keyed SpecDict.
Import ListNotations.

(** What was seen of the actions, [None] for an exception, is what something that does [act] shows when the actions that threw are left out: from
    [d] it comes to [d']. An action only throws when it [may]. *)
Inductive explained {D A R : Type} (act : D -> A -> D * R) (may : D -> A -> Prop) : D -> list A -> list (option R) -> D -> Prop :=
| explained_end d : explained act may d [] [] d
| explained_reply d a actions seen d' : explained act may (fst (act d a)) actions seen d' ->
    explained act may d (a :: actions) (Some (snd (act d a)) :: seen) d'
| explained_exception d a actions seen d' : may d a -> explained act may d actions seen d' -> explained act may d (a :: actions) (None :: seen) d'.

(** The action inserts an entry that is not there yet. *)
Definition inserts_new {K T : Type} (d : @dictionary K T) (a : action K T) : Prop := exists k v, a = Insert k v /\ value_of d k = None.
Definition multi_inserts {K T : Type} (a : multi_action K T) : Prop := exists k v, a = MultiInsert k v.
(** A vector that holds [n] elements, has no room for more and may have no more than [maximum] cannot grow: it wants to have twice the room. *)
Definition cannot_double (maximum n : nat) : Prop := maximum < Nat.max (n + 1) (2 * n).

(** There are [n] different keys: [keys] has one of each. *)
Definition different_keys {K : Type} (same : K -> K -> bool) (n : nat) : Prop :=
  exists keys : list K, length keys = n /\ (forall k, exists r, In r keys /\ same k r = true) /\
    (forall i j a b, nth_error keys i = Some a -> nth_error keys j = Some b -> same a b = true -> i = j).
