(** * What a linked list is

    Nothing here is used by the model. *)

From Coq Require Import List Arith.
From Verif Require Import LinkedList.
Import ListNotations.

(** Objects have names less than [names], so a new object has a new name. *)
Definition valid {L V} (m : memory L V) : Prop := forall p, object_at m p <> None -> p < names m.
(** All objects are the same in both memories, except those that are named. *)
Definition same_except {L V} (ps : list nat) (m m' : memory L V) : Prop := forall q, ~ In q ps -> object_at m' q = object_at m q.

Section Bidirectional.
Context {V : Type}.
Notation memory := (memory (nat * nat) V).
Definition next_of (m : memory) (p : nat) : option nat :=
  match object_at m p with Some (Sentinel l) | Some (Node l _) => Some (snd l) | _ => None end.
Definition previous_of (m : memory) (p : nat) : option nat :=
  match object_at m p with Some (Sentinel l) | Some (Node l _) => Some (fst l) | _ => None end.
(** Each leads to the next one and back. *)
Fixpoint linked (m : memory) (ps : list nat) : Prop :=
  match ps with
  | p :: ((q :: _) as rest) => next_of m p = Some q /\ previous_of m q = Some p /\ linked m rest
  | _ => True
  end.
Definition names_of (l : list (nat * V)) : list nat := map fst l.
(** The list with the sentinel [s] has these elements, in this order: the nodes that hold them and their values. *)
Definition list_at (m : memory) (s : nat) (l : list (nat * V)) : Prop :=
  (exists links, object_at m s = Some (Sentinel links)) /\
  (forall p v, In (p, v) l -> exists links, object_at m p = Some (Node links v)) /\
  NoDup (s :: names_of l) /\
  linked m (s :: names_of l ++ [s]).
(** The place of the first element of [l], which ends at [s] *)
Definition first_of (l : list (nat * V)) (s : nat) : nat := match l with [] => s | e :: _ => fst e end.
End Bidirectional.

(** The place of the last element of [l], which comes after [s] *)
Definition last_place {V} (l : list (nat * V)) (s : nat) : nat := last (names_of l) s.

Section Forward.
Context {V : Type}.
Notation memory := (memory (option nat) V).
(** Each leads to the next one and the last to none. *)
Fixpoint linked_to_null (m : memory) (ps : list nat) : Prop :=
  match ps with
  | [] => True
  | p :: rest => (exists o, object_at m p = Some o /\ match o with Sentinel l | Node l _ => l = hd_error rest | Raw => False end) /\ linked_to_null m rest
  end.
Definition forward_at (m : memory) (s : nat) (l : list (nat * V)) : Prop :=
  (exists link, object_at m s = Some (Sentinel link)) /\
  (forall p v, In (p, v) l -> exists link, object_at m p = Some (Node link v)) /\
  NoDup (s :: names_of l) /\
  linked_to_null m (s :: names_of l).
End Forward.
