(** * What the properties of the maps say

    Nothing here is used by the model. *)

From Coq Require Import List Arith Bool Permutation.
From Verif Require Import SpecSort SpecUnique.
Import ListNotations.

Section SpecMap.
Context {K M : Type}.
Notation element := (K * M)%type.

(** The first element with a key that is the same as [key]. *)
Fixpoint element_of (same : K -> K -> bool) (m : list element) (key : K) : option element :=
  match m with
  | [] => None
  | e :: m => if same key (fst e) then Some e else element_of same m key
  end.
(** No two elements have the same key. *)
Definition distinct (same : K -> K -> bool) (m : list element) : Prop :=
  forall i j a b, nth_error m i = Some a -> nth_error m j = Some b -> same (fst a) (fst b) = true -> i = j.

Context (key_less : K -> K -> bool).
Definition by_key (a b : element) : bool := key_less (fst a) (fst b).
(** What a flat map is: the keys increase. And a flat multimap: no key is less than one before it. *)
Definition flat (m : list element) : Prop := increasing by_key m.
Definition multi_flat (m : list element) : Prop := ordered by_key m.
(** The sort function sorts this range by the keys. *)
Definition sorts (sort : list element -> option (list element)) (l : list element) : Prop :=
  exists l', sort l = Some l' /\ sorting by_key l l'.
End SpecMap.
