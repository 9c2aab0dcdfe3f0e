(** * What spans of elements and of bytes are

    Nothing here is used by the model. *)

From Coq Require Import List ZArith Bool.
From Verif Require Import Range Strings SpecStrings Bytes.
Import ListNotations.
Local Open Scope Z_scope.

(** The elements [xs] of [s] bytes each are in memory at [p]. *)
Definition elements (s : Z) (m : blocks) (p : pointer) (xs : list (list Z)) : Prop :=
  0 < s /\ Forall (fun x => Z.of_nat (length x) = s) xs /\ holds m p (concat xs).
(** In [m'] there are the bytes [new] at [p] where there were the bytes [old] in [m]; all else is the same. *)
Definition replaced (m : blocks) (p : pointer) (old new : list Z) (m' : blocks) : Prop :=
  match p with
  | None => m' = m
  | Some (b, offset) =>
      exists blocks_before before after blocks_after,
        m = blocks_before ++ (before ++ old ++ after) :: blocks_after /\ b = length blocks_before /\ offset = Z.of_nat (length before) /\
        m' = blocks_before ++ (before ++ new ++ after) :: blocks_after
  end.
(** The pointer to the element [i] of those at [p]. *)
Definition element_at (s : Z) (p : pointer) (i : nat) : pointer := option_map (fun '(b, offset) => (b, offset + s * Z.of_nat i)) p.
