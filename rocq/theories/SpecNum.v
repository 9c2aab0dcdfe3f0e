(** * Specification of logarithms and digit counts *)

From Coq Require Import ZArith List.
From Verif Require Import Cxx Core Spec.
Open Scope Z_scope.

(** [k] is the floor of the base-[b] logarithm of [v]; 0 for 0. *)
Definition is_log (b v k : Z) : Prop :=
  0 <= k /\ (v = 0 -> k = 0) /\ (0 < v -> b ^ k <= v < b ^ (k + 1)).

(** [n] is the number of characters of [v] in base [b]: the digits of its magnitude, at
    least one, and a minus sign if it is negative. *)
Definition text_length (b v n : Z) : Prop :=
  exists k, 1 <= k /\ Z.abs v < b ^ k /\ (k = 1 \/ b ^ (k - 1) <= Z.abs v) /\
    n = k + (if v <? 0 then 1 else 0).

(** [C] is the type of the constant [v]. *)
Definition constant_type (C : bty) (v : Z) : Prop := valid C /\ lo C = v /\ hi C = v.

(** [raw] can be stored in the built-in integer that represents the non-constant
    bounded integer type [T]. *)
Definition in_storage (T : bty) (raw : Z) : Prop := ty_min (und T) <= raw <= ty_max (und T).
