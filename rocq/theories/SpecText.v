(** * Specification of decimal numerals. Characters are their codes. *)

From Coq Require Import ZArith List.
Import ListNotations.
Open Scope Z_scope.

(** [s] consists of decimal digits whose positional value is [v]. *)
Inductive decimal : list Z -> Z -> Prop :=
| decimal_nil : decimal [] 0
| decimal_cons c s v : 48 <= c <= 57 -> decimal s v ->
    decimal (c :: s) ((c - 48) * 10 ^ Z.of_nat (length s) + v).

(** [s] is a numeral for [v]: digits, after a minus sign if [signed] allows it. *)
Definition numeral (signed : Prop) (s : list Z) (v : Z) : Prop :=
  (s <> [] /\ decimal s v) \/
  (signed /\ exists t, s = 45 :: t /\ t <> [] /\ decimal t (- v)).

(** The canonical numeral: no leading zero and no minus sign before zero. *)
Definition canonical (s : list Z) (v : Z) : Prop :=
  (0 <= v /\ s <> [] /\ decimal s v /\ (v <> 0 -> hd 0 s <> 48) /\ (v = 0 -> s = [48])) \/
  (v < 0 /\ exists t, s = 45 :: t /\ t <> [] /\ decimal t (- v) /\ hd 0 t <> 48).

(** The text without the digit separators ('). *)
Definition strip (s : list Z) : list Z := filter (fun c => negb (c =? 39)) s.
