(** * Properties C17 to C21

    Vocabulary in Spec.v, SpecText.v and SpecNum.v. [constant_type C v] says that C is
    the type bounded::constant_t<v>. The flag [ext] is whether the 128-bit types are
    extended integer types for the standard library (log.cpp 34-36). *)

From Coq Require Import ZArith Lia Bool List.
From Verif Require Import Cxx Core Spec Arith Funcs SpecText SpecNum NumProofs PropsCore.
Import ListNotations.
Open Scope Z_scope.

(** ** C17 *)
Theorem C17_pow : forall A B x y R o, valid A -> valid B -> holds_value A x -> holds_value B y ->
  pow A B x y = Some (R, o) ->
  exact2 A B x y always Z.pow R o /\ holds_value R (x ^ y).
Proof. exact pow_exact. Qed.
Print Assumptions C17_pow.

Theorem C17_accepted : forall A B x y, valid A -> valid B -> holds_value A x -> holds_value B y ->
  ((exists R o, pow A B x y = Some (R, o)) <->
   0 <= lo A /\ 0 <= lo B /\ ~ (lo A = 0 /\ lo B = 0) /\ hi A ^ hi B <= ty_max U128).
Proof. exact pow_accepts. Qed.
Print Assumptions C17_accepted.

Example C17_example :
  let A := Bty (lit 2) (lit 9) in let B := Bty (lit 0) (lit 13) in
  valid A /\ valid B /\ holds_value A 7 /\ holds_value B 13 /\
  exists R, pow A B 7 13 = Some (R, Ok 96889010407) /\ lo R = 1 /\ hi R = 2541865828329.
Proof. cbv zeta. concrete2. eexists. split; [vm_compute; reflexivity|]. split; vm_compute; reflexivity. Qed.

(** ** C18 *)
Theorem C18_log : forall ext A B x y R o, valid A -> valid B -> holds_value A x -> holds_value B y ->
  log ext A B x y = Some (R, o) ->
  exists k, o = Ok k /\ is_log y x k /\ valid R /\ holds_value R k /\
    is_log y (lo A) (lo R) /\ is_log y (hi A) (hi R).
Proof. exact log_exact. Qed.
Print Assumptions C18_log.

Theorem C18_accepted : forall ext A B x y, valid A -> valid B -> holds_value A x -> holds_value B y ->
  ((exists R o, log ext A B x y = Some (R, o)) <-> lo B = hi B /\ 1 < lo B /\ 0 <= lo A).
Proof. exact log_accepts. Qed.
Print Assumptions C18_accepted.

Example C18_example :
  let A := Bty (lit 0) (lit 100000) in let B := Bty (lit 10) (lit 10) in
  valid A /\ valid B /\ holds_value A 99999 /\ holds_value B 10 /\
  exists R, log true A B 99999 10 = Some (R, Ok 4) /\ log false A B 99999 10 = Some (R, Ok 4) /\ lo R = 0 /\ hi R = 5.
Proof. cbv zeta. concrete2. eexists. split; [vm_compute; reflexivity|]. split; [vm_compute; reflexivity|]. split; vm_compute; reflexivity. Qed.

(** ** C19 *)
Theorem C19_digits : forall ext T C b, ivalid T -> constant_type C b -> 2 <= b ->
  exists R n, digits_in_string_representation ext T C = Some (R, Ok n) /\ constant_type R n /\
    (forall v m, iholds T v -> text_length b v m -> m <= n) /\
    (exists v, iholds T v /\ text_length b v n).
Proof. exact digits_in_string_full. Qed.
Print Assumptions C19_digits.

(** A buffer of that many characters is large enough for the decimal text of any value. *)
Theorem C19_decimal_text : forall ext T C s v, ivalid T -> constant_type C 10 -> iholds T v -> canonical s v ->
  exists R n, digits_in_string_representation ext T C = Some (R, Ok n) /\ Z.of_nat (length s) <= n.
Proof. exact canonical_length_full. Qed.
Print Assumptions C19_decimal_text.

(** Enough bits in two's complement if there are negative values; exactly enough
    otherwise. *)
Theorem C19_bits : forall ext T, ivalid T ->
  exists R n, representation_bits ext T = Some (R, Ok n) /\ constant_type R n /\ 1 <= n /\
    (ilo T < 0 -> forall v, iholds T v -> - 2 ^ (n - 1) <= v < 2 ^ (n - 1)) /\
    (0 <= ilo T -> (forall v, iholds T v -> 0 <= v < 2 ^ n) /\ (n = 1 \/ 2 ^ (n - 1) <= ihi T)).
Proof. exact bits_full. Qed.
Print Assumptions C19_bits.

Example C19_example :
  let T := Bounded (Bty (lit (-12)) (lit 99)) in
  ivalid T /\ constant_type (Bty (lit 10) (lit 10)) 10 /\ iholds T (-12) /\
  digits_in_string_representation true T (Bty (lit 10) (lit 10)) = Some (Bty (lit 3) (lit 3), Ok 3) /\
  representation_bits true T = Some (Bty (lit 8) (lit 8), Ok 8).
Proof. cbv zeta. unfold constant_type. concrete2. Qed.

(** ** C20. The digits are the largest n such that the type holds every n-digit
    number, and its negative if the type is signed. *)
Theorem C20_digits : forall ext B C b, valid B -> constant_type C b -> b = 2 \/ b = 10 ->
  exists R d, limits_digits ext B C = Some (R, Ok d) /\ constant_type R d /\
    (holds_value B 0 -> forall n, 0 <= n ->
       (n <= d <-> forall m, 0 <= m < b ^ n -> holds_value B m /\ (lo B < 0 -> holds_value B (- m)))) /\
    (~ holds_value B 0 -> d = 0).
Proof. exact limits_digits_full. Qed.
Print Assumptions C20_digits.

Theorem C20_bounds : forall B, valid B ->
  exists cmin cmax, limits_min B = Some (cmin, Ok (lo B)) /\ limits_max B = Some (cmax, Ok (hi B)) /\
    constant_type cmin (lo B) /\ constant_type cmax (hi B) /\
    (limits_is_signed B = true <-> exists v, holds_value B v /\ v < 0).
Proof. exact limits_full. Qed.
Print Assumptions C20_bounds.

Theorem C20_number_of : forall T R o, ivalid T -> number_of T = Some (R, o) ->
  o = Ok (ihi T - ilo T + 1) /\ constant_type R (ihi T - ilo T + 1).
Proof. exact number_of_full. Qed.
Print Assumptions C20_number_of.

Example C20_example :
  let B := Bty (lit (-1000)) (lit 300) in
  valid B /\ constant_type (Bty (lit 2) (lit 2)) 2 /\ holds_value B 0 /\
  limits_digits true B (Bty (lit 2) (lit 2)) = Some (Bty (lit 8) (lit 8), Ok 8) /\
  limits_digits true B (Bty (lit 10) (lit 10)) = Some (Bty (lit 2) (lit 2), Ok 2) /\
  limits_is_signed B = true /\
  number_of (Bounded B) = Some (Bty (lit 1301) (lit 1301), Ok 1301).
Proof. cbv zeta. unfold constant_type. concrete2. Qed.

(** ** C21. A representation is a value of the storage type. *)
Theorem C21_make : forall T i R o, valid T -> ty_min I128 <= i <= ty_max U128 ->
  tombstone_make T i = Some (R, o) ->
  R = T /\ exists raw, o = Ok raw /\ in_storage T raw /\ ~ holds_value T raw /\
    forall R' j, tombstone_index T raw = Some (R', j) -> j = Ok i.
Proof. exact make_full. Qed.
Print Assumptions C21_make.

Theorem C21_distinct : forall T i j R o R', valid T ->
  ty_min I128 <= i <= ty_max U128 -> ty_min I128 <= j <= ty_max U128 ->
  tombstone_make T i = Some (R, o) -> tombstone_make T j = Some (R', o) -> i = j.
Proof. exact make_injective. Qed.
Print Assumptions C21_distinct.

Theorem C21_index : forall T raw R o, valid T -> in_storage T raw ->
  tombstone_index T raw = Some (R, o) ->
  exists j, o = Ok j /\ valid R /\ holds_value R j /\
    (holds_value T raw -> j = -1) /\
    (~ holds_value T raw -> 0 <= j /\ forall R' r, tombstone_make T j = Some (R', r) -> r = Ok raw).
Proof. exact index_then_make. Qed.
Print Assumptions C21_index.

(** With storage of at most 64 bits, every spare representation has an index, and the
    indexes are exactly those below the number of spare representations. *)
Theorem C21_complete : forall T, valid T -> lo T <> hi T -> ty_bits (und T) <= 64 ->
  (forall raw, in_storage T raw -> ~ holds_value T raw ->
     exists j, 0 <= j /\ tombstone_make T j = Some (T, Ok raw)) /\
  (forall raw, in_storage T raw -> exists R j, tombstone_index T raw = Some (R, Ok j) /\ hi R =
     (lo T - ty_min (und T)) + (ty_max (und T) - hi T) - 1) /\
  (forall i, ty_min I128 <= i <= ty_max U128 ->
     ((exists raw, tombstone_make T i = Some (T, Ok raw)) <->
      0 <= i < (lo T - ty_min (und T)) + (ty_max (und T) - hi T))).
Proof. exact spares_complete. Qed.
Print Assumptions C21_complete.

(** [-10, 100] in a signed char: 118 values below, then 27 above. *)
Example C21_example :
  let T := Bty (lit (-10)) (lit 100) in
  valid T /\ lo T <> hi T /\ ty_bits (und T) <= 64 /\ in_storage T (-128) /\ in_storage T 127 /\
  tombstone_make T 117 = Some (T, Ok (-11)) /\ tombstone_make T 118 = Some (T, Ok 101) /\
  tombstone_make T 144 = Some (T, Ok 127) /\ tombstone_make T 145 = None /\
  exists R, tombstone_index T 101 = Some (R, Ok 118) /\ tombstone_index T 100 = Some (R, Ok (-1)).
Proof. cbv zeta. concrete2; [split; vm_compute; congruence..|]. eexists. split; vm_compute; reflexivity. Qed.

(** With 128-bit storage a spare representation may exist without a tombstone: the
    computation of integer<0, 2^128 - 2>'s does not compile. *)
Theorem C21_wide_refuted : exists T raw, valid T /\ in_storage T raw /\ ~ holds_value T raw /\
  forall i, ty_min I128 <= i <= ty_max U128 -> tombstone_make T i = None.
Proof. exact wide_refuted. Qed.
Print Assumptions C21_wide_refuted.
