(** * Bounded integers outside of arithmetic

    bounded/integer.cpp 152-155 and 198-201 (explicit conversion), bounded/hash.cpp, bounded/format.cpp and bounded/arithmetic/pointer.cpp.
    A bounded integer is its type [B] and the stored value [raw], as in Core.v. What the standard library and the language do with
    built-in integers is given: std::hash of the type [t] is [std_hash t], std::formatter of it with the options [o] is [std_format t o]. *)

From Coq Require Import ZArith Bool List.
From Verif Require Import Cxx Core.
Import ListNotations.
Local Open Scope Z_scope.

(** static_cast<t>(x) (integer.cpp 152-155, 198-201); conversions to enumerations and floating point types are not modelled. *)
Definition explicit_conversion (t : cty) (B : bty) (raw : Z) : outcome tval := to_builtin t (Bounded B) raw.

(** hash.cpp 14-19 *)
Definition hash {H} (std_hash : cty -> Z -> H) (B : bty) (raw : Z) : outcome H :=
  do v <- explicit_conversion (und B) B raw; Ok (std_hash (und B) (vl v)).

(** format.cpp 12-23: parse is that of the base, which keeps the options. *)
Definition format {O S} (std_format : cty -> O -> Z -> S) (o : O) (B : bty) (raw : Z) : outcome S :=
  do v <- value B raw; Ok (std_format (und B) o (vl v)).

(** A pointer to the element [index] of an array with [length] elements, or past its end. Adding to a pointer that is not in an array is adding to one in
    an array with one element. *)
Record array_pointer : Type := Pointer { array : nat; length : Z; index : Z }.
(** The language's ptr + n and n + ptr *)
Definition std_advance (p : array_pointer) (n : Z) : outcome array_pointer :=
  let i := index p + n in
  if (0 <=? i) && (i <=? length p) then Ok (Pointer (array p) (length p) i) else UB.
(** pointer.cpp 12-15 *)
Definition pointer_plus (p : array_pointer) (B : bty) (raw : Z) : outcome array_pointer :=
  do v <- value B raw; std_advance p (vl v).
(** pointer.cpp 18-21 *)
Definition plus_pointer (B : bty) (raw : Z) (p : array_pointer) : outcome array_pointer :=
  do v <- value B raw; std_advance p (vl v).
