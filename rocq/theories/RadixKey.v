(** * to_radix_sort_key

    Models containers/algorithms/sort/to_radix_sort_key.cpp 38-104, on the types and arithmetic of Cxx.v and the bounded integers of Core.v.
    bool and vector<bool>::reference (lines 50-52, 99-102) have their value as key, ranges and tuples are their own key (lines 104-113), and
    pointers (lines 95-97), whose order is that of the platform, are not modelled. *)

From Coq Require Import ZArith Bool.
From Verif Require Import Cxx Core.
Local Open Scope Z_scope.

Definition cor (a b : tval) : tval :=
  let t := usual a b in TV t (Z.lor (wrap t (vl a)) (wrap t (vl b))).
Definition cxor (a b : tval) : tval :=
  let t := usual a b in TV t (Z.lxor (wrap t (vl a)) (wrap t (vl b))).

(** For std::byte: line 54-56. *)
Definition byte_key (value : Z) : tval := TV U8 (wrap U8 value).

(** Lines 58-72. [character]: the type is char, wchar_t, char8_t, char16_t or char32_t; these have the values of I8, I32, U8, U16 and U32. *)
Definition integer_key (character : bool) (value : tval) : outcome tval :=
  if character then Ok (cast (make_unsigned (ty value)) value)
  else if negb (is_signed (ty value)) then Ok value
  else
    let unsigned_t := make_unsigned (ty value) in
    do sum <- cadd (cast unsigned_t value) (cast unsigned_t (TV (ty value) (ty_min (ty value))));
    Ok (cast unsigned_t sum).

(** Lines 74-76. [raw]: the stored value. The underlying types (determine_type) are not character types. *)
Definition bounded_key (B : bty) (raw : Z) : outcome tval :=
  do v <- value B raw; integer_key false v.

(** Lines 78-81, of an enumeration with the underlying type [t] for which numeric_traits::min_value and max_value are [mn] and [mx]. [None]: this
    does not compile. bounded::integer(value) has the type of its deduction guide (bounded/integer.cpp 209-224) and is initialized by
    underlying_type(other) (182-186), or by nothing if it is a constant (135-137); its constructor accepts the enumeration, as
    builtin_min_value and builtin_max_value (bounded/builtin_min_max_value.cpp 13-17) of the enumeration are the bounds of the type. An
    enumeration without these limits is refused there, as builtin_min_value<T> requires them (bounded_by_range.cpp 18-28), although the deduction guide
    provides for it. *)
Definition enumeration_key (t : cty) (limits : option (tval * tval)) (value : Z) : option (outcome tval) :=
  match limits with
  | None => None
  | Some (mn, mx) =>
      let? B := mk_integer (normalize mn) (normalize mx) in
      Some (bounded_key B (if is_constant B then lo B else vl (cast (und B) (TV t value))))
  end.

(** std::make_signed_t, of an unsigned type *)
Definition make_signed (t : cty) : cty :=
  match t with U8 => I8 | U16 => I16 | U32 => I32 | U64 => I64 | ULL => ILL | U128 => I128 | _ => t end.
(** Lines 83-93. [unsigned_t] is the integer type of the size of the floating point type and [u] is std::bit_cast to it. *)
Definition float_key (unsigned_t : cty) (u : tval) : outcome tval :=
  let sign_bit_position := TV U32 (ty_bits unsigned_t - 1) in
  do top <- cshr u sign_bit_position;
  do minus <- cneg (cast (make_signed unsigned_t) top);
  let sign_bit := cast unsigned_t minus in
  do one <- cshl (cast unsigned_t (TV U32 1)) sign_bit_position;
  Ok (cxor u (cor sign_bit one)).
