(** * Keys and their order, for the properties of the radix sorts

    Nothing here is used by the model, except the types of keys. *)

From Coq Require Import List Arith Bool ZArith.
From Verif Require Import DoubleBuffer InplaceRadix.
Import ListNotations.

(** The key is one of the kind: an unsigned integer of [n] bytes is in range, a tuple has the right number of elements. *)
Inductive has_kind : kind -> key -> Prop :=
| has_bool b : has_kind KBool (Kb b)
| has_uint n z : (0 <= z < 256 ^ Z.of_nat n)%Z -> has_kind (KUint n) (Ku z)
| has_list ks keys : Forall2 has_kind ks keys -> has_kind (KList ks) (Kl keys).

(** The order of keys: false before true, integers by value, tuples and ranges by the first element that differs. *)
Fixpoint compare_keys (a b : key) : comparison :=
  match a, b with
  | Kb a, Kb b => match a, b with false, true => Lt | true, false => Gt | _, _ => Eq end
  | Ku a, Ku b => Z.compare a b
  | Kl a, Kl b =>
      (fix lex a b := match a, b with
                      | x :: a, y :: b => match compare_keys x y with Eq => lex a b | c => c end
                      | [], [] => Eq | [], _ => Lt | _, [] => Gt
                      end) a b
  | _, _ => Eq
  end.
Definition key_less (a b : key) : bool := match compare_keys a b with Lt => true | _ => false end.

(** The unsigned integers of C++ have 1, 2, 4, 8 or 16 bytes; in every such kind all numbers of bytes are so. *)
Inductive builtin_kind : kind -> Prop :=
| builtin_bool : builtin_kind KBool
| builtin_uint n : In n [1; 2; 4; 8; 16] -> builtin_kind (KUint n)
| builtin_list ks : Forall builtin_kind ks -> builtin_kind (KList ks).

(** The same for the types of keys that the in-place sort takes, which has ranges of any size as well. *)
Inductive has_type : type -> key -> Prop :=
| type_bool b : has_type TBool (Kb b)
| type_uint n z : (0 <= z < 256 ^ Z.of_nat n)%Z -> has_type (TUint n) (Ku z)
| type_tuple ts ks : Forall2 has_type ts ks -> has_type (TTuple ts) (Kl ks)
| type_range t ks : Forall (has_type t) ks -> has_type (TRange t) (Kl ks).
(** The elements of ranges are booleans, integers, or again such ranges. *)
Inductive simple_element : type -> Prop :=
| element_bool : simple_element TBool
| element_uint n : simple_element (TUint n)
| element_range t : simple_element t -> simple_element (TRange t).
Inductive simple_ranges : type -> Prop :=
| simple_bool : simple_ranges TBool
| simple_uint n : simple_ranges (TUint n)
| simple_tuple ts : Forall simple_ranges ts -> simple_ranges (TTuple ts)
| simple_range t : simple_element t -> simple_ranges (TRange t).

(** ** IEEE 754 numbers

    The bit pattern [bits] is sign, [exponent_bits] of exponent and [mantissa_bits] of mantissa. A finite number is a multiple of the smallest
    positive one, and [Finite z] is the number [z] times that. *)
Inductive number := Minus_infinity | Finite (z : Z) | Plus_infinity | Not_a_number.
Definition number_of (exponent_bits mantissa_bits bits : Z) : number :=
  let negative := ((bits / 2 ^ (exponent_bits + mantissa_bits)) mod 2)%Z in
  let exponent := ((bits / 2 ^ mantissa_bits) mod 2 ^ exponent_bits)%Z in
  let mantissa := (bits mod 2 ^ mantissa_bits)%Z in
  if (exponent =? 2 ^ exponent_bits - 1)%Z then
    if (mantissa =? 0)%Z then (if (negative =? 1)%Z then Minus_infinity else Plus_infinity) else Not_a_number
  else
    let magnitude := if (exponent =? 0)%Z then mantissa else ((2 ^ mantissa_bits + mantissa) * 2 ^ (exponent - 1))%Z in
    Finite (if (negative =? 1)%Z then - magnitude else magnitude)%Z.
Definition number_less (a b : number) : bool :=
  match a, b with
  | Finite a, Finite b => (a <? b)%Z
  | Minus_infinity, (Finite _ | Plus_infinity) | Finite _, Plus_infinity => true
  | _, _ => false
  end.
