(** * Semantics of the C++ built-in integers used by the library

    This file models no file of /repo: it is the part of the C++ language the
    library relies on (ISO C++23 [conv.prom], [expr.arith.conv], [conv.integral],
    [expr.add], [expr.mul], [expr.shift], [expr.rel]) on x86-64 clang (LP64 with
    __int128), see DESIGN.md section 2. *)

From Coq Require Import ZArith Lia Bool List.
Import ListNotations.
Open Scope Z_scope.

(** Result of running a piece of code. [UB] stands for undefined behaviour:
    signed overflow, division by zero, oversized shifts, [std::unreachable],
    a violated [[assume]] and a failed BOUNDED_ASSERT. *)
Inductive outcome (A : Type) : Type :=
| Ok (a : A)
| UB
| Throw.
Arguments Ok {A} a.
Arguments UB {A}.
Arguments Throw {A}.

Definition bind {A B} (o : outcome A) (f : A -> outcome B) : outcome B :=
  match o with Ok a => f a | UB => UB | Throw => Throw end.
Notation "'do' x <- e ; f" := (bind e (fun x => f))
  (at level 60, x pattern, e at level 50, f at level 60, right associativity).

(** Constant evaluation: undefined behaviour or a throw makes the program
    ill-formed, written [None]. *)
Definition ct {A} (o : outcome A) : option A :=
  match o with Ok a => Some a | _ => None end.

Definition obind {A B} (o : option A) (f : A -> option B) : option B :=
  match o with Some a => f a | None => None end.
Notation "'let?' x ':=' e 'in' f" := (obind e (fun x => f))
  (at level 200, x pattern, e at level 100, f at level 200).

(** static_assert *)
Definition guard (b : bool) : option unit := if b then Some tt else None.

(** The built-in integer types of [determine_type] (underlying_type_t.cpp
    27-58). [ILL]/[ULL] are long long; char, wchar_t etc. are not modelled. *)
Inductive cty : Set :=
| I8 | U8 | I16 | U16 | I32 | U32 | I64 | U64 | ILL | ULL | I128 | U128.

Definition cty_eqb (a b : cty) : bool :=
  match a, b with
  | I8, I8 | U8, U8 | I16, I16 | U16, U16 | I32, I32 | U32, U32
  | I64, I64 | U64, U64 | ILL, ILL | ULL, ULL | I128, I128 | U128, U128 => true
  | _, _ => false
  end.

Definition is_signed (t : cty) : bool :=
  match t with
  | I8 | I16 | I32 | I64 | ILL | I128 => true
  | _ => false
  end.

Definition ty_bits (t : cty) : Z :=
  match t with
  | I8 | U8 => 8
  | I16 | U16 => 16
  | I32 | U32 => 32
  | I64 | U64 | ILL | ULL => 64
  | I128 | U128 => 128
  end.

(** 2 ^ ty_bits, spelled out so that [lia] sees numerals. *)
Definition ty_card (t : cty) : Z :=
  match t with
  | I8 | U8 => 256
  | I16 | U16 => 65536
  | I32 | U32 => 4294967296
  | I64 | U64 | ILL | ULL => 18446744073709551616
  | I128 | U128 => 340282366920938463463374607431768211456
  end.

Definition ty_min (t : cty) : Z :=
  match t with
  | I8 => -128
  | I16 => -32768
  | I32 => -2147483648
  | I64 | ILL => -9223372036854775808
  | I128 => -170141183460469231731687303715884105728
  | _ => 0
  end.

Definition ty_max (t : cty) : Z :=
  match t with
  | I8 => 127
  | U8 => 255
  | I16 => 32767
  | U16 => 65535
  | I32 => 2147483647
  | U32 => 4294967295
  | I64 | ILL => 9223372036854775807
  | U64 | ULL => 18446744073709551615
  | I128 => 170141183460469231731687303715884105727
  | U128 => 340282366920938463463374607431768211455
  end.

Definition in_ty (t : cty) (z : Z) : bool := (ty_min t <=? z) && (z <=? ty_max t).

(** Conversion to type [t]: the unique value of the type congruent to [z]
    modulo 2^n ([conv.integral]). *)
Definition wrap (t : cty) (z : Z) : Z := (z - ty_min t) mod (ty_card t) + ty_min t.

(** A value of a built-in type. *)
Record tval : Set := TV { ty : cty; vl : Z }.

Definition wf_tv (v : tval) : Prop := ty_min (ty v) <= vl v <= ty_max (ty v).

(** static_cast<t>(v) *)
Definition cast (t : cty) (v : tval) : tval := TV t (wrap t (vl v)).

(** Integer promotion ([conv.prom]). *)
Definition promote (t : cty) : cty :=
  match t with I8 | U8 | I16 | U16 => I32 | _ => t end.

(** Conversion rank ([conv.rank]). *)
Definition rank (t : cty) : Z :=
  match t with
  | I8 | U8 => 1 | I16 | U16 => 2 | I32 | U32 => 3
  | I64 | U64 => 4 | ILL | ULL => 5 | I128 | U128 => 6
  end.

Definition make_unsigned (t : cty) : cty :=
  match t with
  | I8 => U8 | I16 => U16 | I32 => U32 | I64 => U64 | ILL => ULL | I128 => U128
  | _ => t
  end.

(** Usual arithmetic conversions ([expr.arith.conv]) of promoted types. *)
Definition uac (a b : cty) : cty :=
  let a := promote a in
  let b := promote b in
  if Bool.eqb (is_signed a) (is_signed b) then (if rank a <? rank b then b else a)
  else
    let u := if is_signed a then b else a in
    let s := if is_signed a then a else b in
    if rank s <=? rank u then u
    else if ty_max u <=? ty_max s then s
    else make_unsigned s.

(** Arithmetic result in type [t]: signed overflow is undefined, unsigned
    arithmetic is modular. *)
Definition arith (t : cty) (z : Z) : outcome tval :=
  if is_signed t then (if in_ty t z then Ok (TV t z) else UB)
  else Ok (TV t (wrap t z)).

Definition usual (a b : tval) : cty := uac (ty a) (ty b).

Definition cadd (a b : tval) : outcome tval :=
  let t := usual a b in arith t (wrap t (vl a) + wrap t (vl b)).
Definition csub (a b : tval) : outcome tval :=
  let t := usual a b in arith t (wrap t (vl a) - wrap t (vl b)).
Definition cmul (a b : tval) : outcome tval :=
  let t := usual a b in arith t (wrap t (vl a) * wrap t (vl b)).
Definition cdiv (a b : tval) : outcome tval :=
  let t := usual a b in
  if wrap t (vl b) =? 0 then UB
  else arith t (Z.quot (wrap t (vl a)) (wrap t (vl b))).
(** a % b is undefined when b is zero or the quotient is not representable
    ([expr.mul] p4). *)
Definition cmod (a b : tval) : outcome tval :=
  let t := usual a b in
  if wrap t (vl b) =? 0 then UB
  else if in_ty t (Z.quot (wrap t (vl a)) (wrap t (vl b)))
  then Ok (TV t (Z.rem (wrap t (vl a)) (wrap t (vl b))))
  else UB.
Definition cneg (a : tval) : outcome tval :=
  let t := promote (ty a) in arith t (- vl a).
(** Unary plus: integer promotion. *)
Definition cplus1 (a : tval) : tval := TV (promote (ty a)) (vl a).
Definition cand (a b : tval) : tval :=
  let t := usual a b in TV t (Z.land (wrap t (vl a)) (wrap t (vl b))).
(** Shifts: the result type is the promoted left operand, the count must be in
    [0, width) ([expr.shift] p1); since C++20 left shift is modular and right
    shift is arithmetic. *)
Definition cshl (a b : tval) : outcome tval :=
  let t := promote (ty a) in
  if (0 <=? vl b) && (vl b <? ty_bits t)
  then Ok (TV t (wrap t (vl a * 2 ^ vl b))) else UB.
Definition cshr (a b : tval) : outcome tval :=
  let t := promote (ty a) in
  if (0 <=? vl b) && (vl b <? ty_bits t)
  then Ok (TV t (vl a / 2 ^ vl b)) else UB.

Definition clt (a b : tval) : bool :=
  let t := usual a b in wrap t (vl a) <? wrap t (vl b).
Definition cle (a b : tval) : bool :=
  let t := usual a b in wrap t (vl a) <=? wrap t (vl b).
Definition cgt (a b : tval) : bool := clt b a.
Definition cge (a b : tval) : bool := cle b a.
Definition ceq (a b : tval) : bool :=
  let t := usual a b in wrap t (vl a) =? wrap t (vl b).
(** Built-in <=>; the library only applies it to operands of one signedness. *)
Definition ccmp (a b : tval) : comparison :=
  let t := usual a b in Z.compare (wrap t (vl a)) (wrap t (vl b)).

(** An int literal. *)
Definition lit (z : Z) : tval := TV I32 z.

(** numeric_traits::max_signed_t and max_unsigned_t. *)
Notation smax_t := I128.
Notation umax_t := U128.

(** ** Loops

    [loop p step s] runs [step] at most [p] times: [inl] is a new state, [inr] the
    result. [inl] as the final answer means that [p] steps were not enough. *)
Fixpoint loop {S R : Type} (p : positive) (step : S -> S + R) (s : S) : S + R :=
  match p with
  | xH => step s
  | xO q => match loop q step s with inl s' => loop q step s' | inr r => inr r end
  | xI q => match step s with
            | inl s' => match loop q step s' with inl s'' => loop q step s'' | inr r => inr r end
            | inr r => inr r
            end
  end.
