(** * Model of the core of bounded::integer

    Type bounds, storage selection, construction, value access and
    comparison. File references are to /repo/source/bounded. *)

From Coq Require Import ZArith Bool List.
From Verif Require Import Cxx.
Import ListNotations.
Open Scope Z_scope.

(** ** normalize.cpp *)

(** normalize.cpp 32-34 *)
Definition must_use_unsigned (v : tval) : bool :=
  cgt v (lit 0) && cgt (cast umax_t v) (cast umax_t (TV smax_t (ty_max smax_t))).

(** normalize.cpp 36-41 *)
Definition fits_in_int (v : tval) : bool :=
  if clt v (cast (ty v) (lit 0))
  then cge v (cast (ty v) (TV I32 (ty_min I32)))
  else cle v (cast (ty v) (TV I32 (ty_max I32))).

(** normalize.cpp 43-48. [as_builtin_integer] (18-30) is the identity on the
    built-in values the model passes; for a bounded constant it is its value. *)
Definition normalize (v : tval) : tval :=
  cast (if fits_in_int (cplus1 v) then I32
        else if must_use_unsigned v then umax_t
        else smax_t) v.

(** builtin_min_max_value.cpp 13-17 for a built-in type. *)
Definition builtin_min (t : cty) : tval := normalize (TV t (ty_min t)).
Definition builtin_max (t : cty) : tval := normalize (TV t (ty_max t)).

(** ** safe_compare.cpp 22-33 *)
Definition safe_compare (l r : tval) : comparison :=
  let max_signed := TV smax_t (ty_max smax_t) in
  if Bool.eqb (is_signed (ty l)) (is_signed (ty r)) then ccmp l r
  else if cle (TV (ty l) (ty_max (ty l))) max_signed
       && cle (TV (ty r) (ty_max (ty r))) max_signed
  then ccmp (cast smax_t l) (cast smax_t r)
  else if is_signed (ty l)
  then (if clt l (lit 0) then Lt else ccmp (cast (ty r) l) r)
  else (if clt r (lit 0) then Gt else ccmp l (cast (ty l) r)).

(** ** safe_equal.cpp 22-35 *)
Definition safe_equal (l r : tval) : bool :=
  let max_signed := TV smax_t (ty_max smax_t) in
  if Bool.eqb (is_signed (ty l)) (is_signed (ty r)) then ceq l r
  else if cle (TV (ty l) (ty_max (ty l))) max_signed
       && cle (TV (ty r) (ty_max (ty r))) max_signed
  then ceq (cast smax_t l) (cast smax_t r)
  else if is_signed (ty l)
  then cge l (lit 0) && ceq (cast (ty r) l) r
  else cge r (lit 0) && ceq l (cast (ty l) r).

(** [ordering <= 0], [ordering < 0], [ordering > 0] *)
Definition ord_le (c : comparison) : bool := match c with Gt => false | _ => true end.
Definition ord_lt (c : comparison) : bool := match c with Lt => true | _ => false end.
Definition ord_gt (c : comparison) : bool := match c with Gt => true | _ => false end.

(** ** safe_extreme.cpp *)

(** safe_extreme.cpp 17-23 *)
Definition safe_min (l r : tval) : tval :=
  let result_t := if negb (is_signed (ty l)) && negb (is_signed (ty r)) then umax_t else smax_t in
  if ord_le (safe_compare l r) then cast result_t l else cast result_t r.

(** safe_extreme.cpp 32-38 *)
Definition safe_max (l r : tval) : tval :=
  let result_t := if is_signed (ty l) && is_signed (ty r) then smax_t else umax_t in
  if ord_gt (safe_compare l r) then cast result_t l else cast result_t r.

(** safe_extreme.cpp 25-30 and 40-45: left folds. *)
Definition safe_min_n (a : tval) (rest : list tval) : tval := fold_left safe_min rest a.
Definition safe_max_n (a : tval) (rest : list tval) : tval := fold_left safe_max rest a.

(** ** value_fits_in_type.cpp 14-19 *)
Definition value_fits_in_type (t : cty) (v : tval) : bool :=
  ord_le (safe_compare (builtin_min t) v) && ord_le (safe_compare v (builtin_max t)).

(** ** underlying_type_t.cpp *)

(** underlying_type_t.cpp 20-25 *)
Definition range_fits_in_type (t : cty) (mn mx : tval) : bool :=
  value_fits_in_type t mn && value_fits_in_type t mx.

(** underlying_type_t.cpp 27-58, the if-constexpr chain in source order. *)
Definition determine_order : list cty :=
  [I8; U8; I16; U16; U32; I32; U64; I64; ULL; ILL; U128; I128].

Definition determine_type (mn mx : tval) : option cty :=
  find (fun t => range_fits_in_type t mn mx) determine_order.

(** ** integer.cpp: the class template *)

(** integer<minimum, maximum> as a type: its two template arguments. *)
Record bty : Set := Bty { bmin : tval; bmax : tval }.

Definition lo (B : bty) : Z := vl (bmin B).
Definition hi (B : bty) : Z := vl (bmax B).

(** Naming integer<mn, mx>: the static_asserts of integer.cpp 120 and 162-164 and
    the existence of underlying_type (122, 166). *)
Definition mk_integer (mn mx : tval) : option bty :=
  let? _ := guard (cty_eqb (ty mn) (ty (normalize mn))) in
  let? _ := guard (cty_eqb (ty mx) (ty (normalize mx))) in
  let? _ := guard (ord_le (safe_compare mn mx)) in
  let? _ := determine_type mn mx in
  Some (Bty mn mx).

(** integer<v, v> selects the empty specialization (integer.cpp 118-158). *)
Definition is_constant (B : bty) : bool :=
  cty_eqb (ty (bmin B)) (ty (bmax B)) && (lo B =? hi B).

(** underlying_type (integer.cpp 122, 166). The default is never used for a type
    accepted by [mk_integer]. *)
Definition und (B : bty) : cty :=
  match determine_type (bmin B) (bmax B) with Some t => t | None => I32 end.

(** value() (integer.cpp 124-126 for constants, 168-171 with its [[assume]]). The
    second argument is the stored m_value. *)
Definition value (B : bty) (raw : Z) : outcome tval :=
  if is_constant B then Ok (cast (und B) (bmin B))
  else
    let m := TV (und B) raw in
    if cle (bmin B) m && cle m (bmax B) then Ok m else UB.

(** An integral type of the library: built-in or bounded (integral.cpp 14-18).
    std::integral_constant, enumerations and bool are not modelled. *)
Inductive ity : Set := Builtin (t : cty) | Bounded (B : bty).

(** builtin_min_value / builtin_max_value (builtin_min_max_value.cpp 13-17,
    integer.cpp 50-54). *)
Definition imin (T : ity) : tval :=
  match T with Builtin t => builtin_min t | Bounded B => bmin B end.
Definition imax (T : ity) : tval :=
  match T with Builtin t => builtin_max t | Bounded B => bmax B end.

(** The built-in value of an object: itself, or value(). *)
Definition ivalue (T : ity) (raw : Z) : outcome tval :=
  match T with Builtin t => Ok (TV t raw) | Bounded B => value B raw end.

(** static_cast<t>(x): built-in conversion, or the explicit conversion operator
    (integer.cpp 152-155, 198-201). *)
Definition to_builtin (t : cty) (T : ity) (raw : Z) : outcome tval :=
  do v <- ivalue T raw; Ok (cast t v).

(** ** bounded_by_range.cpp *)

(** bounded_by_range.cpp 18-21 *)
Definition overlapping_integer (T : ity) (mn mx : tval) : bool :=
  ord_le (safe_compare (imin T) mx) && ord_le (safe_compare mn (imax T)).

(** bounded_by_range.cpp 24-28 *)
Definition bounded_by_range (T : ity) (mn mx : tval) : bool :=
  overlapping_integer T mn mx
  && ord_le (safe_compare mn (imin T))
  && ord_le (safe_compare (imax T) mx).

(** ** integer.cpp: constructors *)

(** The stored value after [m_value(underlying_type(other))] (integer.cpp 178,
    184); constants store nothing and ignore [other] (132-137). *)
Definition store (B : bty) (T : ity) (raw : Z) : outcome Z :=
  if is_constant B then Ok (lo B)
  else do v <- to_builtin (und B) T raw; Ok (vl v).

(** integer(other, unchecked) (integer.cpp 132-133, 177-180) *)
Definition unchecked (B : bty) (T : ity) (raw : Z) : option (outcome Z) :=
  let? _ := guard (overlapping_integer T (bmin B) (bmax B)) in
  Some (store B T raw).

(** Implicit integer(other) (integer.cpp 135-137, 182-186) *)
Definition convert (B : bty) (T : ity) (raw : Z) : option (outcome Z) :=
  let? _ := guard (bounded_by_range T (bmin B) (bmax B)) in
  Some (store B T raw).

(** CTAD: integer(value) (integer.cpp 211-224) of a built-in or bounded value. *)
Definition deduced (T : ity) : option bty := mk_integer (imin T) (imax T).

(** ** std::common_type (integer.cpp 61-73) *)
Definition common_type (A B : bty) : option bty :=
  mk_integer (normalize (safe_min (bmin A) (bmin B)))
             (normalize (safe_max (bmax A) (bmax B))).

(** std::common_type_t<T0, Ts...> is a left fold of the binary one. *)
Fixpoint common_type_n (A : bty) (rest : list bty) : option bty :=
  match rest with
  | [] => Some A
  | B :: rest' => let? C := common_type A B in common_type_n C rest'
  end.

(** ** comparison.cpp *)

Definition tval_eqb (a b : tval) : bool := cty_eqb (ty a) (ty b) && (vl a =? vl b).
(** Two operands of one bounded type. *)
Definition same_bounded (A B : ity) : bool :=
  match A, B with
  | Bounded A, Bounded B => tval_eqb (bmin A) (bmin B) && tval_eqb (bmax A) (bmax B)
  | _, _ => false
  end.

(** comparison.cpp 17-30; comparison_builtin.cpp 17-19 wraps a built-in operand in
    integer(rhs), whose bounds are the [imin]/[imax] of the built-in type. Operands
    of one bounded type use the defaulted friend of integer.cpp 157 (an empty class:
    always equal) or 203 (compares m_value), which overload resolution prefers to
    the template. Two built-in operands never come here, see [less]. *)
Definition compare (A B : ity) (x y : Z) : outcome comparison :=
  if same_bounded A B
  then (match A with
        | Bounded C => if is_constant C then Ok Eq else Ok (x ?= y)
        | Builtin _ => UB
        end)
  else if ord_gt (safe_compare (imin A) (imax B)) then Ok Gt
  else if ord_lt (safe_compare (imax A) (imin B)) then Ok Lt
  else do a <- ivalue A x; do b <- ivalue B y; Ok (safe_compare a b).

(** comparison.cpp 32-43, comparison_builtin.cpp 20-22, the == that the defaulted
    <=> of integer.cpp 157 and 203 brings, and the language's own == for two built-in
    operands. *)
Definition equal (A B : ity) (x y : Z) : outcome bool :=
  match A, B with
  | Builtin a, Builtin b => Ok (ceq (TV a x) (TV b y))
  | _, _ =>
    if same_bounded A B
    then (match A with
          | Bounded C => if is_constant C then Ok true else Ok (x =? y)
          | Builtin _ => UB
          end)
    else if ord_gt (safe_compare (imin A) (imax B))
       || ord_lt (safe_compare (imax A) (imin B)) then Ok false
    else do a <- ivalue A x; do b <- ivalue B y; Ok (safe_equal a b)
  end.

(** The relational operators: those of the language for two built-in operands,
    otherwise rewritten in terms of <=>. *)
Definition relational (c : tval -> tval -> bool) (o : comparison -> bool) (A B : ity) (x y : Z)
  : outcome bool :=
  match A, B with
  | Builtin a, Builtin b => Ok (c (TV a x) (TV b y))
  | _, _ => do r <- compare A B x y; Ok (o r)
  end.
Definition less : ity -> ity -> Z -> Z -> outcome bool := relational clt ord_lt.
Definition less_equal : ity -> ity -> Z -> Z -> outcome bool := relational cle ord_le.
Definition greater : ity -> ity -> Z -> Z -> outcome bool := relational cgt ord_gt.
Definition greater_equal : ity -> ity -> Z -> Z -> outcome bool :=
  relational cge (fun c => negb (ord_lt c)).

(** ** assume_in_range (integer.cpp 78-93) *)

(** Result type of assume_in_range_impl (integer.cpp 78-84) *)
Definition assume_type (T Tmin Tmax : ity) : option bty :=
  mk_integer (normalize (safe_max (imin Tmin) (imin T)))
             (normalize (safe_min (imax Tmax) (imax T))).

(** integer.cpp 78-84 *)
Definition assume_in_range_impl (T Tmin Tmax : ity) (x : Z) : option (bty * outcome Z) :=
  let? R := assume_type T Tmin Tmax in
  let? o := unchecked R T x in
  Some (R, o).

(** integer.cpp 88-93 *)
Definition assume_in_range (T Tmin Tmax : ity) (x mn mx : Z) : option (bty * outcome Z) :=
  let? (R, o) := assume_in_range_impl T Tmin Tmax x in
  Some (R, do b1 <- less T Tmin x mn;
           do b2 <- less Tmax T mx x;
           if b1 || b2 then UB else o).

(** ** Assignment: the defaulted operator= for an operand of the same type
    (integer.cpp 139-140, 188-189), otherwise 142-147 for constants and 191-193. *)
Definition assign (B : bty) (T : ity) (x : Z) : option (outcome Z) :=
  if same_bounded T (Bounded B) then Some (Ok (if is_constant B then lo B else x))
  else
  let? _ := guard (overlapping_integer T (bmin B) (bmax B)) in
  if is_constant B
  then Some (do e <- equal T (Bounded B) x (lo B);
             if e then Ok (lo B) else UB)
  else
    let cmin := Bounded (Bty (bmin B) (bmin B)) in
    let cmax := Bounded (Bty (bmax B) (bmax B)) in
    let? (R, o) := assume_in_range T cmin cmax x (lo B) (hi B) in
    let? _ := guard (bounded_by_range (Bounded R) (bmin B) (bmax B)) in
    Some (do r <- o; store B (Bounded R) r).
