(** * Model of the arithmetic operators of bounded::integer

    File references are to /repo/source/bounded/arithmetic unless another
    directory is given. Each operator takes the operand types and the stored
    values and returns [None] if the expression does not compile, otherwise the
    result type and the run-time outcome (the stored value of the result). *)

From Coq Require Import ZArith Bool List.
From Verif Require Import Cxx Core.
Import ListNotations.
Open Scope Z_scope.

Definition result : Type := option (bty * outcome Z).

(** [result_t(v, unchecked)] for a run-time [v] of static type [t]
    (../integer.cpp 132-133, 177-180). *)
Definition construct_unchecked (R : bty) (t : cty) (v : outcome tval) : result :=
  let? _ := guard (overlapping_integer (Builtin t) (bmin R) (bmax R)) in
  Some (R, do w <- v; store R (Builtin t) (vl w)).

Definition max_signed : tval := TV smax_t (ty_max smax_t).

(** ** plus.cpp *)

(** plus.cpp 27-45 *)
Definition safer_add (l r : tval) : option tval :=
  let? m := ct (cadd (cast umax_t l) (cast umax_t r)) in
  if cge l (lit 0) && cge r (lit 0) then
    let? _ := guard (cge m (cast umax_t l) && cge m (cast umax_t r)) in
    Some m
  else if cgt l max_signed || cgt r max_signed then Some m
  else
    let? _ := guard (cgt l (lit 0) || cgt r (lit 0) || cgt m max_signed) in
    Some (cast smax_t m).

(** plus.cpp 47-58 *)
Definition plus (A B : bty) (x y : Z) : result :=
  let? mn := safer_add (bmin A) (bmin B) in
  let? mx := safer_add (bmax A) (bmax B) in
  let? R := mk_integer (normalize mn) (normalize mx) in
  construct_unchecked R (und R)
    (do a <- to_builtin umax_t (Bounded A) x;
     do b <- to_builtin umax_t (Bounded B) y;
     do s <- cadd a b;
     Ok (cast (und R) s)).

(** ** unary_minus.cpp *)

(** unary_minus.cpp 22-32 *)
Definition safer_negation (v : tval) : option tval :=
  let? negated := ct (cneg (cast umax_t v)) in
  if cle v (lit 0) then Some negated
  else
    let? max_positive_input := ct (cneg (cast umax_t (TV smax_t (ty_min smax_t)))) in
    let? _ := guard (cle v max_positive_input) in
    Some (cast smax_t negated).

(** numeric_traits::promoted_unsigned (external): the unsigned version of the
    promoted type. *)
Definition promoted_unsigned (t : cty) : cty := make_unsigned (promote t).

(** unary_minus.cpp 34-46 *)
Definition negate (A : bty) (x : Z) : result :=
  let? mn := safer_negation (bmax A) in
  let? mx := safer_negation (bmin A) in
  let? R := mk_integer (normalize mn) (normalize mx) in
  construct_unchecked R (und R)
    (do a <- to_builtin (promoted_unsigned (und R)) (Bounded A) x;
     do n <- cneg a;
     Ok (cast (und R) n)).

(** unary_plus.cpp 15-17 *)
Definition unary_plus (A : bty) (x : Z) : result := Some (A, Ok x).

(** Continue with the result of a sub-expression; if the sub-expression has
    undefined behaviour so does the whole. The type of the whole is computed from
    the type of the sub-expression only, so any value can be supplied for it. *)
Definition then_ (r : result) (f : bty -> Z -> result) : result :=
  let? (R, o) := r in
  match o with
  | Ok z => f R z
  | UB => let? (T, _) := f R (lo R) in Some (T, UB)
  | Throw => let? (T, _) := f R (lo R) in Some (T, Throw)
  end.

(** Binary minus: increment_decrement.cpp 24 imports operators::binary::operator-
    (external), which is [lhs + -rhs]. *)
Definition minus (A B : bty) (x y : Z) : result :=
  then_ (negate B y) (fun N n => plus A N x n).

(** ** multiplies.cpp *)

(** multiplies.cpp 28-61 *)
Definition safer_multiply (l r : tval) : option tval :=
  let negative := xorb (clt l (lit 0)) (clt r (lit 0)) in
  let ul := cast umax_t l in
  let ur := cast umax_t r in
  let? m := ct (cmul ul ur) in
  let? nm := ct (cneg m) in
  let? nul := ct (cneg ul) in
  let? nur := ct (cneg ur) in
  if negative then
    let? _ := (if cgt l (lit 0) then
                 let? q := ct (cdiv nm ul) in guard (ceq q nur)
               else if cgt r (lit 0) then
                 let? q := ct (cdiv nm ur) in guard (ceq q nul)
               else Some tt) in
    Some (cast smax_t m)
  else
    let? _ := (if cgt l (lit 0) then
                 let? q := ct (cdiv m ul) in guard (ceq q ur)
               else if clt l (lit 0) then
                 let? q := ct (cdiv m nul) in guard (ceq q nur)
               else Some tt) in
    Some m.

(** multiplies.cpp 63-78 *)
Definition multiply (A B : bty) (x y : Z) : result :=
  let? p0 := safer_multiply (bmin A) (bmin B) in
  let? p1 := safer_multiply (bmin A) (bmax B) in
  let? p2 := safer_multiply (bmax A) (bmin B) in
  let? p3 := safer_multiply (bmax A) (bmax B) in
  let? R := mk_integer (normalize (safe_min_n p0 [p1; p2; p3]))
                       (normalize (safe_max_n p0 [p1; p2; p3])) in
  construct_unchecked R (und R)
    (do a <- to_builtin umax_t (Bounded A) x;
     do b <- to_builtin umax_t (Bounded B) y;
     do s <- cmul a b;
     Ok (cast (und R) s)).

(** ** safe_abs.cpp 12-14 *)
Definition safe_abs (v : tval) : outcome tval :=
  if clt v (lit 0) then cneg (cast umax_t v) else Ok (cast umax_t v).

(** ** divides.cpp *)

(** The value() of [constant<v>] (../integer.cpp 113-126): its storage type is the
    one selected for [v, v]. *)
Definition constant_value (v : tval) : option tval :=
  let? t := determine_type (normalize v) (normalize v) in
  Some (cast t (normalize v)).

(** divides.cpp 28-38 *)
Definition safer_divide (l r : tval) : option tval :=
  let is_negative := xorb (clt l (lit 0)) (clt r (lit 0)) in
  let? al := ct (safe_abs l) in
  let? ar := ct (safe_abs r) in
  let? positive_result := ct (cdiv al ar) in
  if is_negative then
    let? n := ct (cneg positive_result) in Some (cast smax_t n)
  else Some positive_result.

(** divides.cpp 40-47. A range is a pair of bounds; [lmin] etc. are the [.value()]
    of the constants. *)
Definition positive_divisor_division (lmin lmax rmin rmax : tval) : option (tval * tval) :=
  let minimum_divisor := if clt lmin (lit 0) then rmin else rmax in
  let maximum_divisor := if clt lmax (lit 0) then rmax else rmin in
  let? a := safer_divide lmin minimum_divisor in
  let? b := safer_divide lmax maximum_divisor in
  Some (a, b).

(** divides.cpp 48-55 *)
Definition negative_divisor_division (lmin lmax rmin rmax : tval) : option (tval * tval) :=
  let minimum_divisor := if cge lmax (lit 0) then rmax else rmin in
  let maximum_divisor := if cge lmin (lit 0) then rmin else rmax in
  let? a := safer_divide lmax minimum_divisor in
  let? b := safer_divide lmin maximum_divisor in
  Some (a, b).

(** divides.cpp 57-70. The comparisons of constants [rhs.min >= constant<1>] are
    written with [safe_compare], to which ../comparison.cpp reduces them. *)
Definition divides_operator_range (lmin lmax rmin rmax : tval) : option (tval * tval) :=
  let? one := constant_value (lit 1) in
  let? minus_one := constant_value (lit (-1)) in
  if negb (ord_lt (safe_compare rmin one)) then positive_divisor_division lmin lmax rmin rmax
  else if ord_le (safe_compare rmax minus_one) then negative_divisor_division lmin lmax rmin rmax
  else
    let? (pmin, pmax) := positive_divisor_division lmin lmax one rmax in
    let? (nmin, nmax) := negative_divisor_division lmin lmax rmin minus_one in
    Some (safe_min pmin nmin, safe_max pmax nmax).

(** divides.cpp 72-92 *)
Definition divide (A B : bty) (x y : Z) : result :=
  let? _ := guard (negb (ceq (bmin B) (lit 0))) in
  let? _ := guard (negb (ceq (bmax B) (lit 0))) in
  let? lmin := constant_value (bmin A) in
  let? lmax := constant_value (bmax A) in
  let? rmin := constant_value (bmin B) in
  let? rmax := constant_value (bmax B) in
  let? (mn, mx) := divides_operator_range lmin lmax rmin rmax in
  let? R := mk_integer (normalize mn) (normalize mx) in
  let? common_t := determine_type (safe_min_n mn [bmin A; bmin B])
                                  (safe_max_n mx [bmax A; bmax B]) in
  construct_unchecked R (promote common_t)
    (do a <- to_builtin common_t (Bounded A) x;
     do b <- to_builtin common_t (Bounded B) y;
     cdiv a b).

(** ** modulus.cpp *)

(** modulus.cpp 34-57 (values of type umax_t written as plain numbers; every
    operation on them here stays in range because [divisor] is positive) *)
Definition modulo_round (dmin dmax divisor : Z) : Z * Z :=
  if dmin / divisor =? dmax / divisor
  then (dmin mod divisor, dmax mod divisor)
  else (0, divisor - 1).

(** modulus.cpp 59-78: one iteration of the while loop. The state is divisor.min
    and current. *)
Definition sign_free_step (dmin dmax divisor_max : Z) (s : Z * (Z * Z))
  : (Z * (Z * Z)) + (Z * Z) :=
  let '(divisor_min, (cmin, cmax)) := s in
  if negb (cmin =? 0)
     || (negb (cmax =? wrap umax_t (divisor_max - 1)) && negb (cmax =? dmax)) then
    let '(rmin, rmax) := modulo_round dmin dmax divisor_min in
    (* modulus.cpp 27-32: update_modulo_range *)
    let current := (Z.min cmin rmin, Z.max cmax rmax) in
    if divisor_min =? divisor_max then inr current
    else inl (wrap umax_t (divisor_min + 1), current)
  else inr (cmin, cmax).

(** modulus.cpp 59-78. A constant evaluation that does not end is ill-formed; 2^128
    steps bound every evaluation that ends. *)
Definition sign_free_value (dmin dmax divisor_min divisor_max : Z) : option (Z * Z) :=
  if dmax <? divisor_min then Some (dmin, dmax)
  else
    match loop 340282366920938463463374607431768211456
               (sign_free_step dmin dmax divisor_max)
               (divisor_min, (ty_max umax_t, 0)) with
    | inr r => Some r
    | inl _ => None
    end.

(** modulus.cpp 80-125. Comparisons of constants with [constant<0>] are written on
    the values; [lmin] etc. are the bounds as NTTP values. *)
Definition modulus_operator_range (lmin lmax rmin rmax : tval) : option (tval * tval) :=
  let? neg_rmax := ct (cneg (cast umax_t rmax)) in
  let divisor_min :=
    if ord_gt (safe_compare rmin (lit 0)) then vl (cast umax_t rmin)
    else if ord_lt (safe_compare rmax (lit 0)) then vl neg_rmax
    else 1 in
  let? abs_rmin := ct (safe_abs rmin) in
  let? abs_rmax := ct (safe_abs rmax) in
  let divisor_max := Z.max (vl abs_rmin) (vl abs_rmax) in
  let? abs_lmin := ct (safe_abs lmin) in
  let? abs_lmax := ct (safe_abs lmax) in
  let lmax_neg := ord_lt (safe_compare lmax (lit 0)) in
  let lmin_neg := ord_lt (safe_compare lmin (lit 0)) in
  let negative_min := if lmax_neg then vl abs_lmax else 0 in
  let negative_max := if lmin_neg then vl abs_lmin else 0 in
  let positive_min := if lmin_neg then 0 else vl lmin in
  let positive_max := if lmax_neg then 0 else vl lmax in
  let? negative := sign_free_value negative_min negative_max divisor_min divisor_max in
  let? positive := sign_free_value positive_min positive_max divisor_min divisor_max in
  let has_negative_values := lmin_neg in
  let has_positive_values := ord_gt (safe_compare lmax (lit 0)) in
  let? smallest := ct (cneg (cast umax_t (TV smax_t (ty_min smax_t)))) in
  let? _ := guard (negb has_negative_values || (snd negative <=? vl smallest)) in
  let min_type := if has_negative_values || (fst positive <=? ty_max smax_t) then smax_t else umax_t in
  let max_type := if negb has_positive_values || (snd positive <=? ty_max smax_t) then smax_t else umax_t in
  let? mn := (if has_negative_values
              then let? n := ct (cneg (cast smax_t (TV umax_t (snd negative)))) in Some (cast min_type n)
              else Some (cast min_type (TV umax_t (fst positive)))) in
  let? mx := (if has_positive_values
              then Some (cast max_type (TV umax_t (snd positive)))
              else let? n := ct (cneg (cast smax_t (TV umax_t (fst negative)))) in Some (cast max_type n)) in
  Some (mn, mx).

(** modulus.cpp 130-142 *)
Definition modulus (A B : bty) (x y : Z) : result :=
  let? (mn, mx) := modulus_operator_range (bmin A) (bmax A) (bmin B) (bmax B) in
  let? R := mk_integer (normalize mn) (normalize mx) in
  let? C := common_type_n R [A; B] in
  let common_t := und C in
  construct_unchecked R (promote common_t)
    (do a <- to_builtin common_t (Bounded A) x;
     do b <- to_builtin common_t (Bounded B) y;
     cmod a b).

(** ** left_shift.cpp 19-34 *)
Definition left_shift (A B : bty) (x y : Z) : result :=
  let? mn := ct (cshl (cast smax_t (bmin A)) (bmin B)) in
  let? mx := ct (cshl (cast smax_t (bmax A)) (bmax B)) in
  let? R := mk_integer (normalize mn) (normalize mx) in
  let? C := common_type_n R [A; B] in
  let common_t := und C in
  construct_unchecked R (promote common_t)
    (do a <- to_builtin common_t (Bounded A) x;
     do b <- to_builtin common_t (Bounded B) y;
     cshl a b).

(** ** right_shift.cpp 19-34 *)
Definition right_shift (A B : bty) (x y : Z) : result :=
  let? mn := ct (cshr (cast smax_t (bmin A)) (bmax B)) in
  let? mx := ct (cshr (cast smax_t (bmax A)) (bmin B)) in
  let? R := mk_integer (normalize mn) (normalize mx) in
  let? C := common_type_n R [A; B] in
  let common_t := und C in
  construct_unchecked R (promote common_t)
    (do a <- to_builtin common_t (Bounded A) x;
     do b <- to_builtin common_t (Bounded B) y;
     cshr a b).

(** ** bitwise_and.cpp 24-37. [min] of two constants is written with
    [safe_compare]; see [extreme2] in Funcs.v for the general function. *)
Definition bitwise_and (A B : bty) (x y : Z) : result :=
  let m := if ord_lt (safe_compare (bmax B) (bmax A)) then bmax B else bmax A in
  let? R := mk_integer (normalize (lit 0)) (normalize m) in
  let? C := common_type_n R [A; B] in
  let common_t := und C in
  construct_unchecked R (promote common_t)
    (do a <- to_builtin common_t (Bounded A) x;
     do b <- to_builtin common_t (Bounded B) y;
     Ok (cand a b)).

(** [constant<z>] as a type (../integer.cpp 110-114). *)
Definition constant_t (z : tval) : option bty := mk_integer (normalize z) (normalize z).

(** ** round_up_divide.cpp 14-16 *)
Definition round_up_divide (A B : bty) (x y : Z) : result :=
  let? one := constant_t (lit 1) in
  then_ (plus A B x y) (fun S s =>
  then_ (minus S one s 1) (fun D d =>
  divide D B d y)).

(** ** operators_builtin.cpp 19-26: mixed operators. The built-in operand is wrapped
    in integer(rhs); the result is the built-in value() of the bounded result. *)
Definition mixed (op : bty -> bty -> Z -> Z -> result) (A B : ity) (x y : Z)
  : option (outcome tval) :=
  let? DA := deduced A in
  let? DB := deduced B in
  let? (R, o) := op DA DB x y in
  Some (do r <- o; value R r).
