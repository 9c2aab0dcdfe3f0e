(** * Model of the functions of bounded beyond the arithmetic operators

    Compound assignment, min/max/clamp/abs, range casts, parsing and printing, pow,
    log, digit counts, literals and tombstones. File references are to
    /repo/source/bounded. *)

From Coq Require Import ZArith Bool List.
From Verif Require Import Cxx Core Arith.
Import ListNotations.
Open Scope Z_scope.

(** The type of [constant<v>] for an already normalized [v], and its value. *)
Definition const_of (v : tval) : ity := Bounded (Bty v v).

Definition is_some {A} (o : option A) : bool := match o with Some _ => true | None => false end.

(** BOUNDED_CONDITIONAL (include/bounded/conditional.hpp 12-15): both operands are
    converted to their common type; only the selected one is evaluated. *)
Definition conditional (b : outcome bool) (l r : result) : result :=
  let? (A, oa) := l in
  let? (B, ob) := r in
  let? C := common_type A B in
  let? _ := guard (is_some (convert C (Bounded A) (lo A))) in
  let? _ := guard (is_some (convert C (Bounded B) (lo B))) in
  let conv A o := do a <- o; match convert C (Bounded A) a with Some w => w | None => UB end in
  Some (C, do t <- b; if t : bool then conv A oa else conv B ob).

(** ** Compound assignment and increment *)

(** [lhs = r] as an expression. *)
Definition assign_result (A R : bty) (r : Z) : result :=
  let? o := assign A (Bounded R) r in Some (A, o).

(** [lhs op= rhs] is [lhs = lhs op rhs] (operators library, imported in
    arithmetic/increment_decrement.cpp 23). *)
Definition compound (op : bty -> bty -> Z -> Z -> result) (A B : bty) (x y : Z) : result :=
  then_ (op A B x y) (assign_result A).

(** arithmetic/increment_decrement.cpp 41-43 *)
Definition increment (A : bty) (x : Z) : result :=
  let? one := constant_t (lit 1) in compound plus A one x 1.
(** arithmetic/increment_decrement.cpp 45-47 *)
Definition decrement (A : bty) (x : Z) : result :=
  let? one := constant_t (lit 1) in compound minus A one x 1.

(** Postfix forms (operators library): copy, update, return the copy. The outcome
    is (returned value, new value of the object). *)
Definition post_increment (A : bty) (x : Z) : option (outcome (Z * Z)) :=
  let? (_, o) := increment A x in Some (do n <- o; Ok (x, n)).
Definition post_decrement (A : bty) (x : Z) : option (outcome (Z * Z)) :=
  let? (_, o) := decrement A x in Some (do n <- o; Ok (x, n)).

(** A history of updates of one object: assignments, compound assignments with a
    bounded operand, ++ and --. *)
Inductive update : Set :=
| UAssign (T : ity) (y : Z)
| UAdd (B : bty) (y : Z)
| USub (B : bty) (y : Z)
| UMul (B : bty) (y : Z)
| UDiv (B : bty) (y : Z)
| UMod (B : bty) (y : Z)
| UInc
| UDec.

Definition apply_update (A : bty) (u : update) (x : Z) : result :=
  match u with
  | UAssign T y => let? o := assign A T y in Some (A, o)
  | UAdd B y => compound plus A B x y
  | USub B y => compound minus A B x y
  | UMul B y => compound multiply A B x y
  | UDiv B y => compound divide A B x y
  | UMod B y => compound modulus A B x y
  | UInc => increment A x
  | UDec => decrement A x
  end.

Fixpoint run_updates (A : bty) (us : list update) (x : Z) : result :=
  match us with
  | [] => Some (A, Ok x)
  | u :: us' => then_ (apply_update A u x) (fun _ x' => run_updates A us' x')
  end.

(** Mixed binary minus (arithmetic/operators_builtin.cpp 38): the generic operator of
    the operators library, [lhs + -rhs], where -rhs is the language's own negation if
    rhs is built-in. *)
Definition mixed_minus (A B : ity) (x y : Z) : option (outcome tval) :=
  match B with
  | Builtin b =>
      let t := promote b in
      match cneg (TV b y) with
      | Ok n => mixed plus A (Builtin t) x (vl n)
      | _ => let? _ := mixed plus A (Builtin t) x 0 in Some UB
      end
  | Bounded B =>
      let? (N, o) := negate B y in
      match o with
      | Ok n => mixed plus A (Bounded N) x n
      | _ => Some UB
      end
  end.

(** ** cast.cpp *)

(** cast.cpp 16-19 *)
Definition increase_min (new_min : tval) (A : bty) (x : Z) : result :=
  let? c1 := constant_t (safe_max new_min (bmin A)) in
  let? c2 := constant_t (bmax A) in
  assume_in_range (Bounded A) (Bounded c1) (Bounded c2) x (lo c1) (lo c2).
(** cast.cpp 20-23 *)
Definition increase_min_unchecked (new_min : tval) (A : bty) (x : Z) : result :=
  let? R := mk_integer (normalize (safe_max new_min (bmin A))) (bmax A) in
  let? o := unchecked R (Bounded A) x in Some (R, o).
(** cast.cpp 25-28 *)
Definition decrease_max (new_max : tval) (A : bty) (x : Z) : result :=
  let? c1 := constant_t (bmin A) in
  let? c2 := constant_t (safe_min new_max (bmax A)) in
  assume_in_range (Bounded A) (Bounded c1) (Bounded c2) x (lo c1) (lo c2).
(** cast.cpp 29-32 *)
Definition decrease_max_unchecked (new_max : tval) (A : bty) (x : Z) : result :=
  let? R := mk_integer (bmin A) (normalize (safe_min new_max (bmax A))) in
  let? o := unchecked R (Bounded A) x in Some (R, o).

(** assume_in_range<Target>(value) (integer.cpp 95-107), Target bounded. All three
    comparands are wrapped in integer(...). *)
Definition assume_in_range_to (B : bty) (T : ity) (x : Z) : result :=
  let? D := deduced T in
  let cmin := const_of (bmin B) in
  let cmax := const_of (bmax B) in
  let? (R, o) := assume_in_range_impl T cmin cmax x in
  Some (R, do b1 <- less (Bounded D) cmin x (lo B);
           do b2 <- less cmax (Bounded D) (hi B) x;
           if b1 || b2 then UB else o).
(** The same with a built-in Target. *)
Definition assume_in_range_to_builtin (t : cty) (T : ity) (x : Z) : option (outcome tval) :=
  let? D := deduced T in
  let? E := deduced (Builtin t) in
  Some (do b1 <- less (Bounded D) (Bounded E) x (ty_min t);
        do b2 <- less (Bounded E) (Bounded D) (ty_max t) x;
        if b1 || b2 then UB else to_builtin t T x).

(** ** check_in_range.cpp *)

(** check_in_range.cpp 47-54. Building the message (52) is not modelled. *)
Definition check_in_range (T Tmin Tmax : ity) (x mn mx : Z) : result :=
  let? (R, o) := assume_in_range_impl T Tmin Tmax x in
  Some (R, do b1 <- less_equal Tmin T mn x;
           if b1
           then (do b2 <- less_equal T Tmax x mx; if b2 then o else Throw)
           else Throw).

(** check_in_range.cpp 56-63, Target bounded. *)
Definition check_in_range_to (B : bty) (T : ity) (x : Z) : result :=
  then_ (check_in_range T (const_of (bmin B)) (const_of (bmax B)) x (lo B) (hi B))
        (fun R r => let? o := convert B (Bounded R) r in Some (B, o)).
(** check_in_range.cpp 56-63, Target built-in: numeric_traits::min_value and
    max_value are values of the built-in type itself. *)
Definition check_in_range_to_builtin (t : cty) (T : ity) (x : Z) : option (outcome tval) :=
  let? (R, o) := check_in_range T (Builtin t) (Builtin t) x (ty_min t) (ty_max t) in
  Some (do r <- o; to_builtin t (Bounded R) r).

(** checked_bit_cast.cpp 15-18, the source a built-in integer of the same size. *)
Definition checked_bit_cast (B : bty) (s : cty) (x : Z) : result :=
  let? _ := guard (ty_bits s =? ty_bits (und B)) in
  check_in_range_to B (Builtin (und B)) (wrap (und B) x).

(** ** minmax.cpp *)

(** std::less<> and std::greater<>. *)
Inductive order : Set := ByLess | ByGreater.
Definition before (c : order) : ity -> ity -> Z -> Z -> outcome bool :=
  match c with ByLess => less | ByGreater => greater end.

Definition bty_eqb (A B : bty) : bool := same_bounded (Bounded A) (Bounded B).

(** minmax.cpp 59-65 *)
Definition select (c : order) (l r : tval) : option tval :=
  let? b := ct (before c (const_of r) (const_of l) (vl r) (vl l)) in
  Some (if b then normalize r else normalize l).

(** minmax.cpp 56-86. References and value categories are not modelled: the result
    is the value and its type without reference. *)
Definition extreme2 (c : order) (A B : bty) (x y : Z) : result :=
  let? mn := select c (bmin A) (bmin B) in
  let? mx := select c (bmax A) (bmax B) in
  let? T := mk_integer mn mx in
  if bty_eqb T A && bty_eqb A B
  then Some (A, do b <- before c (Bounded B) (Bounded A) y x; Ok (if b then y else x))
  else if negb (overlapping_integer (Bounded B) (bmin T) (bmax T)) then Some (A, Ok x)
  else if negb (overlapping_integer (Bounded A) (bmin T) (bmax T)) then Some (B, Ok y)
  else
    let? u := unchecked T (Bounded B) y in
    let? v := unchecked T (Bounded A) x in
    Some (T, do b <- before c (Bounded B) (Bounded A) y x; if b then u else v).

(** minmax.cpp 98-118: left fold over the arguments. *)
Fixpoint extreme_n (c : order) (r : result) (rest : list (bty * Z)) : result :=
  match rest with
  | [] => r
  | (B, y) :: rest' => extreme_n c (then_ r (fun A x => extreme2 c A B x y)) rest'
  end.

(** minmax.cpp 123-129 *)
Definition min_n (A : bty) (x : Z) (rest : list (bty * Z)) : result :=
  extreme_n ByLess (Some (A, Ok x)) rest.
Definition max_n (A : bty) (x : Z) (rest : list (bty * Z)) : result :=
  extreme_n ByGreater (Some (A, Ok x)) rest.

(** minmax.cpp 31-39 and 98-118 for arguments of one type other than a bounded
    integer and any comparison function. *)
Definition extreme_generic {T : Type} (cmp : T -> T -> bool) (t : T) (ts : list T) : T :=
  fold_left (fun l r => if cmp r l then r else l) ts t.

(** ** clamp.cpp 17-25 *)
Definition clamp (V MN MX : bty) (v mn mx : Z) : result :=
  then_ (extreme2 ByGreater V MN v mn) (fun T t => extreme2 ByLess T MX t mx).
(** clamp.cpp 27-30, Target bounded. *)
Definition clamp_to (B : bty) (T : ity) (x : Z) : result :=
  let? D := deduced T in
  let? o := convert D T x in
  then_ (Some (D, o)) (fun _ d =>
    clamp D (Bty (bmin B) (bmin B)) (Bty (bmax B) (bmax B)) d (lo B) (hi B)).

(** ** abs.cpp 21-32 *)
Definition abs (A : bty) (x : Z) : result :=
  let zero := const_of (lit 0) in
  let? b1 := ct (greater_equal (const_of (bmin A)) zero (lo A) 0) in
  if b1 then Some (A, Ok x)
  else
    let? b2 := ct (less_equal (const_of (bmax A)) zero (hi A) 0) in
    if b2 then negate A x
    else
      then_ (negate A x) (fun N n =>
      then_ (extreme2 ByGreater A N x n) (fun M m =>
      increase_min_unchecked (lit 0) M m)).

(** ** Expressions over bounded integers: variables, constants and the operators. *)
Inductive expr : Set :=
| EVar (n : nat)
| EConst (z : Z)
| ENeg (e : expr)
| EAbs (e : expr)
| EAdd (a b : expr)
| ESub (a b : expr)
| EMul (a b : expr)
| EDiv (a b : expr)
| EMod (a b : expr)
| EMin (a b : expr)
| EMax (a b : expr).

Definition binary (op : bty -> bty -> Z -> Z -> result) (a b : result) : result :=
  then_ a (fun A x => then_ b (fun B y => op A B x y)).

(** [G n] and [env n] are the type and the value of variable [n]. *)
Fixpoint eval (G : nat -> bty) (env : nat -> Z) (e : expr) : result :=
  match e with
  | EVar n => Some (G n, Ok (env n))
  | EConst z => let? C := constant_t (TV (if 0 <=? z then U128 else I128) z) in Some (C, Ok z)
  | ENeg a => then_ (eval G env a) negate
  | EAbs a => then_ (eval G env a) abs
  | EAdd a b => binary plus (eval G env a) (eval G env b)
  | ESub a b => binary minus (eval G env a) (eval G env b)
  | EMul a b => binary multiply (eval G env a) (eval G env b)
  | EDiv a b => binary divide (eval G env a) (eval G env b)
  | EMod a b => binary modulus (eval G env a) (eval G env b)
  | EMin a b => binary (extreme2 ByLess) (eval G env a) (eval G env b)
  | EMax a b => binary (extreme2 ByGreater) (eval G env a) (eval G env b)
  end.

(** ** check_in_range.cpp 27-39: decimal text. Characters are their codes. *)

(** check_in_range.cpp 29-32, one round of the do-while loop. *)
Definition to_string_step (s : Z * list Z) : Z * list Z + outcome (list Z) :=
  let '(x, acc) := s in
  match cmod (TV U128 x) (lit 10), cdiv (TV U128 x) (lit 10) with
  | Ok r, Ok q =>
      let acc' := acc ++ [wrap I8 (vl r + 48)] in
      if cgt (cast U128 q) (lit 0) then inl (vl (cast U128 q), acc') else inr (Ok acc')
  | _, _ => inr UB
  end.
(** check_in_range.cpp 27-35. 39 digits are enough for 128 bits. *)
Definition to_string_u128 (x : Z) : outcome (list Z) :=
  match loop 39 to_string_step (x, []) with
  | inr o => do s <- o; Ok (rev s)
  | inl _ => UB
  end.
(** check_in_range.cpp 37-39 *)
Definition to_string_i128 (x : Z) : outcome (list Z) :=
  if cge (TV I128 x) (lit 0)
  then to_string_u128 (vl (cast U128 (TV I128 x)))
  else do n <- cneg (cast U128 (TV I128 x));
       do s <- to_string_u128 (vl n);
       Ok (45 :: s).

(** ** to_integer.cpp *)

Definition digit_t : bty := Bty (lit 0) (lit 9).

(** to_integer.cpp 32-34 with 28-30. char is a signed 8-bit type. *)
Definition as_digit (c : Z) : result :=
  match csub (TV I8 c) (TV I8 48) with
  | Ok d =>
    then_ (check_in_range (Builtin I32) (const_of (lit 0)) (const_of (lit 9)) (vl d) 0 9)
          (fun R r => let? o := convert digit_t (Bounded R) r in Some (digit_t, o))
  | _ => Some (digit_t, UB)
  end.

(** to_integer.cpp 40-41, the loop body *)
Definition to_integer_body (P M : bty) (p c : Z) : result :=
  let? ten := constant_t (lit 10) in
  then_ (multiply P ten p 10) (fun S s =>
  then_ (as_digit c) (fun D d =>
  then_ (plus S D s d) (fun Q q =>
  then_ (check_in_range (Bounded Q) (const_of (lit 0)) (Bounded M) q 0 (lo M)) (fun R r =>
  assign_result P R r)))).

(** to_integer.cpp 36-44. The guard is the compilation of the loop body, whose types
    do not depend on the values. *)
Definition to_integer_positive (maximum : tval) (str : list Z) : result :=
  let? P := mk_integer (lit 0) (normalize maximum) in
  let? M := constant_t maximum in
  let? _ := guard (is_some (to_integer_body P M 0 48)) in
  let? o := convert P (const_of (lit 0)) 0 in
  fold_left (fun acc c => then_ acc (fun _ p => to_integer_body P M p c)) str (Some (P, o)).

(** to_integer.cpp 59-68 *)
Definition to_integer_signed (combined_max : tval) (str : list Z) : result :=
  let '(negative, str') :=
    match str with c :: s => if c =? 45 then (true, s) else (false, str) | [] => (false, str) end in
  let? (P, o) := to_integer_positive combined_max str' in
  let empty := negative && match str' with [] => true | _ => false end in
  then_ (Some (P, if empty then Throw else o)) (fun _ p =>
    conditional (Ok negative) (negate P p) (Some (P, Ok p))).

(** to_integer.cpp 47-74 *)
Definition to_integer (minimum maximum : tval) (str : list Z) : result :=
  let? cmin := constant_t minimum in
  let? cmax := constant_t maximum in
  let? (J, o) :=
    if clt minimum (lit 0)
    then (let? a := ct (safe_abs minimum) in
          let? b := ct (safe_abs maximum) in
          to_integer_signed (if clt a b then b else a) str)
    else to_integer_positive maximum str in
  then_ (Some (J, match str with [] => Throw | _ => o end)) (fun J r =>
    check_in_range (Bounded J) (Bounded cmin) (Bounded cmax) r (lo cmin) (lo cmax)).

(** to_integer.cpp 76-79, Integer bounded. *)
Definition to_integer_as (B : bty) (str : list Z) : result :=
  then_ (to_integer (bmin B) (bmax B) str) (fun R r =>
    let? o := convert B (Bounded R) r in Some (B, o)).

(** ** literal.cpp 33-47, 51-54. The characters of the literal; [None] is a failed
    assertion in constant evaluation. *)
Fixpoint literal_loop (result : Z) (digits : list Z) : option Z :=
  match digits with
  | [] => Some result
  | d :: rest =>
      if d =? 39 then literal_loop result rest
      else
        let r := wrap U128 (result * 10) in
        let n := wrap U128 (d - 48) in
        if n <=? 9 then literal_loop (wrap U128 (r + n)) rest else None
  end.
Definition literal (digits : list Z) : option bty :=
  let? r := literal_loop 0 digits in
  constant_t (TV U128 r).

(** ** pow.cpp *)

(** pow.cpp 30-35, on the state (base, exponent). *)
Definition pow_square_step (s : Z * Z) : Z * Z + outcome (Z * Z) :=
  let '(base, exponent) := s in
  if exponent mod 2 =? 0
  then
    let base' := wrap U128 (base * base) in
    if (base =? 0) || (base' / base =? base) then inl (base', exponent / 2) else inr UB
  else inr (Ok (base, exponent)).
(** pow.cpp 37-41, on the state (n, result). *)
Definition pow_multiply_step (base exponent : Z) (s : Z * Z) : Z * Z + outcome Z :=
  let '(n, result) := s in
  if n =? wrap U128 (exponent - 1) then inr (Ok result)
  else
    let result' := wrap U128 (result * base) in
    if (base =? 0) || (result' / base =? result)
    then inl (wrap U128 (n + 1), result') else inr UB.
(** pow.cpp 25-43. Both arguments are max_unsigned_t; the loops run at most 128 and
    [exponent] times. A compiler's limit on constant evaluation steps is not
    modelled. *)
Definition pow_impl (base exponent : Z) : outcome Z :=
  if exponent =? 0 then (if base =? 0 then UB else Ok 1)
  else
    match loop 128 pow_square_step (base, exponent) with
    | inr (Ok (b, e)) =>
        match loop (Z.to_pos e) (pow_multiply_step b e) (0, b) with
        | inr o => o
        | inl _ => UB
        end
    | _ => UB
    end.

(** pow.cpp 47-56 *)
Definition pow (A B : bty) (x y : Z) : result :=
  let zero := const_of (lit 0) in
  let? b1 := ct (greater_equal (const_of (bmin B)) zero (lo B) 0) in
  let? _ := guard b1 in
  let? b2 := ct (greater_equal (const_of (bmin A)) zero (lo A) 0) in
  let? _ := guard b2 in
  let? l := ct (pow_impl (wrap U128 (lo A)) (wrap U128 (lo B))) in
  let? h := ct (pow_impl (wrap U128 (hi A)) (wrap U128 (hi B))) in
  let? R := mk_integer (normalize (TV U128 l)) (normalize (TV U128 h)) in
  construct_unchecked R U128
    (do a <- to_builtin U128 (Bounded A) x;
     do b <- to_builtin U128 (Bounded B) y;
     do r <- pow_impl (vl a) (vl b);
     Ok (TV U128 r)).

(** ** log.cpp *)

(** log.cpp 27-30, on the state (value, sum). *)
Definition log_step (base : tval) (s : tval * Z) : tval * Z + outcome Z :=
  let '(v, sum) := s in
  if cge v base
  then match cdiv v base with
       | Ok q => inl (cast (ty v) q, sum + 1)
       | _ => inr UB
       end
  else inr (Ok sum).
(** log.cpp 25-32. A 128-bit value is divided by a base of at least 2 fewer than 128
    times. *)
Definition log_impl (v base : tval) : outcome Z :=
  match loop 128 (log_step base) (v, 0) with inr o => o | inl _ => UB end.

(** log.cpp 34-36 *)
Definition as_unsigned (v : tval) : tval := cast (make_unsigned (ty v)) v.

(** std::bit_width *)
Definition bit_width (v : tval) : Z := if vl v =? 0 then 0 else Z.log2 (vl v) + 1.

(** log.cpp 44-57. [ext] says whether the standard library's std::bit_width accepts
    128-bit integers. The static_assert of line 46 reads the parameter [base], which
    is a constant expression only if its type is a constant. *)
Definition log (ext : bool) (A B : bty) (x y : Z) : result :=
  let? _ := guard (is_constant B) in
  let? b1 := ct (greater (Bounded B) (const_of (lit 1)) (lo B) 1) in
  let? _ := guard b1 in
  let? b2 := ct (greater_equal (const_of (bmin A)) (const_of (lit 0)) (lo A) 0) in
  let? _ := guard b2 in
  let? l := ct (log_impl (cast U128 (bmin A)) (cast U128 (bmax B))) in
  let? h := ct (log_impl (cast U128 (bmax A)) (cast U128 (bmin B))) in
  let? R := mk_integer (lit l) (lit h) in
  let? two := ct (equal (Bounded B) (const_of (lit 2)) (lo B) 2) in
  if two && (ext || (ty_bits (und A) <? 128))
  then
    construct_unchecked R I32
      (do e <- equal (Bounded A) (const_of (lit 0)) x 0;
       if e then Ok (lit 0)
       else (do v <- value A x; Ok (lit (bit_width (as_unsigned v) - 1))))
  else
    construct_unchecked R I32
      (do v <- value A x;
       do b <- value B y;
       do r <- log_impl (as_unsigned v) (as_unsigned b);
       Ok (lit r)).

(** ** representation_digits.cpp *)

(** representation_digits.cpp 22 *)
Inductive count_sign : Set := CountAll | CountNegative.

(** A bounded constant as (type, value): the value is the type's only one. *)
Definition as_const (B : bty) : result := Some (B, Ok (lo B)).

(** representation_digits.cpp 26-34. [v] is the value of [constant<...>]. *)
Definition safe_log (ext : bool) (sign : count_sign) (base : bty) (v : tval) : result :=
  let? V := constant_t v in
  if lo V =? 0 then (let? z := constant_t (lit 0) in as_const z)
  else if 0 <? lo V then log ext V base (lo V) (lo base)
  else
    let? s := constant_t (lit (match sign with CountNegative => 1 | CountAll => 0 end)) in
    then_ (negate V (lo V)) (fun N n =>
    then_ (log ext N base n (lo base)) (fun L l =>
    plus L s l (lo s))).

(** representation_digits.cpp 24-39 *)
Definition digits_impl (ext : bool) (sign : count_sign) (T : ity) (base : bty) : result :=
  let sign_bit :=
    match sign with
    | CountAll => if clt (imin T) (lit 0) then 1 else 0
    | CountNegative => 0
    end in
  let? one := constant_t (lit 1) in
  let? sb := constant_t (lit sign_bit) in
  then_ (safe_log ext sign base (imin T)) (fun RMIN rmin =>
  then_ (safe_log ext sign base (imax T)) (fun RMAX rmax =>
  then_ (extreme2 ByGreater RMIN RMAX rmin rmax) (fun M m =>
  then_ (plus M sb m sign_bit) (fun S s =>
  plus S one s 1)))).

(** representation_digits.cpp 41-44 *)
Definition digits_in_string_representation (ext : bool) (T : ity) (base : bty) : result :=
  digits_impl ext CountNegative T base.
(** representation_digits.cpp 46-48 *)
Definition representation_bits (ext : bool) (T : ity) : result :=
  let? two := constant_t (lit 2) in digits_impl ext CountAll T two.

(** ** numeric_limits.cpp 28-44, for constants minimum, maximum and base. *)
Definition limits_digits (ext : bool) (B base : bty) : result :=
  let? _ := guard (is_constant base && (1 <? lo base)) in
  let? one := constant_t (lit 1) in
  let? MN := constant_t (bmin B) in
  let? MX := constant_t (bmax B) in
  if (0 <? lo B) || (hi B <=? 0) then (let? z := constant_t (lit 0) in as_const z)
  else if hi B =? ty_max umax_t
  then (if lo base =? 2
        then (let? s := constant_t (lit (ty_bits umax_t)) in as_const s)
        else log ext MX base (hi B) (lo base))
  else
    let? (N, no) := negate MN (lo B) in
    let? n := ct no in
    if (lo B =? 0) || (hi B <? n)
    then then_ (plus MX one (hi B) 1) (fun S s => log ext S base s (lo base))
    else then_ (plus N one n 1) (fun S s => log ext S base s (lo base)).

(** numeric_limits.cpp 54, 66-67, 81-89 *)
Definition limits_is_signed (B : bty) : bool := clt (bmin B) (lit 0).
Definition limits_min (B : bty) : result := let? c := constant_t (bmin B) in as_const c.
Definition limits_max (B : bty) : result := let? c := constant_t (bmax B) in as_const c.

(** ** number_of.cpp 15-16 *)
Definition number_of (T : ity) : result :=
  let? mx := constant_t (imax T) in
  let? mn := constant_t (imin T) in
  let? one := constant_t (lit 1) in
  then_ (minus mx mn (lo mx) (lo mn)) (fun D d => plus D one d 1).

(** ** tombstone.cpp 57-86. A representation of a non-constant bounded integer is any
    value of its underlying type. *)
Record tombstone_info : Set := TInfo {
  ti_umin : bty; ti_umax : bty;      (* lines 61-62 *)
  ti_below : bty; ti_above : bty;    (* lines 63-64 *)
  ti_index : bty                     (* lines 65-68 *)
}.

(** tombstone.cpp 61-68; each is a constant, represented by its type. *)
Definition tombstone_consts (T : bty) : option tombstone_info :=
  let? _ := guard (negb (is_constant T)) in
  let? one := constant_t (lit 1) in
  let? umin := constant_t (TV (und T) (ty_min (und T))) in
  let? umax := constant_t (TV (und T) (ty_max (und T))) in
  let? (below, _) := minus (Bty (bmin T) (bmin T)) umin (lo T) (lo umin) in
  let? (above, _) := minus umax (Bty (bmax T) (bmax T)) (lo umax) (hi T) in
  let? (sum, _) := plus below above (lo below) (lo above) in
  let? (last, _) := minus sum one (lo sum) 1 in
  let? index := mk_integer (lit (-1)) (normalize (bmin last)) in
  Some (TInfo umin umax below above index).

(** tombstone.cpp 70-76, with the constraint of tombstone_traits::make (98-101,
    113). The outcome is the raw representation. *)
Definition tombstone_make (T : bty) (i : Z) : result :=
  let? ti := tombstone_consts T in
  let? J := constant_t (TV (if 0 <=? i then U128 else I128) i) in
  let? _ := guard ((0 <=? i) && (i <=? hi (ti_index ti))) in
  let? one := constant_t (lit 1) in
  let? (V1, o1) := plus J (ti_umin ti) i (lo (ti_umin ti)) in
  let? (V2, o2) :=
    then_ (minus J (ti_below ti) i (lo (ti_below ti))) (fun D d =>
    then_ (plus D (Bty (bmax T) (bmax T)) d (hi T)) (fun E e =>
    plus E one e 1)) in
  let? b := ct (less (Bounded J) (Bounded (ti_below ti)) i (lo (ti_below ti))) in
  construct_unchecked T (und T)
    (if b then (do v <- o1; to_builtin (und T) (Bounded V1) v)
     else (do v <- o2; to_builtin (und T) (Bounded V2) v)).

(** tombstone.cpp 77-85. [raw] is value.m_value. *)
Definition tombstone_index (T : bty) (raw : Z) : result :=
  let? ti := tombstone_consts T in
  let? one := constant_t (lit 1) in
  let? (M1, _) := negate one 1 in
  let? D := deduced (Builtin (und T)) in
  let? v := convert D (Builtin (und T)) raw in
  let tmin := Bty (bmin T) (bmin T) in
  let tmax := Bty (bmax T) (bmax T) in
  then_ (Some (D, v)) (fun D v =>
    let inner :=
      conditional (greater (Bounded D) (Bounded tmax) v (hi T))
        (then_ (plus D (ti_below ti) v (lo (ti_below ti))) (fun E e =>
         then_ (minus E tmax e (hi T)) (fun F f =>
         minus F one f 1)))
        (as_const M1) in
    then_ (conditional (less (Bounded D) (Bounded tmin) v (lo T))
             (minus D (ti_umin ti) v (lo (ti_umin ti))) inner) (fun C c =>
    then_ (assume_in_range_to (ti_index ti) (Bounded C) c) (fun R r =>
    let? o := convert (ti_index ti) (Bounded R) r in Some (ti_index ti, o)))).
