(** * Model of turning an integer into a string

    containers/to_any_string.cpp, and to_string of containers/to_string.cpp (18-24) with it. The string is the list of
    the codes of its characters: push_back appends (what push_back does to the memory of a string is in Vec.v and
    Sbo.v), and reverse reverses (Reverse.v). Running out of memory is not modelled here. *)

From Coq Require Import List Bool ZArith.
From Verif Require Import Cxx Core Arith Funcs.
Import ListNotations.
Open Scope Z_scope.

(** to_any_string.cpp 23: static_cast<char>(x % 10_bi + bounded::constant<'0'>) *)
Definition digit_char (B : bty) (x : Z) : option (outcome Z) :=
  let? ten := constant_t (lit 10) in
  let? zero := constant_t (TV I8 48) in
  let? (R, o) := then_ (modulus B ten x 10) (fun R r => plus R zero r 48) in
  Some (do d <- o; do c <- to_builtin I8 (Bounded R) d; Ok (vl c)).
(** 24: x /= 10_bi *)
Definition next_value (B : bty) (x : Z) : result :=
  let? ten := constant_t (lit 10) in compound divide B ten x 10.
(** 22-25, one round of the do-while loop on x and result. *)
Definition any_step (B : bty) (s : Z * list Z) : Z * list Z + outcome (list Z) :=
  let '(x, acc) := s in
  match digit_char B x, next_value B x with
  | Some (Ok c), Some (_, Ok q) =>
      let acc := acc ++ [c] in
      match greater (Bounded B) (const_of (lit 0)) q 0 with
      | Ok true => inl (q, acc)
      | Ok false => inr (Ok acc)
      | _ => inr UB
      end
  | Some Throw, _ | _, Some (_, Throw) => inr Throw
  | _, _ => inr UB
  end.
(** 19-31. 39 digits are enough for 128 bits. The first line: the body is accepted by the compiler. *)
Definition to_any_string_impl (B : bty) (x : Z) (include_minus : bool) : option (outcome (list Z)) :=
  let? _ := digit_char B (lo B) in
  let? _ := next_value B (lo B) in
  Some (match loop 39 (any_step B) (x, []) with
        | inr o => do s <- o; Ok (rev (if include_minus then s ++ [45] else s))
        | inl _ => UB
        end).
(** 33-36 *)
Definition include_zero (T : bty) (x : Z) : result :=
  let? B := mk_integer (lit 0) (bmax T) in
  let? o := convert B (Bounded T) x in Some (B, o).
(** 38-41 *)
Definition to_any_string (A : bty) (x : Z) : option (outcome (list Z)) :=
  let? (B, o) := then_ (abs A x) include_zero in
  let minus := less (Bounded A) (const_of (lit 0)) x 0 in
  let? _ := to_any_string_impl B (lo B) false in
  Some (do y <- o; do m <- minus;
        match to_any_string_impl B y m with Some r => r | None => UB end).
(** 43-46, the argument of a built-in type *)
Definition to_any_string_builtin (t : cty) (x : Z) : option (outcome (list Z)) :=
  let? A := deduced (Builtin t) in
  let? o := convert A (Builtin t) x in
  match o with
  | Ok y => to_any_string A y
  | _ => None
  end.
