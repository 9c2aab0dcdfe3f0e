(** * Model of reading and writing a bounded integer on a stream

    bounded/stream.cpp. The streams are those of StringIn.v with characters as their codes; the flags other than
    skipws, the locale and the field width of the output have their default values, except that the locale decides
    which characters are spaces. The streams' own operators for built-in integers are of the standard library: what
    they do here is what the usual implementations do. *)

From Coq Require Import List Bool ZArith.
From Verif Require Import Cxx Core Arith Funcs StringIn.
Import ListNotations.
Open Scope Z_scope.

(** ** Standard library: writing *)

(** The decimal digits of a number that is not negative, in front of [acc]. 39 digits are enough for 128 bits. *)
Fixpoint put_digits (fuel : nat) (n : Z) (acc : list Z) : list Z :=
  match fuel with
  | O => acc
  | S fuel =>
      let acc := (48 + n mod 10) :: acc in
      if n / 10 =? 0 then acc else put_digits fuel (n / 10) acc
  end.
(** std::ostream << v: char, signed char and unsigned char are written as the character itself. There is no
    operator for 128-bit integers. *)
Definition insert (v : tval) : option (list Z) :=
  if ty_bits (ty v) =? 8 then Some [vl v]
  else if 64 <? ty_bits (ty v) then None
  else Some (if vl v <? 0 then 45 :: put_digits 39 (- vl v) [] else put_digits 39 (vl v) []).

(** stream.cpp 17-23: out << +x.value(), the characters written. *)
Definition write (B : bty) (x : Z) : option (outcome (list Z)) :=
  let? _ := insert (TV (promote (und B)) 0) in
  Some (do v <- value B x;
        match insert (cplus1 v) with Some text => Ok text | None => UB end).

(** ** Standard library: reading *)

Definition is_digit (c : Z) : bool := (48 <=? c) && (c <=? 57).
(** Is there a minus sign, and what comes after the sign. *)
Definition take_sign (l : list Z) : bool * list Z :=
  match l with
  | c :: r => if c =? 45 then (true, r) else if c =? 43 then (false, r) else (false, l)
  | [] => (false, [])
  end.
Fixpoint take_digits (l : list Z) : list Z * list Z :=
  match l with
  | c :: r => if is_digit c then (c :: fst (take_digits r), snd (take_digits r)) else ([], l)
  | [] => ([], [])
  end.
Definition magnitude (digits : list Z) : Z := fold_left (fun n c => 10 * n + (c - 48)) digits 0.
(** What is stored for the sign and the digits, and whether it is a failure: 0 without digits; the nearest value of
    the type for a number out of its range, where an unsigned type looks at the number without its sign. *)
Definition stored (t : cty) (minus : bool) (digits : list Z) : Z * bool :=
  match digits with
  | [] => (0, true)
  | _ =>
    let m := magnitude digits in
    let v := if minus then - m else m in
    if is_signed t then
      if v <? ty_min t then (ty_min t, true) else if ty_max t <? v then (ty_max t, true) else (v, false)
    else if ty_max t <? m then (ty_max t, true) else (wrap t v, false)
  end.
Definition get_number (t : cty) (s : stream Z) : stream Z * Z :=
  let sl := take_sign (st_rest s) in
  let dl := take_digits (snd sl) in
  let vf := stored t (fst sl) (fst dl) in
  (Stream (snd dl) (st_width s) (st_skipws s)
     (st_eof s || match snd dl with [] => true | _ => false end) (st_fail s || snd vf) (st_bad s), fst vf).
(** std::istream >> temp. [None]: temp has not been written, because the sentry failed. *)
Definition extract_builtin (space : Z -> bool) (t : cty) (s : stream Z) : stream Z * option Z :=
  let ss := sentry space s in
  if snd ss then (fst (get_number t (fst ss)), Some (snd (get_number t (fst ss)))) else (fst ss, None).

(** stream.cpp 27-34 *)
Definition intermediate (B : bty) : cty :=
  let use_int := (ty_bits (und B) <? ty_bits I32) || ((ty_bits (und B) =? ty_bits I32) && is_signed (und B)) in
  let use_unsigned := ty_bits (und B) =? ty_bits U32 in
  if use_int then I32 else if use_unsigned then U32 else und B.

(** stream.cpp 37 after 36: x = check_in_range<Integer>(integer(temp)), the new value of x. *)
Definition take (B : bty) (t : cty) (temp : Z) : option (outcome Z) :=
  let? T := deduced (Builtin t) in
  let? o := convert T (Builtin t) temp in
  let? (_, o) := then_ (then_ (Some (T, o)) (fun T v => check_in_range_to B (Bounded T) v)) (assign_result B) in
  Some o.
(** stream.cpp 25-39: in >> x. The stream afterwards and the new value of x; [Throw]: an exception left the function
    and x has its old value. [temp] (35) is not initialized: reading it when nothing has been stored is undefined. *)
Definition read (space : Z -> bool) (B : bty) (s : stream Z) : option (stream Z * outcome Z) :=
  let t := intermediate B in
  let? _ := guard (ty_bits t <=? 64) in
  let? _ := take B t 0 in
  let st := extract_builtin space t s in
  match snd st with
  | None => Some (fst st, UB)
  | Some temp => let? o := take B t temp in Some (fst st, o)
  end.
