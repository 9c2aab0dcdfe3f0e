(** * Iterators for the standard library: source/containers/legacy_iterator.cpp, source/containers/legacy_range.cpp

    An iterator type of the library is described by the operations of a range that uses it (Range.v). *)

From Coq Require Import List ZArith Bool.
From Verif Require Import Range Pieces.
Import ListNotations.
Local Open Scope Z_scope.

(** 83-84: legacy_iterator holds an iterator (non_optional, 51-79) when Iterator has a default constructor or is not a forward iterator,
    otherwise an optional one. *)
Definition always_exists (default_constructible forward : bool) : bool := default_constructible || negb forward.

Section Legacy.
Context {I A : Type}.

(** The member m_it (149-150). For non_optional it always has an iterator. *)
Definition legacy := option I.

(** 91: the default constructor. [None]: deleted, because non_optional has no default constructor (52-61 declare the others). *)
Definition default_construct (always : bool) : option legacy := if always then None else Some None.
(** 92-94, 154-156 *)
Definition wrap (it : I) : legacy := Some it.
(** 101-103: only for iterators that always exist *)
Definition base (o : legacy) : res I := match o with Some it => Val it | None => Undefined end.
(** 105-107 *)
Definition legacy_get (r : range I A) (o : legacy) : res A := match o with Some it => get r it | None => Undefined end.
(** 112-114. [to_address]: of the iterator; the null pointer is [None]. *)
Definition legacy_to_address {P} (to_address : I -> P) (o : legacy) : option P := match o with Some it => Some (to_address it) | None => None end.
(** 116-119 *)
Definition engaged (o : legacy) : bool := match o with Some _ => true | None => false end.
Definition legacy_order (order : I -> I -> res comparison) (l r : legacy) : res comparison :=
  assume (Bool.eqb (engaged l) (engaged r)) match l, r with Some i, Some j => order i j | _, _ => Val Eq end.
(** 120, with operator== of non_optional (76) or of tv::optional: two iterators that do not exist are equal. *)
Definition legacy_same (same : I -> I -> res bool) (l r : legacy) : res bool :=
  match l, r with
  | Some i, Some j => same i j
  | None, None => Val true
  | _, _ => Val false
  end.
(** 122-126. Inside of assume_in_range: difference_type goes from [- reach] or, for iterators that cannot go back, from 0. *)
Definition legacy_plus (r : range I A) (plus : I -> Z -> res I) (o : legacy) (d : Z) : res legacy :=
  if d =? 0 then Val o
  else match o with
  | Some it => assume (((if backward r then - reach r else 0) <=? d) && (d <=? reach r)) (let* it := plus it d in Val (Some it))
  | None => Undefined
  end.
(** 127-130, 136-139 *)
Definition legacy_next (r : range I A) (o : legacy) : res legacy :=
  match o with Some it => let* it := next r it in Val (Some it) | None => Undefined end.
Definition legacy_prev (prev : I -> res I) (o : legacy) : res legacy :=
  match o with Some it => let* it := prev it in Val (Some it) | None => Undefined end.
(** 132-135. The conversion to std::ptrdiff_t. *)
Definition to_ptrdiff (z : Z) : Z := (z + 2 ^ 63) mod 2 ^ 64 - 2 ^ 63.
Definition legacy_minus (minus : I -> I -> res Z) (l r : legacy) : res Z :=
  assume (Bool.eqb (engaged l) (engaged r)) match l, r with Some i, Some j => let* z := minus i j in Val (to_ptrdiff z) | _, _ => Val 0 end.

(** The operations of a legacy_iterator as operations of a range. *)
Definition legacy_operations (r : range I A) : range legacy A :=
  Range (let* it := first r in Val (wrap it))
    (fun o => match o with Some it => stop r it | None => Undefined end)
    (legacy_get r) (legacy_next r)
    (option_map legacy_same (same r))
    (option_map (fun e => let* it := e in Val (wrap it)) (last r))
    (option_map legacy_prev (prev r))
    (option_map (legacy_plus r) (plus r)) (backward r)
    (option_map legacy_minus (minus r))
    (option_map legacy_order (order r))
    (2 ^ 63 - 1)
    None.
(** legacy_range.cpp 18-23: the subrange from legacy_iterator(begin(r)) to legacy_iterator(end(r)). [None]: it does not compile, because the end
    is not an iterator or the iterators cannot be compared. *)
Definition legacy_range (r : range I A) : option (res (range legacy A)) :=
  match last r, same r with
  | Some e, Some _ => Some (let* b := first r in let* e := e in Val (subrange (legacy_operations r) (wrap b) (wrap e)))
  | _, _ => None
  end.
End Legacy.
Arguments legacy : clear implicits.

(** 95-99: construction from a legacy_iterator of another iterator type with the conversion [f]. [always]: of the target. *)
Definition convert {I J} (always : bool) (f : I -> J) (o : legacy I) : res (legacy J) :=
  match o with
  | Some it => Val (Some (f it))
  | None => if always then Undefined else Val None
  end.
