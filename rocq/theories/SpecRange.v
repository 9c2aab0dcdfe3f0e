(** * What a range is, for the properties of algorithms and views

    Nothing here is used by the model. *)

From Coq Require Import List ZArith Bool.
From Verif Require Import Range.
Import ListNotations.
Local Open Scope Z_scope.

Definition if_any {T} (o : option T) (P : T -> Prop) : Prop := match o with Some t => P t | None => True end.

(** The range [r] consists of the elements [xs], and [it i] is its iterator to position [i]; [it (length xs)] is its end. Every
    operation that the iterators have is right at every position: walking reaches each position once and ends at the end,
    equality and order are those of positions, an offset leads to the position it should and a difference is the distance.
    No difference is too large for difference_type. *)
Record lists_at {I A} (r : range I A) (it : nat -> I) (xs : list A) : Prop := {
  l_first : first r = Val (it 0%nat);
  l_stop : forall i, (i <= length xs)%nat -> stop r (it i) = Val (Nat.eqb i (length xs));
  l_get : forall i x, nth_error xs i = Some x -> get r (it i) = Val x;
  l_next : forall i, (i < length xs)%nat -> next r (it i) = Val (it (S i));
  l_same : if_any (same r) (fun f => forall i j, (i <= length xs)%nat -> (j <= length xs)%nat -> f (it i) (it j) = Val (Nat.eqb i j));
  l_last : if_any (last r) (fun e => e = Val (it (length xs)));
  l_prev : if_any (prev r) (fun f => forall i, (i < length xs)%nat -> f (it (S i)) = Val (it i));
  l_plus : if_any (plus r) (fun f => forall i d, (i <= length xs)%nat -> 0 <= Z.of_nat i + d <= Z.of_nat (length xs) ->
             backward r = true \/ 0 <= d -> f (it i) d = Val (it (Z.to_nat (Z.of_nat i + d))));
  l_minus : if_any (minus r) (fun f => forall i j, (i <= length xs)%nat -> (j <= length xs)%nat ->
              f (it i) (it j) = Val (Z.of_nat i - Z.of_nat j));
  l_order : if_any (order r) (fun f => forall i j, (i <= length xs)%nat -> (j <= length xs)%nat ->
              f (it i) (it j) = Val (Nat.compare i j));
  l_reach : Z.of_nat (length xs) <= reach r;
  l_size : if_any (size r) (fun s => s = Val (Z.of_nat (length xs))) }.
Definition lists {I A} (r : range I A) (xs : list A) : Prop := exists it, lists_at r it xs.

(** Which operations the iterators of two ranges have. *)
Definition has {T} (o : option T) : bool := match o with Some _ => true | None => false end.
Definition abilities {I A} (r : range I A) : list bool :=
  [has (same r); has (last r); has (prev r); has (plus r); backward r; has (minus r); has (order r); has (size r)].
Definition random_access {I A} (r : range I A) : Prop := abilities r = [true; true; true; true; true; true; true; true].

(** Taking [n] elements one by one: what is read, and the iterator that is reached. *)
Fixpoint walk_from {I A} (n : nat) (r : range I A) (it : I) : res (list A * I) :=
  match n with
  | O => Val ([], it)
  | S n =>
      let* e := stop r it in
      if e then Undefined
      else
        let* x := get r it in
        let* it := next r it in
        let* xs := walk_from n r it in
        Val (x :: fst xs, snd xs)
  end.
Definition walk {I A} (n : nat) (r : range I A) : res (list A * I) := let* it := first r in walk_from n r it.

(** The rows of several lists side by side: as many as the shortest has elements, each with one element of every list. *)
Fixpoint rows {A} (xss : list (list A)) : list (list A) :=
  match xss with
  | [] => []
  | [xs] => map (fun x => [x]) xs
  | xs :: xss => map (fun p => fst p :: snd p) (combine xs (rows xss))
  end.
(** The [i]-th row of [xss] is [row]. *)
Definition row_of {A} (xss : list (list A)) (i : nat) (row : list A) : Prop := Forall2 (fun xs x => nth_error xs i = Some x) xss row.

(** A range without some of its operations. *)
Definition without_order {I A} (r : range I A) : range I A :=
  Range (first r) (stop r) (get r) (next r) (same r) (last r) (prev r) (plus r) (backward r) (minus r) None (reach r) (size r).
Definition without_comparison {I A} (r : range I A) : range I A :=
  Range (first r) (stop r) (get r) (next r) None (last r) (prev r) (plus r) (backward r) (minus r) None (reach r) (size r).
(** The range without differences of its iterators, and with a difference_type that goes up to [max]. *)
Definition without_difference {I A} (max : Z) (r : range I A) : range I A :=
  Range (first r) (stop r) (get r) (next r) (same r) (last r) (prev r) (plus r) (backward r) None (order r) max (size r).

(** A delimiter is a list of tests for consecutive elements; this is where it is found. *)
Fixpoint begins {A} (ds : list (A -> bool)) (xs : list A) : Prop :=
  match ds, xs with
  | [], _ => True
  | d :: ds, x :: xs => d x = true /\ begins ds xs
  | _ :: _, [] => False
  end.
(** [cut_by ds xs ps dels]: the list is cut into the pieces [ps] by the delimiters [dels], each of which is the first place where a
    delimiter begins after the one before. *)
Inductive cut_by {A} (ds : list (A -> bool)) : list A -> list (list A) -> list (list A) -> Prop :=
| cut_last xs : (forall i, ~ begins ds (skipn i xs)) -> cut_by ds xs [xs] []
| cut_more p del rest ps dels :
    length del = length ds -> begins ds del -> (forall i, (i < length p)%nat -> ~ begins ds (skipn i (p ++ del ++ rest))) ->
    cut_by ds rest ps dels -> cut_by ds (p ++ del ++ rest) (p :: ps) (del :: dels).
(** Pieces and delimiters in turn. *)
Fixpoint alternate {A} (ps dels : list A) : list A :=
  match ps, dels with
  | p :: ps, d :: dels => p :: d :: alternate ps dels
  | ps, _ => ps
  end.

(** The groups of [g] consecutive elements. *)
Fixpoint windows {A} (g : nat) (xs : list A) : list (list A) :=
  match xs with
  | [] => []
  | _ :: xs' => if Nat.leb g (length xs) then firstn g xs :: windows g xs' else []
  end.

(** Consecutive elements are related. *)
Fixpoint linked {A} (p : A -> A -> bool) (xs : list A) : Prop :=
  match xs with
  | x :: ((y :: _) as xs') => p x y = true /\ linked p xs'
  | _ => True
  end.
(** The last element of each list and the first of the next one are not related, and none is empty. *)
Fixpoint breaks {A} (p : A -> A -> bool) (xss : list (list A)) : Prop :=
  match xss with
  | [] => True
  | xs :: xss' => xs <> [] /\ breaks p xss' /\
      match xss' with
      | (y :: _) :: _ => exists ws x, xs = ws ++ [x] /\ p x y = false
      | _ => True
      end
  end.

(** Lists with a separator between them. *)
Fixpoint joined {A} (separator : list A) (xss : list (list A)) : list A :=
  match xss with
  | [] => []
  | [xs] => xs
  | xs :: xss => xs ++ separator ++ joined separator xss
  end.

(** [f], [f + step], ... : [n] numbers *)
Fixpoint progression (f step : Z) (n : nat) : list Z :=
  match n with O => [] | S n => f :: progression (f + step) step n end.
