(** * What the algorithms on whole ranges are for

    Nothing here is used by the model. *)

From Coq Require Import List ZArith Bool.
From Verif Require Import Range Sequence.
Import ListNotations.

(** The first [k] elements of the lists are related, place by place. *)
Definition agree {A B} (p : A -> B -> Prop) (xs : list A) (ys : list B) (k : nat) : Prop :=
  forall i, (i < k)%nat -> exists x y, nth_error xs i = Some x /\ nth_error ys i = Some y /\ p x y.
(** [k] is the first place where the lists are not related; it may be the end of one of them. *)
Definition first_difference {A B} (p : A -> B -> Prop) (xs : list A) (ys : list B) (k : nat) : Prop :=
  agree p xs ys k /\ forall x y, nth_error xs k = Some x -> nth_error ys k = Some y -> ~ p x y.
(** The first difference decides; a list that ends there is the smaller one. *)
Definition lexicographic {A B} (cmp : A -> B -> ordering) (xs : list A) (ys : list B) (o : ordering) : Prop :=
  exists k, first_difference (fun x y => cmp x y = Equivalent) xs ys k /\
    match nth_error xs k, nth_error ys k with
    | Some x, Some y => o = cmp x y
    | Some _, None => o = Greater
    | None, Some _ => o = Less
    | None, None => o = Equivalent
    end.
(** The length decides, and then the first difference. *)
Definition shortlex {A B} (cmp : A -> B -> ordering) (xs : list A) (ys : list B) (o : ordering) : Prop :=
  match Nat.compare (length xs) (length ys) with
  | Lt => o = Less
  | Gt => o = Greater
  | Eq => lexicographic cmp xs ys o
  end.
Definition opposite (o : ordering) : ordering :=
  match o with Less => Greater | Greater => Less | o => o end.

(** A strict weak order, given by its less than. *)
Record weak_order {A} (less : A -> A -> bool) : Prop := {
  w_irreflexive : forall x, less x x = false;
  w_transitive : forall x y z, less x y = true -> less y z = true -> less x z = true;
  w_equivalent : forall x y z, less x y = false -> less y x = false -> less y z = false -> less z y = false ->
                   less x z = false /\ less z x = false }.
(** Neither is less than the other. *)
Definition equivalent {A} (less : A -> A -> bool) (x y : A) : bool := negb (less x y) && negb (less y x).
(** No element is less than one before it. *)
Definition in_order {A} (less : A -> A -> bool) (xs : list A) : Prop :=
  forall i j x y, (i < j)%nat -> nth_error xs i = Some x -> nth_error xs j = Some y -> less y x = false.

(** What [n] calls of a function with effects on [W] return, and what they leave. *)
Inductive calls {W A} (f : W -> A * W) : nat -> W -> list A -> W -> Prop :=
| calls_none w : calls f O w [] w
| calls_one n w a w1 xs w' : f w = (a, w1) -> calls f n w1 xs w' -> calls f (S n) w (a :: xs) w'.
(** Calls of the function until it returns none; the last call is the one that does. *)
Inductive calls_until_none {W A} (f : W -> option A * W) : W -> list A -> W -> Prop :=
| until_none w w' : f w = (None, w') -> calls_until_none f w [] w'
| until_some w a w1 xs w' : f w = (Some a, w1) -> calls_until_none f w1 xs w' -> calls_until_none f w (a :: xs) w'.
(** Calls of [f] until [is_done], which is asked before each. *)
Inductive calls_until_done {W A} (f : W -> A * W) (is_done : W -> bool * W) : W -> list A -> W -> Prop :=
| done_now w w' : is_done w = (true, w') -> calls_until_done f is_done w [] w'
| done_later w w1 a w2 xs w' :
    is_done w = (false, w1) -> f w1 = (a, w2) -> calls_until_done f is_done w2 xs w' -> calls_until_done f is_done w (a :: xs) w'.

(** [ps] are the pairs of equivalent elements of two sorted lists: of every class of equivalent elements the first ones of both lists
    are paired, in order, as long as both have some, and the classes are in order. *)
Definition intersection {A} (less : A -> A -> bool) (xs ys : list A) (ps : list (A * A)) : Prop :=
  (forall x y, In (x, y) ps -> equivalent less x y = true) /\
  in_order less (map fst ps) /\
  forall a, List.filter (fun p => equivalent less a (fst p)) ps =
    combine (List.filter (equivalent less a) xs) (List.filter (equivalent less a) ys).
