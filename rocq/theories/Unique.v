(** * unique, unique_copy, unique_merge_copy and unique_inplace_merge

    Models containers/algorithms/unique.cpp 42-200. Here memory is a list of arrays, and an array is the list of the values of its elements;
    a place is the number of an array and an index. [None]: a place that does not exist. Comparing and assigning elements do not throw.
    [moved v] is what is left of [v] when it is moved from, and [self_moved v] what is left when it is moved to itself. *)

From Coq Require Import List Arith Bool.
From Verif Require Import Mem.
Import ListNotations.
Local Open Scope nat_scope.

Section Unique.
Context {V : Type} (moved self_moved : V -> V).

Definition arrays := list (list V).
Definition read (h : arrays) (b i : nat) : option V :=
  match nth_error h b with Some l => nth_error l i | None => None end.
Definition write (h : arrays) (b i : nat) (v : V) : option arrays :=
  match nth_error h b with
  | Some l => if i <? length l then Some (set_nth h b (set_nth l i v)) else None
  | None => None
  end.

(** The elements of a move_range (move_range.cpp) are expiring, those of other ranges are not. *)
Inductive transfer := Copy | Move.
(** [*destination = *source]: copy or move assignment *)
Definition assign (t : transfer) (h : arrays) (destination source : nat * nat) : option arrays :=
  let '(b, i) := destination in
  let '(c, j) := source in
  match read h c j with
  | None => None
  | Some v =>
      match t with
      | Copy => write h b i v
      | Move =>
          if (b =? c) && (i =? j) then write h b i (self_moved v)
          else match write h b i v with Some h => write h c j (moved v) | None => None end
      end
  end.

(** unique_common (lines 42-52): [n] elements of the input are left, from [(b, i)] on; [(c, o)] is the output. The result is the index after
    the last element of the output. *)
Fixpoint unique_common (equal : V -> V -> bool) (t : transfer) (n : nat) (h : arrays) (b i c o : nat) : option (arrays * nat) :=
  match n with
  | 0 => Some (h, S o)
  | S n =>
      match read h c o, read h b i with
      | Some output_ref, Some input_ref =>
          if equal output_ref input_ref then unique_common equal t n h b (S i) c o
          else
            match assign t h (c, S o) (b, i) with
            | Some h => unique_common equal t n h b (S i) c (S o)
            | None => None
            end
      | _, _ => None
      end
  end.
(** unique_copy (lines 54-65) *)
Definition unique_copy (equal : V -> V -> bool) (t : transfer) (h : arrays) (b i n c o : nat) : option (arrays * nat) :=
  match n with
  | 0 => Some (h, o)
  | S n =>
      match assign t h (c, o) (b, i) with
      | Some h => unique_common equal t n h b (S i) c o
      | None => None
      end
  end.

(** The loop of find_first_equal (lines 73-80): [n] elements from [first] on. *)
Fixpoint find_first_equal_loop (equal : V -> V -> bool) (n : nat) (h : arrays) (b previous first : nat) : option nat :=
  match n with
  | 0 => Some first
  | S n =>
      match read h b previous, read h b first with
      | Some u, Some v => if equal u v then Some first else find_first_equal_loop equal n h b first (S first)
      | _, _ => None
      end
  end.
(** find_first_equal (lines 68-82) *)
Definition find_first_equal (equal : V -> V -> bool) (h : arrays) (b first n : nat) : option nat :=
  match n with
  | 0 => Some first
  | S n => find_first_equal_loop equal n h b first (S first)
  end.
(** find_if (find.cpp 26-34) *)
Fixpoint find_if (pr : V -> bool) (n : nat) (h : arrays) (b first : nat) : option nat :=
  match n with
  | 0 => Some first
  | S n =>
      match read h b first with
      | Some v => if pr v then Some first else find_if pr n h b (S first)
      | None => None
      end
  end.
(** unique (lines 85-101) *)
Definition unique (equal : V -> V -> bool) (h : arrays) (b first n : nat) : option (arrays * nat) :=
  let last := first + n in
  match find_first_equal equal h b first n with
  | None => None
  | Some equal_element =>
      if equal_element =? last then Some (h, equal_element)
      else
        match read h b equal_element with
        | None => None
        | Some e =>
            match find_if (fun value => negb (equal e value)) (last - S equal_element) h b (S equal_element) with
            | None => None
            | Some other =>
                if other =? last then Some (h, equal_element)
                else
                  match assign Move h (b, equal_element) (b, other) with
                  | Some h => unique_common equal Move (last - S other) h b (S other) b equal_element
                  | None => None
                  end
            end
        end
  end.

Context (less : V -> V -> bool).
Definition not_less (a b : V) : bool := negb (less a b).
(** unique_copy_less, unique_less (lines 103-110) *)
Definition unique_copy_less : transfer -> arrays -> nat -> nat -> nat -> nat -> nat -> option (arrays * nat) := unique_copy not_less.
Definition unique_less : arrays -> nat -> nat -> nat -> option (arrays * nat) := unique not_less.

(** next_greater (lines 113-116) *)
Definition next_greater (h : arrays) (b first n : nat) (x : V) : option nat := find_if (fun value => less x value) n h b first.

(** unique_merge_copy (lines 119-135). The ranges are [n1] elements from [(b1, first1)] on and [n2] elements from [(b2, first2)] on. [fuel]
    is more than the number of iterations. *)
Fixpoint unique_merge_copy (fuel : nat) (t : transfer) (h : arrays) (b1 first1 n1 b2 first2 n2 c output : nat) : option (arrays * nat) :=
  match fuel with
  | 0 => None
  | S fuel =>
      match n1, n2 with
      | S _, S _ =>
          let last1 := first1 + n1 in
          let last2 := first2 + n2 in
          match read h b2 first2, read h b1 first1 with
          | Some v2, Some v1 =>
              let second := less v2 v1 in
              match assign t h (c, output) (if second then (b2, first2) else (b1, first1)) with
              | None => None
              | Some h =>
                  let first1 := if second then first1 else S first1 in
                  let first2 := if second then S first2 else first2 in
                  match read h c output with
                  | None => None
                  | Some x =>
                      match next_greater h b1 first1 (last1 - first1) x, next_greater h b2 first2 (last2 - first2) x with
                      | Some first1, Some first2 =>
                          unique_merge_copy fuel t h b1 first1 (last1 - first1) b2 first2 (last2 - first2) c (S output)
                      | _, _ => None
                      end
                  end
              end
          | _, _ => None
          end
      | S _, 0 => unique_copy_less t h b1 first1 n1 c output
      | 0, _ => unique_copy_less t h b2 first2 n2 c output
      end
  end.

(** [storage_type(::containers::move_range(subrange(first, first + n)))] (lines 154, 188-191): a new array, at the end. *)
Fixpoint move_out (n : nat) (h : arrays) (b first : nat) : option (list V * arrays) :=
  match n with
  | 0 => Some ([], h)
  | S n =>
      match read h b first with
      | None => None
      | Some v =>
          match write h b first (moved v) with
          | None => None
          | Some h => match move_out n h b (S first) with Some (vs, h) => Some (v :: vs, h) | None => None end
          end
      end
  end.
(** The second half of unique_inplace_merge: merge the elements moved from [target, middle) with [new_middle, last) to [target]. The temporary
    array is gone in the end. *)
Definition merge_from_temporary (h : arrays) (b target middle new_middle last : nat) : option (arrays * nat) :=
  match move_out (middle - target) h b target with
  | None => None
  | Some (temp, h) =>
      match unique_merge_copy (S (length temp + (last - new_middle))) Move (h ++ [temp]) (length h) 0 (length temp)
              b new_middle (last - new_middle) b target with
      | None => None
      | Some (h', output) => Some (firstn (length h) h', output)
      end
  end.
(** find_first_to_move (lines 164-179): [before] and [first], with [n] elements from [first] on. *)
Fixpoint find_first_to_move (n : nat) (h : arrays) (b before first : nat) (m : V) : option (nat * nat) :=
  match n with
  | 0 => Some (before, first)
  | S n =>
      match read h b first with
      | None => None
      | Some v => if less m v then Some (before, first) else find_first_to_move n h b first (S first) m
      end
  end.
(** unique_inplace_merge (lines 138-200). The BOUNDED_ASSERTs of lines 140-145 are not checked in the release configuration.
    next_greater (line 192) is called before the elements are moved to the temporary array and not after; it does not look at them. *)
Definition unique_inplace_merge (h : arrays) (b first middle last : nat) : option (arrays * nat) :=
  if (first =? middle) || (middle =? last) then unique_less h b first (last - first)
  else
    match read h b middle, read h b first with
    | Some m, Some f =>
        if less m f then merge_from_temporary h b first middle middle last
        else
          match find_first_to_move (middle - S first) h b first (S first) m with
          | None => None
          | Some (before_target, target) =>
              if target =? middle then unique_less h b before_target (last - before_target)
              else
                match read h b before_target with
                | None => None
                | Some before =>
                    match next_greater h b middle (last - middle) before with
                    | None => None
                    | Some new_middle => merge_from_temporary h b target middle new_middle last
                    end
                end
          end
    | _, _ => None
    end.
End Unique.
