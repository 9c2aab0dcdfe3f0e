(** * Sorting by comparison

    containers/algorithms/sort/: sort_exactly_1 to sort_exactly_5.cpp, sort_exactly_n.cpp,
    small_size_optimized_sort.cpp, merge_relocate_second_range.cpp, chunked_insertion_sort.cpp,
    fixed_size_merge_sort.cpp, rotate_one.cpp, relocate_in_order.cpp, is_sorted.cpp, on the memory of
    Mem.v. An iterator into the range to sort is the pair of a block and an index. A comparison reads
    two living objects and may throw. *)

From Coq Require Import List Arith Bool.
From Verif Require Import Mem.
Import ListNotations.
Local Open Scope nat_scope.

(** ** Decision trees

    The sorting functions for a fixed number of elements are nested [if]s over [compare(x_i, x_j)]
    that end in a few swaps, rotations or relocations. They are written here as data with the same
    shape; [run] below gives them their meaning. *)
Inductive op : Set :=
| Swap (i j : nat)                  (* std::ranges::swap(x_i, x_j) *)
| Rotate (i : nat) (js : list nat). (* ::containers::rotate_one(x_i, x_js...) *)
Inductive tree : Set :=
| If (i j : nat) (yes no : tree)    (* if (compare(x_i, x_j)) { yes } else { no } *)
| Do (ops : list op)                (* in place *)
| Out (js : list nat).              (* ::containers::relocate_in_order(out, x_js...) *)

(** containers/algorithms/sort/sort_exactly_2.cpp 23-31 *)
Definition in_place_2 : tree :=
If 1 0
    (Do [Swap 0 1])
    (Do []).

(** containers/algorithms/sort/sort_exactly_2.cpp 34-45 *)
Definition relocate_2 : tree :=
If 1 0
    (Out [1; 0])
    (Out [0; 1]).

(** containers/algorithms/sort/sort_exactly_3.cpp 26-52 *)
Definition in_place_3 : tree :=
If 1 0
    (If 2 1
      (Do [Swap 0 2])
      (If 2 0
        (Do [Rotate 0 [1; 2]])
        (Do [Swap 0 1])))
    (If 2 1
      (If 2 0
        (Do [Rotate 0 [2; 1]])
        (Do [Swap 1 2]))
      (Do [])).

(** containers/algorithms/sort/sort_exactly_3.cpp 55-100 *)
Definition relocate_3 : tree :=
If 1 0
    (If 2 1
      (Out [2; 1; 0])
      (If 2 0
        (Out [1; 2; 0])
        (Out [1; 0; 2])))
    (If 2 1
      (If 2 0
        (Out [2; 0; 1])
        (Out [0; 2; 1]))
      (Out [0; 1; 2])).

(** containers/algorithms/sort/sort_exactly_4.cpp 26-128 *)
Definition in_place_4 : tree :=
If 1 0
    (If 2 1
      (If 3 1
        (If 3 2
          (Do [Swap 0 3; Swap 1 2])
          (Do [Rotate 0 [2; 1; 3]]))
        (If 3 0
          (Do [Rotate 0 [2; 3]])
          (Do [Swap 0 2])))
      (If 2 0
        (If 3 2
          (If 3 1
            (Do [Swap 0 3])
            (Do [Rotate 0 [1; 3]]))
          (If 3 0
            (Do [Rotate 0 [1; 2; 3]])
            (Do [Rotate 0 [1; 2]])))
        (If 3 0
          (If 3 1
            (Do [Rotate 0 [3; 2]])
            (Do [Rotate 0 [1; 3; 2]]))
          (If 3 2
            (Do [Swap 0 1; Swap 2 3])
            (Do [Swap 0 1])))))
    (If 2 1
      (If 2 0
        (If 3 0
          (If 3 2
            (Do [Rotate 0 [3; 1; 2]])
            (Do [Swap 0 2; Swap 1 3]))
          (If 3 1
            (Do [Rotate 0 [2; 3; 1]])
            (Do [Rotate 0 [2; 1]])))
        (If 3 2
          (If 3 0
            (Do [Rotate 0 [3; 1]])
            (Do [Swap 1 3]))
          (If 3 1
            (Do [Rotate 1 [2; 3]])
            (Do [Swap 1 2]))))
      (If 3 1
        (If 3 0
          (Do [Rotate 0 [3; 2; 1]])
          (Do [Rotate 1 [3; 2]]))
        (If 3 2
          (Do [Swap 2 3])
          (Do [])))).

(** containers/algorithms/sort/sort_exactly_4.cpp 169-270 *)
Definition relocate_4 : tree :=
If 1 0
    (If 2 1
      (If 3 1
        (If 3 2
          (Out [3; 2; 1; 0])
          (Out [2; 3; 1; 0]))
        (If 3 0
          (Out [2; 1; 3; 0])
          (Out [2; 1; 0; 3])))
      (If 2 0
        (If 3 2
          (If 3 1
            (Out [3; 1; 2; 0])
            (Out [1; 3; 2; 0]))
          (If 3 0
            (Out [1; 2; 3; 0])
            (Out [1; 2; 0; 3])))
        (If 3 0
          (If 3 1
            (Out [3; 1; 0; 2])
            (Out [1; 3; 0; 2]))
          (If 3 2
            (Out [1; 0; 3; 2])
            (Out [1; 0; 2; 3])))))
    (If 2 1
      (If 2 0
        (If 3 0
          (If 3 2
            (Out [3; 2; 0; 1])
            (Out [2; 3; 0; 1]))
          (If 3 1
            (Out [2; 0; 3; 1])
            (Out [2; 0; 1; 3])))
        (If 3 2
          (If 3 0
            (Out [3; 0; 2; 1])
            (Out [0; 3; 2; 1]))
          (If 3 1
            (Out [0; 2; 3; 1])
            (Out [0; 2; 1; 3]))))
      (If 3 1
        (If 3 0
          (Out [3; 0; 1; 2])
          (Out [0; 3; 1; 2]))
        (If 3 2
          (Out [0; 1; 3; 2])
          (Out [0; 1; 2; 3])))).

(** containers/algorithms/sort/sort_exactly_5.cpp 23-542 *)
Definition in_place_5 : tree :=
If 1 0
    (If 3 2
      (If 3 1
        (If 4 1
          (If 2 1
            (If 4 3
              (Do [Swap 0 4; Swap 1 3])
              (If 4 2
                (Do [Rotate 0 [3; 1; 4]])
                (Do [Rotate 0 [3; 1; 2; 4]])))
            (If 2 0
              (If 4 3
                (Do [Swap 0 4; Rotate 1 [3; 2]])
                (Do [Rotate 0 [3; 2; 1; 4]]))
              (If 4 3
                (Do [Rotate 0 [4; 2; 1; 3]])
                (Do [Swap 0 3; Rotate 1 [4; 2]]))))
          (If 4 0
            (If 4 2
              (If 2 0
                (Do [Rotate 0 [3; 2; 4]])
                (Do [Swap 0 3; Swap 2 4]))
              (If 2 1
                (Do [Rotate 0 [3; 4]; Swap 1 2])
                (Do [Rotate 0 [3; 4]])))
            (If 2 0
              (If 2 1
                (Do [Swap 0 3; Swap 1 2])
                (Do [Swap 0 3]))
              (If 4 2
                (Do [Rotate 0 [3; 4; 2]])
                (Do [Rotate 0 [3; 2]])))))
        (If 4 3
          (If 3 0
            (If 2 0
              (If 4 1
                (Do [Swap 0 4; Swap 2 3])
                (Do [Rotate 0 [1; 4]; Swap 2 3]))
              (If 4 1
                (Do [Rotate 0 [4; 2; 3]])
                (Do [Rotate 0 [1; 4; 2; 3]])))
            (If 4 0
              (If 4 1
                (Do [Rotate 0 [4; 2]])
                (Do [Rotate 0 [1; 4; 2]]))
              (Do [Swap 0 1; Swap 2 4])))
          (If 4 2
            (If 4 0
              (If 2 0
                (Do [Rotate 0 [1; 3; 2; 4]])
                (Do [Rotate 0 [1; 3]; Swap 2 4]))
              (If 3 0
                (Do [Rotate 0 [1; 3; 4; 2]])
                (Do [Swap 0 1; Rotate 2 [3; 4]])))
            (If 2 0
              (If 4 0
                (Do [Rotate 0 [1; 3; 4]])
                (Do [Rotate 0 [1; 3]]))
              (If 3 0
                (Do [Rotate 0 [1; 3; 2]])
                (Do [Swap 0 1; Swap 2 3]))))))
      (If 2 1
        (If 4 1
          (If 3 1
            (If 4 2
              (Do [Swap 0 4; Rotate 1 [2; 3]])
              (If 4 3
                (Do [Rotate 0 [2; 3; 1; 4]])
                (Do [Rotate 0 [2; 4]; Swap 1 3])))
            (If 3 0
              (If 4 2
                (Do [Swap 0 4; Swap 1 2])
                (Do [Rotate 0 [2; 1; 4]]))
              (If 4 2
                (Do [Rotate 0 [4; 3]; Swap 1 2])
                (Do [Rotate 0 [2; 1; 4; 3]]))))
          (If 4 0
            (If 4 3
              (If 3 0
                (Do [Rotate 0 [2; 4]])
                (Do [Rotate 0 [2; 4; 3]]))
              (If 3 1
                (Do [Rotate 0 [2; 1; 3; 4]])
                (Do [Rotate 0 [2; 3; 4]])))
            (If 3 0
              (If 3 1
                (Do [Rotate 0 [2; 1; 3]])
                (Do [Rotate 0 [2; 3]]))
              (If 4 3
                (Do [Swap 0 2; Swap 3 4])
                (Do [Swap 0 2])))))
        (If 4 2
          (If 2 0
            (If 3 0
              (If 4 1
                (Do [Swap 0 4])
                (Do [Rotate 0 [1; 4]]))
              (If 4 1
                (Do [Rotate 0 [4; 3]])
                (Do [Rotate 0 [1; 4; 3]])))
            (If 4 0
              (If 4 1
                (Do [Rotate 0 [4; 3; 2]])
                (Do [Rotate 0 [1; 4; 3; 2]]))
              (Do [Swap 0 1; Rotate 2 [4; 3]])))
          (If 4 3
            (If 4 0
              (If 3 0
                (Do [Rotate 0 [1; 2; 4]])
                (Do [Rotate 0 [1; 2; 4; 3]]))
              (If 2 0
                (Do [Rotate 0 [1; 2]; Swap 3 4])
                (Do [Swap 0 1; Swap 3 4])))
            (If 3 0
              (If 4 0
                (Do [Rotate 0 [1; 2; 3; 4]])
                (Do [Rotate 0 [1; 2; 3]]))
              (If 2 0
                (Do [Rotate 0 [1; 2]])
                (Do [Swap 0 1])))))))
    (If 3 2
      (If 2 1
        (If 4 2
          (If 4 3
            (If 3 0
              (If 2 0
                (Do [Rotate 0 [4; 1; 3]])
                (Do [Rotate 0 [4; 1; 3; 2]]))
              (If 4 0
                (Do [Rotate 0 [4; 1]; Swap 2 3])
                (Do [Swap 1 4; Swap 2 3])))
            (If 4 0
              (If 2 0
                (Do [Swap 0 3; Swap 1 4])
                (Do [Rotate 0 [3; 2]; Swap 1 4]))
              (If 3 0
                (Do [Rotate 0 [3; 2; 4; 1]])
                (Do [Rotate 1 [3; 2; 4]]))))
          (If 2 0
            (If 4 0
              (Do [Swap 0 3; Rotate 1 [2; 4]])
              (If 4 1
                (Do [Rotate 0 [3; 4; 1; 2]])
                (Do [Rotate 0 [3; 1; 2]])))
            (If 3 0
              (If 4 1
                (Do [Rotate 0 [3; 4; 1]])
                (Do [Rotate 0 [3; 1]]))
              (If 4 1
                (Do [Rotate 1 [3; 4]])
                (Do [Swap 1 3])))))
        (If 4 1
          (If 4 0
            (If 3 0
              (If 4 3
                (Do [Rotate 0 [4; 2]; Swap 1 3])
                (Do [Rotate 0 [3; 1; 4; 2]]))
              (If 3 1
                (Do [Rotate 0 [4; 2; 3; 1]])
                (Do [Rotate 0 [4; 2; 1]])))
            (If 4 3
              (If 3 1
                (Do [Rotate 1 [4; 2; 3]])
                (Do [Rotate 1 [4; 2]]))
              (If 3 0
                (Do [Rotate 0 [3; 1]; Swap 2 4])
                (Do [Swap 1 3; Swap 2 4]))))
          (If 3 1
            (If 3 0
              (If 4 2
                (Do [Rotate 0 [3; 4; 2; 1]])
                (Do [Rotate 0 [3; 2; 1]]))
              (If 4 2
                (Do [Rotate 1 [3; 4; 2]])
                (Do [Rotate 1 [3; 2]])))
            (If 4 2
              (If 4 3
                (Do [Swap 2 4])
                (Do [Rotate 2 [3; 4]]))
              (Do [Swap 2 3])))))
      (If 3 1
        (If 4 3
          (If 4 2
            (If 2 0
              (If 3 0
                (Do [Rotate 0 [4; 1; 2; 3]])
                (Do [Rotate 0 [4; 1; 2]]))
              (If 4 0
                (Do [Rotate 0 [4; 1]])
                (Do [Swap 1 4])))
            (If 4 0
              (If 3 0
                (Do [Rotate 0 [2; 3]; Swap 1 4])
                (Do [Swap 0 2; Swap 1 4]))
              (If 2 0
                (Do [Rotate 0 [2; 4; 1]])
                (Do [Rotate 1 [2; 4]]))))
          (If 3 0
            (If 4 0
              (Do [Rotate 0 [2; 4; 1; 3]])
              (If 4 1
                (Do [Swap 0 2; Rotate 1 [3; 4]])
                (Do [Swap 0 2; Swap 1 3])))
            (If 2 0
              (If 4 1
                (Do [Rotate 0 [2; 3; 4; 1]])
                (Do [Rotate 0 [2; 3; 1]]))
              (If 4 1
                (Do [Rotate 1 [2; 3; 4]])
                (Do [Rotate 1 [2; 3]])))))
        (If 4 1
          (If 4 0
            (If 2 0
              (If 4 2
                (Do [Rotate 0 [4; 3; 1; 2]])
                (Do [Swap 0 2; Rotate 1 [4; 3]]))
              (If 2 1
                (Do [Rotate 0 [4; 3; 1]])
                (Do [Rotate 0 [4; 3; 2; 1]])))
            (If 4 2
              (If 2 1
                (Do [Rotate 1 [4; 3]])
                (Do [Rotate 1 [4; 3; 2]]))
              (If 2 0
                (Do [Rotate 0 [2; 4; 3; 1]])
                (Do [Rotate 1 [2; 4; 3]]))))
          (If 2 1
            (If 2 0
              (If 4 3
                (Do [Rotate 0 [2; 1]; Swap 3 4])
                (Do [Rotate 0 [2; 1]]))
              (If 4 3
                (Do [Swap 1 2; Swap 3 4])
                (Do [Swap 1 2])))
            (If 4 3
              (If 4 2
                (Do [Rotate 2 [4; 3]])
                (Do [Swap 3 4]))
              (Do [])))))).

(** sort_exactly_3.cpp 62-78, the branch for cheaply sortable types. All comparisons are made whatever
    their results, so the nesting of [If] only carries the results along. *)
Definition relocate_3_branchless : tree :=
  let finish low high (lowest_in_first highest_in_first : bool) :=
    Out [if lowest_in_first then low else 2;
         if negb lowest_in_first then low else if negb highest_in_first then high else 2;
         if highest_in_first then high else 2] in
  let halves low high :=
    If 2 low
      (If 2 high (finish low high false true) (finish low high false false))
      (If 2 high (finish low high true true) (finish low high true false)) in
  If 1 0 (halves 1 0) (halves 0 1).

(** sort_exactly_4.cpp 136-161. Each [low_high_ref] is a pair of indices. *)
Definition relocate_4_branchless : tree :=
  let finish (low_half high_half middle_half : nat * nat) :=
    Out [fst low_half; fst middle_half; snd middle_half; snd high_half] in
  let middles (low_half high_half : nat * nat) :=
    If (fst high_half) (snd low_half)
      (finish low_half high_half (fst high_half, snd low_half))
      (finish low_half high_half (snd low_half, fst high_half)) in
  let highs (first_half second_half low_half : nat * nat) :=
    If (snd second_half) (snd first_half)
      (middles low_half (snd second_half, snd first_half))
      (middles low_half (snd first_half, snd second_half)) in
  let lows (first_half second_half : nat * nat) :=
    If (fst second_half) (fst first_half)
      (highs first_half second_half (fst second_half, fst first_half))
      (highs first_half second_half (fst first_half, fst second_half)) in
  let seconds (first_half : nat * nat) :=
    If 3 2 (lows first_half (3, 2)) (lows first_half (2, 3)) in
  If 1 0 (seconds (1, 0)) (seconds (0, 1)).

(** sort_exactly_1.cpp 22-33 *)
Definition in_place_1 : tree := Do [].
Definition relocate_1 : tree := Out [0].

(** Which overload sort_exactly_n.cpp 28-41 calls. [cheap] is cheaply_sortable.cpp 19-23: a trivially
    copyable type of at most 64 bytes compared with std::less<> or std::greater<>. There is no overload
    for other sizes (sort_exactly_6.cpp is under #if 0, and sort_exactly_5.cpp has no relocating
    version), so such a call does not compile. *)
Definition in_place_tree (n : nat) : option tree :=
  match n with
  | 1 => Some in_place_1 | 2 => Some in_place_2 | 3 => Some in_place_3 | 4 => Some in_place_4
  | 5 => Some in_place_5 | _ => None
  end.
Definition relocate_tree (cheap : bool) (n : nat) : option tree :=
  match n with
  | 1 => Some relocate_1
  | 2 => Some relocate_2
  | 3 => Some (if cheap then relocate_3_branchless else relocate_3)
  | 4 => Some (if cheap then relocate_4_branchless else relocate_4)
  | _ => None
  end.

Section Sort.
Context {V : Type} (moved : V -> V) (lt : V -> V -> bool).
Local Notation M := (M V).

(** A comparison through two iterators: reads both objects; the comparison function is the caller's and may throw. *)
Definition less_at {X} (p : ptr) (i : nat) (q : ptr) (j : nat) : M X bool :=
  bind (load p i) (fun u => bind (load q j) (fun v =>
  bind may_throw (fun _ => ret (lt u v)))).

(** std::ranges::swap of two elements: the temporary is a variable of the model, and the moved-from
    states in between are skipped. Moves of the element type do not throw (relocate.cpp 18). *)
Definition swap_at {X} (p : ptr) (i j : nat) : M X unit :=
  bind (load p i) (fun u => bind (load p j) (fun v =>
  bind (store p i v) (fun _ => store p j u))).

(** rotate_one.cpp 14-20: [storage] is the variable [v]. *)
Fixpoint rotate_loop {X} (p : ptr) (ref : nat) (args : list nat) : M X nat :=
  match args with
  | [] => ret ref
  | a :: args => bind (construct_at moved p ref (Relocate p a)) (fun _ => rotate_loop p a args)
  end.
Definition rotate_one {X} (p : ptr) (arg : nat) (args : list nat) : M X unit :=
  bind (relocate p arg) (fun v =>
  bind (rotate_loop p arg args) (fun ref => begin_life p ref v)).

(** relocate_in_order.cpp 12-14 *)
Fixpoint relocate_in_order {X} (out : ptr) (it : nat) (p : ptr) (xs : list nat) : M X unit :=
  match xs with
  | [] => ret tt
  | x :: xs => bind (construct_at moved out it (Relocate p x)) (fun _ => relocate_in_order out (S it) p xs)
  end.

(** The parameters [x0, x1, ...] are references to the objects at the indices [refs] of block [p]. *)
Definition ref (refs : list nat) (i : nat) : nat := nth i refs 0.
Definition run_op {X} (p : ptr) (refs : list nat) (o : op) : M X unit :=
  match o with
  | Swap i j => swap_at p (ref refs i) (ref refs j)
  | Rotate i js => rotate_one p (ref refs i) (map (ref refs) js)
  end.
Fixpoint run_ops {X} (p : ptr) (refs : list nat) (os : list op) : M X unit :=
  match os with
  | [] => ret tt
  | o :: os => bind (run_op p refs o) (fun _ => run_ops p refs os)
  end.
Fixpoint run {X} (p : ptr) (refs : list nat) (out : ptr) (it : nat) (t : tree) : M X unit :=
  match t with
  | If i j yes no =>
      bind (less_at p (ref refs i) p (ref refs j)) (fun c =>
      if c then run p refs out it yes else run p refs out it no)
  | Do ops => run_ops p refs ops
  | Out js => relocate_in_order out it p (map (ref refs) js)
  end.

(** sort_exactly_n.cpp 28-33 with dereference_all.cpp 20-37: the references are to the elements at
    it, it + 1, ... *)
Definition sort_exactly_n_in_place {X} (p : ptr) (it n : nat) : M X unit :=
  match in_place_tree n with
  | Some t => run p (seq it n) None 0 t
  | None => bad Broken
  end.
(** sort_exactly_n.cpp 35-41: returns [it + n]. *)
Definition sort_exactly_n_relocate {X} (cheap : bool) (p : ptr) (it n : nat) (out : ptr) (j : nat) : M X nat :=
  match relocate_tree cheap n with
  | Some t => bind (run p (seq it n) out j t) (fun _ => ret (it + n))
  | None => bad Broken
  end.

(** A local uninitialized_array of [n] elements (containers/uninitialized_array.cpp 20-81): raw
    storage in the frame of the function. Leaving the scope ends the storage without destroying what is
    alive in it, and an object alive there is then lost. *)
Definition with_buffer {X A} (n : nat) (body : ptr -> M X A) : M X A :=
  with_local (new_block n) (fun b => deallocate (Some b) n b)
    (fun xy w => match body (Some (snd xy)) (fst xy) w with
                 | Ret x a w => Ret (x, snd xy) a w
                 | Exc x w => Exc (x, snd xy) w
                 | Bad f => Bad f
                 end).

(** sort_exactly_n.cpp 43-53 *)
Definition sort_exactly_n {X} (cheap : bool) (p : ptr) (it n : nat) : M X unit :=
  if cheap && (n <=? 4) then
    with_buffer n (fun temp =>
      bind (sort_exactly_n_relocate cheap p it n temp 0) (fun _ =>
      uninitialized_relocate moved temp 0 n p it))
  else sort_exactly_n_in_place p it n.

(** is_sorted.cpp 21-40: [first] is the element before [next], [k] elements from [next] on. *)
Fixpoint is_sorted_loop {X} (p : ptr) (first next k : nat) : M X bool :=
  match k with
  | 0 => ret true
  | S k => bind (less_at p next p first) (fun c =>
           if c then ret false else is_sorted_loop p next (S next) k)
  end.
Definition is_sorted {X} (p : ptr) (first n : nat) : M X bool :=
  match n with
  | 0 => ret true
  | S k => is_sorted_loop p first (S first) k
  end.

(** small_size_optimized_sort.cpp 28-64. The BOUNDED_ASSERT of line 35 is a check that is not made in the
    release configuration (assert.hpp 24-30); that it holds is proved as a property. The template bounds
    of [range_size_t] only remove cases that cannot happen. *)
Definition small_size_optimized_sort {X} (cheap : bool) (p : ptr) (first n : nat) (sort_large_range : M X unit) : M X unit :=
  match n with
  | 0 | 1 => ret tt
  | 2 => sort_exactly_n cheap p first 2
  | 3 => sort_exactly_n cheap p first 3
  | 4 => sort_exactly_n cheap p first 4
  | 5 => sort_exactly_n cheap p first 5
  | _ => sort_large_range
  end.

(** merge_relocate_second_range.cpp 43-61. Range 1 is [first1, first1 + n1) of block [p], range 2 is
    [first2, first2 + n2) of block [q], and [out] is [out_last] before line 44, in block [p]. The
    iterators of the loop are written with the number of elements that are left: [last1] is [first1 + n1 - 1]
    and [last2] is [first2 + n2 - 1]: both point to an element, not past it. [fuel] bounds the recursion and
    is never used up when it is [n1 + n2]. *)
Fixpoint merge_loop {X} (fuel : nat) (p : ptr) (first1 n1 : nat) (q : ptr) (first2 n2 : nat) (out : nat) : M X unit :=
  match fuel with
  | 0 => bad Broken
  | S fuel =>
      let last1 := first1 + (n1 - 1) in
      let last2 := first2 + (n2 - 1) in
      bind (less_at q last2 p last1) (fun c =>
      if c then
        bind (construct_at moved p (out - 1) (Relocate p last1)) (fun _ =>
        if first1 =? last1 then
          (* relocate_remainder_of_r2, lines 35-37: the range [first2, last2), without the element
             [last2] points to *)
          uninitialized_relocate moved q first2 (last2 - first2) p first1
        else merge_loop fuel p first1 (n1 - 1) q first2 n2 (out - 1))
      else
        bind (construct_at moved p (out - 1) (Relocate q last2)) (fun _ =>
        if first2 =? last2 then ret tt
        else merge_loop fuel p first1 n1 q first2 (n2 - 1) (out - 1)))
  end.
(** merge_relocate_second_range.cpp 29-62 *)
Definition merge_relocate_second_range {X} (p : ptr) (first1 n1 : nat) (q : ptr) (first2 n2 : nat) (out_last : nat) : M X unit :=
  if n1 =? 0 then uninitialized_relocate moved q first2 n2 p first1
  else merge_loop (n1 + n2) p first1 n1 q first2 n2 out_last.

(** chunked_insertion_sort.cpp 46-55: [k] chunks are left. *)
Fixpoint chunk_loop {X} (cheap : bool) (p : ptr) (first it : nat) (buffer : ptr) (k : nat) : M X unit :=
  match k with
  | 0 => ret tt
  | S k =>
      bind (sort_exactly_n_relocate cheap p it 4 buffer 0) (fun next_it =>
      bind (merge_relocate_second_range p first (it - first) buffer 0 4 next_it) (fun _ =>
      chunk_loop cheap p first next_it buffer k))
  end.
(** chunked_insertion_sort.cpp 34-57, on the range [first, first + size) of block [p]. *)
Definition chunked_insertion_sort {X} (cheap : bool) (p : ptr) (first size : nat) : M X unit :=
  let initial_sort_size := size mod 4 in
  bind (small_size_optimized_sort cheap p first initial_sort_size (bad Broken)) (fun _ =>
  let it := first + initial_sort_size in
  with_buffer 4 (fun buffer => chunk_loop cheap p first it buffer (size / 4))).

(** fixed_size_merge_sort.cpp 32-49. [n1] elements are left in the buffer [q] from [first1] on, [n2] in place
    from [first2] on. *)
Fixpoint fixed_merge_loop {X} (fuel : nat) (p : ptr) (it : nat) (q : ptr) (first1 n1 first2 n2 : nat) : M X unit :=
  match fuel with
  | 0 => bad Broken
  | S fuel =>
      bind (less_at p first2 q first1) (fun c =>
      if c then
        bind (construct_at moved p it (Relocate p first2)) (fun _ =>
        if n2 - 1 =? 0 then uninitialized_relocate moved q first1 n1 p (S it)
        else fixed_merge_loop fuel p (S it) q first1 n1 (S first2) (n2 - 1))
      else
        bind (construct_at moved p it (Relocate q first1)) (fun _ =>
        if n1 - 1 =? 0 then ret tt
        else fixed_merge_loop fuel p (S it) q (S first1) (n1 - 1) first2 n2))
  end.
(** fixed_size_merge_sort.cpp 21-50 *)
Definition fixed_size_merge_sort {X} (cheap : bool) (p : ptr) (it size1 size2 : nat) : M X unit :=
  bind (sort_exactly_n cheap p (it + size1) size2) (fun _ =>
  with_buffer size1 (fun buffer =>
  bind (sort_exactly_n_relocate cheap p it size1 buffer 0) (fun _ =>
  fixed_merge_loop (size1 + size2) p it buffer 0 size1 (it + size1) size2))).

End Sort.
