(** * Views whose elements are ranges or tuples

    Models containers/algorithms/split.cpp, adjacent.cpp, chunk_by.cpp, join_with.cpp, join.cpp, containers/batched.cpp,
    containers/integer_range.cpp and what they use of containers/subrange.cpp. A range that is an element of another one is a value of
    type [range]. Delimiters, predicates and == are functions without effects. [fuel] bounds the loops. *)

From Coq Require Import List ZArith Bool.
From Verif Require Import Range Views.
Import ListNotations.
Local Open Scope Z_scope.

Section Subrange.
Context {I A : Type}.

(** subrange.cpp 76-80 and 108-134: from one iterator to another. The range must have forward iterators. *)
Definition subrange (r : range I A) (a b : I) : range I A :=
  Range (Val a)
    (fun it => match same r with Some same_ => same_ it b | None => Undefined end)
    (get r) (next r) (same r) (Some (Val b)) (prev r) (plus r) (backward r) (minus r) (order r) (reach r)
    (option_map (fun minus_ => minus_ b a) (minus r)).
(** subrange.cpp 76-80: from an iterator to the end of the range *)
Definition rest_of (r : range I A) (a : I) : range I A :=
  Range (Val a) (stop r) (get r) (next r) (same r) (last r) (prev r) (plus r) (backward r) (minus r) (order r) (reach r)
    (match last r, minus r with Some last_, Some minus_ => Some (let* e := last_ in minus_ e a) | _, _ => None end).

(** split.cpp 61-109. [find it] leads to the next delimiter or to the end, [skip it] past the delimiter at [it]. *)
Record delimiter : Type := Delimiter { find : I -> res I; skip : I -> res I; min_size : Z }.
(** split.cpp 61-82: one element, for which the predicate is == *)
Definition single_element_delimiter (fuel : nat) (r : range I A) (is_delimiter : A -> bool) : delimiter :=
  Delimiter (find_if fuel r is_delimiter) (next r) 1.
(** Whether the range has the elements [ds] at [it]. *)
Fixpoint matches (r : range I A) (equal : A -> A -> bool) (ds : list A) (it : I) : res bool :=
  match ds with
  | [] => Val true
  | d :: ds =>
      let* e := stop r it in
      if e then Val false
      else
        let* x := get r it in
        if equal x d then let* it := next r it in matches r equal ds it
        else Val false
  end.
(** std::search: the first place from [it] on where the elements [ds] are, or the end *)
Fixpoint search (fuel : nat) (r : range I A) (equal : A -> A -> bool) (ds : list A) (it : I) : res I :=
  match fuel with
  | O => Running
  | S fuel =>
      let* m := matches r equal ds it in
      if m then Val it
      else
        let* e := stop r it in
        if e then Val it
        else let* it := next r it in search fuel r equal ds it
  end.
(** split.cpp 84-109: the delimiter has the elements [ds], and its type has at least [min] of them. *)
Definition range_delimiter (fuel : nat) (r : range I A) (equal : A -> A -> bool) (min : Z) (ds : list A) : delimiter :=
  let n := Z.of_nat (length ds) in
  Delimiter (search fuel r equal ds)
    (fun it => assume (n <=? reach r) (next_by r it n))
    (Z.max 1 min).

(** split.cpp 111-188: m_first, m_middle, m_empty_trailing_range, and m_found_delimiter where delimiters are kept *)
Record split_iterator : Type := Split { m_first : I; m_middle : I; m_empty_trailing_range : bool; m_found_delimiter : bool }.
(** split.cpp 118-126 *)
Definition split_begin (r : range I A) (d : delimiter) : res split_iterator :=
  let* f := first r in
  let* m := find d f in
  let* e := stop r f in
  let* me := stop r m in
  Val (Split f m e (negb me)).
(** split.cpp 132-142 *)
Definition split_next (r : range I A) (d : delimiter) (s : split_iterator) : res split_iterator :=
  let* at_end := stop r (m_middle s) in
  if at_end then Val (Split (m_middle s) (m_middle s) false (m_found_delimiter s))
  else
    assume (negb (m_empty_trailing_range s)) (
      let* f := skip d (m_middle s) in
      let* e := stop r f in
      let* m := find d f in
      Val (Split f m e (m_found_delimiter s))).
(** split.cpp 143-155 *)
Definition split_keep_next (r : range I A) (d : delimiter) (s : split_iterator) : res split_iterator :=
  let* first_at_end := stop r (m_first s) in
  if m_empty_trailing_range s && first_at_end then Val (Split (m_first s) (m_middle s) false (m_found_delimiter s))
  else if m_found_delimiter s then
    let* m := skip d (m_middle s) in
    let* e := stop r m in
    Val (Split (m_middle s) m e false)
  else
    let* m := find d (m_middle s) in
    let* e := stop r m in
    Val (Split (m_middle s) m (m_empty_trailing_range s) (negb e)).
(** split.cpp 128-130 and 165-181 with 192-360. The largest difference is that of 39-58. The comparison of two iterators looks at
    m_first and m_empty_trailing_range. *)
Definition split_view (keep : bool) (r : range I A) (d : delimiter) : range split_iterator (range I A) :=
  Range (split_begin r d)
    (fun s => let* e := stop r (m_first s) in Val (e && negb (m_empty_trailing_range s)))
    (fun s => Val (subrange r (m_first s) (m_middle s)))
    (if keep then split_keep_next r d else split_next r d)
    (option_map (fun same_ s t =>
       let* c := same_ (m_first s) (m_first t) in
       Val (c && Bool.eqb (m_empty_trailing_range s) (m_empty_trailing_range t))) (same r))
    None None None false None
    (option_map (fun order_ s t =>
       let* c := order_ (m_first s) (m_first t) in
       Val (match c with
            | Eq => match m_empty_trailing_range s, m_empty_trailing_range t with
                    | false, true => Lt | true, false => Gt | _, _ => Eq
                    end
            | _ => c
            end)) (order r))
    (let delimiters := reach r / min_size d in if keep then delimiters * 2 + 1 else delimiters + 1)
    None.

(** adjacent.cpp 61-75: the array of [group_size] iterators from [it] on, none of them past the end *)
Fixpoint adjacent_from (group_size : nat) (r : range I A) (it : I) : res (list I) :=
  match group_size with
  | O => Val []
  | S g =>
      let* e := stop r it in
      let* following := if e then Val it else next r it in
      let* its := adjacent_from g r following in
      Val (it :: its)
  end.
(** containers::back *)
Fixpoint back (its : list I) : res I :=
  match its with [] => Undefined | [it] => Val it | _ :: its => back its end.
(** adjacent.cpp 86-98 *)
Fixpoint adjacent_next (r : range I A) (its : list I) : res (list I) :=
  match its with
  | [] => Undefined
  | [it] => let* it := next r it in Val [it]
  | _ :: ((following :: _) as its') => let* its := adjacent_next r its' in Val (following :: its)
  end.
(** adjacent.cpp 45-53 *)
Definition decrease_by (max amount : Z) : Z := Z.max (max - amount) 0.
(** adjacent.cpp 57-184. The last of the iterators is what is compared. *)
Definition adjacent (group_size : nat) (r : range I A) : range (list I) (list A) :=
  let max := decrease_by (reach r) (Z.of_nat group_size) in
  let backs := fun {B} (f : I -> I -> res B) a b => let* x := back a in let* y := back b in f x y in
  Range (let* it := first r in adjacent_from group_size r it)
    (fun its => let* it := back its in stop r it)
    (each (get r))
    (adjacent_next r)
    (option_map backs (same r))
    None
    (option_map (fun prev_ its => each prev_ its) (prev r))
    (option_map (fun plus_ its d => each (fun it => plus_ it d) its) (plus r))
    (backward r)
    (option_map (fun minus_ a b => let* d := backs minus_ a b in assume ((- max <=? d) && (d <=? max)) (Val d)) (minus r))
    (option_map backs (order r))
    max
    (option_map (fun size_ => let* n := size_ in
       Val (if n <? Z.of_nat group_size then 0 else n - Z.of_nat group_size + 1)) (size r)).

(** chunk_by.cpp 71-79 *)
Definition find_from_first (fuel : nat) (r : range I A) (predicate : A -> A -> bool) (f : I) : res I :=
  let pairs := adjacent 2 (rest_of r f) in
  let* its := first pairs in
  let* its := find_if fuel pairs (fun xs => match xs with [x; y] => negb (predicate x y) | _ => false end) its in
  back its.
(** chunk_by.cpp 31-136: m_first and m_middle *)
Definition chunk_by (fuel : nat) (predicate : A -> A -> bool) (r : range I A) : range (I * I) (range I A) :=
  Range (let* f := first r in let* m := find_from_first fuel r predicate f in Val (f, m))
    (fun s => stop r (fst s))
    (fun s => Val (subrange r (fst s) (snd s)))
    (fun s => let* m := find_from_first fuel r predicate (snd s) in Val (snd s, m))
    (option_map (fun same_ (s t : I * I) => same_ (fst s) (fst t)) (same r))
    None None None false None
    (option_map (fun order_ (s t : I * I) => order_ (fst s) (fst t)) (order r))
    (reach r) None.

(** batched.cpp 73-80. [n] is the size of the range, [batches] the number of batches, at most [max_count]. *)
Definition elements_prior_to_batch (r : range I A) (n batches batch : Z) : res Z :=
  let base := n / batches in
  let add_one_if_below := n mod batches in
  let offset := base * batch + Z.min add_one_if_below batch in
  assume (offset <=? reach r) (Val offset).
(** batched.cpp 30-96 *)
Definition batched (max_count batches : Z) (r : range I A) : option (range Z (range I A)) :=
  match size r, plus r with
  | Some size_, Some plus_ =>
      let in_batch := fun b => assume ((0 <=? b) && (b <=? max_count)) (Val b) in
      let start := fun b =>
        let* n := size_ in
        let* k := elements_prior_to_batch r n batches b in
        let* it := first r in
        plus_ it k in
      Some (Range (Val 0)
        (fun b => Val (b =? batches))
        (fun b => let* b' := in_batch (b + 1) in let* x := start b in let* y := start b' in Val (subrange r x y))
        (fun b => in_batch (b + 1))
        (Some (fun a b => Val (a =? b)))
        None
        (Some (fun b => in_batch (b + -1)))
        (Some (fun b d => in_batch (b + d))) true
        (Some (fun a b => Val (a - b)))
        (Some (fun a b => Val (a ?= b)))
        max_count
        (Some (Val (batches - 0))))
  | _, _ => None
  end.
End Subrange.
Arguments delimiter : clear implicits.
Arguments split_iterator : clear implicits.

(** join_with.cpp 36-243. [in_range]: the range that is being read, or the joiner. m_inner is an iterator into one of them. *)
Section Join.
Context {Out I J A : Type}.
Inductive inner : Type := In_range (r : range I A) (it : I) | In_joiner (it : J).
Record join_iterator : Type := Join { m_outer : Out; m_inner : inner }.
(** join_with.cpp 206-236: one turn of the loop is one call of do_normalize. *)
Fixpoint normalize (fuel : nat) (outer : range Out (range I A)) (joiner : range J A) (s : join_iterator) : res join_iterator :=
  match fuel with
  | O => Running
  | S fuel =>
      let* e := stop outer (m_outer s) in
      if e then Val s
      else
        match m_inner s with
        | In_range r it =>
            let* empty := stop r it in
            if empty then
              let* o := next outer (m_outer s) in
              let* j := first joiner in
              normalize fuel outer joiner (Join o (In_joiner j))
            else Val s
        | In_joiner j =>
            let* empty := stop joiner j in
            if empty then
              let* r := get outer (m_outer s) in
              let* it := first r in
              normalize fuel outer joiner (Join (m_outer s) (In_range r it))
            else Val s
        end
  end.
(** join_with.cpp 155-202 and 246-275. [joiner_end] is the iterator to the end of the joiner. [max_inner] and [max_joiner] are the largest
    sizes that the types of the ranges inside and of the joiner have (117-137). *)
Definition join_with (fuel : nat) (max_inner max_joiner : Z) (outer : range Out (range I A)) (joiner : range J A) : range join_iterator A :=
  Range
    (let* o := first outer in
     let* j := match last joiner with Some e => e | None => Undefined end in
     normalize fuel outer joiner (Join o (In_joiner j)))
    (fun s => stop outer (m_outer s))
    (fun s => match m_inner s with In_range r it => get r it | In_joiner j => get joiner j end)
    (fun s =>
       let* i := match m_inner s with
                 | In_range r it => let* it := next r it in Val (In_range r it)
                 | In_joiner j => let* j := next joiner j in Val (In_joiner j)
                 end in
       normalize fuel outer joiner (Join (m_outer s) i))
    None None None None false None None
    (reach outer * max_inner + Z.max 0 ((reach outer - 1) * max_joiner))
    None.
(** linear_size.cpp 28-39 for a range with a size, or one whose elements have to be counted *)
Fixpoint count_from {K B} (fuel : nat) (r : range K B) (it : K) : res Z :=
  match fuel with
  | O => Running
  | S fuel =>
      let* e := stop r it in
      if e then Val 0 else let* it := next r it in let* n := count_from fuel r it in Val (1 + n)
  end.
Definition linear_size {K B} (fuel : nat) (r : range K B) : res Z :=
  match size r with
  | Some s => s
  | None => let* it := first r in count_from fuel r it
  end.
(** join_with.cpp 292-299: the loop over the ranges inside, with the number of elements and of ranges so far *)
Fixpoint total_sizes (fuel : nat) (outer : range Out (range I A)) (it : Out) (elements ranges : Z) : res (Z * Z) :=
  match fuel with
  | O => Running
  | S fuel' =>
      let* e := stop outer it in
      if e then Val (elements, ranges)
      else
        let* r := get outer it in
        let* n := linear_size fuel r in
        let* it := next outer it in
        total_sizes fuel' outer it (elements + n) (ranges + 1)
  end.
(** join_with.cpp 277-305. Both branches of 284-300 add the sizes up in order. *)
Definition join_linear_size (fuel : nat) (max_size : Z) (outer : range Out (range I A)) (joiner : range J A) : res Z :=
  let* o := first outer in
  let* e := stop outer o in
  if e then Val 0
  else
    let* t := total_sizes fuel outer o 0 0 in
    let number_of_joiners := snd t - 1 in
    let* j := linear_size fuel joiner in
    let total := fst t + number_of_joiners * j in
    assume ((0 <=? total) && (total <=? max_size)) (Val total).
End Join.
(** join.cpp 19-26: the joiner is an array without elements. *)
Definition join {Out I A} (fuel : nat) (max_inner : Z) (outer : range Out (range I A)) : range (@join_iterator Out I Z A) A :=
  join_with fuel max_inner 0 outer (array_range 0 []).

(** integer_range.cpp 31-135: values are at least [min], the type of the end has at most [max], that of the step at least [min_step].
    m_value is the iterator; the step is the same in all iterators of a range. *)
Definition integer_range (min max min_step : Z) (f l step : Z) : res (range Z Z) :=
  assume (Z.rem (l - f) step =? 0) (
    let difference := (max - min) ÷ min_step in
    let stored := fun v => assume ((min <=? v) && (v <=? max)) (Val v) in
    let plus_ := fun v d => if difference =? 0 then Undefined else stored (v + d * step) in
    Val (Range (stored f)
      (fun v => let* e := stored l in Val (v =? e))
      (fun v => assume ((min <=? v) && (v <=? Z.max min (max - min_step))) (Val v))
      (fun v => plus_ v 1)
      (Some (fun a b => Val (a =? b)))
      (Some (stored l))
      (Some (fun v => plus_ v (-1)))
      (Some plus_) true
      (Some (fun a b => Val ((a - b) ÷ step)))
      (Some (fun a b => Val (a ?= b)))
      difference
      (Some (let* e := stored l in let* b := stored f in Val ((e - b) ÷ step))))).
(** integer_range.cpp 137-146 *)
Definition inclusive_integer_range (min max min_step max_step : Z) (f l step : Z) : res (range Z Z) :=
  integer_range min (max + max_step) min_step f (l + step) step.
