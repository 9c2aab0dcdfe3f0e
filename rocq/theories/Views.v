(** * Views of ranges

    Models containers/algorithms/transform.cpp, filter.cpp, remove_none.cpp, reverse_iterator.cpp, drop.cpp, drop_back.cpp, zip.cpp,
    concatenate_view.cpp and containers/take.cpp, with adapt.cpp and adapt_iterator.cpp. Functions and predicates given by the
    user are functions without effects. The library selects between implementations with if constexpr; each is a
    definition here. [fuel] bounds the loops. *)

From Coq Require Import List ZArith Bool.
From Verif Require Import Range.
Import ListNotations.
Local Open Scope Z_scope.

Section Adapted.
Context {I A : Type}.

(** transform.cpp 30-53 and 117-123, with adapt_iterator.cpp 107-188 and default_adapt_traits.cpp: every operation is that of the
    base but dereferencing. *)
Definition transform {B} (f : A -> B) (r : range I A) : range I B :=
  Range (first r) (stop r) (fun it => let* x := get r it in Val (f x)) (next r) (same r) (last r) (prev r) (plus r) (backward r)
    (minus r) (order r) (reach r) (size r).

(** filter.cpp 32-91. adapt_iterator has + for 1 only, and no -. *)
Definition filter (fuel : nat) (predicate : A -> bool) (r : range I A) : range I A :=
  Range
    (let* it := first r in find_if fuel r predicate it)
    (stop r) (get r)
    (fun it =>
       let* e := stop r it in
       assume (negb e) (let* it := next r it in find_if fuel r predicate it))
    (same r) (last r) None None false None (order r) (reach r) None.

(** reverse_iterator.cpp 33-82 and 105-112, where the iterators of the base can be decremented and compared and its end is an
    iterator. [it - offset] needs iterators that go both ways. *)
Definition reversed (r : range I A) : option (range I A) :=
  match same r, last r, prev r with
  | Some same_, Some last_, Some prev_ =>
      Some (Range last_
        (fun it => let* e := first r in same_ e it)
        (fun it => let* it := prev_ it in get r it)
        prev_
        (Some (fun a b => same_ b a))
        (Some (first r))
        (Some (next r))
        (if backward r then option_map (fun plus_ it d => plus_ it (- d)) (plus r) else None)
        (backward r && match plus r with Some _ => true | None => false end)
        (option_map (fun minus_ a b => minus_ b a) (minus r))
        (option_map (fun order_ a b => order_ b a) (order r))
        (reach r) (size r))
  | _, _, _ => None
  end.

(** advance.cpp 31-35, 46-52 and 64-67 for an offset that is not negative *)
Fixpoint advance (n : nat) (r : range I A) (it : I) : res I :=
  match n with
  | O => Val it
  | S n => let* it := next r it in advance n r it
  end.
Definition next_by (r : range I A) (it : I) (offset : Z) : res I :=
  match plus r with
  | Some plus_ => plus_ it offset
  | None => advance (Z.to_nat offset) r it
  end.

(** take.cpp 60-145 and 211-217: a range without a size, or without random access. [max_count] is the largest value of the type
    of the count. With [exception] a range with more elements than the count is refused when that is noticed. *)
Definition take_counted (exception : bool) (max_count count : Z) (r : range I A) : range (I * Z) A :=
  let max := Z.min (reach r) max_count in
  let moved := fun (ic : I * Z) d (move : I -> res I) =>
    let* it := move (fst ic) in
    let c := snd ic - d in
    assume ((0 <=? c) && (c <=? max)) (Val (it, c)) in
  Range
    (let* it := first r in Val (it, Z.min count max))
    (fun ic =>
       if exception then
         let* e := stop r (fst ic) in
         if e then Val true else if snd ic =? 0 then Thrown else Val false
       else if snd ic =? 0 then Val true else stop r (fst ic))
    (fun ic => get r (fst ic))
    (fun ic => if max =? 0 then Undefined else moved ic 1 (next r))
    (Some (fun a b => Val (snd b =? snd a)))
    None
    (option_map (fun prev_ ic => moved ic (-1) prev_) (prev r))
    (option_map (fun plus_ ic d => moved ic d (fun it => plus_ it d)) (plus r))
    (backward r)
    (Some (fun a b => Val (snd b - snd a)))
    (Some (fun a b => Val (snd b ?= snd a)))
    max None.

(** take.cpp 147-185 and 204-210 with subrange.cpp 126-134: a range with a size and random access. The end is the beginning and
    the size. *)
Definition take_random (max_count count : Z) (r : range I A) : option (range I A) :=
  match size r, plus r, minus r, same r with
  | Some size_, Some plus_, Some minus_, Some same_ =>
      let max := Z.min (reach r) max_count in
      let true_count := let* n := size_ in Val (Z.min n count) in
      let end_ := let* it := first r in let* n := true_count in plus_ it n in
      Some (Range (first r)
        (fun it => let* e := end_ in same_ it e)
        (get r)
        (fun it => if max =? 0 then Undefined else plus_ it 1)
        (Some same_)
        (Some end_)
        (if backward r then Some (fun it => plus_ it (-1)) else None)
        (Some plus_) (backward r)
        (Some (fun a b => let* d := minus_ a b in assume ((- max <=? d) && (d <=? max)) (Val d)))
        (order r) max (Some true_count))
  | _, _, _, _ => None
  end.

(** take.cpp 198-203 and 225-228: the constructor refuses. *)
Definition check_size_not_greater_than (count : Z) (r : range I A) : option (res (range I A)) :=
  match size r with
  | Some size_ => Some (let* n := size_ in if count <? n then Thrown else Val r)
  | None => None
  end.

(** drop.cpp 77-149: the iterators of what is left. [max] is [max_remaining] (165-168). *)
Definition reduced_range (max : Z) (first_ : res I) (size_ : option (res Z)) (r : range I A) : range I A :=
  let last_ := match size_, plus r, minus r, same r with
               | Some s, Some plus_, Some _, Some _ => Some (let* it := first_ in let* n := s in plus_ it n)
               | _, _, _, _ => last r
               end in
  Range first_
    (match size_, plus r, minus r, same r with
     | Some s, Some plus_, Some _, Some same_ => fun it => let* f := first_ in let* n := s in let* e := plus_ f n in same_ it e
     | _, _, _, _ => stop r
     end)
    (get r)
    (fun it => if max =? 0 then Undefined else next r it)
    (same r) last_
    (option_map (fun prev_ it => if max =? 0 then Undefined else prev_ it) (prev r))
    (plus r) (backward r)
    (option_map (fun minus_ a b => let* d := minus_ a b in assume ((- max <=? d) && (d <=? max)) (Val d)) (minus r))
    (order r) max size_.
(** drop.cpp 171-190. [max_size] is the largest value of the type of the size, [min_count] the smallest of the type of the count. *)
Definition drop_sized (exception : bool) (max_size min_count count : Z) (r : range I A) : option (res (range I A)) :=
  match size r with
  | Some size_ => Some (
      let* source_size := size_ in
      let* remaining :=
        if exception
        then if (0 <=? source_size - count) && (source_size - count <=? max_size) then Val (source_size - count) else Thrown
        else Val (Z.max (source_size - count) 0) in
      let to_remove := Z.min source_size count in
      let* it := first r in
      let* it := next_by r it to_remove in
      Val (reduced_range (Z.max (max_size - min_count) 0) (Val it) (Some (Val remaining)) r))
  | None => None
  end.
(** drop.cpp 192-202 *)
Fixpoint drop_loop (n : nat) (exception : bool) (r : range I A) (it : I) : res I :=
  match n with
  | O => Val it
  | S n =>
      let* e := stop r it in
      if e then (if exception then Thrown else Val it)
      else let* it := next r it in drop_loop n exception r it
  end.
(** drop.cpp 191-207. The type of the size has the values from 0 to [reach] (range_size_t.cpp 18-24). *)
Definition drop_unsized (exception : bool) (min_count count : Z) (r : range I A) : res (range I A) :=
  let* it := first r in
  let* it := drop_loop (Z.to_nat count) exception r it in
  Val (reduced_range (Z.max (reach r - min_count) 0) (Val it) None r).

(** drop_back.cpp 26-43. The type of the difference that is passed on to take has a largest value of [max_count]. *)
Definition drop_back_exactly {J} (take_ : Z -> range I A -> option (range J A)) (count : Z) (r : range I A)
    : option (res (range J A)) :=
  match size r with
  | Some size_ =>
      match size_ with
      | Val n => if n <? count then Some Thrown else option_map Val (take_ (n - count) r)
      | _ => None
      end
  | None => None
  end.

End Adapted.

Section Zip.
Context {I A : Type}.

(** Applying an operation to each of the iterators of zip_iterator::m_its. *)
Definition zipped {X B} (op : range I A -> X -> res B) (rs : list (range I A)) (xs : list X) : res (list B) :=
  each (fun rx => op (fst rx) (snd rx)) (combine rs xs).
(** An operation that exists when each of the iterators has it. *)
Fixpoint all_have {T} (op : range I A -> option T) (rs : list (range I A)) : option (list T) :=
  match rs with
  | [] => Some []
  | r :: rs => match op r, all_have op rs with Some t, Some ts => Some (t :: ts) | _, _ => None end
  end.
(** The defaulted == and <=> of two tuples (zip.cpp 82, tv/tuple.cpp) *)
Fixpoint tuple_equal (fs : list (I -> I -> res bool)) (a b : list I) : res bool :=
  match fs, a, b with
  | f :: fs, x :: a, y :: b => let* c := f x y in if c then tuple_equal fs a b else Val false
  | _, _, _ => Val true
  end.
Fixpoint tuple_compare (fs : list (I -> I -> res comparison)) (a b : list I) : res comparison :=
  match fs, a, b with
  | f :: fs, x :: a, y :: b => let* c := f x y in match c with Eq => tuple_compare fs a b | _ => Val c end
  | _, _, _ => Val Eq
  end.

(** zip.cpp 33-47 *)
Definition min_reach (rs : list (range I A)) : Z :=
  match rs with [] => 0 | r :: rs => fold_left (fun m r => Z.min m (reach r)) rs (reach r) end.

(** What ends the traversal: all of the ranges (182-190, 82), an exception when not all end together (91-110), or any (112-125). *)
Inductive zip_end := All_sized | Checked | Smallest.
Definition zip_stop (e : zip_end) (rs : list (range I A)) (its : list I) : res bool :=
  let at_end := fun rx => stop (fst rx) (snd rx) in
  match e with
  | All_sized => all_of at_end (combine rs its)
  | Checked =>
      let* none := all_of (fun rx => negated (at_end rx)) (combine rs its) in
      if none then Val false
      else
        let* all := all_of at_end (combine rs its) in
        if all then Val true else Thrown
  | Smallest => any_of at_end (combine rs its)
  end.

(** zip.cpp 55-89 with zip_impl 153-228, without the check of the sizes. Iterators are not subtractable. *)
Definition zip_view (e : zip_end) (size_ : option (res Z)) (rs : list (range I A)) : range (list I) (list A) :=
  Range (each first rs)
    (zip_stop e rs)
    (zipped get rs)
    (match rs with [] => fun _ => Undefined | _ => zipped next rs end)
    (option_map tuple_equal (all_have same rs))
    (match e with All_sized => option_map (fun _ => each (fun r => match last r with Some e => e | None => Undefined end) rs) (all_have last rs) | _ => None end)
    (option_map (fun _ => zipped (fun r it => match prev r with Some f => f it | None => Undefined end) rs) (all_have prev rs))
    (option_map (fun _ its d => zipped (fun r it => match plus r with Some f => f it d | None => Undefined end) rs its) (all_have plus rs))
    (forallb backward rs)
    None
    (option_map tuple_compare (all_have order rs))
    (min_reach rs) size_.
(** zip.cpp 127-133 and 184-191 *)
Definition all_are_equal (sizes : list Z) : bool :=
  match sizes with [] => true | n :: ns => forallb (Z.eqb n) ns end.
(** The sizes of the ranges, when each has one. *)
Definition sizes (rs : list (range I A)) : option (res (list Z)) :=
  option_map (each (fun x => x)) (all_have size rs).
(** zip.cpp 230-240 *)
Definition zip (rs : list (range I A)) : res (range (list I) (list A)) :=
  match sizes rs with
  | Some ss =>
      let* ns := ss in
      if all_are_equal ns
      then Val (zip_view All_sized (Some (match ns with [] => Val 0 | n :: _ => Val n end)) rs)
      else Thrown
  | None => Val (zip_view Checked None rs)
  end.
(** zip.cpp 245-255 and 158-165: ranges with a size are first cut to the smallest. [cut n r] is take(r, n). *)
Definition zip_smallest_sized {J} (cut : Z -> range I A -> option (range J A)) (rs : list (range I A))
    : option (res (list (range J A) * Z)) :=
  match sizes rs with
  | Some ss =>
      match ss with
      | Val ns =>
          let min := match ns with [] => 0 | n :: ns => fold_left Z.min ns n end in
          option_map (fun cuts => Val (cuts, min)) (all_have (cut min) rs)
      | _ => None
      end
  | None => None
  end.
(** zip.cpp 112-125 and 173-181: without sizes *)
Definition zip_smallest_unsized (rs : list (range I A)) : range (list I) (list A) := zip_view Smallest None rs.

End Zip.
(** zip.cpp 245-255: the view of the cut ranges *)
Definition zip_smallest {I J A} (cut : Z -> range I A -> option (range J A)) (rs : list (range I A))
    : option (res (range (list J) (list A))) :=
  option_map (fun e => let* c := e in Val (zip_view All_sized (Some (Val (snd c))) (fst c))) (zip_smallest_sized cut rs).

Section Concatenate.
Context {I A : Type}.

(** concatenate_view.cpp 204-213 *)
Fixpoint concatenated_get (rs : list (range I A)) (its : list I) : res A :=
  match rs, its with
  | [r], [it] => get r it
  | r :: rs, it :: its => let* e := stop r it in if e then concatenated_get rs its else get r it
  | _, _ => Undefined
  end.
(** concatenate_view.cpp 123-149 for an offset of 1: [done] says that remaining_offset is 0 *)
Fixpoint concatenated_next (done : bool) (rs : list (range I A)) (its : list I) : res (list I) :=
  match rs, its with
  | r :: rs, it :: its =>
      let* stays := if done then Val true else stop r it in
      if stays then let* its := concatenated_next done rs its in Val (it :: its)
      else
        let* it := next r it in
        let* its := concatenated_next true rs its in
        Val (it :: its)
  | _, _ => Val []
  end.
(** containers::size of the subrange from [it] on: end - begin (size.cpp 28-33) *)
Definition left_in (r : range I A) (it : I) : res Z :=
  match last r, minus r with
  | Some last_, Some minus_ => let* e := last_ in let* n := minus_ e it in assume ((0 <=? n) && (n <=? reach r)) (Val n)
  | _, _ => Undefined
  end.
(** concatenate_view.cpp 123-149 for any other offset *)
Fixpoint concatenated_plus (rs : list (range I A)) (its : list I) (remaining_offset : Z) : res (list I) :=
  match rs, its with
  | r :: rs, it :: its =>
      let* n := left_in r it in
      let added_size := Z.min n remaining_offset in
      let* it := match plus r with Some plus_ => plus_ it added_size | None => Undefined end in
      let* its := concatenated_plus rs its (remaining_offset - added_size) in
      Val (it :: its)
  | _, _ => Val []
  end.
(** concatenate_view.cpp 151-161; the ends are the same, as both iterators come from one view *)
Fixpoint concatenated_minus (rs : list (range I A)) (a b : list I) : res Z :=
  match rs, a, b with
  | r :: rs, x :: a, y :: b =>
      let* d := match minus r with Some minus_ => minus_ x y | None => Undefined end in
      let* ds := concatenated_minus rs a b in
      Val (d + ds)
  | _, _, _ => Val 0
  end.
(** concatenate_view.cpp 228-281 with 82-223. The end is an iterator when all ranges have random access (253-264); the iterators
    never go back. *)
Definition concatenate_view (rs : list (range I A)) : range (list I) A :=
  let random := match all_have last rs, all_have plus rs, all_have minus rs, all_have same rs, all_have size rs with
                | Some _, Some _, Some _, Some _, Some _ => true
                | _, _, _, _, _ => false
                end in
  let total := match sizes rs with
               | Some ss => Some (let* ns := ss in Val (fold_right Z.add 0 ns))
               | None => None
               end in
  let end_ := let* its := each first rs in
              let* n := match total with Some t => t | None => Undefined end in
              concatenated_plus rs its n in
  Range (each first rs)
    (match all_have same rs, random with
     | Some fs, true => fun its => let* e := end_ in tuple_equal fs its e
     | _, _ => fun its => all_of (fun rx => stop (fst rx) (snd rx)) (combine rs its)
     end)
    (concatenated_get rs)
    (concatenated_next false rs)
    (option_map tuple_equal (all_have same rs))
    (if random then Some end_ else None)
    None
    (if random then Some (fun its d => assume (0 <=? d) (concatenated_plus rs its d)) else None)
    false
    (option_map (fun _ => concatenated_minus rs) (all_have minus rs))
    (option_map tuple_compare (all_have order rs))
    (fold_right Z.add 0 (map reach rs))
    total.

End Concatenate.

(** remove_none.cpp 157-208 and 221-263: [it] with the cached value. Dereferencing reads the cache. *)
Section RemoveNone.
Context {I A : Type}.
Fixpoint advance_to_first_value (fuel : nat) (r : range I (option A)) (it : I) (cached : option A) : res (I * option A) :=
  match fuel with
  | O => Running
  | S fuel =>
      let* e := stop r it in
      if e then Val (it, cached)
      else
        let* v := get r it in
        match v with
        | Some _ => Val (it, v)
        | None => let* it := next r it in advance_to_first_value fuel r it v
        end
  end.
Definition remove_none (fuel : nat) (r : range I (option A)) : range (I * option A) A :=
  Range
    (let* it := first r in advance_to_first_value fuel r it None)
    (fun ic => stop r (fst ic))
    (fun ic => match snd ic with Some v => Val v | None => Undefined end)
    (fun ic => let* it := next r (fst ic) in advance_to_first_value fuel r it (snd ic))
    (option_map (fun same_ (a b : I * option A) => same_ (fst a) (fst b)) (same r))
    None None None false None None (reach r) None.
End RemoveNone.
