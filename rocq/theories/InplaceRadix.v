(** * inplace_radix_sort and ska_sort

    Models containers/algorithms/sort/inplace_radix_sort.cpp, common_prefix.cpp and ska_sort.cpp. A range is the list of the
    values of its elements; sorting a subrange replaces that part of the list. [None]: an index outside of a range, or a violated
    assume_in_range. Extracting a key, swapping and comparing elements do not throw here. *)

From Coq Require Import List Arith Bool ZArith.
From Verif Require Import Mem DoubleBuffer.
Import ListNotations.
Local Open Scope nat_scope.

(** [swap( l[i], l[j] )] *)
Definition swap_at {A} (l : list A) (i j : nat) : option (list A) :=
  match nth_error l i, nth_error l j with
  | Some a, Some b => Some (set_nth (set_nth l i b) j a)
  | _, _ => None
  end.

(** ** containers::partition with a predicate that has effects: partition.cpp 62-107, for iterators that can be decremented. [St] is
    what the predicate works on. Algo.v has the same function with a predicate without effects, in memory. *)
Section Partition.
Context {A St : Type} (predicate : A -> St -> option (bool * St)).

(** advance_first (lines 65-67), that is find_if_not, with [n] elements before [last] *)
Fixpoint advance_first (n : nat) (l : list A) (first : nat) (s : St) : option (nat * St) :=
  match n with
  | 0 => Some (first, s)
  | S n =>
      match nth_error l first with
      | None => None
      | Some a =>
          match predicate a s with
          | None => None
          | Some (true, s) => advance_first n l (S first) s
          | Some (false, s) => Some (first, s)
          end
      end
  end.
(** advance_last (lines 71-78), with [last = first + n] *)
Fixpoint advance_last (n : nat) (l : list A) (first : nat) (s : St) : option (nat * St) :=
  match n with
  | 0 => Some (first, s)
  | S n =>
      match nth_error l (first + n) with
      | None => None
      | Some a =>
          match predicate a s with
          | None => None
          | Some (true, s) => Some (first + n, s)
          | Some (false, s) => advance_last n l first s
          end
      end
  end.
(** Lines 81-88 *)
Fixpoint partition_loop (fuel : nat) (l : list A) (first last : nat) (s : St) : option (nat * list A * St) :=
  match fuel with
  | 0 => None
  | S fuel =>
      if first =? last then Some (first, l, s)
      else
        match swap_at l first last with
        | None => None
        | Some l =>
            match advance_first (last - first) l first s with
            | None => None
            | Some (first, s) =>
                if first =? last then Some (first, l, s)
                else
                  match advance_last (last - first) l first s with
                  | None => None
                  | Some (last, s) => partition_loop fuel l first last s
                  end
            end
        end
  end.
(** Lines 64-101 *)
Definition partition_range (l : list A) (last : nat) (s : St) : option (nat * list A * St) :=
  match advance_first last l 0 s with
  | None => None
  | Some (first, s) =>
      match advance_last (last - first) l first s with
      | None => None
      | Some (last, s) => partition_loop (S (last - first)) l first last s
      end
  end.
End Partition.

Section Inplace.
Context {V : Type}.

(** ** UnsignedInplaceSorter *)

(** PartitionInfo and PartitionCounts (inplace_radix_sort.cpp 47-58, 165-169): [offset] and [next_offset] of every partition, and the
    first [number] elements of [remaining] *)
Record counts := Counts { offset : list nat; next_offset : list nat; remaining : list nat }.
Fixpoint running_totals (total : nat) (count : list nat) : list nat :=
  match count with [] => [] | c :: rest => (total + c) :: running_totals (total + c) rest end.
Fixpoint nonzero (i : nat) (count : list nat) : list nat :=
  match count with [] => [] | 0 :: rest => nonzero (S i) rest | S _ :: rest => i :: nonzero (S i) rest end.
(** partition_counts (lines 185-203). [d] is current_byte of the extracted key. *)
Definition partition_counts (d : V -> nat) (to_sort : list V) : option counts :=
  match count_digits d to_sort (repeat 0 256) with
  | None => None
  | Some count => Some (Counts (exchange_totals 0 count) (running_totals 0 count) (nonzero 0 count))
  end.

(** The inner loop of american_flag_sort (lines 236-246). [Some None]: the function returns. *)
Fixpoint next_block (fuel : nat) (off next rem : list nat) (ptr : nat) : option (option (nat * nat * nat)) :=
  match fuel with
  | 0 => None
  | S fuel =>
      let ptr := S ptr in
      if ptr =? length rem - 1 then Some None
      else
        match nth_error rem ptr with
        | None => None
        | Some current_block =>
            match nth_error off current_block, nth_error next current_block with
            | Some o, Some n => if o =? n then next_block fuel off next rem ptr else Some (Some (ptr, o, n))
            | _, _ => None
            end
        end
  end.
(** The loop of american_flag_sort (lines 229-253), [ptr] for current_block_ptr. [true]: the function returned in the loop. *)
Fixpoint american_flag_loop (fuel : nat) (d : V -> nat) (next rem : list nat) (to_sort : list V) (off : list nat) (ptr it block_end : nat) :
    option (list V * bool) :=
  match fuel with
  | 0 => None
  | S fuel =>
      match nth_error to_sort it, nth_error rem ptr with
      | Some value, Some current_block =>
          let block := d value in
          if block =? current_block then
            let it := S it in
            if it =? length to_sort - 1 then Some (to_sort, false)
            else if it =? block_end then
              match next_block (length rem) off next rem ptr with
              | None => None
              | Some None => Some (to_sort, true)
              | Some (Some (ptr, it, block_end)) => american_flag_loop fuel d next rem to_sort off ptr it block_end
              end
            else american_flag_loop fuel d next rem to_sort off ptr it block_end
          else
            match nth_error off block with
            | None => None
            | Some partition_offset =>
                match swap_at to_sort it partition_offset with
                | None => None
                | Some to_sort => american_flag_loop fuel d next rem to_sort (set_nth off block (S partition_offset)) ptr it block_end
                end
            end
      | _, _ => None
      end
  end.
(** [if (partition_end - partition_begin > 1) sort_selector(subrange(partition_begin, partition_end), ...)], lines 259-267 and
    303-311 *)
Definition sort_part (sort_selector : list V -> option (list V)) (to_sort : list V) (partition_begin partition_end : nat) : option (list V) :=
  if 1 <? partition_end - partition_begin then
    match sort_selector (firstn (partition_end - partition_begin) (skipn partition_begin to_sort)) with
    | None => None
    | Some sorted => Some (firstn partition_begin to_sort ++ sorted ++ skipn partition_end to_sort)
    end
  else Some to_sort.
(** Lines 255-269 *)
Fixpoint sort_parts_forward (sort_selector : list V -> option (list V)) (next rem : list nat) (partition_begin : nat) (to_sort : list V) :
    option (list V) :=
  match rem with
  | [] => Some to_sort
  | index :: rem =>
      match nth_error next index with
      | None => None
      | Some partition_end =>
          match sort_part sort_selector to_sort partition_begin partition_end with
          | None => None
          | Some to_sort => sort_parts_forward sort_selector next rem partition_end to_sort
          end
      end
  end.
(** american_flag_sort (lines 217-270). [sort_selector] sorts a subrange by the next byte. *)
Definition american_flag_sort (d : V -> nat) (sort_selector : list V -> option (list V)) (to_sort : list V) : option (list V) :=
  match partition_counts d to_sort with
  | None => None
  | Some partitions =>
      let rem := remaining partitions in
      let result :=
        if 1 <? length rem then
          match nth_error rem 0 with
          | None => None
          | Some current_block =>
              match nth_error (next_offset partitions) current_block with
              | None => None
              | Some block_end =>
                  american_flag_loop (S (length to_sort + list_sum (next_offset partitions))) d (next_offset partitions) rem to_sort
                    (offset partitions) 0 0 block_end
              end
          end
        else Some (to_sort, false) in
      match result with
      | None => None
      | Some (to_sort, true) => Some to_sort
      | Some (to_sort, false) => sort_parts_forward sort_selector (next_offset partitions) rem 0 to_sort
      end
  end.

(** The loop of lines 284-293, with [n] elements to go *)
Fixpoint place_loop (n : nat) (d : V -> nat) (it : nat) (s : list V * list nat) : option (list V * list nat) :=
  match n with
  | 0 => Some s
  | S n =>
      let '(to_sort, off) := s in
      match nth_error to_sort it with
      | None => None
      | Some value =>
          match nth_error off (d value) with
          | None => None
          | Some partition_offset =>
              let off := set_nth off (d value) (S partition_offset) in
              if it =? partition_offset then place_loop n d (S it) (to_sort, off)
              else
                match swap_at to_sort it partition_offset with
                | None => None
                | Some to_sort => place_loop n d (S it) (to_sort, off)
                end
          end
      end
  end.
(** The predicate of lines 278-295 *)
Definition place (d : V -> nat) (next : list nat) (index : nat) (s : list V * list nat) : option (bool * (list V * list nat)) :=
  match nth_error (snd s) index, nth_error next index with
  | Some begin_offset, Some end_offset =>
      if begin_offset =? end_offset then Some (false, s)
      else if end_offset <? begin_offset then None
      else
        match place_loop (end_offset - begin_offset) d begin_offset s with
        | None => None
        | Some s => Some (true, s)
        end
  | _, _ => None
  end.
(** The loop of lines 277-296 *)
Fixpoint ska_byte_loop (fuel : nat) (d : V -> nat) (next rem : list nat) (last_remaining : nat) (s : list V * list nat) :
    option (list V * list nat) :=
  if last_remaining <=? 1 then Some (fst s, rem)
  else
    match fuel with
    | 0 => None
    | S fuel =>
        match partition_range (place d next) rem last_remaining s with
        | None => None
        | Some (last_remaining, rem, s) => ska_byte_loop fuel d next rem last_remaining s
        end
    end.
(** Lines 297-312; [rem] is reversed. *)
Fixpoint sort_parts (sort_selector : list V -> option (list V)) (next rem : list nat) (to_sort : list V) : option (list V) :=
  match rem with
  | [] => Some to_sort
  | index :: rem =>
      match (if index =? 0 then Some 0 else nth_error next (index - 1)), nth_error next index with
      | Some start_offset, Some end_offset =>
          match sort_part sort_selector to_sort start_offset end_offset with
          | None => None
          | Some to_sort => sort_parts sort_selector next rem to_sort
          end
      | _, _ => None
      end
  end.
(** ska_byte_sort (lines 272-313) *)
Definition ska_byte_sort (d : V -> nat) (sort_selector : list V -> option (list V)) (to_sort : list V) : option (list V) :=
  match partition_counts d to_sort with
  | None => None
  | Some partitions =>
      match ska_byte_loop (S (length to_sort)) d (next_offset partitions) (remaining partitions) (length (remaining partitions))
              (to_sort, offset partitions) with
      | None => None
      | Some (to_sort, rem) => sort_parts sort_selector (next_offset partitions) (rev rem) to_sort
      end
  end.

Context (std_sort_threshold american_flag_sort_threshold : nat).
(** [sort_all] is [containers::sort(to_sort, extract_key_to_less(extract_key))] (sort.cpp, modelled in Algo.v). *)
Context (sort_all : list V -> list V).

(** sort_selector (lines 205-216) with [bytes = number_of_bytes - offset] bytes to go; [key] is CurrentSubKey::sub_key. The current byte
    (lines 180-183) is then the byte number [bytes - 1], counted from the lowest. *)
Fixpoint sort_selector (bytes : nat) (key : V -> Z) (next_sort : list V -> option (list V)) (to_sort : list V) : option (list V) :=
  match bytes with
  | 0 => next_sort to_sort
  | S bytes =>
      if length to_sort <=? std_sort_threshold then Some (sort_all to_sort)
      else if length to_sort <? american_flag_sort_threshold then
        american_flag_sort (fun v => digit (key v) bytes) (sort_selector bytes key next_sort) to_sort
      else ska_byte_sort (fun v => digit (key v) bytes) (sort_selector bytes key next_sort) to_sort
  end.

(** ** inplace_sort *)

(** The first branch of inplace_sort (lines 322-333) *)
Definition bool_sort (key : V -> bool) (next_sort : list V -> option (list V)) (to_sort : list V) : option (list V) :=
  match partition_range (fun v (s : unit) => Some (negb (key v), s)) to_sort (length to_sort) tt with
  | None => None
  | Some (middle, to_sort, _) =>
      match next_sort (firstn middle to_sort), next_sort (skipn middle to_sort) with
      | Some a, Some b => Some (a ++ b)
      | _, _ => None
      end
  end.

(** A SubKey that is a bool or an unsigned integer. *)
Inductive scalar (A : Type) := Bool (f : A -> bool) | Uint (bytes : nat) (f : A -> Z).
Global Arguments Bool {A} f.
Global Arguments Uint {A} bytes f.
Definition scalar_of {A B} (g : A -> B) (s : scalar B) : scalar A :=
  match s with Bool f => Bool (fun a => f (g a)) | Uint n f => Uint n (fun a => f (g a)) end.
(** inplace_sort (lines 319-339) for those *)
Definition scalar_sort (s : scalar V) : (list V -> option (list V)) -> list V -> option (list V) :=
  match s with Bool f => bool_sort f | Uint n f => sort_selector n f end.
(** [element_key(lhs) == element_key(rhs)] *)
Definition same_key {A} (s : scalar A) (a b : A) : bool :=
  match s with Bool f => Bool.eqb (f a) (f b) | Uint _ f => Z.eqb (f a) (f b) end.

(** [std::mismatch(...).first - begin] (common_prefix.cpp 45-53) *)
Fixpoint match_length {A} (same : A -> A -> bool) (l l' : list A) : nat :=
  match l, l' with
  | a :: l, b :: l' => if same a b then S (match_length same l l') else 0
  | _, _ => 0
  end.
(** common_prefix (common_prefix.cpp 28-57). [begin + start_index] is outside of a range that is shorter. *)
Definition common_prefix {A} (key : V -> list A) (same : A -> A -> bool) (to_sort : list V) (start_index : nat) : option nat :=
  match to_sort with
  | [] => Some 0
  | first :: rest =>
      if forallb (fun v => start_index <=? length (key v)) to_sort then
        Some (fold_left (fun largest v => Nat.min largest (match_length same (skipn start_index (key first)) (skipn start_index (key v)))) rest
                (length (key first) - start_index))
      else None
  end.

(** [==] of keys that are ranges *)
Fixpoint same_value (a b : DoubleBuffer.key) : bool :=
  match a, b with
  | Kb a, Kb b => Bool.eqb a b
  | Ku a, Ku b => Z.eqb a b
  | Kl a, Kl b =>
      (fix go a b := match a, b with
                     | x :: a, y :: b => same_value x y && go a b
                     | [], [] => true
                     | _, _ => false
                     end) a b
  | _, _ => false
  end.
(** ElementSubKey::base (line 360): a scalar, or a range with its own elements. *)
Inductive element_key := EScalar (s : scalar DoubleBuffer.key) | ERange (get : DoubleBuffer.key -> list DoubleBuffer.key) (e : element_key).
(** [element_key(lhs) == element_key(rhs)] (lines 378-380, common_prefix.cpp 50) *)
Definition same_element (e : element_key) (a b : DoubleBuffer.key) : bool :=
  match e with EScalar s => same_key s a b | ERange get _ => same_value (Kl (get a)) (Kl (get b)) end.
(** ListInplaceSorter (lines 341-420). [same] is [==] of the keys of elements, and [sort_element] the call of inplace_sort (lines 400-405)
    for the elements that a function gives. [containers::at] of an index outside of the list is not reached
    in a sort of a subrange; the model uses the default key there. [next_sort] is sort_data.next_sort. *)
Definition nth_key (key : V -> list DoubleBuffer.key) (i : nat) (v : V) : DoubleBuffer.key := nth i (key v) (Kb false).
Fixpoint list_sort (recursion_limit : nat) (key : V -> list DoubleBuffer.key) (same : DoubleBuffer.key -> DoubleBuffer.key -> bool)
    (sort_element : (V -> DoubleBuffer.key) -> (list V -> option (list V)) -> list V -> option (list V))
    (next_sort : list V -> option (list V)) (current_index : nat) (to_sort : list V) : option (list V) :=
  match recursion_limit with
  | 0 => Some (sort_all to_sort)
  | S recursion_limit =>
      match common_prefix key same to_sort current_index with
      | None => None
      | Some n =>
          let current_index := current_index + n in
          match partition_range (fun v (s : unit) => Some (length (key v) <=? current_index, s)) to_sort (length to_sort) tt with
          | None => None
          | Some (end_of_shorter_ones, to_sort, _) =>
              let shorter := firstn end_of_shorter_ones to_sort in
              let longer := skipn end_of_shorter_ones to_sort in
              match (if 1 <? length shorter then next_sort shorter else Some shorter),
                    (if 1 <? length longer then
                       sort_element (nth_key key current_index)
                         (list_sort recursion_limit key same sort_element next_sort (S current_index)) longer
                     else Some longer) with
              | Some a, Some b => Some (a ++ b)
              | _, _ => None
              end
          end
      end
  end.
(** inplace_sort (lines 319-339) of an element of a range. For an element that is a range, the sort of lines 343-356 starts at index 0 with
    a limit of 16 of its own, and goes on with the outer range (lines 392-398) for those that end. *)
Fixpoint element_sort (e : element_key) (get : V -> DoubleBuffer.key) (next_sort : list V -> option (list V)) (to_sort : list V) : option (list V) :=
  match e with
  | EScalar s => scalar_sort (scalar_of get s) next_sort to_sort
  | ERange inner e => list_sort 16 (fun v => inner (get v)) (same_element e) (element_sort e) next_sort 0 to_sort
  end.

(** The SubKeys one after the other: [next] of line 102, 122, 131 and 162 *)
Inductive sub_key := Scalar (s : scalar V) | Range (key : V -> list DoubleBuffer.key) (e : element_key).
(** sort_starter (lines 422-436) *)
Fixpoint sort_starter (keys : list sub_key) (to_sort : list V) : option (list V) :=
  match keys with
  | [] => Some to_sort
  | k :: keys =>
      if length to_sort <=? 1 then Some to_sort
      else
        match k with
        | Scalar s => scalar_sort s (sort_starter keys) to_sort
        | Range key e => list_sort 16 key (same_element e) (element_sort e) (sort_starter keys) 0 to_sort
        end
  end.
End Inplace.
Arguments sub_key V : clear implicits.
Arguments counts : clear implicits.

(** ** Which SubKeys a type has: lines 75-163. A range has elements of one type and any size. *)
Inductive type := TBool | TUint (bytes : nat) | TTuple (ts : list type) | TRange (t : type).
Definition elements (k : key) : list key := match k with Kl ks => ks | _ => [] end.
Definition element_key_of (g : key -> key) (e : element_key) : element_key :=
  match e with EScalar s => EScalar (scalar_of g s) | ERange get e => ERange (fun k => get (g k)) e end.
(** [SubKey<T>::sub_key], for the elements of a range: of a tuple it is the first element. An empty tuple has none. *)
Fixpoint first_sub_key (t : type) : option element_key :=
  match t with
  | TBool => Some (EScalar (Bool as_bool))
  | TUint n => Some (EScalar (Uint n as_uint))
  | TTuple (t :: _) => option_map (element_key_of (element 0)) (first_sub_key t)
  | TTuple [] => None
  | TRange t => option_map (ERange elements) (first_sub_key t)
  end.
Fixpoint sub_keys {V} (t : type) (get : V -> key) : option (list (sub_key V)) :=
  match t with
  | TBool => Some [Scalar (Bool (fun v => as_bool (get v)))]
  | TUint n => Some [Scalar (Uint n (fun v => as_uint (get v)))]
  | TTuple ts =>
      (fix go (ts : list type) (index : nat) : option (list (sub_key V)) :=
         match ts with
         | [] => Some []
         | t :: ts =>
             match sub_keys t (fun v => element index (get v)), go ts (S index) with
             | Some a, Some b => Some (a ++ b)
             | _, _ => None
             end
         end) ts 0
  | TRange t =>
      match first_sub_key t with
      | Some e => Some [Range (fun v => elements (get v)) e]
      | None => None
      end
  end.
(** inplace_radix_sort (lines 438-442); the key of an element is what [extract_key] and then to_radix_sort_key give. *)
Definition inplace_radix_sort {V} (std_sort_threshold american_flag_sort_threshold : nat) (sort_all : list V -> list V) (t : type)
    (extract_key : V -> key) (to_sort : list V) : option (list V) :=
  match sub_keys t extract_key with
  | None => None
  | Some keys => sort_starter std_sort_threshold american_flag_sort_threshold sort_all keys to_sort
  end.
(** ska_sort (ska_sort.cpp 25-39) *)
Definition ska_sort {V} : (list V -> list V) -> type -> (V -> key) -> list V -> option (list V) := inplace_radix_sort 128 1024.
