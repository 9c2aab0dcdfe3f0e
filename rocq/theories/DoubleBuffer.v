(** * double_buffered_ska_sort

    Models containers/algorithms/sort/double_buffered_ska_sort.cpp. A range is the list of the values of its elements.
    [source] and [buffer] are two ranges of the same size; [*position = std::move(value)] puts the value there and leaves
    [moved value] behind. [None]: an index outside of a range. Extracting a key and moving an element do not throw here. *)

From Coq Require Import List Arith Bool ZArith.
From Verif Require Import Mem.
Import ListNotations.
Local Open Scope nat_scope.

(** The kinds of key of the [if constexpr] chain of double_buffered_ska_sort.cpp 200-213: bool, an unsigned integer of some number of
    bytes, and a tuple or a range of a fixed size, whose elements are keys. The elements of a range all have the same kind. *)
Inductive kind := KBool | KUint (bytes : nat) | KList (ks : list kind).
(** A key, after the extractor was applied to it and to its elements. *)
Inductive key := Kb (b : bool) | Ku (z : Z) | Kl (ks : list key).

Definition as_bool (k : key) : bool := match k with Kb b => b | _ => false end.
Definition as_uint (k : key) : Z := match k with Ku z => z | _ => 0%Z end.
(** [value[index]] and [get<index>(value)] *)
Definition element (index : nat) (k : key) : key := match k with Kl ks => nth index ks (Kb false) | _ => Kb false end.

(** [++l[i]] *)
Definition increment (l : list nat) (i : nat) : option (list nat) :=
  match nth_error l i with Some c => Some (set_nth l i (S c)) | None => None end.
(** [l[i] = v] *)
Definition assign_at {A} (l : list A) (i : nat) (v : A) : option (list A) :=
  match nth_error l i with Some _ => Some (set_nth l i v) | None => None end.

Section DoubleBuffer.
Context {V : Type} (moved : V -> V).

(** double_buffered_ska_sort.cpp 92-96: the loop of bool_sort_copy *)
Fixpoint bool_loop (extract_key : V -> bool) (source output : list V) (false_position true_position : nat) : option (list V) :=
  match source with
  | [] => Some output
  | value :: rest =>
      if extract_key value then
        match assign_at output true_position value with
        | Some output => bool_loop extract_key rest output false_position (S true_position)
        | None => None
        end
      else
        match assign_at output false_position value with
        | Some output => bool_loop extract_key rest output (S false_position) true_position
        | None => None
        end
  end.
(** double_buffered_ska_sort.cpp 82-97. The result is the new source and the new output. *)
Definition bool_sort_copy (extract_key : V -> bool) (source output : list V) : option (list V * list V) :=
  match bool_loop extract_key source output 0 (length (filter (fun v => negb (extract_key v)) source)) with
  | Some output => Some (map moved source, output)
  | None => None
  end.

(** The byte number [index] of a key: [(key >> (index * 8)) % 256] *)
Definition digit (key : Z) (index : nat) : nat := Z.to_nat ((key / 256 ^ Z.of_nat index) mod 256).

(** double_buffered_ska_sort.cpp 106-112, for one [index]; the outer and the inner loop are exchanged. *)
Fixpoint count_digits (d : V -> nat) (source : list V) (count : list nat) : option (list nat) :=
  match source with
  | [] => Some count
  | value :: rest => match increment count (d value) with Some count => count_digits d rest count | None => None end
  end.
(** double_buffered_ska_sort.cpp 117-119: [indexed_total += std::exchange(count[i], indexed_total)] for all i *)
Fixpoint exchange_totals (total : nat) (count : list nat) : list nat :=
  match count with
  | [] => []
  | c :: rest => total :: exchange_totals (total + c) rest
  end.
(** double_buffered_ska_sort.cpp 122-128: sort_segment_copy for one index, with [counts[index]] *)
Fixpoint segment_loop (d : V -> nat) (current next : list V) (count : list nat) : option (list V) :=
  match current with
  | [] => Some next
  | value :: rest =>
      match nth_error count (d value) with
      | None => None
      | Some position =>
          match assign_at next position value with
          | None => None
          | Some next => segment_loop d rest next (set_nth count (d value) (S position))
          end
      end
  end.
Definition sort_segment_copy (d : V -> nat) (counts : list nat) (current next : list V) : option (list V * list V) :=
  match segment_loop d current next counts with
  | Some next => Some (map moved current, next)
  | None => None
  end.
(** double_buffered_ska_sort.cpp 121-133: the iterations from [index] on; [size] is the size of the key in bytes and [fuel]
    more than what is left. *)
Fixpoint numeric_loop (fuel size index : nat) (extract_key : V -> Z) (counts : list (list nat)) (source buffer : list V) :
    option (list V * list V) :=
  match fuel with
  | 0 => None
  | S fuel =>
      if index =? size then Some (source, buffer)
      else
        match nth_error counts index with
        | None => None
        | Some count =>
            match sort_segment_copy (fun v => digit (extract_key v) index) count source buffer with
            | None => None
            | Some (source, buffer) =>
                if size mod 2 =? 0 then
                  match nth_error counts (S index) with
                  | None => None
                  | Some count =>
                      match sort_segment_copy (fun v => digit (extract_key v) (S index)) count buffer source with
                      | None => None
                      | Some (buffer, source) => numeric_loop fuel size (S (S index)) extract_key counts source buffer
                      end
                  end
                else numeric_loop fuel size (S index) extract_key counts source buffer
            end
        end
  end.
(** All counts, before anything is moved: lines 106-120. *)
Fixpoint all_counts (extract_key : V -> Z) (source : list V) (index size : nat) : option (list (list nat)) :=
  match size with
  | 0 => Some []
  | S size =>
      match count_digits (fun v => digit (extract_key v) index) source (repeat 0 256) with
      | None => None
      | Some count =>
          match all_counts extract_key source (S index) size with
          | None => None
          | Some rest => Some (exchange_totals 0 count :: rest)
          end
      end
  end.
(** double_buffered_ska_sort.cpp 100-135. The result says whether the sorted elements are in the buffer. *)
Definition double_buffered_numeric_sort (size : nat) (extract_key : V -> Z) (source buffer : list V) : option (bool * list V * list V) :=
  match all_counts extract_key source 0 size with
  | None => None
  | Some counts =>
      match numeric_loop (S size) size 0 extract_key counts source buffer with
      | None => None
      | Some (source, buffer) => Some (size mod 2 =? 1, source, buffer)
      end
  end.

(** double_buffered_ska_sort.cpp 137-213: a range and a tuple are sorted by their last element first. [which] says in which of the
    two ranges the elements are. *)
Fixpoint double_buffered_sort_impl (k : kind) (current_extractor : V -> key) (source buffer : list V) : option (bool * list V * list V) :=
  match k with
  | KBool =>
      match bool_sort_copy (fun v => as_bool (current_extractor v)) source buffer with
      | Some (source, buffer) => Some (true, source, buffer)
      | None => None
      end
  | KUint bytes => double_buffered_numeric_sort bytes (fun v => as_uint (current_extractor v)) source buffer
  | KList ks =>
      (fix loop (ks : list kind) (index : nat) : option (bool * list V * list V) :=
         match ks with
         | [] => Some (false, source, buffer)
         | k :: ks =>
             match loop ks (S index) with
             | None => None
             | Some (which, source, buffer) =>
                 let extract_index := fun v => element index (current_extractor v) in
                 if which then
                   match double_buffered_sort_impl k extract_index buffer source with
                   | Some (which, buffer, source) => Some (negb which, source, buffer)
                   | None => None
                   end
                 else double_buffered_sort_impl k extract_index source buffer
             end
         end) ks 0
  end.

(** double_buffered_ska_sort.cpp 215-234, for ranges that can have two or more elements *)
Definition double_buffered_ska_sort (k : kind) (extract_key : V -> key) (source buffer : list V) : option (bool * list V * list V) :=
  if length source =? length buffer then double_buffered_sort_impl k extract_key source buffer else None.

End DoubleBuffer.
