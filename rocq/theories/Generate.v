(** * Ranges that call a function

    Models containers/algorithms/generate.cpp and generate_until.cpp and containers/repeat_n.cpp. The function given by the user may
    have effects: [W] is what it reads and changes. The functions of generate_n_idempotent and indexed_generate_n have none. *)

From Coq Require Import List ZArith Bool.
From Verif Require Import Range.
Import ListNotations.
Local Open Scope Z_scope.

(** A range whose iterators can only be moved, and whose operations have effects on [W]. *)
Record stream (W I A : Type) : Type := Stream {
  s_first : W -> res (I * W);
  s_stop : I -> W -> res (bool * W);
  s_get : I -> W -> res (A * W);
  s_next : I -> W -> res (I * W) }.
Arguments Stream {W I A}.
Arguments s_first {W I A}. Arguments s_stop {W I A}. Arguments s_get {W I A}. Arguments s_next {W I A}.

(** A range-based for loop: the values it sees, and what is left. *)
Fixpoint run_from {W I A} (fuel : nat) (r : stream W I A) (it : I) (w : W) : res (list A * W) :=
  match fuel with
  | O => Running
  | S fuel =>
      let* e := s_stop r it w in
      if fst e then Val ([], snd e)
      else
        let* x := s_get r it (snd e) in
        let* n := s_next r it (snd x) in
        let* xs := run_from fuel r (fst n) (snd n) in
        Val (fst x :: fst xs, snd xs)
  end.
Definition run {W I A} (fuel : nat) (r : stream W I A) (w : W) : res (list A * W) :=
  let* b := s_first r w in run_from fuel r (fst b) (snd b).

(** generate.cpp 26-79: the range holds the last value that the function returned, so that it is part of what the operations change.
    The value is moved out of it when it is read; a value is read once here. Reading none is undefined. *)
Definition generate {W A} (function : W -> option A * W) : stream (option A * W) unit A :=
  let populate_cache := fun w : option A * W => function (snd w) in
  Stream
    (fun w => Val (tt, populate_cache w))
    (fun _ w => Val (match fst w with Some _ => false | None => true end, w))
    (fun _ w => match fst w with Some a => Val (a, w) | None => Undefined end)
    (fun _ w => Val (tt, populate_cache w)).

(** generate.cpp 103-142 and 213-244; the iterator holds how many values are left. [max] is the largest value of the type of the
    size. *)
Definition generate_n {W A} (max size : Z) (generator : W -> A * W) : stream W Z A :=
  Stream
    (fun w => Val (size, w))
    (fun m_remaining w => Val (m_remaining =? 0, w))
    (fun _ w => Val (generator w))
    (fun m_remaining w => if max =? 0 then Undefined else assume (0 <=? m_remaining - 1) (Val (m_remaining - 1, w))).

(** generate_until.cpp 23-88 *)
Definition generate_until {W A} (generator : W -> A * W) (until : W -> bool * W) : stream W unit A :=
  Stream
    (fun w => Val (tt, w))
    (fun _ w => Val (until w))
    (fun _ w => Val (generator w))
    (fun _ w => Val (tt, w)).

(** generate.cpp 144-208 with 249-293: the iterator holds its offset. [max] is the largest value of the type of the size, and
    [read] what is read at an offset. begin and size are given, so that end is begin + size (begin_end.cpp 81-88). *)
Definition idempotent_generate_n {A} (max size : Z) (read : Z -> res A) : range Z A :=
  let plus_ := fun m_offset difference =>
    assume ((0 <=? m_offset + difference) && (m_offset + difference <=? max)) (Val (m_offset + difference)) in
  let end_ := plus_ 0 size in
  Range (Val 0)
    (fun it => let* e := end_ in Val (it =? e))
    read
    (fun it => if max =? 0 then Undefined else plus_ it 1)
    (Some (fun a b => Val (a =? b)))
    (Some end_)
    (Some (fun it => if max =? 0 then Undefined else plus_ it (-1)))
    (Some plus_) true
    (Some (fun a b => Val (a - b)))
    (Some (fun a b => Val (a ?= b)))
    max
    (Some (Val size)).
(** generate.cpp 164 and 249-269 *)
Definition generate_n_idempotent {A} (max size : Z) (value : A) : range Z A := idempotent_generate_n max size (fun _ => Val value).
(** generate.cpp 96-101, 158-162 and 274-293: the index is assumed to be less than [max]. *)
Definition indexed_generate_n {A} (max size : Z) (generator : Z -> A) : range Z A :=
  let max_index := if max =? 0 then 0 else max - 1 in
  idempotent_generate_n max size (fun m_offset => assume ((0 <=? m_offset) && (m_offset <=? max_index)) (Val (generator m_offset))).
(** repeat_n.cpp 20-23 and 25-28 *)
Definition repeat_n {A} (max size : Z) (value : A) : range Z A := generate_n_idempotent max size value.
