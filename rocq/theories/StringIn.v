(** * Model of reading a string from a stream

    containers/string.cpp 81-105: operator>>(std::istream &, string &). The string is an
    sbo_vector of characters (Sbo.v). The stream is the part of std::istream that this function
    sees: the characters that are left, the field width, the flag skipws and the three bits of its
    state; its mask of exceptions is empty and the locale is a predicate on characters. The type
    of the characters is [V]; [moved] is what is left of a character after moving it. *)

From Coq Require Import List Arith Bool ZArith.
From Verif Require Import Mem Vec Sbo.
Import ListNotations.

Section Extraction.
Context {V : Type} (moved : V -> V) (space : V -> bool) (small max : nat).
Notation C := (sbo_vector (V := V) moved small max).

Record stream : Type := Stream {
  st_rest : list V;     (* the characters not read yet *)
  st_width : Z;         (* width() *)
  st_skipws : bool;     (* flags() & std::ios::skipws *)
  st_eof : bool;        (* rdstate() *)
  st_fail : bool;
  st_bad : bool
}.
Definition good (s : stream) : bool := negb (st_eof s || st_fail s || st_bad s).
Definition set_fail (s : stream) : stream := Stream (st_rest s) (st_width s) (st_skipws s) (st_eof s) true (st_bad s).
Definition set_rest (l : list V) (s : stream) : stream := Stream l (st_width s) (st_skipws s) (st_eof s) (st_fail s) (st_bad s).

(** std::istream::sentry (string.cpp 82-85): of the standard library *)
Fixpoint drop_spaces (l : list V) : list V :=
  match l with
  | [] => []
  | c :: r => if space c then drop_spaces r else l
  end.
Definition sentry (s : stream) : stream * bool :=
  if good s then
    let s := if st_skipws s then
               match drop_spaces (st_rest s) with
               | [] => Stream [] (st_width s) (st_skipws s) true true (st_bad s)
               | l => set_rest l s
               end
             else s in
    (s, good s)
  else (set_fail s, false).

(** 86-88 *)
Definition max_characters (s : stream) : nat :=
  if (st_width s <=? 0)%Z then max else Z.to_nat (Z.min (Z.max (st_width s) 1) (Z.of_nat max)).

(** 90-98: [l] is what the iterator has not passed. ++it comes after the push_back. *)
Fixpoint extract_loop (limit : nat) (l : list V) : M V (sbo * stream) unit :=
  match l with
  | [] => ret tt
  | c :: l =>
      bind get (fun os =>
      if sb_size (fst os) =? limit then ret tt
      else if space c then ret tt
      else
        bind (on_fst (push_back moved C (Supply c))) (fun _ =>
        bind (on_snd (bind get (fun s => put (set_rest l s)))) (fun _ =>
        extract_loop limit l)))
  end.
(** 81-105 *)
Definition extract : M V (sbo * stream) unit :=
  bind get (fun os =>
  let ss := sentry (snd os) in
  bind (put (fst os, fst ss)) (fun _ =>
  if negb (snd ss) then ret tt
  else
    let limit := max_characters (fst ss) in
    bind (on_fst (clear C)) (fun _ =>
    bind (extract_loop limit (st_rest (fst ss))) (fun _ =>
    bind get (fun os =>
    bind (if sb_size (fst os) =? 0 then put (fst os, set_fail (snd os)) else ret tt) (fun _ =>
    bind get (fun os =>
    let s := snd os in
    put (fst os, Stream (st_rest s) 0 (st_skipws s) (st_eof s) (st_fail s) (st_bad s))))))))).
End Extraction.
Arguments stream : clear implicits.
