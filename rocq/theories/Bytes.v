(** * Bytes: shifts of std::byte, span, as_bytes

    Models bounded/arithmetic/byte.cpp, containers/span.cpp and containers/as_bytes.cpp. Memory is a list of blocks of bytes, and a pointer is null or
    a place in a block, as in Strings.v. The bytes of an element are its object representation. *)

From Coq Require Import List ZArith Bool.
From Verif Require Import Range Strings.
From Verif Require Cxx Core.
Import ListNotations.
Local Open Scope Z_scope.

(** ** bounded/arithmetic/byte.cpp *)

(** std::byte's own operators: the byte as unsigned int is shifted and converted back (libc++ cstddef, [support.types.byteops]). *)
Definition std_byte_shl (byte : Z) (n : Cxx.tval) : Cxx.outcome Z :=
  Cxx.bind (Cxx.cshl (Cxx.cast Cxx.U32 (Cxx.TV Cxx.U8 byte)) n) (fun r => Cxx.Ok (Cxx.vl (Cxx.cast Cxx.U8 r))).
Definition std_byte_shr (byte : Z) (n : Cxx.tval) : Cxx.outcome Z :=
  Cxx.bind (Cxx.cshr (Cxx.cast Cxx.U32 (Cxx.TV Cxx.U8 byte)) n) (fun r => Cxx.Ok (Cxx.vl (Cxx.cast Cxx.U8 r))).
(** byte.cpp 18-22 and 24-28: [None]: there is no such operator. *)
Definition byte_shl (byte : Z) (B : Core.bty) (n : Z) : option (Cxx.outcome Z) :=
  if 0 <=? Core.lo B then Some (Cxx.bind (Core.value B n) (std_byte_shl byte)) else None.
Definition byte_shr (byte : Z) (B : Core.bty) (n : Z) : option (Cxx.outcome Z) :=
  if 0 <=? Core.lo B then Some (Cxx.bind (Core.value B n) (std_byte_shr byte)) else None.

(** ** containers/span.cpp *)

(** maximum_array_size (maximum_array_size.cpp 15-24) of elements of [s] bytes, the largest value of array_size_type *)
Definition max_count (s : Z) : Z := (2 ^ 52 - 1) / s.
(** The members (span.cpp 77-78); the number of bytes of an element is part of the type. *)
Record span := Span { sp_data : pointer; sp_size : Z }.
(** span.cpp 32, 77-78 *)
Definition span_default : span := Span None 0.
(** A value [n] of a type whose values are from 0 to [most] becomes an array_size_type: the conversion does not exist unless all of them fit
    (integer.cpp 182-186, bounded_by_range). *)
Definition as_size (s most n : Z) : option Z := if most <=? max_count s then Some n else None.
(** span.cpp 34-40: data and size of a contiguous range *)
Definition span_of_range (s : Z) (p : pointer) (most n : Z) : option span := option_map (Span p) (as_size s most n).
(** span.cpp 42-48 *)
Definition span_of_size (s : Z) (first : pointer) (n : Z) : span := Span first n.
(** span.cpp 50-56: the difference of two pointers to elements, and increase_min<0>, which has no other check than an assumption (see C29) *)
Definition difference (s : Z) (last first : pointer) : res Z :=
  match last, first with
  | None, None => Val 0
  | Some (b, j), Some (b', i) => assume (Nat.eqb b b') (Val ((j - i) / s))
  | _, _ => Undefined
  end.
Definition span_of_iterators (s : Z) (first last : pointer) : res span :=
  let* d := difference s last first in assume (0 <=? d) (Val (Span first d)).
(** [*(p + index)] of type T: its bytes, and an assignment to it *)
Definition load (s : Z) (m : blocks) (p : pointer) (index : Z) : res (list Z) :=
  let* q := advance m p (index * s) in read_all m q 0 (Z.to_nat s).
Definition write (m : blocks) (p : pointer) (i v : Z) : res blocks :=
  match p with
  | None => Undefined
  | Some (b, offset) =>
      match nth_error m b with
      | None => Undefined
      | Some block =>
          assume ((0 <=? offset + i) && (offset + i <? Z.of_nat (length block)))
            (Val (firstn b m ++ (firstn (Z.to_nat (offset + i)) block ++ v :: skipn (S (Z.to_nat (offset + i))) block) :: skipn (S b) m))
      end
  end.
Fixpoint write_all (m : blocks) (p : pointer) (i : Z) (bytes : list Z) : res blocks :=
  match bytes with
  | [] => Val m
  | v :: bytes => let* m := write m p i v in write_all m p (i + 1) bytes
  end.
Definition store (s : Z) (m : blocks) (p : pointer) (index : Z) (bytes : list Z) : res blocks :=
  let* q := advance m p (index * s) in write_all m q 0 bytes.
(** operator[] (span.cpp 65-67), read and assigned to *)
Definition span_get (s : Z) (m : blocks) (t : span) (index : Z) : res (list Z) := load s m (sp_data t) index.
Definition span_set (s : Z) (m : blocks) (t : span) (index : Z) (bytes : list Z) : res blocks := store s m (sp_data t) index bytes.
(** The conversions to std::span (span.cpp 69-74) *)
Definition span_to_std (t : span) : pointer * Z := (sp_data t, sp_size t mod 2 ^ 64).

(** ** containers/as_bytes.cpp *)

(** as_bytes_impl (as_bytes.cpp 20-26), as_bytes (28-30) and as_writeable_bytes (32-36) of a range whose size is of a type with values from 0 to [most]: the
    size times sizeof is of a type whose values are from 0 to [most * s] (multiplication, C04). *)
Definition as_bytes (s : Z) (p : pointer) (most n : Z) : option span := option_map (Span p) (as_size 1 (most * s) (n * s)).
