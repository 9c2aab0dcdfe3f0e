(** * Texts: string_view, static_string and static_null_terminated_string

    Models containers/string_view.cpp and static_string.cpp. Memory is a list of blocks of characters; a character is its value as a
    [char], which is signed where the library is used, so from -128 to 127. A pointer is null or a place in a block. *)

From Coq Require Import List ZArith Bool.
From Verif Require Import Range Sequence.
Import ListNotations.
Local Open Scope Z_scope.

Definition blocks : Type := list (list Z).
Definition pointer : Type := option (nat * Z).
(** [*(p + i)] *)
Definition read (m : blocks) (p : pointer) (i : Z) : res Z :=
  match p with
  | None => Undefined
  | Some (b, offset) =>
      match nth_error m b with
      | None => Undefined
      | Some block => if 0 <=? offset + i then match nth_error block (Z.to_nat (offset + i)) with Some c => Val c | None => Undefined end else Undefined
      end
  end.
(** [p + i] as a pointer: inside of the block or at its end. Adding zero to a null pointer is defined. *)
Definition advance (m : blocks) (p : pointer) (i : Z) : res pointer :=
  match p with
  | None => assume (i =? 0) (Val None)
  | Some (b, offset) =>
      match nth_error m b with
      | None => Undefined
      | Some block => assume ((0 <=? offset + i) && (offset + i <=? Z.of_nat (length block))) (Val (Some (b, offset + i)))
      end
  end.

(** maximum_array_size<char> (maximum_array_size.cpp 16-22) *)
Definition max_size : Z := 2 ^ 52 - 1.

(** The three classes have the same members (string_view.cpp 122-124, static_string.cpp 73-74 and 150-151), except that the size of the two
    static ones is part of their type and the second of them points to an array that has one more character. *)
Record text := Text { t_data : pointer; t_size : Z }.

(** [containers::begin], [containers::end] (begin_end.cpp 36-47, 56-61) and operator[] of them: iterators of type contiguous_iterator
    (contiguous_iterator.cpp 28-75), which is the number of characters to the beginning here. *)
Definition characters (m : blocks) (t : text) : range Z Z :=
  let plus_ := fun i d => let* _ := advance m (t_data t) (i + d) in Val (i + d) in
  Range (Val 0)
    (fun i => let* _ := advance m (t_data t) (t_size t) in Val (i =? t_size t))
    (fun i => read m (t_data t) i)
    (fun i => plus_ i 1)
    (Some (fun i j => Val (i =? j)))
    (Some (plus_ 0 (t_size t)))
    (Some (fun i => plus_ i (-1)))
    (Some plus_) true
    (Some (fun i j => Val (i - j)))
    (Some (fun i j => Val (i ?= j)))
    max_size
    (Some (Val (t_size t))).
Definition at_ (m : blocks) (t : text) (i : Z) : res Z := read m (t_data t) i.

(** ** Constructors *)

(** string_view.cpp 45: [string_view()] *)
Definition empty_view : text := Text None 0.
(** string_view.cpp 47-58: from a static_string or a static_null_terminated_string. *)
Definition view_of_static (t : text) : text := Text (t_data t) (t_size t).
(** string_view.cpp 59-73, 79-93 and 129-131: from a pointer and a size, which std::string_view, std::string, a subrange or another
    contiguous range have; also from_c_str and the literal. The size must be at most [max_size]. *)
Definition view_of (p : pointer) (n : Z) : res text := assume ((0 <=? n) && (n <=? max_size)) (Val (Text p n)).
(** std::char_traits<char>::length: the number of characters before the first null character. *)
Fixpoint length_loop (fuel : nat) (m : blocks) (p : pointer) (i : Z) : res Z :=
  match fuel with
  | O => Running
  | S fuel => let* c := read m p i in if c =? 0 then Val i else length_loop fuel m p (i + 1)
  end.
(** string_view.cpp 74-78. An array is also passed this way: the constructor is not a template. *)
Definition view_of_pointer (fuel : nat) (m : blocks) (p : pointer) : res text :=
  let* n := length_loop fuel m p 0 in view_of p n.

(** static_string.cpp 33-36 *)
Definition static_string (n : Z) (p : pointer) : text := Text p n.
(** static_string.cpp 94-98: an array of [n + 1] characters. *)
Definition null_terminated (m : blocks) (n : Z) (p : pointer) : res text :=
  let* c := read m p n in assume (c =? 0) (Val (Text p n)).
Definition c_str (t : text) : pointer := t_data t.

(** The literals (static_string.cpp 77-87, 154-175): the characters of the literal, which is a block with a null character at its end, are copied to
    an object that lives as long as the program. The first class drops the null character. *)
Definition literal_s (m : blocks) (literal : list Z) : blocks * text :=
  (m ++ [firstn (length literal - 1) literal], static_string (Z.of_nat (length literal) - 1) (Some (length m, 0))).
Definition literal_null_terminated (m : blocks) (literal : list Z) : res (blocks * text) :=
  let m := m ++ [literal] in
  let* t := null_terminated m (Z.of_nat (length literal) - 1) (Some ((length m - 1)%nat, 0)) in Val (m, t).
(** string_view.cpp 129-131: [size] does not count the null character at the end of the literal. *)
Definition literal_sv (m : blocks) (literal : list Z) : res (blocks * text) :=
  let* t := view_of (Some (length m, 0)) (Z.of_nat (length literal) - 1) in Val (m ++ [literal], t).

(** ** Conversions and comparisons *)

(** string_view.cpp 115-117, static_string.cpp 59-64 and 136-141: operator std::string_view and operator std::span<char const, size> *)
Definition to_std (t : text) : pointer * Z := (t_data t, t_size t).
(** std::compare_three_way of two [char]s *)
Definition compare_chars (a b : Z) : ordering := of_comparison (a ?= b).
(** string_view.cpp 104-109, static_string.cpp 46-57 and 111-134: [<=>] and [==] of two texts, also of a static one and a std::string *)
Definition compare_texts (fuel : nat) (m : blocks) (a b : text) : res ordering := lexicographical_compare (characters m a) (characters m b) fuel compare_chars.
Definition equal_texts (fuel : nat) (m : blocks) (a b : text) : res bool := equal (characters m a) (characters m b) fuel Z.eqb.
(** string_view.cpp 154-159, static_string.cpp 207-219: std::hash of the std::string_view; [hash] is that function of the characters. *)
Fixpoint read_all (m : blocks) (p : pointer) (i : Z) (n : nat) : res (list Z) :=
  match n with O => Val [] | S n => let* c := read m p i in let* cs := read_all m p (i + 1) n in Val (c :: cs) end.
Definition hash_text (hash : list Z -> Z) (m : blocks) (t : text) : res Z :=
  let* cs := read_all m (fst (to_std t)) 0 (Z.to_nat (snd (to_std t))) in Val (hash cs).
