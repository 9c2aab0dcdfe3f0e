(** * Representations and spare representations of variant, static_vector and nested optionals

    bounded/tombstone.cpp, tv/variant.cpp, tv/optional.cpp at the level of what is stored. Templates
    recursive in the value type become a function on [repr]. *)

From Coq Require Import List ZArith Bool.
From Verif Require Import Cxx Core Arith Funcs.
Import ListNotations.
Open Scope Z_scope.

(** What the library knows about the representation of a type with values [A]: bounded::tombstone_traits
    (tombstone.cpp 103-122) and how a value is stored and read back. [read] of something that
    is not the representation of a value is undefined: [None]. *)
Record repr (A : Type) : Type := Repr {
  stored : Type;
  store_value : A -> stored;
  read : stored -> option A;
  spare : nat;                       (* spare_representations *)
  make_spare : nat -> stored;        (* make *)
  spare_index : stored -> Z          (* index: -1 for a value *)
}.
Arguments stored {A}. Arguments store_value {A}. Arguments read {A}. Arguments spare {A}.
Arguments make_spare {A}. Arguments spare_index {A}.

(** tombstone.cpp 47-55: the primary template, for a type that says nothing. *)
Definition plain (A : Type) (any : A) : repr A :=
  {| stored := A; store_value := fun a => a; read := fun a => Some a;
     spare := 0; make_spare := fun _ => any; spare_index := fun _ => -1 |}.

(** tombstone.cpp 57-86 and 88-90, 109 for bounded integers: see tombstone_make and tombstone_index in Funcs.v. When these do
    not compile (a constant type) the primary template applies. *)
Definition spares_of (T : bty) : nat :=
  match tombstone_consts T with Some ti => Z.to_nat (hi (ti_index ti) + 1) | None => 0 end.
Definition raw_spare (T : bty) (i : nat) : Z :=
  match tombstone_make T (Z.of_nat i) with Some (_, Ok raw) => raw | _ => lo T end.
Definition raw_index (T : bty) (raw : Z) : Z :=
  match tombstone_index T raw with Some (_, Ok i) => i | _ => -1 end.
Definition bounded_integer (T : bty) : repr Z :=
  {| stored := Z; store_value := fun z => z; read := fun raw => Some raw;
     spare := spares_of T; make_spare := raw_spare T; spare_index := raw_index T |}.

(** tombstone.cpp 126-140, tombstone_member: a class with a bounded integer member [T] and other data [P] of which a spare
    representation says nothing (raw storage, [None]). This is tv::variant and variant_index (variant.cpp
    269-281, variant_index.cpp 54-66) with the index as member, and static_vector (static_vector.cpp
    140-149, 165-167) with the size as member. *)
Definition with_member (T : bty) (P : Type) : repr (Z * P) :=
  {| stored := Z * option P;
     store_value := fun v => (fst v, Some (snd v));
     read := fun s => match snd s with Some p => Some (fst s, p) | None => None end;
     spare := spares_of T;
     make_spare := fun i => (raw_spare T i, None);
     spare_index := fun s => raw_index T (fst s) |}.

(** The index of a variant of two alternatives: variant_index.cpp 20-22, integer<0, 1>. *)
Definition index_of_two : bty := Bty (lit 0) (lit 1).

(** tv/optional.cpp 27-79 and 262-272: in a variant of none_t and the value type. is_initialized is [index == 1];
    the union of none_t and the value is [None] or what is stored for the value. *)
Definition optional_in_variant {A} (r : repr A) : repr (option A) :=
  let v := with_member index_of_two (option (stored r)) in
  {| stored := stored v;
     store_value := fun x => match x with
                             | None => store_value v (0, None)
                             | Some a => store_value v (1, Some (store_value r a))
                             end;
     read := fun s => if fst s =? 1 then
                        match read v s with
                        | Some (_, Some u) => option_map Some (read r u)
                        | _ => None
                        end
                      else Some None;
     spare := spare v; make_spare := make_spare v; spare_index := spare_index v |}.

(** tv/optional.cpp 84-217 and 262-272: in place. is_initialized (167-169) is [index != 0]; the spare representations
    are those of the value type but the first (194-209). *)
Definition optional_in_place {A} (r : repr A) : repr (option A) :=
  {| stored := stored r;
     store_value := fun x => match x with None => make_spare r 0 | Some a => store_value r a end;
     read := fun s => if spare_index r s =? 0 then Some None else option_map Some (read r s);
     spare := spare r - 1;
     make_spare := fun i => make_spare r (i + 1);
     spare_index := fun s => if spare_index r s =? -1 then -1 else spare_index r s - 1 |}.

(** tv/optional.cpp 81-84: nullable selects the specialization. *)
Definition optional_repr {A} (r : repr A) : repr (option A) :=
  match spare r with 0%nat => optional_in_variant r | S _ => optional_in_place r end.

(** optional<optional<... T>>, [d] levels. *)
Fixpoint levels (d : nat) (A : Type) : Type := match d with O => A | S d => option (levels d A) end.
Fixpoint nested (d : nat) {A} (r : repr A) : repr (levels d A) :=
  match d with O => r | S d => optional_repr (nested d r) end.
