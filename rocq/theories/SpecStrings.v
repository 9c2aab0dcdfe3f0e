(** * What texts are, for the properties of string_view and the static strings

    Nothing here is used by the model. *)

From Coq Require Import List ZArith Bool.
From Verif Require Import Range Sequence SpecSequence Strings.
Import ListNotations.
Local Open Scope Z_scope.

(** The characters [cs] are in memory at [p]. No characters are everywhere, also behind a null pointer. *)
Definition holds (m : blocks) (p : pointer) (cs : list Z) : Prop :=
  match p with
  | None => cs = []
  | Some (b, offset) => exists before after, nth_error m b = Some (before ++ cs ++ after) /\ offset = Z.of_nat (length before)
  end.
(** The text is [cs]. *)
Definition shows (m : blocks) (t : text) (cs : list Z) : Prop :=
  holds m (t_data t) cs /\ t_size t = Z.of_nat (length cs) /\ Z.of_nat (length cs) <= max_size.

(** std::string_view compares characters as unsigned char (std::char_traits<char>). *)
Definition unsigned (c : Z) : Z := c mod 256.
Definition std_compare_chars (a b : Z) : ordering := compare_chars (unsigned a) (unsigned b).
(** ASCII *)
Definition plain (cs : list Z) : Prop := Forall (fun c => 0 <= c <= 127) cs.
