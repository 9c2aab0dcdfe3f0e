(** * The size of the source of a construction, an assignment or append: containers/get_source_size.cpp *)

From Coq Require Import List Arith ZArith Bool.
From Verif Require Import Cxx Core Arith Funcs Mem Vec.
Import ListNotations.

(** get_source_size.cpp 17-25: [target] is the size type of the container, [source] the type that linear_size of the source has. *)
Definition get_source_size (target : bty) (source : ity) (n : Z) : result :=
  match source with
  | Bounded B => Some (B, Ok n)
  | Builtin _ => assume_in_range_to target source n
  end.

(** append.cpp 38-57 when the size of the source is a built-in integer (std::vector, std::list, std::string): the assumption of
    get_source_size (41) comes first. [append] in Vec.v is the case of a size that is a bounded integer. The largest size of the
    container is its largest capacity. *)
Definition append_builtin_size {V} (moved : V -> V) {O} (C : container (V := V) O) (s : source (V := V)) : M V O unit :=
  match c_reserve C with
  | Some _ => if s_sized s then bind (assume_capacity C (length (s_elements s))) (fun _ => append moved C s) else append moved C s
  | None => append moved C s
  end.
