(** * What reading a string from a stream means

    Nothing here is used by the model. *)

From Coq Require Import List Arith Bool ZArith.
From Verif Require Import Mem Vec SpecVec Sbo SpecSbo StringIn.
Import ListNotations.

Section Spec.
Context {V : Type} (space : V -> bool).

Definition all_spaces (l : list V) : Prop := Forall (fun c => space c = true) l.
Definition no_spaces (l : list V) : Prop := Forall (fun c => space c = false) l.
(** The word [word] stands at the beginning of the text [word ++ tail], when at most [limit] characters are wanted. *)
Definition stands_first (limit : nat) (word tail : list V) : Prop :=
  no_spaces word /\ length word <= limit /\
  (length word = limit \/ match tail with [] => True | c :: _ => space c = true end).
(** How many characters the field width lets through: width() when it is positive, and never more than the
    largest size. *)
Definition wanted (max : nat) (width : Z) : nat := if (width <=? 0)%Z then max else Nat.min (Z.to_nat width) max.

(** The text in which these words stand, each between its spaces. *)
Fixpoint text (words : list (list V * list V)) (last : list V) : list V :=
  match words with
  | [] => last
  | (spaces, word) :: words => spaces ++ word ++ text words last
  end.
(** Words without spaces, and between two words at least one space. *)
Fixpoint separated (first : bool) (words : list (list V * list V)) (last : list V) : Prop :=
  match words with
  | [] => all_spaces last
  | (spaces, word) :: words =>
      all_spaces spaces /\ (first = true \/ spaces <> []) /\ no_spaces word /\ word <> [] /\ separated false words last
  end.

(** stream >> str, [n] times *)
Fixpoint extract_times (moved : V -> V) (small max : nat) (n : nat) : M V (sbo * stream V) unit :=
  match n with
  | 0 => ret tt
  | S n => bind (extract moved space small max) (fun _ => extract_times moved small max n)
  end.
End Spec.
