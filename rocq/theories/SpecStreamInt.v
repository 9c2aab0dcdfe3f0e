(** * What reading and writing numbers means

    Nothing here is used by the model. *)

From Coq Require Import List Bool ZArith.
From Verif Require Import Cxx Core Spec SpecText StringIn StreamInt.
Import ListNotations.
Open Scope Z_scope.

(** [text] is a sign or none and then decimal digits, and denotes [v]. *)
Definition number (text : list Z) (v : Z) : Prop :=
  exists digits, digits <> [] /\
    ((text = digits /\ decimal digits v) \/ (text = 43 :: digits /\ decimal digits v) \/
     (text = 45 :: digits /\ decimal digits (- v))).
Definition digit (c : Z) : Prop := 48 <= c <= 57.
(** The text does not go on with another digit. *)
Definition ends_number (tail : list Z) : Prop := match tail with [] => True | c :: _ => ~ digit c end.
(** No number stands at the beginning of the text. *)
Definition no_number (text : list Z) : Prop := forall number_text tail v, text = number_text ++ tail -> ~ number number_text v.
(** Digits and signs are not spaces. *)
Definition ordinary (space : Z -> bool) : Prop := forall c, digit c \/ c = 43 \/ c = 45 -> space c = false.

(** A stream from which the text can be read *)
Definition offers (s : stream Z) (text : list Z) : Prop :=
  st_rest s = text /\ st_skipws s = true /\ st_eof s = false /\ st_fail s = false /\ st_bad s = false.
(** The stream after reading up to [tail] *)
Definition left_with (s : stream Z) (tail : list Z) (fail : bool) (s' : stream Z) : Prop :=
  st_rest s' = tail /\ st_skipws s' = st_skipws s /\ st_width s' = st_width s /\
  (st_eof s' = true <-> tail = []) /\ st_fail s' = fail /\ st_bad s' = st_bad s.

(** The values of the type fit into 64 bits. *)
Definition fits_64 (B : bty) : Prop := holds I64 (lo B) (hi B) \/ holds U64 (lo B) (hi B).

(** Numbers written one after the other, with spaces before each of them *)
Fixpoint written (items : list (list Z * (bty * Z))) (last : list Z) : option (list Z) :=
  match items with
  | [] => Some last
  | (spaces, (B, x)) :: items =>
      match write B x, written items last with
      | Some (Ok w), Some r => Some (spaces ++ w ++ r)
      | _, _ => None
      end
  end.
(** in >> x1 >> x2 >> ..., with xi of the type Bi *)
Fixpoint read_all (space : Z -> bool) (Bs : list bty) (s : stream Z) : option (stream Z * outcome (list Z)) :=
  match Bs with
  | [] => Some (s, Ok [])
  | B :: Bs =>
      match read space B s with
      | Some (s, Ok x) =>
          match read_all space Bs s with
          | Some (s, Ok xs) => Some (s, Ok (x :: xs))
          | r => r
          end
      | Some (s, Throw) => Some (s, Throw)
      | Some (s, UB) => Some (s, UB)
      | None => None
      end
  end.
