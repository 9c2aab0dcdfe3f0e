(** * Specification of scope guards *)

From Coq Require Import List Arith Bool ZArith.
From Verif Require Import Guard.
Import ListNotations.

(** What has happened to the function [f], from the events alone. *)
Inductive fate : Set := Unborn | Guarded (g : nat) | Released | Ended.
Definition follow (f : nat) (s : fate) (e : event) : fate :=
  match s, e with
  | Unborn, New g f' => if f' =? f then Guarded g else Unborn
  | Guarded g, Move src dst => if src =? g then Guarded dst else Guarded g
  | Guarded g, Dismiss g' => if g' =? g then Released else Guarded g
  | Guarded g, Destroy g' => if g' =? g then Ended else Guarded g
  | _, _ => s
  end.
Definition fate_of (f : nat) (es : list event) : fate := fold_left (follow f) es Unborn.

(** The functions given to guards. *)
Definition functions (es : list event) : list nat :=
  flat_map (fun e => match e with New _ f => [f] | _ => [] end) es.

(** The intended meaning of programs: no counting of exceptions; the function of a
    failure guard runs exactly when the block is left by an exception. *)
Fixpoint meaning (s : stmt) : list nat * ending :=
  match s with
  | Skip => ([], Done)
  | Emit n => ([n], Done)
  | Raise => ([], Raised)
  | Seq a b =>
      match meaning a with
      | (t, Done) => let '(t', e) := meaning b in (t ++ t', e)
      | r => r
      end
  | TryCatch a b =>
      match meaning a with
      | (t, Raised) => let '(t', e) := meaning b in (t ++ t', e)
      | r => r
      end
  | WithDestructor d a => let '(t, e) := meaning a in leave t e (meaning d)
  | WithFail f a =>
      match meaning a with
      | (t, Raised) => leave t Raised (meaning f)
      | r => r
      end
  end.
