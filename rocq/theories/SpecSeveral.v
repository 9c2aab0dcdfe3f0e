(** * Several objects in one memory

    Calls on one or two of several objects, and what it means that several objects are in memory. Nothing here is used by
    the model. *)

From Coq Require Import List Arith Bool.
From Verif Require Import Mem SpecVec.
Import ListNotations.

Definition replace_at {A} (i : nat) (x : A) (l : list A) : list A := firstn i l ++ [x] ++ skipn (S i) l.
Definition remove_at {A} (i : nat) (l : list A) : list A := firstn i l ++ skipn (S i) l.

Section Several.
(** [is_in o l others m]: the object [o] is in the state [l] in the memory [m], and [others] is the memory without it. *)
Context {V O L : Type} (is_in : O -> L -> memory (V := V) -> memory (V := V) -> Prop).

(** A call on the object [i], on the objects [i] and [j], a constructor, and a step that looks at the object [j]. *)
Definition one_of {A} (i : nat) (m : M V O A) : M V (list O) A :=
  fun os w => match nth_error os i with
              | None => Bad Broken
              | Some o => match m o w with
                          | Ret o a w => Ret (replace_at i o os) a w
                          | Exc o w => Exc (replace_at i o os) w
                          | Bad f => Bad f
                          end
              end.
Definition two_of {A} (i j : nat) (m : M V (O * O) A) : M V (list O) A :=
  fun os w => match nth_error os i, nth_error os j with
              | Some o, Some t => match m (o, t) w with
                                  | Ret p a w => Ret (replace_at j (snd p) (replace_at i (fst p) os)) a w
                                  | Exc p w => Exc (replace_at j (snd p) (replace_at i (fst p) os)) w
                                  | Bad f => Bad f
                                  end
              | _, _ => Bad Broken
              end.
Definition another (m : M V unit O) : M V (list O) unit :=
  bind (on_unit m) (fun o => bind get (fun os => put (os ++ [o]))).
Definition looking_at {A} (j : nat) (k : O -> M V (list O) A) : M V (list O) A :=
  bind get (fun os => match nth_error os j with Some o => k o | None => bad Broken end).
(** try { m; return true; } catch (...) { return false; } *)
Definition attempt {X} (m : M V X unit) : M V X bool :=
  fun x w => match m x w with
             | Ret x _ w => Ret x true w
             | Exc x w => Ret x false w
             | Bad f => Bad f
             end.

(** The objects [os] are different and in the states [ls]; [others] is the rest of the memory. *)
Fixpoint several_in (os : list O) (ls : list L) (others m : memory) : Prop :=
  match os, ls with
  | [], [] => same m others
  | o :: os, l :: ls => exists rest, is_in o l rest m /\ several_in os ls others rest
  | _, _ => False
  end.
Definition several (os : list O) (ls : list L) (others : memory) (w : world V) : Prop :=
  several_in os ls others (heap w) /\ unused_names w.
End Several.
