(** * Histories: every way a program can use a vector

    A program calls the operations below in any order, checks their preconditions by the
    size alone, and catches every exception. *)

From Coq Require Import List Arith Bool.
From Verif Require Import Mem Vec SpecVec.
Import ListNotations.

Section History.
Context {V : Type} (moved : V -> V).

Inductive call : Type :=
| PushBack (v : V)                       (* v.push_back(x) *)
| PopBack                                (* v.pop_back() *)
| Clear                                  (* v.clear() *)
| Erase (first last : nat)               (* v.erase(begin + first, begin + last) *)
| EraseIf (p : V -> bool)                (* erase_if(v, p) *)
| Append (vs : list V)                   (* v.append(range) *)
| Insert (position : nat) (vs : list V)  (* v.insert(begin + position, range) *)
| Resize (n : nat) (v : V)               (* v.resize(n, x) *)
| Reserve (n : nat)                      (* v.reserve(n) *)
| ShrinkToFit                            (* shrink_to_fit(v) *)
| Assign (vs : list V).                  (* v.assign(range) *)

(** What the call does to the elements when it returns. *)
Definition after (c : call) (l : list V) : list V :=
  match c with
  | PushBack v => l ++ [v]
  | PopBack => firstn (length l - 1) l
  | Clear => []
  | Erase first last => firstn first l ++ skipn last l
  | EraseIf p => without p l
  | Append vs => l ++ vs
  | Insert i vs => firstn i l ++ vs ++ skipn i l
  | Resize n v => firstn n l ++ repeat v (n - length l)
  | Reserve _ | ShrinkToFit => l
  | Assign vs => vs
  end.
(** What it may have done to them when it leaves by an exception: nothing, except that erase_if
    may have overwritten some elements and assign may have overwritten the first ones. *)
Definition interrupted (c : call) (l l' : list V) : Prop :=
  match c with
  | EraseIf p => length l' = length l
  | Assign vs => exists n, n <= length l /\ n <= length vs /\ l' = firstn n vs ++ skipn n l
  | PopBack | Clear | Erase _ _ => False
  | _ => l' = l
  end.

Section Vector.
Context (minc maxc : nat).
Notation C := (bounded_vector (V := V) moved minc maxc).

(** The precondition, for a vector of [n] elements. *)
Definition may_call (c : call) (n : nat) : bool :=
  match c with
  | PushBack _ => 2 * n <=? maxc
  | PopBack => 1 <=? n
  | Erase first last => (first <=? last) && (last <=? n)
  | Insert i vs => (i <=? n) && (negb (length vs =? 0) || (i =? n))
  | Reserve k => k <=? maxc
  | _ => true
  end.
Definition perform (c : call) : M V bvector unit :=
  match c with
  | PushBack v => push_back moved C (Supply v)
  | PopBack => pop_back C
  | Clear => clear C
  | Erase first last => bind (erase moved C first last) (fun _ => ret tt)
  | EraseIf p => bind (erase_if moved C p) (fun _ => ret tt)
  | Append vs => append moved C (Source (map Supply vs) true)
  | Insert i vs => bind (insert moved C i (map Supply vs)) (fun _ => ret tt)
  | Resize n v => resize moved C n (Supply v)
  | Reserve n => bv_reserve moved minc maxc n
  | ShrinkToFit => shrink_to_fit moved C minc
  | Assign vs => assign moved C false false (Source (map Supply vs) true)
  end.
(** try { m } catch (...) { } *)
Definition catch {X} (m : M V X unit) : M V X unit :=
  fun x w => match m x w with
             | Exc x w => Ret x tt w
             | r => r
             end.
Fixpoint history (cs : list call) : M V bvector unit :=
  match cs with
  | [] => ret tt
  | c :: cs =>
      bind get (fun o =>
      bind (if may_call c (b_size o) then catch (perform c) else ret tt) (fun _ =>
      history cs))
  end.

(** What the elements can be after the history, by the two functions above. *)
Inductive explains : list call -> list V -> list V -> Prop :=
| explains_nil l : explains [] l l
| explains_returns c cs l l' : may_call c (length l) = true -> explains cs (after c l) l' -> explains (c :: cs) l l'
| explains_throws c cs l l1 l' : may_call c (length l) = true -> interrupted c l l1 -> explains cs l1 l' -> explains (c :: cs) l l'
| explains_skips c cs l l' : may_call c (length l) = false -> explains cs l l' -> explains (c :: cs) l l'.

(** What they are when nothing throws. *)
Fixpoint straight (cs : list call) (l : list V) : list V :=
  match cs with
  | [] => l
  | c :: cs => straight cs (if may_call c (length l) then after c l else l)
  end.
(** The sizes asked for along the way. *)
Fixpoint demands (cs : list call) (l : list V) : list nat :=
  match cs with
  | [] => []
  | c :: cs => let l' := if may_call c (length l) then after c l else l in length l' :: demands cs l'
  end.

(** The whole life of a vector. *)
Definition lifetime (cs : list call) : M V unit unit :=
  fun x w => match bv_default minc x w with
             | Ret x o w => match history cs o w with
                            | Ret o _ w => match bv_destroy o w with
                                           | Ret _ _ w => Ret x tt w
                                           | Exc _ w => Exc x w
                                           | Bad f => Bad f
                                           end
                            | Exc _ w => Exc x w
                            | Bad f => Bad f
                            end
             | Exc x w => Exc x w
             | Bad f => Bad f
             end.
End Vector.
End History.
