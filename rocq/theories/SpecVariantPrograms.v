(** * Programs that use any number of variants

    A program creates, uses and destroys variants of one type in any order, looks at the indexes for the preconditions, and
    catches every exception. Nothing here is used by the model. *)

From Coq Require Import List Arith Bool.
From Verif Require Import Mem Variant SpecVec SpecSeveral SpecVariant.
Import ListNotations.

Section Programs.
Context {A : Type} (moved : A -> A) (T : types A).
Local Notation M := (M (nat * A)).

(** What a variant has: the number of its alternative and the value. *)
Local Notation state := (nat * A)%type.

(** Where a value comes from. *)
Inductive source : Type :=
| Value (a : A)                                 (* a value *)
| Element (j n : nat)                           (* v_j[n] *)
| ElementMoved (j n : nat).                     (* std::move(v_j[n]) *)

(** Variants are numbered in the order of the list; a new one comes last, and the ones after a destroyed one move up by one.
    [nothrow]: making the alternative from the source cannot throw. *)
Inductive step : Type :=
| New (k : nat) (nothrow : bool) (s : source)              (* variant v(index, source); *)
| NewCopy (j : nat)                                        (* variant v(v_j); *)
| NewMove (j : nat)                                        (* variant v(std::move(v_j)); *)
| End (i : nat)                                            (* the end of the scope of v_i *)
| Emplace (i k : nat) (nothrow : bool) (s : source)        (* v_i.emplace(index, source), the source may be in v_i *)
| AssignValue (i k : nat) (nothrow nothrow_assign : bool) (s : source)  (* v_i = source, of the type of the alternative [k] *)
| CopyAssign (i j : nat)                                   (* v_i = v_j, i = j allowed *)
| MoveAssign (i j : nat)                                   (* v_i = std::move(v_j), i = j allowed *)
| Swap (i j : nat).                                        (* std::swap(v_i, v_j), i <> j *)

Definition reads (s : source) (i : nat) : bool :=
  match s with Value _ => false | Element j _ | ElementMoved j _ => j =? i end.
(** The value of the source, and the variants after it was used. *)
Definition value_of (s : source) (ls : list state) : option A :=
  match s with
  | Value a => Some a
  | Element j _ | ElementMoved j _ => option_map snd (nth_error ls j)
  end.
Definition used (s : source) (ls : list state) : list state :=
  match s with
  | ElementMoved j _ => match nth_error ls j with Some l => replace_at j (fst l, moved (snd l)) ls | None => ls end
  | _ => ls
  end.

(** The variants afterwards, when the step returns. Move assignment copies: its source is unchanged. *)
Definition then_ (s : step) (ls : list state) : list state :=
  match s with
  | New k _ s => match value_of s ls with Some a => used s ls ++ [(k, a)] | None => ls end
  | NewCopy j => match nth_error ls j with Some l => ls ++ [l] | None => ls end
  | NewMove j => match nth_error ls j with Some l => replace_at j (fst l, moved (snd l)) ls ++ [l] | None => ls end
  | End i => remove_at i ls
  | Emplace i k _ s | AssignValue i k _ _ s => match value_of s ls with Some a => replace_at i (k, a) (used s ls) | None => ls end
  | CopyAssign i j | MoveAssign i j => match nth_error ls j with Some l => replace_at i l ls | None => ls end
  | Swap i j => match nth_error ls i, nth_error ls j with Some l, Some u => replace_at j l (replace_at i u ls) | _, _ => ls end
  end.

(** A copy that takes the place of alternative [k] of a variant cannot throw. *)
Definition assigns_safely (k j : nat) : bool := if k =? j then nothrow_copy_assign T j else nothrow_copy T j.
(** When the step leaves by an exception: the variants are as before, and the step is one that can throw. Only a swap may leave
    something changed: the first variant is left as moved from, or both are copies of the second. *)
Definition or_else (s : step) (ls ls' : list state) : Prop :=
  match s with
  | New _ nothrow _ | Emplace _ _ nothrow _ => nothrow = false /\ ls' = ls
  | NewCopy j => ls' = ls /\ exists l, nth_error ls j = Some l /\ nothrow_copy T (fst l) = false
  | NewMove j => ls' = ls /\ exists l, nth_error ls j = Some l /\ nothrow_move T (fst l) = false
  | End _ => False
  | AssignValue i k nothrow nothrow_assign _ =>
      ls' = ls /\ exists l, nth_error ls i = Some l /\ (if fst l =? k then nothrow_assign else nothrow) = false
  | CopyAssign i j | MoveAssign i j =>
      ls' = ls /\ exists l u, nth_error ls i = Some l /\ nth_error ls j = Some u /\ assigns_safely (fst l) (fst u) = false
  | Swap i j => exists l u, nth_error ls i = Some l /\ nth_error ls j = Some u /\
      ((nothrow_move T (fst l) = false /\ ls' = ls) \/
       (assigns_safely (fst l) (fst u) = false /\ ls' = replace_at i (fst l, moved (snd l)) ls) \/
       (assigns_safely (fst u) (fst l) = false /\ ls' = replace_at i u ls))
  end.

(** The precondition, given the indexes of the variants. *)
Definition readable (s : source) (indexes : list nat) : bool :=
  match s with
  | Value _ => true
  | Element j n | ElementMoved j n => match nth_error indexes j with Some k => k =? n | None => false end
  end.
(** No other alternative has the type of the alternative [k]. *)
Definition only_of_its_type (k : nat) : bool :=
  (k <? count T) && forallb (fun i => negb (type_of T i =? type_of T k) || (i =? k)) (seq 0 (count T)).
(** The source of an assignment has that type; an alternative is not moved onto itself. *)
Definition assignable (s : source) (i k : nat) : bool :=
  match s with Value _ => true | Element _ n => n =? k | ElementMoved j n => (n =? k) && negb (j =? i) end.
(** Move assignment is noexcept if moves of all alternatives are; it must not be used then when a copy can throw. *)
Definition survives (k j : nat) : bool :=
  if forallb (nothrow_move_assign T) (seq 0 (count T)) && forallb (nothrow_move T) (seq 0 (count T)) then assigns_safely k j else true.
Definition possible (s : step) (indexes : list nat) : bool :=
  let exists_ i := i <? length indexes in
  match s with
  | New k _ s => (k <? count T) && readable s indexes
  | NewCopy j | NewMove j | End j => exists_ j
  | Emplace i k nothrow s => exists_ i && (k <? count T) && readable s indexes && negb (reads s i && nothrow)
  | AssignValue i k _ _ s => exists_ i && readable s indexes && only_of_its_type k && assignable s i k
  | CopyAssign i j => exists_ i && exists_ j
  | MoveAssign i j => exists_ i && exists_ j && survives (nth i indexes 0) (nth j indexes 0)
  | Swap i j => exists_ i && exists_ j && negb (i =? j) &&
                survives (nth i indexes 0) (nth j indexes 0) && survives (nth j indexes 0) (nth i indexes 0)
  end.

(** The calls. *)
Definition from_source (nothrow : bool) (s : source) (k : creator -> M (list variant) unit) : M (list variant) unit :=
  match s with
  | Value a => k (Make nothrow a)
  | Element j n => looking_at j (fun t => k (CopyFrom nothrow (v_at t) n))
  | ElementMoved j n => looking_at j (fun t => k (MoveFrom nothrow (v_at t) n))
  end.
(** std::swap: T tmp = std::move(v); v = std::move(u); u = std::move(tmp); *)
Definition swap : M (variant * variant) unit :=
  with_local (bind get (fun p => on_unit (move_construct moved T (fst p)))) (destruct T)
    (bind get (fun p => bind (on_fst (on_fst (move_assign moved T (snd (fst p)))))
      (fun _ => bind get (fun p => on_fst (on_snd (move_assign moved T (snd p))))))).
Definition do_step (s : step) : M (list variant) unit :=
  match s with
  | New k nothrow s => from_source nothrow s (fun c => another (construct moved k c))
  | NewCopy j => looking_at j (fun t => another (copy_construct moved T t))
  | NewMove j => looking_at j (fun t => another (move_construct moved T t))
  | End i => bind (one_of i (destruct T)) (fun _ => bind get (fun os => put (remove_at i os)))
  | Emplace i k nothrow s => from_source nothrow s (fun c => one_of i (bind (emplace moved T k c) (fun _ => ret tt)))
  | AssignValue i k nothrow nothrow_assign s => from_source nothrow s (fun c => one_of i (assign_value moved T (type_of T k) c nothrow_assign))
  | CopyAssign i j => looking_at j (fun t => one_of i (copy_assign moved T t))
  | MoveAssign i j => looking_at j (fun t => one_of i (move_assign moved T t))
  | Swap i j => two_of i j swap
  end.
Fixpoint program (ss : list step) : M (list variant) unit :=
  match ss with
  | [] => ret tt
  | s :: ss =>
      bind get (fun os => if possible s (map v_index os) then bind (attempt (do_step s)) (fun _ => program ss) else program ss)
  end.

(** What the variants can be after the program. *)
Inductive accounts : list step -> list state -> list state -> Prop :=
| accounts_nil ls : accounts [] ls ls
| accounts_returns s ss ls ls' : possible s (map fst ls) = true -> accounts ss (then_ s ls) ls' -> accounts (s :: ss) ls ls'
| accounts_throws s ss ls ls1 ls' :
    possible s (map fst ls) = true -> or_else s ls ls1 -> accounts ss ls1 ls' -> accounts (s :: ss) ls ls'
| accounts_skips s ss ls ls' : possible s (map fst ls) = false -> accounts ss ls ls' -> accounts (s :: ss) ls ls'.
(** What they are when nothing throws. *)
Fixpoint plainly (ss : list step) (ls : list state) : list state :=
  match ss with
  | [] => ls
  | s :: ss => plainly ss (if possible s (map fst ls) then then_ s ls else ls)
  end.

Definition variant_in (o : variant) (l : state) (others m : memory (V := nat * A)) : Prop := holds_in (count T) o (fst l) (snd l) others m.
Definition variants : list variant -> list state -> memory -> world (nat * A) -> Prop := several variant_in.

(** A program from its start, with all its variants destroyed at the end. *)
Definition whole (ss : list step) : M unit unit :=
  fun x w => match program ss [] w with
             | Ret os _ w => match program (repeat (End 0) (length os)) os w with
                             | Ret _ _ w => Ret x tt w
                             | Exc _ w => Exc x w
                             | Bad f => Bad f
                             end
             | Exc _ w => Exc x w
             | Bad f => Bad f
             end.
End Programs.
