(** * Programs that use any number of optionals without spare representations

    The optionals are stored in variants. As in SpecOptionalPrograms.v a program asks each optional whether it has a value and
    catches every exception. Nothing here is used by the model. *)

From Coq Require Import List Arith Bool.
From Verif Require Import Mem Variant Optional SpecVec SpecSeveral SpecVariant SpecOptional.
Import ListNotations.

Section Programs.
(** [copy], [move], [copy_assign], [move_assign]: these operations of the value type cannot throw. *)
Context {B : Type} (moved : B -> B) (copy move copy_assign move_assign : bool) (eqb : B -> B -> bool).
Local Notation M := (M (nat * option B)).
Local Notation st := (in_variant moved copy move copy_assign move_assign eqb).

(** Where a value comes from. *)
Inductive origin : Type :=
| Value (b : B)                                 (* a value *)
| Element (j : nat)                             (* *o_j *)
| ElementMoved (j : nat).                       (* std::move( *o_j) *)

(** [nothrow]: making the value from the source cannot throw. *)
Inductive step : Type :=
| NewNone                                       (* optional o; *)
| NewValue (nothrow : bool) (s : origin)        (* optional o(source); *)
| NewCopy (j : nat)                             (* optional o(o_j); *)
| NewMove (j : nat)                             (* optional o(std::move(o_j)); *)
| End (i : nat)                                 (* the end of the scope of o_i *)
| Emplace (i : nat) (nothrow : bool) (s : origin)      (* o_i.emplace(source), the source may be in o_i *)
| AssignNone (i : nat)                          (* o_i = none *)
| AssignValue (i : nat) (nothrow : bool) (s : origin)  (* o_i = source; copying may be from o_i itself *)
| CopyAssign (i j : nat)                        (* o_i = o_j, i = j allowed *)
| MoveAssign (i j : nat)                        (* o_i = std::move(o_j), i = j allowed *)
| Swap (i j : nat).                             (* std::swap(o_i, o_j), i <> j *)

Definition value_of (s : origin) (ls : list (option B)) : option B :=
  match s with
  | Value b => Some b
  | Element j | ElementMoved j => nth j ls None
  end.
Definition used (s : origin) (ls : list (option B)) : list (option B) :=
  match s with ElementMoved j => replace_at j (option_map moved (nth j ls None)) ls | _ => ls end.

(** The optionals afterwards, when the step returns. Move assignment copies: its source is unchanged (C49). *)
Definition then_ (s : step) (ls : list (option B)) : list (option B) :=
  match s with
  | NewNone => ls ++ [None]
  | NewValue _ s => used s ls ++ [value_of s ls]
  | NewCopy j => ls ++ [nth j ls None]
  | NewMove j => replace_at j (option_map moved (nth j ls None)) ls ++ [nth j ls None]
  | End i => remove_at i ls
  | Emplace i _ s | AssignValue i _ s => replace_at i (value_of s ls) (used s ls)
  | AssignNone i => replace_at i None ls
  | CopyAssign i j | MoveAssign i j => replace_at i (nth j ls None) ls
  | Swap i j => replace_at j (nth i ls None) (replace_at i (nth j ls None) ls)
  end.

Definition full (x : option B) : bool := match x with Some _ => true | None => false end.
(** Copying an optional over another cannot throw, given which of them have a value. *)
Definition copies_safely (to from : bool) : bool := if from then (if to then copy_assign else copy) else true.
(** When the step leaves by an exception: the optionals are as before, and the step is one that can throw. Only a swap may leave
    something changed: the first optional is left as moved from, or both are copies of the second. *)
Definition or_else (s : step) (ls ls' : list (option B)) : Prop :=
  match s with
  | NewNone | End _ | AssignNone _ => False
  | NewValue nothrow _ | Emplace _ nothrow _ => ls' = ls /\ nothrow = false
  | NewCopy j => ls' = ls /\ copy = false /\ nth j ls None <> None
  | NewMove j => ls' = ls /\ move = false /\ nth j ls None <> None
  | AssignValue i nothrow s =>
      ls' = ls /\ (match nth i ls None, s with
                   | Some _, ElementMoved _ => move_assign
                   | Some _, _ => copy_assign
                   | None, _ => nothrow
                   end) = false
  | CopyAssign i j | MoveAssign i j => ls' = ls /\ copies_safely (full (nth i ls None)) (full (nth j ls None)) = false
  | Swap i j =>
      (ls' = ls /\ move = false /\ nth i ls None <> None) \/
      (copies_safely (full (nth i ls None)) (full (nth j ls None)) = false /\ ls' = replace_at i (option_map moved (nth i ls None)) ls) \/
      (copies_safely (full (nth j ls None)) (full (nth i ls None)) = false /\ ls' = replace_at i (nth j ls None) ls)
  end.

(** The precondition, given which optionals have a value. *)
Definition has (l : list bool) (j : nat) : bool := nth j l false.
Definition readable (s : origin) (l : list bool) : bool :=
  match s with Value _ => true | Element j | ElementMoved j => has l j end.
Definition reads (s : origin) (i : nat) : bool := match s with Value _ => false | Element j | ElementMoved j => j =? i end.
Definition moves (s : origin) (i : nat) : bool := match s with ElementMoved j => j =? i | _ => false end.
(** Move assignment is noexcept if moves of the value type are; it must not be used then when a copy can throw (C49). *)
Definition survives (to from : bool) : bool := if move_assign && move then copies_safely to from else true.
Definition possible (s : step) (l : list bool) : bool :=
  let exists_ i := i <? length l in
  match s with
  | NewNone => true
  | NewValue _ s => readable s l
  | NewCopy j | NewMove j | End j | AssignNone j => exists_ j
  | Emplace i nothrow s => exists_ i && readable s l && negb (reads s i && nothrow)
  | AssignValue i _ s => exists_ i && readable s l && negb (moves s i)
  | CopyAssign i j => exists_ i && exists_ j
  | MoveAssign i j => exists_ i && exists_ j && survives (has l i) (has l j)
  | Swap i j => exists_ i && exists_ j && negb (i =? j) && survives (has l i) (has l j) && survives (has l j) (has l i)
  end.

(** The calls. *)
Definition from_origin (nothrow : bool) (s : origin) (k : creator -> M (list variant) unit) : M (list variant) unit :=
  match s with
  | Value b => k (Make nothrow (Some b))
  | Element j => looking_at j (fun t => k (CopyFrom nothrow (v_at t) 1))
  | ElementMoved j => looking_at j (fun t => k (MoveFrom nothrow (v_at t) 1))
  end.
(** std::swap: T tmp = std::move(o); o = std::move(u); u = std::move(tmp); *)
Definition swap : M (variant * variant) unit :=
  with_local (bind get (fun p => on_unit (opt_move st (fst p)))) (opt_destruct st)
    (bind get (fun p => bind (on_fst (on_fst (opt_move_assign st (snd (fst p)))))
      (fun _ => bind get (fun p => on_fst (on_snd (opt_move_assign st (snd p))))))).
Definition do_step (s : step) : M (list variant) unit :=
  match s with
  | NewNone => another (opt_none st)
  | NewValue nothrow s => from_origin nothrow s (fun c => another (opt_some st c))
  | NewCopy j => looking_at j (fun t => another (opt_copy st t))
  | NewMove j => looking_at j (fun t => another (opt_move st t))
  | End i => bind (one_of i (opt_destruct st)) (fun _ => bind get (fun os => put (remove_at i os)))
  | Emplace i nothrow s => from_origin nothrow s (fun c => one_of i (opt_emplace st c))
  | AssignNone i => one_of i (opt_assign_none st)
  | AssignValue i nothrow s => from_origin nothrow s (fun c => one_of i (opt_assign st c))
  | CopyAssign i j => looking_at j (fun t => one_of i (opt_copy_assign st t))
  | MoveAssign i j => looking_at j (fun t => one_of i (opt_move_assign st t))
  | Swap i j => two_of i j swap
  end.
(** Each optional is asked whether it has a value. *)
Fixpoint ask_all (i n : nat) : M (list variant) (list bool) :=
  match n with
  | 0 => ret []
  | S n => bind (one_of i (opt_bool st)) (fun b => bind (ask_all (S i) n) (fun l => ret (b :: l)))
  end.
Definition have_values : M (list variant) (list bool) := bind get (fun os => ask_all 0 (length os)).
Fixpoint program (ss : list step) : M (list variant) unit :=
  match ss with
  | [] => ret tt
  | s :: ss =>
      bind have_values (fun l => if possible s l then bind (attempt (do_step s)) (fun _ => program ss) else program ss)
  end.

(** What the optionals can be after the program. *)
Inductive accounts : list step -> list (option B) -> list (option B) -> Prop :=
| accounts_nil ls : accounts [] ls ls
| accounts_returns s ss ls ls' : possible s (map full ls) = true -> accounts ss (then_ s ls) ls' -> accounts (s :: ss) ls ls'
| accounts_throws s ss ls ls1 ls' :
    possible s (map full ls) = true -> or_else s ls ls1 -> accounts ss ls1 ls' -> accounts (s :: ss) ls ls'
| accounts_skips s ss ls ls' : possible s (map full ls) = false -> accounts ss ls ls' -> accounts (s :: ss) ls ls'.
(** What they are when nothing throws. *)
Fixpoint plainly (ss : list step) (ls : list (option B)) : list (option B) :=
  match ss with
  | [] => ls
  | s :: ss => plainly ss (if possible s (map full ls) then then_ s ls else ls)
  end.

Definition optional_in (o : variant) (x : option B) (others m : memory (V := nat * option B)) : Prop :=
  holds_in 2 o (match x with None => 0 | Some _ => 1 end) x others m.
Definition optionals : list variant -> list (option B) -> memory -> world (nat * option B) -> Prop := several optional_in.

(** A program from its start, with all its optionals destroyed at the end. *)
Definition whole (ss : list step) : M unit unit :=
  fun x w => match program ss [] w with
             | Ret os _ w => match program (repeat (End 0) (length os)) os w with
                             | Ret _ _ w => Ret x tt w
                             | Exc _ w => Exc x w
                             | Bad f => Bad f
                             end
             | Exc _ w => Exc x w
             | Bad f => Bad f
             end.
End Programs.
