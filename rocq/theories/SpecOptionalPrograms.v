(** * Programs that use any number of optionals with spare representations

    A program creates, uses and destroys optionals of one value type in any order, asks each whether it has a value for the
    preconditions, and catches every exception. Nothing here is used by the model. *)

From Coq Require Import List Arith Bool.
From Verif Require Import Mem Optional SpecVec SpecSeveral SpecOptional.
Import ListNotations.

Section Programs.
(** [copy], [move], [copy_assign], [move_assign]: these operations of the value type cannot throw. *)
Context {B : Type} (moved : B -> B) (copy move copy_assign move_assign : bool).
Local Notation M := (M (rep B)).
Local Notation st := (in_place moved copy move copy_assign move_assign).

(** Where a value comes from. *)
Inductive origin : Type :=
| Value (before during : bool) (b : B)          (* a value; [before], [during]: making it cannot throw before or during its construction *)
| Element (j : nat)                             (* *o_j *)
| ElementMoved (j : nat).                       (* std::move( *o_j) *)

(** Optionals are numbered in the order of the list; a new one comes last, and the ones after a destroyed one move up by one. *)
Inductive step : Type :=
| NewNone                                       (* optional o; *)
| NewValue (s : origin)                         (* optional o(source); *)
| NewCopy (j : nat)                             (* optional o(o_j); *)
| NewMove (j : nat)                             (* optional o(std::move(o_j)); *)
| End (i : nat)                                 (* the end of the scope of o_i *)
| Emplace (i : nat) (s : origin)                (* o_i.emplace(source), the source not in o_i *)
| AssignNone (i : nat)                          (* o_i = none *)
| AssignValue (i : nat) (s : origin)            (* o_i = source; copying may be from o_i itself *)
| CopyAssign (i j : nat)                        (* o_i = o_j, i = j allowed *)
| MoveAssign (i j : nat)                        (* o_i = std::move(o_j), i <> j *)
| Swap (i j : nat).                             (* std::swap(o_i, o_j), i <> j *)

(** The value of the source, and the optionals after it was used. *)
Definition value_of (s : origin) (ls : list (option B)) : option B :=
  match s with
  | Value _ _ b => Some b
  | Element j | ElementMoved j => nth j ls None
  end.
Definition used (s : origin) (ls : list (option B)) : list (option B) :=
  match s with ElementMoved j => replace_at j (option_map moved (nth j ls None)) ls | _ => ls end.

(** The optionals afterwards, when the step returns. An optional that was moved from still has a value, moved from. *)
Definition then_ (s : step) (ls : list (option B)) : list (option B) :=
  match s with
  | NewNone => ls ++ [None]
  | NewValue s => used s ls ++ [value_of s ls]
  | NewCopy j => ls ++ [nth j ls None]
  | NewMove j => replace_at j (option_map moved (nth j ls None)) ls ++ [nth j ls None]
  | End i => remove_at i ls
  | Emplace i s | AssignValue i s => replace_at i (value_of s ls) (used s ls)
  | AssignNone i => replace_at i None ls
  | CopyAssign i j => replace_at i (nth j ls None) ls
  | MoveAssign i j => replace_at i (nth j ls None) (replace_at j (option_map moved (nth j ls None)) ls)
  | Swap i j => replace_at i (nth j ls None) (replace_at j (nth i ls None) ls)
  end.

(** Construction from the source cannot throw before it begins; once it has begun; assignment from it to a value cannot throw. *)
Definition begins_safely (s : origin) : bool := match s with Value before _ _ => before | _ => true end.
Definition constructs_safely (s : origin) : bool :=
  match s with Value _ during _ => during | Element _ => copy | ElementMoved _ => move end.
Definition assigns_safely (s : origin) : bool := match s with ElementMoved _ => move_assign | _ => copy_assign end.

(** When the step leaves by an exception: the optionals are as before, and the step is one that can throw. Only emplace and swap
    leave something changed: the optional is then empty; the first of the two is left as moved from, or it has the value of the
    second, which is left as moved from. *)
Definition or_else (s : step) (ls ls' : list (option B)) : Prop :=
  match s with
  | NewNone | End _ | AssignNone _ => False
  | NewValue s => ls' = ls /\ begins_safely s && constructs_safely s = false
  | NewCopy j => ls' = ls /\ copy = false /\ nth j ls None <> None
  | NewMove j => ls' = ls /\ move = false /\ nth j ls None <> None
  | Emplace i s => ls' = replace_at i None ls /\ begins_safely s = false
  | AssignValue i s =>
      ls' = ls /\ (match nth i ls None with Some _ => assigns_safely s | None => begins_safely s end) = false
  | CopyAssign i j => ls' = ls /\ copy_assign = false /\ nth i ls None <> None /\ nth j ls None <> None
  | MoveAssign i j => ls' = ls /\ move_assign = false /\ nth i ls None <> None /\ nth j ls None <> None
  | Swap i j =>
      (ls' = ls /\ move = false /\ nth i ls None <> None) \/
      (move_assign = false /\ nth i ls None <> None /\ nth j ls None <> None /\
       (ls' = replace_at i (option_map moved (nth i ls None)) ls \/
        ls' = replace_at i (nth j ls None) (replace_at j (option_map moved (nth j ls None)) ls)))
  end.

(** The precondition, given which optionals have a value. An optional that is there already and empty must not be given a value whose
    construction in its place can throw: when it does, the optional has no state any more (C54). *)
Definition has (l : list bool) (j : nat) : bool := nth j l false.
Definition readable (s : origin) (l : list bool) : bool :=
  match s with Value _ _ _ => true | Element j | ElementMoved j => has l j end.
Definition reads (s : origin) (i : nat) : bool := match s with Value _ _ _ => false | Element j | ElementMoved j => j =? i end.
Definition moves (s : origin) (i : nat) : bool := match s with ElementMoved j => j =? i | _ => false end.
Definition possible (s : step) (l : list bool) : bool :=
  let exists_ i := i <? length l in
  match s with
  | NewNone => true
  | NewValue s => readable s l
  | NewCopy j | NewMove j | End j | AssignNone j => exists_ j
  | Emplace i s => exists_ i && readable s l && negb (reads s i) && constructs_safely s
  | AssignValue i s => exists_ i && readable s l && negb (moves s i) && (has l i || constructs_safely s)
  | CopyAssign i j => exists_ i && exists_ j && (has l i || negb (has l j) || copy)
  | MoveAssign i j => exists_ i && exists_ j && negb (i =? j) && (has l i || negb (has l j) || move)
  | Swap i j => exists_ i && exists_ j && negb (i =? j) && (Bool.eqb (has l i) (has l j) || move)
  end.

(** The calls. *)
Definition from_origin (s : origin) (k : source B -> M (list nat) unit) : M (list nat) unit :=
  match s with
  | Value before during b => k (New before during b)
  | Element j => looking_at j (fun q => k (CopyAt copy q))
  | ElementMoved j => looking_at j (fun q => k (MoveAt move q))
  end.
(** std::swap: T tmp = std::move(o); o = std::move(u); u = std::move(tmp); *)
Definition swap : M (nat * nat) unit :=
  with_local (bind get (fun p => on_unit (opt_move st (fst p)))) (opt_destruct st)
    (bind get (fun p => bind (on_fst (on_fst (opt_move_assign st (snd (fst p)))))
      (fun _ => bind get (fun p => on_fst (on_snd (opt_move_assign st (snd p))))))).
Definition do_step (s : step) : M (list nat) unit :=
  match s with
  | NewNone => another (opt_none st)
  | NewValue s => from_origin s (fun c => another (opt_some st c))
  | NewCopy j => looking_at j (fun q => another (opt_copy st q))
  | NewMove j => looking_at j (fun q => another (opt_move st q))
  | End i => bind (one_of i (opt_destruct st)) (fun _ => bind get (fun os => put (remove_at i os)))
  | Emplace i s => from_origin s (fun c => one_of i (opt_emplace st c))
  | AssignNone i => one_of i (opt_assign_none st)
  | AssignValue i s => from_origin s (fun c => one_of i (opt_assign st c))
  | CopyAssign i j => looking_at j (fun q => one_of i (opt_copy_assign st q))
  | MoveAssign i j => looking_at j (fun q => one_of i (opt_move_assign st q))
  | Swap i j => two_of i j swap
  end.
(** Each optional is asked whether it has a value. *)
Fixpoint ask_all (i n : nat) : M (list nat) (list bool) :=
  match n with
  | 0 => ret []
  | S n => bind (one_of i (opt_bool st)) (fun b => bind (ask_all (S i) n) (fun l => ret (b :: l)))
  end.
Definition have_values : M (list nat) (list bool) := bind get (fun os => ask_all 0 (length os)).
Fixpoint program (ss : list step) : M (list nat) unit :=
  match ss with
  | [] => ret tt
  | s :: ss =>
      bind have_values (fun l => if possible s l then bind (attempt (do_step s)) (fun _ => program ss) else program ss)
  end.

Definition full (x : option B) : bool := match x with Some _ => true | None => false end.
(** What the optionals can be after the program. *)
Inductive accounts : list step -> list (option B) -> list (option B) -> Prop :=
| accounts_nil ls : accounts [] ls ls
| accounts_returns s ss ls ls' : possible s (map full ls) = true -> accounts ss (then_ s ls) ls' -> accounts (s :: ss) ls ls'
| accounts_throws s ss ls ls1 ls' :
    possible s (map full ls) = true -> or_else s ls ls1 -> accounts ss ls1 ls' -> accounts (s :: ss) ls ls'
| accounts_skips s ss ls ls' : possible s (map full ls) = false -> accounts ss ls ls' -> accounts (s :: ss) ls ls'.
(** What they are when nothing throws. *)
Fixpoint plainly (ss : list step) (ls : list (option B)) : list (option B) :=
  match ss with
  | [] => ls
  | s :: ss => plainly ss (if possible s (map full ls) then then_ s ls else ls)
  end.

Definition optionals : list nat -> list (option B) -> memory -> world (rep B) -> Prop := several is_optional_p_in.

(** A program from its start, with all its optionals destroyed at the end. *)
Definition whole (ss : list step) : M unit unit :=
  fun x w => match program ss [] w with
             | Ret os _ w => match program (repeat (End 0) (length os)) os w with
                             | Ret _ _ w => Ret x tt w
                             | Exc _ w => Exc x w
                             | Bad f => Bad f
                             end
             | Exc _ w => Exc x w
             | Bad f => Bad f
             end.
End Programs.
