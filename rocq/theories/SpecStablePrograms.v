(** * Programs that use any number of stable_vectors

    The steps, what they do to the elements, and what a program knows are those of SpecVecPrograms.v; the preconditions are others,
    because a stable_vector never gets more storage than it was made with. Nothing here is used by the model. *)

From Coq Require Import List Arith Bool.
From Verif Require Import Mem Vec SpecVec SpecHistory SpecSeveral SpecVecPrograms.
From Verif Require SpecStaticPrograms.
Import ListNotations.

Section Programs.
Context {V : Type} (moved : V -> V) (capacity : nat).

(** stable_vector.cpp 18-32: a stable_vector has a bounded_vector whose smallest and largest capacity are the same as its private base,
    with the constructors, the assignments, swap, data, size, operator[], capacity and set_size of it. *)
Definition do_step (s : step) : M V (list bvector) unit := SpecVecPrograms.do_step moved capacity capacity s.

(** The precondition of a step, given the sizes and which vectors were moved from. The preconditions of calls are those of a
    static_vector. *)
Definition possible (s : step (V := V)) (sizes : list nat) (gone : list bool) : bool :=
  let exists_ i := i <? length sizes in
  let usable i := exists_ i && negb (nth i gone true) in
  let size i := nth i sizes 0 in
  match s with
  | New => true
  | NewFrom vs => length vs <=? capacity
  | NewCopy j | NewMove j | End j => exists_ j
  | Use i c => usable i && SpecStaticPrograms.may_call capacity c (size i)
  | PushElement i j k => usable i && exists_ j && (k <? size j)
  | AppendAll i j => usable i && exists_ j && (size i + size j <=? capacity)
  | InsertAll i p j => usable i && exists_ j && negb (i =? j) && (p <=? size i) && (negb (size j =? 0) || (p =? size i))
  | CopyAssign i j | Swap i j => exists_ i && exists_ j && negb (i =? j)
  | MoveAssign i j => exists_ i && exists_ j
  end.
Fixpoint program (ss : list step) (gone : list bool) : M V (list bvector) unit :=
  match ss with
  | [] => ret tt
  | s :: ss =>
      bind get (fun os =>
      if possible s (map b_size os) gone
      then bind (attempt (do_step s)) (fun returned => program ss (if returned then gone_after s gone else gone))
      else program ss gone)
  end.

(** What the vectors can be after the program. *)
Inductive accounts : list step -> list (state (V := V)) -> list state -> Prop :=
| accounts_nil ls : accounts [] ls ls
| accounts_returns s ss ls ls' :
    possible s (sizes_of ls) (gone_of ls) = true -> accounts ss (then_ s ls) ls' -> accounts (s :: ss) ls ls'
| accounts_throws s ss ls ls1 ls' :
    possible s (sizes_of ls) (gone_of ls) = true -> or_else s ls ls1 -> accounts ss ls1 ls' -> accounts (s :: ss) ls ls'
| accounts_skips s ss ls ls' :
    possible s (sizes_of ls) (gone_of ls) = false -> accounts ss ls ls' -> accounts (s :: ss) ls ls'.
(** What they are when nothing throws except for lack of room: such a step changes nothing. *)
Definition fits (ls : list (state (V := V))) : bool :=
  forallb (fun l => match l with Some l => length l <=? capacity | None => true end) ls.
Fixpoint plainly (ss : list step) (ls : list (state (V := V))) : list state :=
  match ss with
  | [] => ls
  | s :: ss => plainly ss (if possible s (sizes_of ls) (gone_of ls) && fits (then_ s ls) then then_ s ls else ls)
  end.

Definition vectors : list bvector -> list (state (V := V)) -> memory -> world V -> Prop := SpecVecPrograms.vectors capacity capacity.

(** Where the elements of each vector are ([data()]), after a step that returned. A new vector is somewhere; a vector that had no storage
    because it was moved from gets some by a copy assignment. Everything else stays where it is or is handed over. *)
Definition places (s : step (V := V)) (ps ps' : list ptr) : Prop :=
  match s with
  | New | NewFrom _ | NewCopy _ => exists p, ps' = ps ++ [p]
  | NewMove j => ps' = replace_at j None ps ++ [nth j ps None]
  | End i => ps' = remove_at i ps
  | Use _ _ | PushElement _ _ _ | AppendAll _ _ | InsertAll _ _ _ => ps' = ps
  | CopyAssign i j => match nth i ps None with Some _ => ps' = ps | None => exists p, ps' = replace_at i p ps end
  | MoveAssign i j => ps' = replace_at j None (replace_at i (nth j ps None) ps)
  | Swap i j => ps' = replace_at j (nth i ps None) (replace_at i (nth j ps None) ps)
  end.
(** After one that was left by an exception. *)
Definition places_else (s : step (V := V)) (ps ps' : list ptr) : Prop :=
  match s with
  | CopyAssign i j => match nth i ps None with Some _ => ps' = ps | None => exists p, ps' = replace_at i p ps end
  | _ => ps' = ps
  end.

(** The steps that call a member or an algorithm that adds or removes elements of a vector. *)
Definition in_place (s : step (V := V)) : Prop :=
  match s with Use _ _ | PushElement _ _ _ | AppendAll _ _ | InsertAll _ _ _ => True | _ => False end.

(** A program from its start, with all its vectors destroyed at the end. *)
Definition whole (ss : list step) : M V unit unit :=
  fun x w => match program ss [] [] w with
             | Ret os _ w => match program (repeat (End 0) (length os)) (map (fun _ => true) os) os w with
                             | Ret _ _ w => Ret x tt w
                             | Exc _ w => Exc x w
                             | Bad f => Bad f
                             end
             | Exc _ w => Exc x w
             | Bad f => Bad f
             end.
End Programs.
