(** * Programs that use any number of vectors

    A program creates, uses and destroys vectors in any order, checks the preconditions by the sizes and by what it has moved
    from, and catches every exception. Nothing here is used by the model. *)

From Coq Require Import List Arith Bool.
From Verif Require Import Mem Vec SpecVec SpecHistory SpecSeveral.
Import ListNotations.

Section Programs.
Context {V : Type} (moved : V -> V).

(** Vectors are numbered in the order of the list; a new one comes last, and the ones after a destroyed
    one move up by one. *)
Inductive step : Type :=
| New                                  (* vector a; *)
| NewFrom (vs : list V)                (* vector a(range); *)
| NewCopy (j : nat)                    (* vector a(v_j); *)
| NewMove (j : nat)                    (* vector a(std::move(v_j)); *)
| End (i : nat)                        (* the end of the scope of v_i *)
| Use (i : nat) (c : call (V := V))    (* a call with values that are not elements, SpecHistory.v *)
| PushElement (i j k : nat)            (* push_back(v_i, v_j[k]), i = j allowed *)
| AppendAll (i j : nat)                (* append(v_i, v_j), i = j allowed *)
| InsertAll (i position j : nat)       (* insert(v_i, begin(v_i) + position, v_j), i <> j *)
| CopyAssign (i j : nat)               (* v_i = v_j, i <> j *)
| MoveAssign (i j : nat)               (* v_i = std::move(v_j), i = j allowed *)
| Swap (i j : nat).                    (* std::swap(v_i, v_j), i <> j *)

(** What a program knows of a vector: its elements, or that it was moved from ([None]). A vector that was moved from has no
    elements. It may be destroyed, assigned to, moved from again, swapped and read, and nothing else. *)
Definition state : Type := option (list V).
Definition at_index (i : nat) (ls : list state) : state := nth i ls None.
Definition elements (i : nat) (ls : list state) : list V := match at_index i ls with Some l => l | None => [] end.

(** The vectors afterwards, when the step returns. *)
Definition then_ (s : step) (ls : list state) : list state :=
  match s with
  | New => ls ++ [Some []]
  | NewFrom vs => ls ++ [Some vs]
  | NewCopy j => ls ++ [Some (elements j ls)]
  | NewMove j => replace_at j None ls ++ [at_index j ls]
  | End i => remove_at i ls
  | Use i c => replace_at i (Some (after c (elements i ls))) ls
  | PushElement i j k => replace_at i (Some (elements i ls ++ firstn 1 (skipn k (elements j ls)))) ls
  | AppendAll i j => replace_at i (Some (elements i ls ++ elements j ls)) ls
  | InsertAll i p j => replace_at i (Some (firstn p (elements i ls) ++ elements j ls ++ skipn p (elements i ls))) ls
  | CopyAssign i j => replace_at i (Some (elements j ls)) ls
  | MoveAssign i j => replace_at j None (replace_at i (at_index j ls) ls)
  | Swap i j => replace_at j (at_index i ls) (replace_at i (at_index j ls) ls)
  end.
(** When it leaves by an exception: no vector changed, except that erase_if and the assignments may have
    overwritten some elements of the vector they work on. The others never throw. *)
Definition or_else (s : step) (ls ls' : list state) : Prop :=
  match s with
  | NewMove _ | End _ | MoveAssign _ _ | Swap _ _ => False
  | New | NewFrom _ | NewCopy _ | PushElement _ _ _ | AppendAll _ _ | InsertAll _ _ _ => ls' = ls
  | Use i c => exists l, interrupted c (elements i ls) l /\ ls' = replace_at i (Some l) ls
  | CopyAssign i j =>
      match at_index i ls with
      | None => ls' = ls
      | Some l => exists n, n <= length l /\ n <= length (elements j ls) /\
                            ls' = replace_at i (Some (firstn n (elements j ls) ++ skipn n l)) ls
      end
  end.

Section Vector.
Context (minc maxc : nat).
Notation C := (bounded_vector (V := V) moved minc maxc).

(** The precondition, given the sizes of the vectors and which of them were moved from. *)
Definition possible (s : step) (sizes : list nat) (gone : list bool) : bool :=
  let exists_ i := i <? length sizes in
  let usable i := exists_ i && negb (nth i gone true) in
  let size i := nth i sizes 0 in
  match s with
  | New => true
  | NewFrom vs => length vs <=? maxc
  | NewCopy j | NewMove j | End j => exists_ j
  | Use i c => usable i && may_call maxc c (size i)
  | PushElement i j k => usable i && exists_ j && (k <? size j) && (2 * size i <=? maxc)
  | AppendAll i j => usable i && exists_ j
  | InsertAll i p j => usable i && exists_ j && negb (i =? j) && (p <=? size i) && (negb (size j =? 0) || (p =? size i))
  | CopyAssign i j | Swap i j => exists_ i && exists_ j && negb (i =? j)
  | MoveAssign i j => exists_ i && exists_ j
  end.
(** Which were moved from, after the step returned. *)
Definition gone_after (s : step) (gone : list bool) : list bool :=
  match s with
  | New | NewFrom _ | NewCopy _ => gone ++ [false]
  | NewMove j => replace_at j true gone ++ [nth j gone true]
  | End i => remove_at i gone
  | Use _ _ | PushElement _ _ _ | AppendAll _ _ | InsertAll _ _ _ => gone
  | CopyAssign i j => replace_at i false gone
  | MoveAssign i j => replace_at j true (replace_at i (nth j gone true) gone)
  | Swap i j => replace_at j (nth i gone true) (replace_at i (nth j gone true) gone)
  end.

(** The elements of [o], read one after the other. *)
Definition elements_of (o : bvector) : list (maker V) := map (CopyOf (bv_data o)) (seq 0 (b_size o)).
Definition do_step (s : step) : M V (list bvector) unit :=
  match s with
  | New => another (bv_default minc)
  | NewFrom vs => another (bv_from moved minc maxc false (Source (map Supply vs) true))
  | NewCopy j => looking_at j (fun o => another (bv_copy moved minc maxc o))
  | NewMove j => looking_at j (fun o => bind get (fun os => put (replace_at j (snd (bv_move o)) os ++ [fst (bv_move o)])))
  | End i => bind (one_of i bv_destroy) (fun _ => bind get (fun os => put (remove_at i os)))
  | Use i c => one_of i (perform moved minc maxc c)
  | PushElement i j k => looking_at j (fun o => one_of i (push_back moved C (CopyOf (bv_data o) k)))
  | AppendAll i j => looking_at j (fun o => one_of i (append moved C (Source (elements_of o) true)))
  | InsertAll i p j => looking_at j (fun o => bind (one_of i (insert moved C p (elements_of o))) (fun _ => ret tt))
  | CopyAssign i j => looking_at j (fun o => one_of i (bv_copy_assign moved minc maxc false o))
  | MoveAssign i j => if i =? j then one_of i bv_self_move_assign else two_of i j bv_move_assign
  | Swap i j => two_of i j bv_swap
  end.
(** The program: [gone] is its own record of the vectors it moved from. *)
Fixpoint program (ss : list step) (gone : list bool) : M V (list bvector) unit :=
  match ss with
  | [] => ret tt
  | s :: ss =>
      bind get (fun os =>
      if possible s (map b_size os) gone
      then bind (attempt (do_step s)) (fun returned => program ss (if returned then gone_after s gone else gone))
      else program ss gone)
  end.

Definition sizes_of (ls : list state) : list nat := map (fun l => match l with Some l => length l | None => 0 end) ls.
Definition gone_of (ls : list state) : list bool := map (fun l => match l with Some _ => false | None => true end) ls.
(** What the vectors can be after the program. *)
Inductive accounts : list step -> list state -> list state -> Prop :=
| accounts_nil ls : accounts [] ls ls
| accounts_returns s ss ls ls' :
    possible s (sizes_of ls) (gone_of ls) = true -> accounts ss (then_ s ls) ls' -> accounts (s :: ss) ls ls'
| accounts_throws s ss ls ls1 ls' :
    possible s (sizes_of ls) (gone_of ls) = true -> or_else s ls ls1 -> accounts ss ls1 ls' -> accounts (s :: ss) ls ls'
| accounts_skips s ss ls ls' :
    possible s (sizes_of ls) (gone_of ls) = false -> accounts ss ls ls' -> accounts (s :: ss) ls ls'.
(** What they are when nothing throws. *)
Fixpoint plainly (ss : list step) (ls : list state) : list state :=
  match ss with
  | [] => ls
  | s :: ss => plainly ss (if possible s (sizes_of ls) (gone_of ls) then then_ s ls else ls)
  end.
(** The states along the way. *)
Fixpoint passing (ss : list step) (ls : list state) : list state :=
  match ss with
  | [] => ls
  | s :: ss => ls ++ passing ss (if possible s (sizes_of ls) (gone_of ls) then then_ s ls else ls)
  end.

(** A vector with the elements [l]. One that was moved from has no storage, or it has storage and no elements since an
    assignment to it was left by an exception. *)
Definition vector_in (o : bvector) (l : state) (others m : memory (V := V)) : Prop :=
  match l with
  | Some l => is_vector_in minc maxc o l others m
  | None => moved_from o /\ same m others \/ is_vector_in minc maxc o [] others m
  end.
Definition vectors : list bvector -> list state -> memory -> world V -> Prop := several vector_in.

(** A program from its start, with all its vectors destroyed at the end. *)
Definition whole (ss : list step) : M V unit unit :=
  fun x w => match program ss [] [] w with
             | Ret os _ w => match program (repeat (End 0) (length os)) (map (fun _ => true) os) os w with
                             | Ret _ _ w => Ret x tt w
                             | Exc _ w => Exc x w
                             | Bad f => Bad f
                             end
             | Exc _ w => Exc x w
             | Bad f => Bad f
             end.
End Vector.
End Programs.
