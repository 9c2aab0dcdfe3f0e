(** * Programs that use any number of static_vectors

    A program creates, uses and destroys static_vectors in any order, checks the preconditions by the sizes alone, and catches every
    exception. Nothing here is used by the model. *)

From Coq Require Import List Arith Bool.
From Verif Require Import Mem Vec SpecVec SpecHistory SpecSeveral.
Import ListNotations.

Section Programs.
Context {V : Type} (moved : V -> V) (capacity : nat).
Notation C := (static_vector (V := V) capacity).

(** They are numbered in the order of the list; a new one comes last, and the ones after a destroyed one move up by one. *)
Inductive step : Type :=
| New                                  (* static_vector a; *)
| NewFrom (vs : list V)                (* static_vector a(range); *)
| NewCopy (j : nat)                    (* static_vector a(v_j); *)
| NewMove (j : nat)                    (* static_vector a(std::move(v_j)); *)
| End (i : nat)                        (* the end of the scope of v_i *)
| Use (i : nat) (c : call (V := V))    (* a call with values that are not elements, SpecHistory.v *)
| PushElement (i j k : nat)            (* push_back(v_i, v_j[k]), i = j allowed *)
| AppendAll (i j : nat)                (* append(v_i, v_j), i = j allowed *)
| InsertAll (i position j : nat)       (* insert(v_i, begin(v_i) + position, v_j), i <> j *)
| CopyAssign (i j : nat)               (* v_i = v_j, i = j allowed *)
| MoveAssign (i j : nat)               (* v_i = std::move(v_j), i <> j *)
| Swap (i j : nat).                    (* swap(v_i, v_j), i = j allowed *)

Definition elements (i : nat) (ls : list (list V)) : list V := nth i ls [].

(** The elements afterwards, when the step returns. The elements of a vector that was moved from by a constructor are gone; when it was assigned
    from, they are still there, moved from. In both cases it may be used like any other. *)
Definition then_ (s : step) (ls : list (list V)) : list (list V) :=
  match s with
  | New => ls ++ [[]]
  | NewFrom vs => ls ++ [vs]
  | NewCopy j => ls ++ [elements j ls]
  | NewMove j => replace_at j [] ls ++ [elements j ls]
  | End i => remove_at i ls
  | Use i c => replace_at i (after c (elements i ls)) ls
  | PushElement i j k => replace_at i (elements i ls ++ firstn 1 (skipn k (elements j ls))) ls
  | AppendAll i j => replace_at i (elements i ls ++ elements j ls) ls
  | InsertAll i p j => replace_at i (firstn p (elements i ls) ++ elements j ls ++ skipn p (elements i ls)) ls
  | CopyAssign i j => replace_at i (elements j ls) ls
  | MoveAssign i j => replace_at j (map moved (elements j ls)) (replace_at i (elements j ls) ls)
  | Swap i j => replace_at j (elements i ls) (replace_at i (elements j ls) ls)
  end.
(** When it leaves by an exception: no vector changed, except that erase_if and the assignments may have
    overwritten some elements of the vector they work on. The others never throw. *)
Definition or_else (s : step) (ls ls' : list (list V)) : Prop :=
  match s with
  | New | NewMove _ | End _ | MoveAssign _ _ | Swap _ _ => False
  | NewFrom _ | NewCopy _ | PushElement _ _ _ | AppendAll _ _ | InsertAll _ _ _ => ls' = ls
  | Use i c => exists l, interrupted c (elements i ls) l /\ ls' = replace_at i l ls
  | CopyAssign i j => i <> j /\ exists n, n <= length (elements i ls) /\ n <= length (elements j ls) /\
                                          ls' = replace_at i (firstn n (elements j ls) ++ skipn n (elements i ls)) ls
  end.

(** The precondition of a call, for a vector of [n] elements. push_back and insert throw when there is no room; append, resize
    and assign do not look at the room that is left (C36_append_refuted), so that the elements must fit, or not even an
    empty vector has room for those that are appended. There is no reserve and no shrink_to_fit. *)
Definition may_call (c : call (V := V)) (n : nat) : bool :=
  match c with
  | PushBack _ | Clear | EraseIf _ => true
  | PopBack => 1 <=? n
  | Erase first last => (first <=? last) && (last <=? n)
  | Append vs => (n + length vs <=? capacity) || (capacity <? length vs)
  | Insert i vs => (i <=? n) && (negb (length vs =? 0) || (i =? n))
  | Resize k _ => k <=? capacity
  | Assign vs => length vs <=? capacity
  | Reserve _ | ShrinkToFit => false
  end.
Definition perform (c : call) : M V svector unit :=
  match c with
  | PushBack v => push_back moved C (Supply v)
  | PopBack => pop_back C
  | Clear => clear C
  | Erase first last => bind (erase moved C first last) (fun _ => ret tt)
  | EraseIf p => bind (erase_if moved C p) (fun _ => ret tt)
  | Append vs => append moved C (Source (map Supply vs) true)
  | Insert i vs => bind (insert moved C i (map Supply vs)) (fun _ => ret tt)
  | Resize n v => resize moved C n (Supply v)
  | Assign vs => assign moved C false false (Source (map Supply vs) true)
  | Reserve _ | ShrinkToFit => ret tt
  end.

(** The precondition of a step, given the sizes. *)
Definition possible (s : step) (sizes : list nat) : bool :=
  let exists_ i := i <? length sizes in
  let size i := nth i sizes 0 in
  match s with
  | New | NewFrom _ => true
  | NewCopy j | NewMove j | End j => exists_ j
  | Use i c => exists_ i && may_call c (size i)
  | PushElement i j k => exists_ i && exists_ j && (k <? size j)
  | AppendAll i j => exists_ i && exists_ j && (size i + size j <=? capacity)
  | InsertAll i p j => exists_ i && exists_ j && negb (i =? j) && (p <=? size i) && (negb (size j =? 0) || (p =? size i))
  | CopyAssign i j | Swap i j => exists_ i && exists_ j
  | MoveAssign i j => exists_ i && exists_ j && negb (i =? j)
  end.

(** The elements of [o], read one after the other. *)
Definition elements_of (o : svector) : list (maker V) := map (CopyOf (sv_data o)) (seq 0 (v_size o)).
(** Copy assignment and swap compare the addresses first (static_vector.cpp 94-96, 123-125), so that nothing happens for one object. *)
Definition do_step (s : step) : M V (list svector) unit :=
  match s with
  | New => another (sv_default capacity)
  | NewFrom vs => another (sv_from moved capacity false (Source (map Supply vs) true))
  | NewCopy j => looking_at j (fun o => another (sv_copy moved capacity o))
  | NewMove j => bind (one_of j (sv_move moved capacity)) (fun o => bind get (fun os => put (os ++ [o])))
  | End i => bind (one_of i (sv_destroy capacity)) (fun _ => bind get (fun os => put (remove_at i os)))
  | Use i c => one_of i (perform c)
  | PushElement i j k => looking_at j (fun o => one_of i (push_back moved C (CopyOf (sv_data o) k)))
  | AppendAll i j => looking_at j (fun o => one_of i (append moved C (Source (elements_of o) true)))
  | InsertAll i p j => looking_at j (fun o => bind (one_of i (insert moved C p (elements_of o))) (fun _ => ret tt))
  | CopyAssign i j => if i =? j then ret tt else looking_at j (fun o => one_of i (sv_copy_assign moved capacity false o))
  | MoveAssign i j => looking_at j (fun o => one_of i (sv_move_assign moved capacity o))
  | Swap i j => if i =? j then ret tt else two_of i j (sv_swap moved)
  end.
Fixpoint program (ss : list step) : M V (list svector) unit :=
  match ss with
  | [] => ret tt
  | s :: ss =>
      bind get (fun os =>
      if possible s (map v_size os)
      then bind (attempt (do_step s)) (fun _ => program ss)
      else program ss)
  end.

Definition sizes_of (ls : list (list V)) : list nat := map (@length V) ls.
(** What the vectors can be after the program. *)
Inductive accounts : list step -> list (list V) -> list (list V) -> Prop :=
| accounts_nil ls : accounts [] ls ls
| accounts_returns s ss ls ls' :
    possible s (sizes_of ls) = true -> accounts ss (then_ s ls) ls' -> accounts (s :: ss) ls ls'
| accounts_throws s ss ls ls1 ls' :
    possible s (sizes_of ls) = true -> or_else s ls ls1 -> accounts ss ls1 ls' -> accounts (s :: ss) ls ls'
| accounts_skips s ss ls ls' :
    possible s (sizes_of ls) = false -> accounts ss ls ls' -> accounts (s :: ss) ls ls'.
(** What they are when nothing throws except for lack of room: such a step changes nothing. *)
Definition fits (ls : list (list V)) : bool := forallb (fun l => length l <=? capacity) ls.
Fixpoint plainly (ss : list step) (ls : list (list V)) : list (list V) :=
  match ss with
  | [] => ls
  | s :: ss => plainly ss (if possible s (sizes_of ls) && fits (then_ s ls) then then_ s ls else ls)
  end.

Definition vectors : list svector -> list (list V) -> memory -> world V -> Prop := several (is_static_vector_in capacity).

(** A program from its start, with all its vectors destroyed at the end. *)
Definition whole (ss : list step) : M V unit unit :=
  fun x w => match program ss [] w with
             | Ret os _ w => match program (repeat (End 0) (length os)) os w with
                             | Ret _ _ w => Ret x tt w
                             | Exc _ w => Exc x w
                             | Bad f => Bad f
                             end
             | Exc _ w => Exc x w
             | Bad f => Bad f
             end.
End Programs.
