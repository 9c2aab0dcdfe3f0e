(** * Programs that use any number of sbo_vectors

    A program creates, uses and destroys sbo_vectors in any order, checks the preconditions by the
    sizes alone, and catches every exception. Nothing here is used by the model. *)

From Coq Require Import List Arith Bool.
From Verif Require Import Mem Vec SpecVec SpecHistory Sbo SpecSbo.
Import ListNotations.

Section Programs.
Context {V : Type} (moved : V -> V).

(** Vectors are numbered in the order of the list; a new one comes last, and the ones after a destroyed
    one move up by one. *)
Inductive step : Type :=
| New                                  (* sbo_vector a; *)
| NewFrom (vs : list V)                (* sbo_vector a(range); *)
| NewCopy (j : nat)                    (* sbo_vector a(v_j); *)
| NewMove (j : nat)                    (* sbo_vector a(std::move(v_j)); *)
| End (i : nat)                        (* the end of the scope of v_i *)
| Use (i : nat) (c : call (V := V))    (* a call with values that are not elements, SpecHistory.v *)
| PushElement (i j k : nat)            (* push_back(v_i, v_j[k]), i = j allowed *)
| AppendAll (i j : nat)                (* append(v_i, v_j), i = j allowed *)
| InsertAll (i position j : nat)       (* insert(v_i, begin(v_i) + position, v_j), i <> j *)
| CopyAssign (i j : nat)               (* v_i = v_j, i <> j *)
| MoveAssign (i j : nat)               (* v_i = std::move(v_j), i <> j *)
| Swap (i j : nat).                    (* std::swap(v_i, v_j), i <> j *)

Definition of (i : nat) (ls : list (list V)) : list V := nth i ls [].
Definition put_at (i : nat) (l : list V) (ls : list (list V)) : list (list V) := firstn i ls ++ [l] ++ skipn (S i) ls.

(** The elements of all the vectors afterwards, when the step returns. *)
Definition then_ (s : step) (ls : list (list V)) : list (list V) :=
  match s with
  | New => ls ++ [[]]
  | NewFrom vs => ls ++ [vs]
  | NewCopy j => ls ++ [of j ls]
  | NewMove j => put_at j [] ls ++ [of j ls]
  | End i => firstn i ls ++ skipn (S i) ls
  | Use i c => put_at i (after c (of i ls)) ls
  | PushElement i j k => put_at i (of i ls ++ firstn 1 (skipn k (of j ls))) ls
  | AppendAll i j => put_at i (of i ls ++ of j ls) ls
  | InsertAll i p j => put_at i (firstn p (of i ls) ++ of j ls ++ skipn p (of i ls)) ls
  | CopyAssign i j => put_at i (of j ls) ls
  | MoveAssign i j => put_at j [] (put_at i (of j ls) ls)
  | Swap i j => put_at j (of i ls) (put_at i (of j ls) ls)
  end.
(** When it leaves by an exception: no vector changed, except that erase_if and the assignments may have
    overwritten some elements of the vector they work on. The others never throw. *)
Definition or_else (s : step) (ls ls' : list (list V)) : Prop :=
  match s with
  | New | NewMove _ | End _ | MoveAssign _ _ | Swap _ _ => False
  | NewFrom _ | NewCopy _ | PushElement _ _ _ | AppendAll _ _ | InsertAll _ _ _ => ls' = ls
  | Use i c => exists l, interrupted c (of i ls) l /\ ls' = put_at i l ls
  | CopyAssign i j => exists n, n <= length (of i ls) /\ n <= length (of j ls) /\
                                ls' = put_at i (firstn n (of j ls) ++ skipn n (of i ls)) ls
  end.

Section Small.
Context (small max : nat).
Notation C := (sbo_vector (V := V) moved small max).

(** The precondition, given the sizes of the vectors. *)
Definition possible (s : step) (sizes : list nat) : bool :=
  let exists_ i := i <? length sizes in
  let size i := nth i sizes 0 in
  let both i j := exists_ i && exists_ j && negb (i =? j) in
  match s with
  | New => true
  | NewFrom vs => length vs <=? max
  | NewCopy j | NewMove j | End j => exists_ j
  | Use i c => exists_ i && may_call max c (size i)
  | PushElement i j k => exists_ i && exists_ j && (k <? size j) && (2 * size i <=? max)
  | AppendAll i j => exists_ i && exists_ j
  | InsertAll i p j => both i j && (p <=? size i) && (negb (size j =? 0) || (p =? size i))
  | CopyAssign i j | MoveAssign i j | Swap i j => both i j
  end.

(** A call on one object or on two different ones among several. *)
Definition among {A} (i : nat) (m : M V sbo A) : M V (list sbo) A :=
  fun os w => match nth_error os i with
              | None => Bad Broken
              | Some o => match m o w with
                          | Ret o a w => Ret (set_nth os i o) a w
                          | Exc o w => Exc (set_nth os i o) w
                          | Bad f => Bad f
                          end
              end.
Definition among_two {A} (i j : nat) (m : M V (sbo * sbo) A) : M V (list sbo) A :=
  fun os w => match nth_error os i, nth_error os j with
              | Some o, Some t => match m (o, t) w with
                                  | Ret p a w => Ret (set_nth (set_nth os i (fst p)) j (snd p)) a w
                                  | Exc p w => Exc (set_nth (set_nth os i (fst p)) j (snd p)) w
                                  | Bad f => Bad f
                                  end
              | _, _ => Bad Broken
              end.
Definition born (m : M V unit sbo) : M V (list sbo) unit :=
  bind (on_unit m) (fun o => bind get (fun os => put (os ++ [o]))).
Definition look {A} (j : nat) (k : sbo -> M V (list sbo) A) : M V (list sbo) A :=
  bind get (fun os => match nth_error os j with Some o => k o | None => bad Broken end).
(** The elements of [o], read one after the other. *)
Definition elements_of (o : sbo) : list (maker V) := map (CopyOf (sb_data o)) (seq 0 (sb_size o)).

Definition do_call (c : call) : M V sbo unit :=
  match c with
  | PushBack v => push_back moved C (Supply v)
  | PopBack => pop_back C
  | Clear => clear C
  | Erase first last => bind (erase moved C first last) (fun _ => ret tt)
  | EraseIf p => bind (erase_if moved C p) (fun _ => ret tt)
  | Append vs => append moved C (Source (map Supply vs) true)
  | Insert i vs => bind (insert moved C i (map Supply vs)) (fun _ => ret tt)
  | Resize n v => resize moved C n (Supply v)
  | Reserve n => sb_reserve moved small max n
  | ShrinkToFit => shrink_to_fit moved C small
  | Assign vs => assign moved C false false (Source (map Supply vs) true)
  end.
Definition do_step (s : step) : M V (list sbo) unit :=
  match s with
  | New => born (sb_default small)
  | NewFrom vs => born (sb_from moved small max (Source (map Supply vs) true))
  | NewCopy j => look j (fun o => born (sb_copy moved small max o))
  | NewMove j => bind (among j (sb_move moved small)) (fun o => bind get (fun os => put (os ++ [o])))
  | End i => bind (among i (sb_destroy small)) (fun _ => bind get (fun os => put (firstn i os ++ skipn (S i) os)))
  | Use i c => among i (do_call c)
  | PushElement i j k => look j (fun o => among i (push_back moved C (CopyOf (sb_data o) k)))
  | AppendAll i j => look j (fun o => among i (append moved C (Source (elements_of o) true)))
  | InsertAll i p j => look j (fun o => bind (among i (insert moved C p (elements_of o))) (fun _ => ret tt))
  | CopyAssign i j => look j (fun o => among i (sb_copy_assign moved small max false o))
  | MoveAssign i j => among_two i j (sb_move_assign moved small)
  | Swap i j => among_two i j (sb_swap moved small)
  end.
Fixpoint program (ss : list step) : M V (list sbo) unit :=
  match ss with
  | [] => ret tt
  | s :: ss =>
      bind get (fun os =>
      bind (if possible s (map sb_size os) then catch (do_step s) else ret tt) (fun _ =>
      program ss))
  end.

(** What the elements of the vectors can be after the program. *)
Inductive accounts : list step -> list (list V) -> list (list V) -> Prop :=
| accounts_nil ls : accounts [] ls ls
| accounts_returns s ss ls ls' :
    possible s (map (@length V) ls) = true -> accounts ss (then_ s ls) ls' -> accounts (s :: ss) ls ls'
| accounts_throws s ss ls ls1 ls' :
    possible s (map (@length V) ls) = true -> or_else s ls ls1 -> accounts ss ls1 ls' -> accounts (s :: ss) ls ls'
| accounts_skips s ss ls ls' :
    possible s (map (@length V) ls) = false -> accounts ss ls ls' -> accounts (s :: ss) ls ls'.
(** What they are when nothing throws. *)
Fixpoint plainly (ss : list step) (ls : list (list V)) : list (list V) :=
  match ss with
  | [] => ls
  | s :: ss => plainly ss (if possible s (map (@length V) ls) then then_ s ls else ls)
  end.
(** The lists along the way. *)
Fixpoint passing (ss : list step) (ls : list (list V)) : list (list V) :=
  match ss with
  | [] => ls
  | s :: ss => ls ++ passing ss (if possible s (map (@length V) ls) then then_ s ls else ls)
  end.

(** The objects [os] are different sbo_vectors with the elements [ls], and the rest of the memory is
    [others]. *)
Fixpoint are_in (os : list sbo) (ls : list (list V)) (others m : memory (V := V)) : Prop :=
  match os, ls with
  | [], [] => same m others
  | o :: os, l :: ls => exists rest, is_sbo_in small max o l rest m /\ are_in os ls others rest
  | _, _ => False
  end.
Definition are_sbos (os : list sbo) (ls : list (list V)) (others : memory) (w : world V) : Prop :=
  are_in os ls others (heap w) /\ unused_names w.

(** A program from its start, with all its vectors destroyed at the end. *)
Definition whole (ss : list step) : M V unit unit :=
  fun x w => match program ss [] w with
             | Ret os _ w => match program (repeat (End 0) (length os)) os w with
                             | Ret _ _ w => Ret x tt w
                             | Exc _ w => Exc x w
                             | Bad f => Bad f
                             end
             | Exc _ w => Exc x w
             | Bad f => Bad f
             end.
End Small.
End Programs.
