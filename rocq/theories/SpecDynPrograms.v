(** * Programs that use any number of dynamic_arrays

    A program creates, uses and destroys arrays in any order, checks the preconditions by the sizes and by what it has moved
    from, and catches every exception. Nothing here is used by the model. *)

From Coq Require Import List Arith Bool.
From Verif Require Import Mem Vec SpecVec SpecSeveral DynArray SpecDyn.
Import ListNotations.

Section Programs.
Context {V : Type} (moved : V -> V).

(** Arrays are numbered in the order of the list; a new one comes last, and the ones after a destroyed one move up by one. *)
Inductive step : Type :=
| New                                  (* dynamic_array a; *)
| NewFrom (vs : list V)                (* dynamic_array a(range); *)
| NewCopy (j : nat)                    (* dynamic_array a(a_j); *)
| NewMove (j : nat)                    (* dynamic_array a(std::move(a_j)); *)
| End (i : nat)                        (* the end of the scope of a_i *)
| Assign (i : nat) (vs : list V)       (* a_i.assign(range) *)
| Write (i k : nat) (v : V)            (* a_i[k] = value *)
| WriteElement (i k j n : nat)         (* a_i[k] = a_j[n], the same array or element allowed *)
| Clear (i : nat)                      (* a_i.clear() *)
| CopyAssign (i j : nat)               (* a_i = a_j, i = j allowed *)
| MoveAssign (i j : nat)               (* a_i = std::move(a_j), i = j allowed *)
| Swap (i j : nat).                    (* std::swap(a_i, a_j), i <> j *)

(** What a program knows of an array: its elements, or that it was moved from ([None]). *)
Definition state : Type := option (list V).
Definition at_index (i : nat) (ls : list state) : state := nth i ls None.
Definition elements (i : nat) (ls : list state) : list V := match at_index i ls with Some l => l | None => [] end.

(** The arrays afterwards, when the step returns. *)
Definition then_ (s : step) (ls : list state) : list state :=
  match s with
  | New => ls ++ [Some []]
  | NewFrom vs => ls ++ [Some vs]
  | NewCopy j => ls ++ [Some (elements j ls)]
  | NewMove j => replace_at j None ls ++ [at_index j ls]
  | End i => remove_at i ls
  | Assign i vs => replace_at i (Some vs) ls
  | Write i k v => replace_at i (Some (replace_at k v (elements i ls))) ls
  | WriteElement i k j n =>
      replace_at i (Some (firstn k (elements i ls) ++ firstn 1 (skipn n (elements j ls)) ++ skipn (S k) (elements i ls))) ls
  | Clear i => replace_at i (Some []) ls
  | CopyAssign i j => replace_at i (Some (elements j ls)) ls
  | MoveAssign i j => replace_at j None (replace_at i (at_index j ls) ls)
  | Swap i j => replace_at j (at_index i ls) (replace_at i (at_index j ls) ls)
  end.

Section Array.
Context (min max : nat).

(** An assignment of [vs] to the array [i] that is left by an exception. An array of the same size has some of the first elements
    replaced. One of another size has lost its elements, unless its type cannot be empty: then it is unchanged. *)
Definition assignment_fails (i : nat) (vs : list V) (ls ls' : list state) : Prop :=
  match at_index i ls with
  | None => ls' = ls
  | Some l =>
      if length vs =? length l
      then exists n, n <= length vs /\ ls' = replace_at i (Some (firstn n vs ++ skipn n l)) ls
      else ls' = if min =? 0 then replace_at i (Some []) ls else ls
  end.
(** When the step leaves by an exception. *)
Definition or_else (s : step) (ls ls' : list state) : Prop :=
  match s with
  | NewFrom _ | NewCopy _ | Write _ _ _ | WriteElement _ _ _ _ => ls' = ls
  | Assign i vs => assignment_fails i vs ls ls'
  | CopyAssign i j => i <> j /\ assignment_fails i (elements j ls) ls ls'
  | New | NewMove _ | End _ | Clear _ | MoveAssign _ _ | Swap _ _ => False
  end.

(** The precondition, given the sizes of the arrays and which of them were moved from. *)
Definition possible (s : step) (sizes : list nat) (gone : list bool) : bool :=
  let exists_ i := i <? length sizes in
  let usable i := exists_ i && negb (nth i gone true) in
  let size i := nth i sizes 0 in
  match s with
  | New => min =? 0
  | NewFrom _ => true
  | NewCopy j => usable j
  | NewMove j | End j => exists_ j
  | Assign i _ => exists_ i
  | Write i k _ => usable i && (k <? size i)
  | WriteElement i k j n => usable i && (k <? size i) && usable j && (n <? size j)
  | Clear i => exists_ i && (min =? 0)
  | CopyAssign i j => exists_ i && usable j
  | Swap i j => exists_ i && exists_ j && negb (i =? j)
  | MoveAssign i j => exists_ i && exists_ j
  end.
(** A range whose size the type of the size does not have is refused with an exception. *)
Definition fits (s : step) : bool :=
  match s with
  | NewFrom vs | Assign _ vs => (min <=? length vs) && (length vs <=? max)
  | _ => true
  end.
Definition refused (s : step) (ls : list state) : list state :=
  match s with
  | Assign i _ => match at_index i ls with
                  | Some _ => if min =? 0 then replace_at i (Some []) ls else ls
                  | None => ls
                  end
  | _ => ls
  end.
(** Which were moved from: after the step returned, and after it was left by an exception. *)
Definition gone_after (s : step) (gone : list bool) : list bool :=
  match s with
  | New | NewFrom _ | NewCopy _ => gone ++ [false]
  | NewMove j => replace_at j true gone ++ [nth j gone true]
  | End i => remove_at i gone
  | Write _ _ _ | WriteElement _ _ _ _ => gone
  | Assign i _ | Clear i | CopyAssign i _ => replace_at i false gone
  | MoveAssign i j => replace_at j true (replace_at i (nth j gone true) gone)
  | Swap i j => replace_at j (nth i gone true) (replace_at i (nth j gone true) gone)
  end.

(** data() ? size() : 0 *)
Definition size_now (o : storage) : nat := match u_pointer o with Some _ => u_size o | None => 0 end.
Definition do_step (s : step) : M V (list storage) unit :=
  match s with
  | New => another (ret da_default)
  | NewFrom vs => another (da_from moved min max (map Supply vs))
  | NewCopy j => looking_at j (fun o => another (da_copy moved min max o))
  | NewMove j => looking_at j (fun o => bind get (fun os => put (replace_at j (snd (da_move o)) os ++ [fst (da_move o)])))
  | End i => bind (one_of i da_destroy) (fun _ => bind get (fun os => put (remove_at i os)))
  | Assign i vs => one_of i (da_assign moved min max (map Supply vs))
  | Write i k v => one_of i (bind get (fun o => assign_at moved (da_data o) k (Supply v)))
  | WriteElement i k j n => looking_at j (fun t => one_of i (bind get (fun o => assign_at moved (da_data o) k (CopyOf (da_data t) n))))
  | Clear i => one_of i da_clear
  | CopyAssign i j => if i =? j then ret tt else looking_at j (fun o => one_of i (da_copy_assign moved min max o))
  | MoveAssign i j => if i =? j then one_of i da_self_move_assign else two_of i j da_move_assign
  | Swap i j => two_of i j da_swap
  end.
(** The program: [gone] is its own record of the arrays it moved from. *)
Fixpoint program (ss : list step) (gone : list bool) : M V (list storage) unit :=
  match ss with
  | [] => ret tt
  | s :: ss =>
      bind get (fun os =>
      if possible s (map size_now os) gone
      then bind (attempt (do_step s)) (fun returned => program ss (if returned then gone_after s gone else gone))
      else program ss gone)
  end.

Definition sizes_of (ls : list state) : list nat := map (fun l => match l with Some l => length l | None => 0 end) ls.
Definition gone_of (ls : list state) : list bool := map (fun l => match l with Some _ => false | None => true end) ls.
(** What the arrays can be after the program. *)
Inductive accounts : list step -> list state -> list state -> Prop :=
| accounts_nil ls : accounts [] ls ls
| accounts_returns s ss ls ls' :
    possible s (sizes_of ls) (gone_of ls) = true -> fits s = true -> accounts ss (then_ s ls) ls' -> accounts (s :: ss) ls ls'
| accounts_throws s ss ls ls1 ls' :
    possible s (sizes_of ls) (gone_of ls) = true -> or_else s ls ls1 -> accounts ss ls1 ls' -> accounts (s :: ss) ls ls'
| accounts_skips s ss ls ls' :
    possible s (sizes_of ls) (gone_of ls) = false -> accounts ss ls ls' -> accounts (s :: ss) ls ls'.
(** What they are when neither an element nor the allocator throws. *)
Fixpoint plainly (ss : list step) (ls : list state) : list state :=
  match ss with
  | [] => ls
  | s :: ss => plainly ss (if possible s (sizes_of ls) (gone_of ls) then if fits s then then_ s ls else refused s ls else ls)
  end.

(** An array with the elements [l], or what a move leaves. *)
Definition array_in (o : storage) (l : state) (others m : memory (V := V)) : Prop :=
  match l with
  | Some l => is_array_in min max o l others m
  | None => gone o /\ same m others
  end.
Definition arrays : list storage -> list state -> memory -> world V -> Prop := several array_in.

(** A program from its start, with all its arrays destroyed at the end. *)
Definition whole (ss : list step) : M V unit unit :=
  fun x w => match program ss [] [] w with
             | Ret os _ w => match program (repeat (End 0) (length os)) (map (fun _ => true) os) os w with
                             | Ret _ _ w => Ret x tt w
                             | Exc _ w => Exc x w
                             | Bad f => Bad f
                             end
             | Exc _ w => Exc x w
             | Bad f => Bad f
             end.
End Array.
End Programs.
